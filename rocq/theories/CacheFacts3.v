(** Runs of whole programs on [HashedPartialTrie]: alone, and by several threads. *)
From Verif Require Import Base Nibbles Trie TrieFacts Rlp Hashing Subset SubsetFacts Cache CacheSpec CacheFacts CacheFacts2.
Open Scope N_scope.

Lemma exec_bind {A B} (p : prog A) (f : A -> prog B) : forall s n,
  exec (pbind p f) s n = match exec p s n with Ok (a, s', n') => exec (f a) s' n' | Panic => Panic end.
Proof. induction p as [a| |c k IH|c o p IH|k IH]; intros s n; cbn [pbind exec]; auto. Qed.

(** ** One handle at a time *)
Lemma exec_write_last {A B} (p : prog A) c (f : A -> B) s n r s' n' :
  exec (pbind (pbind p (fun a => Write c None (Ret a))) (fun a => Ret (f a))) s n = Ok (r, s', n') -> s' c = None.
Proof.
  rewrite !exec_bind. destruct (exec p s n) as [[[a s1] n1]|]; [|discriminate]. cbn [exec]. intros E. injection E as _ <- _.
  unfold update. rewrite N.eqb_refl. reflexivity.
Qed.

Section Run.
Variable keccak : list N -> list N.
Variable pr : profile.
Notation rh := (right_hash keccak pr).
Notation hashed_of := (hashed_of keccak pr).

Lemma target_clears o i hs t s n r s' n' : target o = Some i -> nth_error hs i = Some t ->
  exec (hstep keccak pr hs o) s n = Ok (r, s', n') -> s' (cell t) = None.
Proof.
  intros T Et E. destruct o; try discriminate; injection T as ->; cbn [hstep] in E; unfold the in E; rewrite Et in E; cbn [lift pbind] in E.
  - exact (exec_write_last _ _ (fun t' => (replace hs i t', Done)) _ _ _ _ _ E).
  - exact (exec_write_last _ _ (fun t' => (replace hs i t', Done)) _ _ _ _ _ E).
  - unfold hdelete in E. rewrite !exec_bind in E. destruct (exec (htrie_delete pr t k) s n) as [[[[t' d] s1] n1]|]; [|discriminate].
    cbn [exec] in E. injection E as _ <- _. unfold update. rewrite N.eqb_refl. reflexivity.
Qed.

Lemma kids_gset b V c g t : snd (V c) = true -> kids rh b V t -> kids rh b (gset V c g) t.
Proof.
  intros S. apply Forall_impl. intros u [B R]. split; [exact B|]. unfold right_hash in *. rewrite gset_other; [exact R|].
  intros E. subst c. rewrite R in S. discriminate.
Qed.

Lemma hstep_ok K hs o ts' x b V s :
  inv keccak pr K None b V hs -> keeps b V s -> legal K (length hs) o -> vstep keccak pr (map erase hs) o = Ok (ts', x) ->
  exists hs' s' b' V', exec (hstep keccak pr hs o) s b = Ok ((hs', x), s', b') /\ map erase hs' = ts' /\
    inv keccak pr K None b' V' hs' /\ keeps b' V' s'.
Proof.
  intros I Kp L E. pose proof (wp_hstep keccak pr K hs o ts' x b V I L E) as W.
  destruct (exec_wp _ _ _ _ _ W Kp) as ([hs' x'] & s' & b' & V' & Ex & X & Kp' & (R & Rx & I' & Cs)). cbn [fst snd] in *. subst x'.
  destruct (target o) as [i|] eqn:T; [|exists hs', s', b', V'; auto].
  assert (Hn : exists t, nth_error hs i = Some t).
  { destruct o; try discriminate; injection T as ->; cbn [vstep] in E;
      destruct (the (map erase hs) i) as [y|] eqn:Ey; try discriminate; destruct (the_map _ _ _ Ey) as (t & Et & _); eauto. }
  destruct Hn as [t Et]. specialize (Cs ltac:(discriminate)).
  assert (Et' : exists t', nth_error hs' i = Some t' /\ cell t' = cell t).
  { assert (M : nth_error (map cell hs') i = Some (cell t)) by (rewrite Cs, nth_error_map, Et; reflexivity).
    rewrite nth_error_map in M. destruct (nth_error hs' i) as [t'|]; [|discriminate]. injection M as M. eauto. }
  destruct Et' as (t' & Et' & Ct').
  pose proof (target_clears o i hs t s b _ _ _ T Et Ex) as Cl.
  assert (NV : K i <> View) by (destruct o; try discriminate; injection T as ->; exact L).
  destruct (inv_slot _ _ _ _ _ _ _ I' i t' Et') as (_ & Bt' & [y Sy]%slot_ex).
  destruct (K i) eqn:Ki; [| |contradiction].
  - exists hs', s', b', V'. split; [exact Ex|]. split; [exact R|]. split; [|exact Kp']. destruct I' as [J1 J2]. split; [|exact J2].
    intros j u Eu. destruct (J1 j u Eu) as (A & B & S). repeat split; auto. unfold slot in *.
    destruct (Nat.eqb_spec j i) as [->|]; [|exact S]. destruct S as [z S]. unfold mark_of in *. rewrite Ki in *. exact S.
  - exists hs', s', b', (gset V' (cell t') (mark_of keccak pr K (erase t') i)).
    assert (Sn : snd (V' (cell t')) = true) by (rewrite Sy; unfold mark_of; rewrite Ki; reflexivity).
    split; [exact Ex|]. split; [exact R|]. split.
    + destruct I' as [J1 J2]. split; [|exact J2]. intros j u Eu. destruct (J1 j u Eu) as (A & B & S).
      split; [apply kids_gset; assumption|]. split; [exact B|]. unfold slot in *.
      destruct (Nat.eqb_spec j i) as [->|Ne].
      * assert (u = t') by congruence. subst u. apply gset_same.
      * rewrite gset_other; [exact S|]. intros C. apply (J2 i j t' u Et' Eu Ki); congruence.
    + intros c. specialize (Kp' c). destruct (N.eqb_spec c (cell t')) as [->|Ne].
      * destruct (N.ltb_spec (cell t') b'); [|lia]. left. rewrite Ct'. exact Cl.
      * destruct (c <? b'); [|exact Kp']. unfold allowed in *. rewrite gset_other by exact Ne. exact Kp'.
Qed.

Lemma hrun_ok K os : forall hs ts' xs b V s,
  inv keccak pr K None b V hs -> keeps b V s -> respects keccak pr K (map erase hs) os ->
  vrun keccak pr (map erase hs) os = Ok (ts', xs) ->
  exists hs' s' b' V', exec (hrun keccak pr hs os) s b = Ok ((hs', xs), s', b') /\ map erase hs' = ts' /\
    inv keccak pr K None b' V' hs' /\ keeps b' V' s'.
Proof.
  induction os as [|o os IH]; intros hs ts' xs b V s I Kp R E; cbn [vrun hrun respects] in *.
  - injection E as <- <-. exists hs, s, b, V. auto.
  - okbind E. destruct a as [ts1 x]. okbind E. destruct a as [ts2 xs']. injection E as <- <-.
    destruct R as [L R]. rewrite map_length in L.
    destruct (hstep_ok K hs o ts1 x b V s I Kp L E0) as (hs1 & s1 & b1 & V1 & Ex & <- & I1 & Kp1).
    destruct (IH hs1 ts2 xs' b1 V1 s1 I1 Kp1 R E1) as (hs2 & s2 & b2 & V2 & Ex2 & <- & I2 & Kp2).
    exists hs2, s2, b2, V2. split; [|auto]. rewrite exec_bind, Ex, exec_bind, Ex2. reflexivity.
Qed.

Definition no_ghost : ghost := fun _ => (None, true).
Lemma inv_nil K : inv keccak pr K None 0 no_ghost [].
Proof. split; intros [|i]; intros; discriminate. Qed.
Lemma keeps_nil : keeps 0 no_ghost (fun _ => None).
Proof. intros c. destruct (c <? 0); [left|]; reflexivity. Qed.

Lemma start_ok K os ts xs : respects keccak pr K [] os -> vrun keccak pr [] os = Ok (ts, xs) ->
  exists hs, start keccak pr os = Ok (hs, xs) /\ map erase hs = ts.
Proof.
  intros R E. destruct (hrun_ok K os [] ts xs 0 no_ghost (fun _ => None) (inv_nil K) keeps_nil R E) as (hs & s & b & V & Ex & M & _).
  exists hs. unfold start. rewrite Ex. auto.
Qed.

Lemma tame_legal n o : tame o -> legal (fun _ => Plain) n o.
Proof.
  destruct o; cbn [tame legal]; intros H; try (repeat split; (discriminate || contradiction || reflexivity));
    try (intros; contradiction). intros i Hi. rewrite H in Hi. destruct Hi.
Qed.
Lemma uncloned_legal n o : uncloned o -> legal (fun _ => Single) n o.
Proof. destruct o; cbn [uncloned legal]; intros H; try contradiction; try (repeat split; intros; discriminate).
  intros i Hi. rewrite H in Hi. destruct Hi.
Qed.
Lemma respects_all K (P : op -> Prop) os : (forall n o, P o -> legal K n o) -> Forall P os -> forall ts, respects keccak pr K ts os.
Proof.
  intros H F. induction F as [|o os Ho F IH]; intros ts; cbn [respects]; [exact I|]. split; [auto|].
  destruct (vstep keccak pr ts o) as [[ts' x]|]; auto.
Qed.

(** ** Threads *)
Lemma nth_replace_eq {A} (l : list A) : forall i x, (i < length l)%nat -> nth_error (replace l i x) i = Some x.
Proof. induction l as [|y l IH]; intros [|i] x H; cbn [length replace nth_error] in *; try lia; auto. apply IH. lia. Qed.
Lemma nth_replace_ne {A} (l : list A) : forall i j x, i <> j -> nth_error (replace l i x) j = nth_error l j.
Proof. induction l as [|y l IH]; intros [|i] [|j] x H; cbn [replace nth_error]; try reflexivity; [contradiction|]. apply IH. congruence. Qed.

Lemma tstep_wp {A} (p : prog A) b V s (Q : A -> N -> ghost -> Prop) : wp p b V Q -> keeps b V s ->
  exists V', ext b V (snd (tstep p s b)) V' /\ keeps (snd (tstep p s b)) V' (snd (fst (tstep p s b))) /\
             wp (fst (fst (tstep p s b))) (snd (tstep p s b)) V' Q.
Proof.
  intros W K. destruct p as [a| |c k|c o p|k]; cbn [tstep fst snd wp] in *.
  - exists V. split; [apply ext_refl|auto].
  - destruct W.
  - exists V. split; [apply ext_refl|]. split; [exact K|]. apply W. eapply keeps_read; [exact K|apply W].
  - exists V. split; [apply ext_refl|]. destruct W as (B & Al & W). split; [apply keeps_write; auto|exact W].
  - destruct (W b V (ext_refl b V)) as [x W']. exists (gset V b x). split; [apply ext_alloc|]. split; [apply keeps_alloc, K|exact W'].
Qed.

Definition pool_ok {A} (Qs : nat -> A -> Prop) (w : pool A) : Prop :=
  exists V, keeps (next_cell w) V (cells w) /\
    forall j p, nth_error (threads w) j = Some p -> wp p (next_cell w) V (fun a _ _ => Qs j a).

Lemma sched_step_ok {A} (Qs : nat -> A -> Prop) w j : pool_ok Qs w -> pool_ok Qs (sched_step w j).
Proof.
  intros (V & K & W). unfold sched_step. destruct (nth_error (threads w) j) as [p|] eqn:Ej; [|exists V; auto].
  destruct (tstep_wp p _ V _ _ (W j p Ej) K) as (V' & X & K' & W').
  destruct (tstep p (cells w) (next_cell w)) as [[p' s'] n'] eqn:Et. cbn [fst snd] in *.
  exists V'. cbn [next_cell cells threads]. split; [exact K'|]. intros i q Eq.
  destruct (nth_replace _ _ _ _ _ Eq) as [[<- ->]|[Ne Eq']]; [exact W'|].
  eapply wp_mono; [|exact X|apply W, Eq']. intros a b1 V1 b2 V2 _ H. exact H.
Qed.
Lemma sched_run_ok {A} (Qs : nat -> A -> Prop) js : forall w, pool_ok Qs w -> pool_ok Qs (sched_run w js).
Proof. induction js as [|j js IH]; intros w H; cbn [sched_run fold_left]; [exact H|]. apply IH, sched_step_ok, H. Qed.

Lemma replace_length {A} (l : list A) : forall i x, length (replace l i x) = length l.
Proof. induction l as [|y l IH]; intros [|i] x; cbn [replace length]; auto. Qed.
Lemma sched_run_length {A} js : forall w : pool A, length (threads (sched_run w js)) = length (threads w).
Proof.
  induction js as [|j js IH]; intros w; cbn [sched_run fold_left]; [reflexivity|]. unfold sched_run in IH. rewrite IH.
  unfold sched_step. destruct (nth_error (threads w) j) as [p|]; [|reflexivity]. destruct (tstep p _ _) as [[p' s'] n'].
  cbn [threads]. apply replace_length.
Qed.

Lemma wp_hrun os : forall hs ts' xs b V,
  inv keccak pr (fun _ => Plain) None b V hs -> Forall tame os -> vrun keccak pr (map erase hs) os = Ok (ts', xs) ->
  wp (hrun keccak pr hs os) b V (fun r _ _ => map erase (fst r) = ts' /\ snd r = xs).
Proof.
  induction os as [|o os IH]; intros hs ts' xs b V I T E; cbn [vrun hrun] in *.
  - injection E as <- <-. cbn [wp fst snd]. auto.
  - okbind E. destruct a as [ts1 x]. okbind E. destruct a as [ts2 xs']. injection E as <- <-. inversion T; subst.
    apply wp_bind. eapply wp_conseq; [apply (wp_hstep keccak pr (fun _ => Plain)); [exact I|apply tame_legal; assumption|eassumption]|].
    intros [hs1 x1] b1 V1 X1 (R1 & Rx & I1 & _). cbn [fst snd] in *. subst ts1 x1. apply wp_bind.
    eapply wp_conseq; [eapply IH; [|assumption|eassumption]|].
    + destruct I1 as [J1 J2]. split; [|exact J2]. intros i t Et. destruct (J1 i t Et) as (A & B & S). repeat split; auto.
      unfold slot in *. destruct (match target o with Some j => Nat.eqb i j | None => false end); [|exact S].
      destruct S as [y S]. exact S.
    + intros [hs2 xs2] b2 V2 X2 [R2 Rx2]. cbn [fst snd wp] in *. subst. auto.
Qed.

Lemma tame_state os ts xs : Forall tame os -> vrun keccak pr [] os = Ok (ts, xs) ->
  exists hs s n V, exec (hrun keccak pr [] os) (fun _ => None) 0 = Ok ((hs, xs), s, n) /\ map erase hs = ts /\
    inv keccak pr (fun _ => Plain) None n V hs /\ keeps n V s.
Proof.
  intros T E. apply (hrun_ok (fun _ => Plain) os [] ts xs 0 no_ghost (fun _ => None) (inv_nil _) keeps_nil); [|exact E].
  apply (respects_all _ tame); [apply tame_legal|exact T].
Qed.

(** Handles that were cloned from the handles [hs]. *)
Lemma inv_clones b V hs hs' : inv keccak pr (fun _ => Plain) None b V hs -> incl hs' hs -> inv keccak pr (fun _ => Plain) None b V hs'.
Proof.
  intros [I1 I2] H. split; [|intros; discriminate]. intros i t E. apply nth_error_In in E. apply H in E.
  apply In_nth_error in E. destruct E as [j E]. apply (I1 j t E).
Qed.

(** A thread that is scheduled again and again comes to its end. *)
Lemma states_S {A} (w : pool A) sched m : states w sched (S m) = sched_step (states w sched m) (sched m).
Proof. unfold states, sched_run. rewrite seq_S, map_app, fold_left_app. reflexivity. Qed.

Lemma thread_kept {A} (w : pool A) sched j p m : forall d, (forall i, (m <= i < m + d)%nat -> sched i <> j) ->
  nth_error (threads (states w sched m)) j = Some p -> nth_error (threads (states w sched (m + d))) j = Some p.
Proof.
  induction d as [|d IH]; intros H E; [rewrite Nat.add_0_r; exact E|]. rewrite Nat.add_succ_r, states_S. unfold sched_step.
  assert (E' : nth_error (threads (states w sched (m + d))) j = Some p) by (apply IH; [intros i Hi; apply H; lia|exact E]).
  destruct (nth_error (threads (states w sched (m + d))) (sched (m + d)%nat)) as [q|]; [|exact E'].
  destruct (tstep q _ _) as [[q' s'] n']. cbn [threads]. rewrite nth_replace_ne; [exact E'|]. apply H. lia.
Qed.
Lemma next_turn sched (j m : nat) : (exists m', (m <= m')%nat /\ sched m' = j) ->
  exists d, sched (m + d)%nat = j /\ forall i, (m <= i < m + d)%nat -> sched i <> j.
Proof.
  intros (m' & Le & E). assert (G : forall d, sched (m + d)%nat = j -> exists d, sched (m + d)%nat = j /\ forall i, (m <= i < m + d)%nat -> sched i <> j).
  { intros d. induction d as [d IH] using lt_wf_ind. intros Ed.
    destruct (Exists_dec (fun i => sched i = j) (seq m d)) as [Y|Nn]; [intros x; apply Nat.eq_dec| |].
    - apply Exists_exists in Y. destruct Y as (i & Hi & Ei). apply in_seq in Hi. apply (IH (i - m)%nat); [lia|].
      replace (m + (i - m))%nat with i by lia. exact Ei.
    - exists d. split; [exact Ed|]. intros i Hi Ei. apply Nn, Exists_exists. exists i. split; [apply in_seq; lia|exact Ei]. }
  apply (G (m' - m)%nat). replace (m + (m' - m))%nat with m' by lia. exact E.
Qed.
Lemma thread_finishes {A} (w : pool A) sched j (p : prog A) : (forall m, exists m', (m <= m')%nat /\ sched m' = j) ->
  forall m, nth_error (threads (states w sched m)) j = Some p ->
  exists m' q, (m <= m')%nat /\ nth_error (threads (states w sched m')) j = Some q /\ finished q.
Proof.
  intros Fair. induction p as [a| |c k IH|c o p IH|k IH]; intros m E;
    try (exists m; eexists; split; [lia|]; split; [exact E|exact I]);
    destruct (next_turn sched j m (Fair m)) as (d & Ed & Nd); pose proof (thread_kept w sched j _ m d Nd E) as E';
    assert (E2 := states_S w sched (m + d)); unfold sched_step in E2; rewrite Ed, E' in E2; cbn [tstep] in E2;
    assert (Lt : (j < length (threads (states w sched (m + d))))%nat) by (apply nth_error_Some; rewrite E'; discriminate).
  - destruct (IH (cells (states w sched (m + d)) c) (S (m + d))) as (m' & q & Hm & Hq & Fq); [|exists m', q; repeat split; auto; lia].
    rewrite E2. cbn [threads]. apply nth_replace_eq, Lt.
  - destruct (IH (S (m + d))) as (m' & q & Hm & Hq & Fq); [|exists m', q; repeat split; auto; lia].
    rewrite E2. cbn [threads]. apply nth_replace_eq, Lt.
  - destruct (IH (next_cell (states w sched (m + d))) (S (m + d))) as (m' & q & Hm & Hq & Fq); [|exists m', q; repeat split; auto; lia].
    rewrite E2. cbn [threads]. apply nth_replace_eq, Lt.
Qed.

(** ** Handles that are not written keep their contents *)
Lemma nth_app_some {A} (l l' : list A) j x : nth_error l j = Some x -> nth_error (l ++ l') j = Some x.
Proof. intros E. rewrite nth_error_app1; [exact E|]. apply nth_error_Some. rewrite E. discriminate. Qed.

Lemma frame_step hs o s n hs' x s' n' j t :
  exec (hstep keccak pr hs o) s n = Ok ((hs', x), s', n') -> nth_error hs j = Some t -> written o <> Some j -> nth_error hs' j = Some t.
Proof.
  intros E Ej W.
  destruct o as [l|i k v|i l|i k|i k|i|i i'|i|i path|i i'|i ks|i kss|i|i i'|p]; cbn [hstep written] in *;
    repeat (rewrite exec_bind in E;
      match type of E with match ?e with _ => _ end = _ => destruct e as [[[? ?] ?]|]; [|discriminate E] end);
    repeat match type of E with context [let (_, _) := ?p in _] => destruct p end;
    cbn [exec] in E; try (injection E as <- <- <- <-);
    try (first [exact Ej | apply nth_app_some, Ej | rewrite nth_replace_ne; [exact Ej|congruence]]).
  - destruct r as [u|e]; injection E as <- _; [apply nth_app_some|]; exact Ej.
  - destruct r as [u|e]; injection E as <- _; [apply nth_app_some|]; exact Ej.
Qed.

Lemma frame_run os : forall hs s n hs' xs s' n' j t,
  exec (hrun keccak pr hs os) s n = Ok ((hs', xs), s', n') -> nth_error hs j = Some t ->
  Forall (fun o => written o <> Some j) os -> nth_error hs' j = Some t.
Proof.
  induction os as [|o os IH]; intros hs s n hs' xs s' n' j t E Ej W; cbn [hrun] in E.
  - injection E as <- _ _ _. exact Ej.
  - inversion W; subst. rewrite exec_bind in E. destruct (exec (hstep keccak pr hs o) s n) as [[[[hs1 x1] s1] n1]|] eqn:E1; [|discriminate].
    rewrite exec_bind in E. destruct (exec (hrun keccak pr hs1 os) s1 n1) as [[[[hs2 xs2] s2] n2]|] eqn:E2; [|discriminate].
    injection E as <- _ _ _. eapply IH; [exact E2|eapply frame_step; eauto|assumption].
Qed.
End Run.
