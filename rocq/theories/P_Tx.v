(** Property C91: transactions. *)
From Coq Require Import Permutation.
From Verif Require Import Base Nibbles NibblesSpec NibblesFacts NibblesFacts2 NibblesFacts3 Trie TrieSpec TrieHistSpec TrieFacts TrieInsert TrieGet TrieDelete TrieUnique TrieIter TrieHist TrieObs OrderSpec Rlp YellowPaper Hashing Keccak HashSpec HashFacts KeccakFacts HideSpec HideFacts Cache CacheSpec CacheFacts2 P_Cache P_Trie P_Hash ItemsFacts Subset SubsetSpec ReplaySpec ReplayFacts P_Subset P_Refresh FreeSpec FreeFacts P_Free TrieHistSpec RollSpec P_Roll CommuteSpec P_Commute NetSpec P_Net P_Log TxSpec.
Open Scope N_scope.

Lemma reaches U t o : free_trie U t -> get_long_key U o -> get_reaches t o.
Proof. intros Fu Go. destruct o as [| | |k]; try exact Logic.I. intros Q. destruct (short_longer U t _ Fu Q) as (j & Uj & Lj). specialize (Go j Uj). lia. Qed.

Section T.
Variable U : list N -> Prop.
Hypothesis PF : prefix_free U.

(** Two tries with the same hash nodes that agree at the keys in [P]. *)
Definition agree (P : list N -> Prop) (t s : node) : Prop :=
  free_trie U t /\ free_trie U s /\ same_hashes t s /\ forall j, P j -> lk t j = lk s j.

Lemma same_sq t s t1 s1 : same_hashes t s -> same_hashes t t1 -> same_hashes s s1 -> same_hashes t1 s1.
Proof. intros A B C p h. rewrite (C p h), (A p h). symmetry. apply B. Qed.

Lemma agree_op P pr t s o t1 x : agree P t s -> op_in U o -> get_long_key U o -> (forall k, In k (asked o) -> P (nseq k)) -> trie_op pr t o = Ok (t1, x) ->
  exists s1, trie_op pr s o = Ok (s1, x) /\ agree P t1 s1.
Proof.
  intros (Ft & Fs & Sm & A) O G K E.
  assert (Q : exists s1 y, trie_op pr s o = Ok (s1, y)).
  { destruct (trie_op pr s o) as [[s1 y]|] eqn:Es; [eauto|]. exfalso. destruct (proj1 (op_panics U PF pr s o Fs O G) Es) as (k & I & H).
    assert (X : trie_op pr t o = Panic) by (apply (op_panics U PF pr t o Ft O G); exists k; split; [exact I|]; apply (same_hop t s _ Sm), H). congruence. }
  destruct Q as (s1 & y & Es).
  assert (X : y = x).
  { assert (D : forall k, In k (asked o) -> op_on [k] o -> kwf k /\ U (nseq k) -> y = x).
    { intros k I On (Hk & Uk). assert (L : flike U [k] t s).
      { split; [exact Ft|]. split; [exact Fs|]. intros j [<-|[]]. split; [apply same_hop, Sm|]. intros _. apply A, K, I. }
      destruct (flike_op U PF [k] ltac:(constructor; [exact Hk|constructor]) ltac:(intros j [<-|[]]; exact Uk) pr t s o t1 x L On
        (reaches U t o Ft G) (reaches U s o Fs G) E) as (s' & Es' & _). congruence. }
    destruct o as [k v|l|k|k]; cbn [trie_op asked op_in op_on] in *.
    - destruct (trie_insert pr t k (Val v)); [|discriminate]. destruct (trie_insert pr s k (Val v)); [|discriminate]. cbn [bind] in *. congruence.
    - destruct (trie_extend pr t _); [|discriminate]. destruct (trie_extend pr s _); [|discriminate]. cbn [bind] in *. congruence.
    - apply (D k); [left; reflexivity|left; reflexivity|exact O].
    - apply (D k); [left; reflexivity|left; reflexivity|exact O]. }
  subst y. exists s1. split; [exact Es|].
  destruct (op_new U PF pr t o t1 x Ft O E) as [F1 N1]. destruct (op_new U PF pr s o s1 x Fs O Es) as [F1' N1'].
  destruct (kept_op U PF pr t o t1 x Ft O E) as [_ (S1 & _)]. destruct (kept_op U PF pr s o s1 x Fs O Es) as [_ (S1' & _)].
  split; [exact F1|]. split; [exact F1'|]. split; [exact (same_sq t s t1 s1 Sm S1 S1')|].
  intros j Pj. rewrite N1, N1'. unfold new. destruct (last_change (changes_of o) j) as [[v|]|]; [reflexivity|reflexivity|apply A, Pj].
Qed.

Lemma agree_tx P pr p : forall t s t1 l, agree P t s -> tx_in U p -> tx_run pr t p = Ok (t1, l) -> (forall k, In k (flat_map asked (map fst l)) -> P (nseq k)) ->
  exists s1, tx_run pr s p = Ok (s1, l) /\ agree P t1 s1.
Proof.
  induction p as [|o next IH]; intros t s t1 l A I E K; cbn [tx_run tx_in] in *.
  - injection E as <- <-. eauto.
  - destruct I as (O & G & I). destruct (trie_op pr t o) as [[t2 x]|] eqn:E1; [|discriminate]. cbn [bind] in E.
    destruct (tx_run pr t2 (next x)) as [[t3 l']|] eqn:E2; [|discriminate]. cbn [bind] in E. injection E as <- <-. cbn [map fst flat_map] in K.
    destruct (agree_op P pr t s o t2 x A O G ltac:(intros k Ik; apply K, in_or_app; auto) E1) as (s2 & Es & A2). rewrite Es. cbn [bind].
    destruct (IH x t2 s2 t3 l' A2 (I x) E2 ltac:(intros k Ik; apply K, in_or_app; auto)) as (s3 & Es3 & A3). rewrite Es3. cbn [bind]. eauto.
Qed.

Lemma tx_ops pr p : forall t t1 l, tx_in U p -> tx_run pr t p = Ok (t1, l) ->
  trie_ops pr t (map fst l) = Ok (t1, map snd l) /\ Forall (op_in U) (map fst l) /\ Forall (get_long_key U) (map fst l).
Proof.
  induction p as [|o next IH]; intros t t1 l I E; cbn [tx_run tx_in] in *.
  - injection E as <- <-. cbn. auto.
  - destruct I as (O & G & I). destruct (trie_op pr t o) as [[t2 x]|] eqn:E1; [|discriminate]. cbn [bind] in E.
    destruct (tx_run pr t2 (next x)) as [[t3 l']|] eqn:E2; [|discriminate]. cbn [bind] in E. injection E as <- <-.
    destruct (IH x t2 t3 l' (I x) E2) as (A & B & C). cbn [map fst snd trie_ops]. rewrite E1. cbn [bind]. rewrite A. cbn [bind]. auto.
Qed.

Lemma clash_none ks ks' k : clash ks ks' = false -> In k ks -> ~ In (nseq k) (map nseq ks').
Proof.
  intros C I J. apply in_map_iff in J. destruct J as (j & Q & J). assert (X : clash ks ks' = true); [|congruence].
  unfold clash. apply existsb_exists. exists k. split; [exact I|]. apply existsb_exists. exists j. split; [exact J|]. destruct (key_eqb_spec (nseq k) (nseq j)); congruence.
Qed.

(** Every version in the store is the newest one but for the keys changed since. *)
Definition sound (vs : store) : Prop := forall back old ks, nth_error vs back = Some (old, ks) ->
  agree (fun j => ~ In j (map nseq (flat_map snd (firstn back vs)))) old (newest vs).

Lemma sound_start t : free_trie U t -> sound [(t, [])].
Proof.
  intros F back old ks E. destruct back as [|back]; cbn [nth_error] in E; [|destruct back; discriminate]. injection E as <- <-.
  split; [exact F|]. split; [exact F|]. split; [intros p h; reflexivity|reflexivity].
Qed.
Lemma sound_head vs t ks : sound vs -> nth_error vs 0 = Some (t, ks) -> free_trie U (newest vs).
Proof. intros S0 E. apply (S0 0%nat t ks E). Qed.

Lemma sound_push pr vs w t ys v0 : sound vs -> nth_error vs 0 = Some v0 -> Forall (op_in U) w -> trie_ops pr (newest vs) w = Ok (t, ys) -> sound ((t, flat_map touched w) :: vs).
Proof.
  intros H E0 F E back old ks En. destruct v0 as [t0 k0]. pose proof (sound_head vs t0 k0 H E0) as Fn.
  destruct (kept_ops U PF pr w (newest vs) t ys Fn F E) as [Ft (Sm & Lk & _)]. cbn [newest].
  destruct back as [|back]; cbn [nth_error] in En.
  - injection En as <- <-. split; [exact Ft|]. split; [exact Ft|]. split; [intros p h; reflexivity|reflexivity].
  - destruct (H back old ks En) as (Fo & _ & So & Lo). split; [exact Fo|]. split; [exact Ft|]. split; [eapply same_trans; eassumption|].
    intros j N. cbn [firstn flat_map snd] in N. rewrite map_app in N. rewrite (Lo j); [symmetry; apply Lk|]; intros I; apply N, in_or_app; auto.
Qed.

(** One commit. *)
Lemma commit_step pr vs p back vs1 r v0 : sound vs -> nth_error vs 0 = Some v0 -> tx_in U p -> commit pr vs p back = Ok (vs1, r) ->
  sound vs1 /\ (exists v1, nth_error vs1 0 = Some v1) /\
  match r with None => vs1 = vs | Some xs => exists l, tx_run pr (newest vs) p = Ok (newest vs1, l) /\ xs = map snd l end.
Proof.
  intros H E0 I E. unfold commit in E. destruct (nth_error vs back) as [[old ks]|] eqn:En; [|injection E as <- <-; eauto].
  destruct (tx_run pr old p) as [[o1 l]|] eqn:Er; [|discriminate]. cbn [bind] in E.
  destruct (clash _ _) eqn:C; [injection E as <- <-; eauto|]. pose proof (H back old ks En) as A.
  destruct (agree_tx _ pr p old (newest vs) o1 l A I Er (fun k => clash_none _ _ k C)) as (n1 & Ern & _).
  destruct (tx_ops pr p (newest vs) n1 l I Ern) as (Eo & Fo & Go). destruct v0 as [t0 k0]. pose proof (sound_head vs t0 k0 H E0) as Fn.
  destruct (C89_compact pr pr U (newest vs) (map fst l) (compact (map fst l)) PF Fn Fo Go (Permutation_refl _)) as [_ Q]. rewrite Eo in Q. destruct Q as (ys & Ew).
  rewrite Ew in E. cbn [bind] in E. injection E as <- <-.
  destruct (compact_in U (map fst l) _ Fo (Permutation_refl _)) as [Fw _].
  split; [exact (sound_push pr vs _ n1 ys _ H E0 Fw Ew)|]. split; [cbn [nth_error]; eauto|]. exists l. split; [exact Ern|reflexivity].
Qed.

Lemma commits_serial pr cs : forall vs vs1 rs v0, sound vs -> nth_error vs 0 = Some v0 -> Forall (fun c => tx_in U (fst c)) cs -> commits pr vs cs = Ok (vs1, rs) ->
  serial pr (newest vs) (map fst (accepted cs rs)) = Ok (newest vs1, map snd (accepted cs rs)).
Proof.
  induction cs as [|[p back] cs IH]; intros vs vs1 rs v0 H E0 F E; cbn [commits] in E.
  - injection E as <- <-. reflexivity.
  - inversion F as [|? ? Fp Fc]; subst. destruct (commit pr vs p back) as [[vs2 r]|] eqn:E1; [|discriminate]. cbn [bind] in E.
    destruct (commits pr vs2 cs) as [[vs3 rs']|] eqn:E2; [|discriminate]. cbn [bind] in E. injection E as <- <-.
    destruct (commit_step pr vs p back vs2 r v0 H E0 Fp E1) as (H2 & (v2 & E20) & R). specialize (IH vs2 vs3 rs' v2 H2 E20 Fc E2).
    destruct r as [xs|]; cbn [accepted map fst snd]; [|subst vs2; exact IH]. destruct R as (l & El & ->). cbn [serial]. rewrite El. cbn [bind]. rewrite IH. reflexivity.
Qed.

Lemma commits_sound pr cs : forall vs vs1 rs v0, sound vs -> nth_error vs 0 = Some v0 -> Forall (fun c => tx_in U (fst c)) cs -> commits pr vs cs = Ok (vs1, rs) ->
  sound vs1 /\ exists v1, nth_error vs1 0 = Some v1.
Proof.
  induction cs as [|[p back] cs IH]; intros vs vs1 rs v0 H E0 F E; cbn [commits] in E; [injection E as <- <-; eauto|].
  inversion F as [|? ? Fp Fc]; subst. destruct (commit pr vs p back) as [[vs2 r]|] eqn:E1; [|discriminate]. cbn [bind] in E.
  destruct (commits pr vs2 cs) as [[vs3 rs']|] eqn:E2; [|discriminate]. cbn [bind] in E. injection E as <- <-.
  destruct (commit_step pr vs p back vs2 r v0 H E0 Fp E1) as (H2 & (v2 & E20) & _). exact (IH vs2 vs3 rs' v2 H2 E20 Fc E2).
Qed.
Lemma commit_panics pr vs p back : sound vs -> tx_in U p -> (commit pr vs p back = Panic <-> exists old ks, nth_error vs back = Some (old, ks) /\ tx_run pr old p = Panic).
Proof.
  intros H I. unfold commit. destruct (nth_error vs back) as [[old ks]|] eqn:En; [|split; [discriminate|intros (old & ks & Q & _); discriminate]].
  destruct (tx_run pr old p) as [[o1 l]|] eqn:Er; cbn [bind]; [|split; [intros _; eauto|reflexivity]].
  split; [|intros (old' & ks' & Q & R); injection Q as <- <-; congruence]. pose proof (H back old ks En) as A. pose proof A as (_ & Fn & _).
  destruct (clash _ _) eqn:C; [discriminate|].
  destruct (agree_tx _ pr p old (newest vs) o1 l A I Er (fun k => clash_none _ _ k C)) as (n1 & Ern & _). destruct (tx_ops pr p (newest vs) n1 l I Ern) as (Eo & Fo & Go).
  destruct (C89_compact pr pr U (newest vs) (map fst l) (compact (map fst l)) PF Fn Fo Go (Permutation_refl _)) as [_ Q]. rewrite Eo in Q. destruct Q as (ys & Ew). rewrite Ew. discriminate.
Qed.

(** No panics. *)
Lemma clear_op pr t s o : free_trie U s -> same_hashes t s -> op_in U o -> get_long_key U o -> (forall k, In k (touched o) -> ~ hash_on_path t (nseq k)) -> trie_op pr s o <> Panic.
Proof. intros Fs Sm O G K E. destruct (proj1 (op_panics U PF pr s o Fs O G) E) as (k & I & H). apply (K k I), (same_hop t s _ Sm), H. Qed.
Lemma clear_tx pr t p : forall s, free_trie U s -> same_hashes t s -> tx_in U p -> tx_clear t p -> tx_run pr s p <> Panic.
Proof.
  induction p as [|o next IH]; intros s Fs Sm I C; cbn [tx_run tx_in tx_clear] in *; [discriminate|].
  destruct I as (O & G & I). destruct C as (K & C). destruct (trie_op pr s o) as [[s1 x]|] eqn:E; [|exfalso; exact (clear_op pr t s o Fs Sm O G K E)]. cbn [bind].
  destruct (kept_op U PF pr s o s1 x Fs O E) as [F1 (S1 & _)]. pose proof (IH x s1 F1 (same_trans t s s1 Sm S1) (I x) (C x)) as N. destruct (tx_run pr s1 (next x)) as [[? ?]|]; cbn [bind]; congruence.
Qed.

Lemma commits_clear pr t cs : forall vs v0, sound vs -> nth_error vs 0 = Some v0 -> same_hashes t (newest vs) -> Forall (fun c => tx_in U (fst c) /\ tx_clear t (fst c)) cs ->
  commits pr vs cs <> Panic.
Proof.
  induction cs as [|[p back] cs IH]; intros vs v0 H E0 Sm F; cbn [commits]; [discriminate|].
  inversion F as [|? ? (Fp & Cp) Fc]; subst. cbn [fst] in *.
  assert (Q : exists vs1 r, commit pr vs p back = Ok (vs1, r)).
  { unfold commit. destruct (nth_error vs back) as [[old ks]|] eqn:En; [|eauto]. pose proof (H back old ks En) as A. pose proof A as (Fo & Fn & So & _).
    assert (St : same_hashes t old) by (intros q h; rewrite <- (So q h); apply Sm).
    pose proof (clear_tx pr t p old Fo St Fp Cp) as N. destruct (tx_run pr old p) as [[o1 l]|] eqn:Er; [|congruence]. cbn [bind].
    destruct (clash _ _) eqn:C; [eauto|].
    destruct (agree_tx _ pr p old (newest vs) o1 l A Fp Er (fun k => clash_none _ _ k C)) as (n1 & Ern & _). destruct (tx_ops pr p (newest vs) n1 l Fp Ern) as (Eo & Fo' & Go).
    destruct (C89_compact pr pr U (newest vs) (map fst l) (compact (map fst l)) PF Fn Fo' Go (Permutation_refl _)) as [_ Q]. rewrite Eo in Q. destruct Q as (ys & Ew). rewrite Ew. cbn [bind]. eauto. }
  destruct Q as (vs1 & r & E). rewrite E. cbn [bind]. destruct (commit_step pr vs p back vs1 r v0 H E0 Fp E) as (H1 & (v1 & E1) & R).
  assert (S1 : same_hashes t (newest vs1)).
  { destruct r as [xs|]; [|subst vs1; exact Sm]. destruct R as (l & El & _). destruct (tx_ops pr p (newest vs) _ l Fp El) as (Eo & Fo' & _). destruct v0 as [t0 k0].
    destruct (kept_ops U PF pr (map fst l) (newest vs) _ _ (sound_head vs t0 k0 H E0) Fo' Eo) as [_ (S1 & _)]. exact (same_trans _ _ _ Sm S1). }
  pose proof (IH vs1 v1 H1 E1 S1 Fc) as N. destruct (commits pr vs1 cs) as [[? ?]|]; cbn [bind]; congruence.
Qed.
End T.

(** Programs that run on older versions, of which those that were told about a key that has been changed since are refused, and the net changes of the others are made to the newest
    version: it is as if the ones not refused had been run on the trie itself, one after the other. Each was answered as then, and the newest version is the trie that leaves. *)
Theorem C91_serial : forall pr U t cs vs rs,
  prefix_free U -> free_trie U t -> Forall (fun c => tx_in U (fst c)) cs -> commits pr [(t, [])] cs = Ok (vs, rs) ->
  serial pr t (map fst (accepted cs rs)) = Ok (newest vs, map snd (accepted cs rs)).
Proof. intros pr U t cs vs rs PF Ft F E. exact (commits_serial U PF pr cs [(t, [])] vs rs (t, []) (sound_start U t Ft) eq_refl F E). Qed.
Print Assumptions C91_serial.

(** A commit never panics by itself: it does exactly if the program panicked on its own version. *)
Theorem C91_panics : forall pr U t cs vs rs p back,
  prefix_free U -> free_trie U t -> Forall (fun c => tx_in U (fst c)) cs -> commits pr [(t, [])] cs = Ok (vs, rs) -> tx_in U p ->
  (commit pr vs p back = Panic <-> exists old ks, nth_error vs back = Some (old, ks) /\ tx_run pr old p = Panic).
Proof.
  intros pr U t cs vs rs p back PF Ft F E I. apply (commit_panics U PF); [|exact I]. exact (proj1 (commits_sound U PF pr cs [(t, [])] vs rs (t, []) (sound_start U t Ft) eq_refl F E)).
Qed.
Print Assumptions C91_panics.

(** Nothing panics if the programs keep away from hash nodes. *)
Theorem C91_no_panic : forall pr U t cs,
  prefix_free U -> free_trie U t -> Forall (fun c => tx_in U (fst c) /\ tx_clear t (fst c)) cs -> commits pr [(t, [])] cs <> Panic.
Proof. intros pr U t cs PF Ft F. exact (commits_clear U PF pr t cs [(t, [])] (t, []) (sound_start U t Ft) eq_refl ltac:(intros p h; reflexivity) F). Qed.
Print Assumptions C91_no_panic.

(** A program can as well be run on an excerpt of its version with its keys: it does the same, with the same answers. *)
Theorem C91_excerpt : forall keccak pr U t ks s p l,
  hash32 keccak -> prefix_free U -> free_trie U t -> fits t -> Forall kwf ks -> (forall k, In k ks -> U (nseq k)) ->
  (pr = Debug \/ forall k, In k ks -> ~ too_short t (nseq k)) -> create_trie_subset keccak pr t ks = Ok (ROk s) -> tx_in U p -> tx_on ks p ->
  ((exists t1, tx_run pr t p = Ok (t1, l)) <-> (exists s1, tx_run pr s p = Ok (s1, l))).
Proof.
  intros keccak pr U t ks s p l H32 PF Fx Ft Kw Ku D E I On. pose proof (subset_flike keccak pr U t ks s H32 Fx Ft Kw D E) as L. clear E D Ft Fx.
  assert (X : forall p t s t1 l, flike U ks t s -> tx_in U p -> tx_on ks p -> tx_run pr t p = Ok (t1, l) -> exists s1, tx_run pr s p = Ok (s1, l)).
  { clear - PF Kw Ku. intros p. induction p as [|o next IH]; intros t s t1 l L I On E; cbn [tx_run tx_in tx_on] in *.
    - injection E as <- <-. eauto.
    - destruct I as (O & G & I). destruct On as (Oo & On). destruct (trie_op pr t o) as [[t2 x]|] eqn:E1; [|discriminate]. cbn [bind] in E.
      destruct (tx_run pr t2 (next x)) as [[t3 l']|] eqn:E2; [|discriminate]. cbn [bind] in E. injection E as <- <-.
      destruct (flike_op U PF ks Kw Ku pr t s o t2 x L Oo (reaches U t o (proj1 L) G) (reaches U s o (proj1 (proj2 L)) G) E1) as (s2 & Es & L2). rewrite Es. cbn [bind].
      destruct (IH x t2 s2 t3 l' L2 (I x) (On x) E2) as (s3 & Es3). rewrite Es3. cbn [bind]. eauto. }
  split; intros (u & Eu); [exact (X p t s u l L I On Eu)|exact (X p s t u l (flike_sym U ks t s L) I On Eu)].
Qed.
Print Assumptions C91_excerpt.

(** A program that adds one (modulo 256) to the byte stored at a key, and gives up if there is none. *)
Definition add_one (k : nibbles) : tx := Do (OGet k) (fun x => match x with OValue (Some [n]) => Do (OInsert k [(n + 1) mod 256]) (fun _ => Finish) | _ => Finish end).
Definition four (k : list N) : Prop := length k = 4%nat.
Lemma add_one_in k : kwf k -> four (nseq k) -> tx_in four (add_one k).
Proof.
  intros Hk Uk. cbn [add_one tx_in op_in get_long_key]. split; [auto|]. split; [intros j Uj; unfold four in *; lia|]. intros [|[[|n [|]]|]]; cbn [tx_in op_in get_long_key]; try exact Logic.I.
  split; [split; [exact Hk|split; [exact Uk|discriminate]]|]. auto.
Qed.

(** Without refusing it is false: two such programs that both ran on the first version add only one. *)
Theorem C91_unchecked_refuted : forall pr, exists U t p l t0 t1 t2 ys xss k,
  prefix_free U /\ free_trie U t /\ tx_in U p /\ tx_run pr t p = Ok (t0, l) /\
  trie_ops pr t (compact (map fst l) ++ compact (map fst l)) = Ok (t1, ys) /\ serial pr t [p; p] = Ok (t2, xss) /\
  lk t1 k = Some (Val [2]) /\ lk t2 k = Some (Val [3]).
Proof.
  intros pr. exists four, roll_trie, (add_one (K 4 0x1234)), [(OGet (K 4 0x1234), OValue (Some [1])); (OInsert (K 4 0x1234) [2], ODone)]. do 5 eexists. exists [1; 2; 3; 4].
  destruct C87_example as (PF & _ & Ft & _). split; [exact PF|]. split; [exact Ft|]. split; [apply add_one_in; [split; vm_compute; (reflexivity || (intro; discriminate))|reflexivity]|].
  split; [destruct pr; vm_compute; reflexivity|]. split; [destruct pr; vm_compute; reflexivity|]. split; [destruct pr; vm_compute; reflexivity|]. split; vm_compute; reflexivity.
Qed.
Print Assumptions C91_unchecked_refuted.

(** On the partial trie of C87: the third program is refused, as the first has changed its key; the fourth is not, as it is not told anything; so the last adds one to what the fourth
    has written. *)
Definition tx_cs : list (tx * nat) :=
  [(add_one (K 4 0x1234), 0%nat); (add_one (K 4 0x1256), 1%nat); (add_one (K 4 0x1234), 2%nat); (Do (OInsert (K 4 0x1234) [9]) (fun _ => Finish), 2%nat); (add_one (K 4 0x1234), 0%nat)].
Definition tx_rs : list (option (list out)) := [Some [OValue (Some [1]); ODone]; Some [OValue (Some [2]); ODone]; None; Some [ODone]; Some [OValue (Some [9]); ODone]].
Lemma roll_clear k : kwf k -> four (nseq k) -> trie_insert Debug roll_trie k (Val [1]) <> Panic -> ~ hash_on_path roll_trie (nseq k).
Proof.
  intros Hk Uk N H. destruct C87_example as (PF & _ & Ft & _). destruct (free_insert four PF Debug roll_trie k [1] Ft Hk Uk ltac:(discriminate)) as [[_ Q]|(D & _)]; [exact (N Q)|exact (D H)].
Qed.
Lemma add_one_clear k : ~ hash_on_path roll_trie (nseq k) -> tx_clear roll_trie (add_one k).
Proof.
  intros N. cbn [add_one tx_clear touched]. split; [intros j []|]. intros [|[[|n [|]]|]]; cbn [tx_clear touched]; try exact Logic.I. split; [|auto]. intros j [<-|[]]. exact N.
Qed.
Example C91_example : prefix_free four /\ free_trie four roll_trie /\ Forall (fun c => tx_in four (fst c) /\ tx_clear roll_trie (fst c)) tx_cs /\
  exists vs, commits Debug [(roll_trie, [])] tx_cs = Ok (vs, tx_rs) /\ lk (newest vs) [1; 2; 3; 4] = Some (Val [10]) /\ lk (newest vs) [1; 2; 5; 6] = Some (Val [3]) /\
  length (accepted tx_cs tx_rs) = 4%nat /\ serial Debug roll_trie (map fst (accepted tx_cs tx_rs)) = Ok (newest vs, map snd (accepted tx_cs tx_rs)).
Proof.
  destruct C87_example as (PF & _ & Ft & _). split; [exact PF|]. split; [exact Ft|].
  assert (A : kwf (K 4 0x1234) /\ four (nseq (K 4 0x1234)) /\ ~ hash_on_path roll_trie (nseq (K 4 0x1234))).
  { assert (X : kwf (K 4 0x1234)) by (split; vm_compute; (reflexivity || (intro; discriminate))). assert (Y : four (nseq (K 4 0x1234))) by reflexivity.
    split; [exact X|]. split; [exact Y|]. apply roll_clear; [exact X|exact Y|vm_compute; discriminate]. }
  assert (B : kwf (K 4 0x1256) /\ four (nseq (K 4 0x1256)) /\ ~ hash_on_path roll_trie (nseq (K 4 0x1256))).
  { assert (X : kwf (K 4 0x1256)) by (split; vm_compute; (reflexivity || (intro; discriminate))). assert (Y : four (nseq (K 4 0x1256))) by reflexivity.
    split; [exact X|]. split; [exact Y|]. apply roll_clear; [exact X|exact Y|vm_compute; discriminate]. }
  destruct A as (A1 & A2 & A3). destruct B as (B1 & B2 & B3).
  assert (F : Forall (fun c => tx_in four (fst c) /\ tx_clear roll_trie (fst c)) tx_cs).
  { unfold tx_cs. repeat apply Forall_cons; try apply Forall_nil; cbn [fst]; try (split; [apply add_one_in; assumption|apply add_one_clear; assumption]).
    split; [cbn [tx_in op_in get_long_key]; split; [split; [exact A1|split; [exact A2|discriminate]]|auto]|]. cbn [tx_clear touched]. split; [intros j [<-|[]]; exact A3|auto]. }
  split; [exact F|]. assert (Fi : Forall (fun c => tx_in four (fst c)) tx_cs) by (eapply Forall_impl; [|exact F]; intros c H; apply H).
  assert (C : match commits Debug [(roll_trie, [])] tx_cs with
              | Ok (vs, rs) => (rs, lk (newest vs) [1; 2; 3; 4], lk (newest vs) [1; 2; 5; 6]) = (tx_rs, Some (Val [10]), Some (Val [3])) | Panic => False end) by (vm_compute; reflexivity).
  destruct (commits Debug [(roll_trie, [])] tx_cs) as [[vs rs]|] eqn:E; [|destruct C]. injection C as -> Ca Cb. exists vs. split; [reflexivity|]. split; [exact Ca|]. split; [exact Cb|].
  split; [reflexivity|]. exact (C91_serial Debug four roll_trie tx_cs vs tx_rs PF Ft Fi E).
Qed.

(** The first of them on an excerpt. *)
Lemma add_one_on k ks : In k ks -> tx_on ks (add_one k).
Proof.
  intros I. cbn [add_one tx_on op_on]. split; [exact I|]. intros [|[[|n [|]]|]]; cbn [tx_on op_on]; try exact Logic.I.
  split; [|auto]. split; [exact I|]. split; [discriminate|]. split; [constructor; [apply N.mod_lt; discriminate|constructor]|vm_compute; reflexivity].
Qed.
Example C91_excerpt_example : exists s t1 s1 l, create_trie_subset keccak256 Debug roll_trie (two_ks 0) = Ok (ROk s) /\ s <> roll_trie /\ fits roll_trie /\ tx_in four (add_one (K 4 0x1234)) /\
  tx_on (two_ks 0) (add_one (K 4 0x1234)) /\ tx_run Debug roll_trie (add_one (K 4 0x1234)) = Ok (t1, l) /\ tx_run Debug s (add_one (K 4 0x1234)) = Ok (s1, l) /\ length l = 2%nat.
Proof.
  destruct C88_example as (PF & Ft & Fi & Kw & Ku & _ & _ & _ & _ & _ & _ & (s & Es)). specialize (Es 0%nat).
  assert (I : tx_in four (add_one (K 4 0x1234))) by (apply add_one_in; [split; vm_compute; (reflexivity || (intro; discriminate))|reflexivity]).
  assert (On : tx_on (two_ks 0) (add_one (K 4 0x1234))) by (apply add_one_on; left; reflexivity).
  assert (B : match tx_run Debug roll_trie (add_one (K 4 0x1234)) with Ok (_, l) => length l = 2%nat | Panic => False end) by (vm_compute; reflexivity).
  destruct (tx_run Debug roll_trie (add_one (K 4 0x1234))) as [[t1 l]|] eqn:E; [|destruct B].
  destruct (proj1 (C91_excerpt keccak256 Debug four roll_trie (two_ks 0) (s 0%nat) (add_one (K 4 0x1234)) l keccak256_32 PF Ft Fi (Kw 0%nat) (Ku 0%nat) (or_introl eq_refl) Es I On)) as (s1 & E1); [eauto|].
  exists (s 0%nat), t1, s1, l. split; [exact Es|]. split; [|auto 8].
  intros Q. rewrite Q in Es. assert (X : match create_trie_subset keccak256 Debug roll_trie (two_ks 0) with Ok (ROk u) => node_eqb u roll_trie | _ => true end = false) by (vm_compute; reflexivity).
  rewrite Es in X. assert (Y : node_eqb roll_trie roll_trie = true) by (apply node_eqb_spec; reflexivity). congruence.
Qed.

(** After them, a program that changes a key below the hash node. *)
Example C91_panics_example : exists vs, commits Debug [(roll_trie, [])] tx_cs = Ok (vs, tx_rs) /\ tx_in four (Do (ODelete (K 4 0x2034)) (fun _ => Finish)) /\
  commit Debug vs (Do (ODelete (K 4 0x2034)) (fun _ => Finish)) 2 = Panic /\ commit Debug vs (add_one (K 4 0x1234)) 2 <> Panic.
Proof.
  destruct C91_example as (_ & _ & _ & vs & E & _). exists vs. split; [exact E|].
  split; [cbn [tx_in op_in get_long_key]; split; [split; [split; vm_compute; (reflexivity || (intro; discriminate))|reflexivity]|auto]|].
  assert (B : match commits Debug [(roll_trie, [])] tx_cs with
    | Ok (vs, _) => match commit Debug vs (Do (ODelete (K 4 0x2034)) (fun _ => Finish)) 2, commit Debug vs (add_one (K 4 0x1234)) 2 with Panic, Ok _ => true | _, _ => false end | Panic => false end = true)
    by (vm_compute; reflexivity).
  rewrite E in B. destruct (commit Debug vs (Do (ODelete (K 4 0x2034)) (fun _ => Finish)) 2) as [[? ?]|]; [discriminate|]. destruct (commit Debug vs (add_one (K 4 0x1234)) 2); [|discriminate]. split; [reflexivity|discriminate].
Qed.
