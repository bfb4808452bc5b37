(** Facts about the errors of subsets of caching tries. *)
From Coq Require Import String.
From Verif Require Import Base Nibbles NibblesSpec NibblesFacts NibblesFacts2 NibblesFacts3 Text TextSpec TextFacts Rlp Hashing Trie TrieSpec TrieFacts TrieHist Query Diff DebugText DebugTextSpec DebugTextFacts DebugTextFacts2
  Cache CacheFacts Subset SubsetSpec SubsetFacts SubsetFacts2 HErrors HErrorsSpec.
Open Scope N_scope.
Open Scope list_scope.

(** The program that prints the hash node. *)
Definition stop {A} (locked : bool) (k : nibbles) (c : N) (h : list N) : prog (result A text_error) :=
  h' <~ lock_dbg locked c ;;
  Ret (RErr (UnexpectedKeyText k (put false (tracked_hash_dbg (DStruct (txt "HashedPartialTrie") [(txt "node", DTuple (txt "Hash") [h256_dbg h]); (txt "hash", h')]))))).
Lemma line_stop_put h x : put false (tracked_hash_dbg (DStruct (txt "HashedPartialTrie")
    [(txt "node", DTuple (txt "Hash") [h256_dbg h]); (txt "hash", DStruct (txt "RwLock") [(txt "data", dsight x)])])) = line_stop h x.
Proof.
  pose proof (put_handle (fun _ _ => x) (HHash 0 h) []) as P. cbn [dhandle line_handle cell] in P.
  unfold tracked_hash_dbg. rewrite put_struct by discriminate. unfold commas, field_text. cbn [map join fst snd]. rewrite put_struct by discriminate.
  unfold commas, field_text. cbn [map join fst snd]. rewrite P. unfold line_stop, line_hash. change (put false (bool_dbg true)) with (txt "true"). change (put false (DWord (txt "Hash"))) with (txt "Hash").
  rewrite <- !app_assoc. reflexivity.
Qed.
Lemma exec_stop {A} locked k c h s n : exec (@stop A locked k c h) s n = Ok (RErr (UnexpectedKeyText k (line_stop h (sees locked (s c)))), s, n).
Proof.
  unfold stop, lock_dbg. destruct locked; cbn [pbind exec sees]; rewrite <- line_stop_put; [reflexivity|]. cbn [dsight]. destruct (s c); reflexivity.
Qed.

(** ** Marking *)
(** [hmark] is [mark], up to the text of errors. *)
Definition outcome {A} (t : hnode) (k : nibbles) (locked : bool) (r : res (result A subset_error)) (p : prog (result A text_error)) : Prop :=
  match r with
  | Panic => p = Fail
  | Ok (ROk a) => p = Ret (ROk a)
  | Ok (RErr (UnexpectedKey k' u)) => exists q c h, u = Hash h /\ leads t q (HHash c h) /\
      (forall L l, wf L (erase t) -> hexl l -> (length l <= 64)%nat -> into_hash (erase t) l -> k = enc l -> exists l', l = q ++ l' /\ k' = enc l') /\ p = stop locked k' c h
  end.

Lemma with_htracked_case (f : hnode -> tracked -> prog (result tracked text_error)) (g : tracked -> res (result tracked subset_error)) k k' locked :
  forall ch trs i, Forall2 tracks trs (map erase ch) ->
  (forall c x, In c ch -> tracks x (erase c) -> outcome c k locked (g x) (f c x)) ->
  match with_tracked g trs i with
  | Panic => with_htracked f ch trs i = Fail
  | Ok (ROk l) => with_htracked f ch trs i = Ret (ROk l)
  | Ok (RErr e) => exists c x, nth_error ch i = Some c /\ nth_error trs i = Some x /\ g x = Ok (RErr e) /\
      (forall c' h, f c x = stop locked k' c' h -> with_htracked f ch trs i = stop locked k' c' h)
  end.
Proof.
  induction ch as [|c ch IH]; intros trs i T H; inversion T as [|x ? trs' ? Tx T']; subst; cbn [with_tracked with_htracked]; [reflexivity|].
  destruct i as [|i].
  - pose proof (H c x ltac:(left; reflexivity) Tx) as O. destruct (g x) as [[x'|e]|] eqn:G; cbn [bind].
    + cbn [outcome] in O. rewrite O. reflexivity.
    + exists c, x. repeat (split; [reflexivity || assumption|]). intros c' h ->. unfold stop, lock_dbg. destruct locked; reflexivity.
    + cbn [outcome] in O. rewrite O. reflexivity.
  - specialize (IH trs' i T' ltac:(intros; apply H; [right; assumption|assumption])). destruct (with_tracked g trs' i) as [[l|e]|]; cbn [bind].
    + rewrite IH. reflexivity.
    + destruct IH as (c0 & x0 & E1 & E2 & E3 & R). exists c0, x0. cbn [nth_error]. repeat (split; [assumption|]). intros c' h E. rewrite (R c' h E).
      unfold stop, lock_dbg. destruct locked; reflexivity.
    + rewrite IH. reflexivity.
Qed.

Lemma hmark_outcome pr locked t : forall tr k, tracks tr (erase t) -> outcome t k locked (mark pr tr k) (hmark pr locked t tr k).
Proof.
  induction t as [c|c h|c ch v IH|c n t IH|c n v] using hnode_ind'; intros tr k T; cbn [erase] in T; inversion T; subst; cbn [mark hmark].
  - reflexivity.
  - destruct (is_empty k) eqn:E; [reflexivity|]. cbn [outcome]. exists [], c, h. split; [reflexivity|]. split; [constructor|]. split.
    + intros L l _ _ _ _ ->. exists l. auto.
    + unfold stop, lock_dbg. cbn [handle_dbg cell pbind]. destruct locked; reflexivity.
  - destruct (is_empty k) eqn:E; [reflexivity|]. destruct (pop_next_nibble_front pr k) as [[nib k2]|] eqn:P; cbn [bind lift pbind]; [|reflexivity].
    destruct (with_tracked (fun c0 => mark pr c0 k2) l (N.to_nat nib)) as [[l'|[k' u]]|] eqn:Wt; cbn [bind outcome].
    + pose proof (with_htracked_case (fun c x => hmark pr locked c x k2) (fun x => mark pr x k2) k2 k2 locked ch l (N.to_nat nib)) as G. rewrite Wt in G.
      rewrite G; [reflexivity|assumption|]. rewrite Forall_forall in IH. intros; apply IH; assumption.
    + pose proof (with_htracked_case (fun c x => hmark pr locked c x k2) (fun x => mark pr x k2) k2 k' locked ch l (N.to_nat nib)) as G. rewrite Wt in G.
      destruct G as (c0 & x0 & E1 & E2 & E3 & R); [assumption|rewrite Forall_forall in IH; intros; apply IH; assumption|].
      rewrite Forall_forall in IH. pose proof (nth_error_In _ _ E1) as I0.
      assert (T0 : tracks x0 (erase c0)).
      { match goal with F : Forall2 tracks l _ |- _ => destruct (tracks_nth _ _ (N.to_nat nib) (erase c0) F) as (y & Ey & Ty); [rewrite nth_error_map, E1; reflexivity|] end. congruence. }
      pose proof (IH c0 I0 x0 k2 T0) as O. rewrite E3 in O. cbn [outcome] in O. destruct O as (q & c' & h & -> & Ld & Dg & Es).
      exists (nib :: q), c', h. split; [reflexivity|]. split; [econstructor; eassumption|]. split.
      * intros L m W Hm Lm I ->. cbn [erase] in W, I. inversion W as [| |L0 ? ? Hlen Fw| |]; subst. destruct m as [|d m]; [destruct (into_hash_branch_nil _ _ I)|].
        apply into_hash_branch in I. cbn [length] in Lm. rewrite pop_front_enc in P by (assumption || cbn [length]; lia). injection P as <- <-.
        inversion Hm; subst. assert (Ec : child (map erase ch) d = erase c0) by (unfold child; apply nth_error_nth; rewrite nth_error_map, E1; reflexivity). rewrite Ec in I.
        rewrite Forall_forall in Fw. destruct (Dg L0 m) as (l0 & -> & ->); auto; [apply Fw, in_map, I0|lia|exists l0; auto].
      * rewrite (R c' h Es). unfold stop, lock_dbg. destruct locked; reflexivity.
    + pose proof (with_htracked_case (fun c x => hmark pr locked c x k2) (fun x => mark pr x k2) k2 k2 locked ch l (N.to_nat nib)) as G. rewrite Wt in G.
      rewrite G; [reflexivity|assumption|]. rewrite Forall_forall in IH. intros; apply IH; assumption.
  - cbn [get_nibbles_expected bind]. destruct (pop_nibbles_front pr k (count n)) as [[r k2]|] eqn:P; cbn [bind lift pbind]; [|reflexivity].
    destruct (identical_up_to_smallest pr r n) as [[|]|] eqn:S; cbn [bind lift pbind]; [|reflexivity|reflexivity].
    match goal with |- context[mark pr ?x k2] => pose proof (IH x k2 ltac:(assumption)) as O; destruct (mark pr x k2) as [[x'|[k' u]]|] end; cbn [bind outcome] in *.
    + rewrite O. reflexivity.
    + destruct O as (q & c' & h & -> & Ld & Dg & Es). exists (nseq n ++ q), c', h. split; [reflexivity|]. split; [constructor; exact Ld|]. split.
      * intros L m W Hm Lm I ->. cbn [erase] in W, I. inversion W as [| | |L0 p c1 Hp Wc|]; subst. rewrite nseq_enc by exact Hp. apply (into_hash_ext _ _ _ Hp) in I. destruct I as (m' & -> & I).
        pose proof Hm as Hm2. apply hexl_app in Hm2. pose proof Lm as Lm2. rewrite app_length in Lm2.
        rewrite count_enc, pop_nibbles_front_enc in P by (assumption || rewrite ?app_length; lia). injection P as <- <-. rewrite skipn_exact in Dg.
        destruct (Dg L0 m') as (l0 & -> & ->); [assumption|tauto|lia|assumption|reflexivity|]. exists l0. rewrite app_assoc. auto.
      * rewrite Es. unfold stop, lock_dbg. destruct locked; reflexivity.
    + rewrite O. reflexivity.
  - reflexivity.
Qed.

Lemma leads_lk t p u : leads t p u -> forall c h, u = HHash c h -> lk (erase t) p = Some (HashV h).
Proof.
  induction 1 as [t|c ch v d x p u E _ IH|c n x p u _ IH]; intros c0 h ->; cbn [erase].
  - reflexivity.
  - rewrite lk_branch. unfold child. rewrite (nth_error_nth _ _ Empty (x := erase x)); [eauto|]. rewrite nth_error_map, E. reflexivity.
  - cbn [lk]. rewrite strip_app. eauto.
Qed.
Lemma leads_nodes t p u : leads t p u -> In u (nodes t).
Proof.
  induction 1 as [t|c ch v d x p u E _ IH|c n x p u _ IH]; cbn [nodes].
  - rewrite nodes_below. left. reflexivity.
  - right. apply in_flat_map. exists x. split; [eapply nth_error_In, E|exact IH].
  - right. exact IH.
Qed.

Lemma hmark_all_outcome pr locked t ks : forall tr, tracks tr (erase t) ->
  match mark_all pr tr ks with
  | Panic => hmark_all pr locked t tr ks = Fail
  | Ok (ROk a) => hmark_all pr locked t tr ks = Ret (ROk a)
  | Ok (RErr (UnexpectedKey k u)) => exists p c h, u = Hash h /\ leads t p (HHash c h) /\ hmark_all pr locked t tr ks = stop locked k c h /\
      (wf 64 (erase t) -> Forall kwf ks -> exists q, first_stop t ks p q c h /\ k = enc q)
  end.
Proof.
  induction ks as [|k ks IH]; intros tr T; cbn [mark_all hmark_all]; [reflexivity|].
  pose proof (hmark_outcome pr locked t tr k T) as O. destruct (mark pr tr k) as [[tr1|[k' u]]|] eqn:Em; cbn [outcome bind] in *.
  - rewrite O. cbn [pbind]. pose proof (fle_tracks _ _ _ (mark_fle _ _ _ _ Em) T) as T1. specialize (IH tr1 T1).
    destruct (mark_all pr tr1 ks) as [[tr2|[k' u]]|]; [exact IH| |exact IH].
    destruct IH as (p & c & h & -> & Ld & Es & G). exists p, c, h. repeat (split; [assumption || reflexivity|]). intros W K. inversion K; subst.
    destruct (G W ltac:(assumption)) as (q & (ks1 & k0 & ks2 & -> & F & R) & Ek). exists q. split; [|exact Ek].
    exists (k :: ks1), k0, ks2. split; [reflexivity|]. split; [|exact R]. intros x [<-|I]; [|auto]. intros A.
    destruct (kwf_ex k ltac:(assumption)) as (l & -> & El & Hl & Ll). rewrite El in A.
    destruct (mark_into_hash pr _ 64 tr l W Hl Ll T A) as (q1 & h1 & E1 & _). congruence.
  - destruct O as (p & c & h & -> & Ld & Dg & Es). exists p, c, h. repeat (split; [assumption || reflexivity|]). split; [rewrite Es; unfold stop, lock_dbg; destruct locked; reflexivity|].
    intros W K. inversion K; subst. destruct (kwf_ex k ltac:(assumption)) as (l & -> & El & Hl & Ll).
    destruct (into_hash_dec (erase t) 64 l W) as [A|A].
    + destruct (Dg 64%nat l W Hl Ll A eq_refl) as (q & -> & ->). exists q. split; [|reflexivity]. exists [], (enc (p ++ q)), ks. split; [reflexivity|]. split; [intros x []|].
      rewrite El. split; [reflexivity|]. split; [|exact Ld]. destruct (mark_into_hash pr _ 64 tr _ W Hl Ll T A) as (q1 & h1 & E1 & Q1 & _). rewrite Em in E1. injection E1 as E1 _ _.
      intros ->. destruct q1; [congruence|discriminate].
    + exfalso. destruct pr.
      * destruct (too_short_dec (erase t) 64 l W) as [B|B]; [rewrite (mark_short_debug _ 64 tr l W Hl Ll T B) in Em; discriminate|].
        destruct (mark_ok Debug _ 64 tr l W ltac:(lia) Hl Ll T A ltac:(auto)) as [x Ex]. congruence.
      * destruct (mark_ok Release _ 64 tr l W ltac:(lia) Hl Ll T A ltac:(auto)) as [x Ex]. congruence.
  - rewrite O. reflexivity.
Qed.

(** ** Subsets *)
Lemma exec_lift {A} (r : res A) s n : exec (lift r) s n = match r with Ok a => Ok (a, s, n) | Panic => Panic end.
Proof. destruct r; reflexivity. Qed.
Lemma htext_subset_tells keccak pr locked t ks s n : tells t locked (exec (hcreate_trie_subset keccak pr t ks) s n) (exec (htext_subset keccak pr locked t ks) s n).
Proof.
  unfold hcreate_trie_subset, htext_subset. pose proof (hmark_all_outcome pr locked t ks (track (erase t)) (track_tracks _)) as O.
  rewrite !exec_pbind, exec_lift. destruct (mark_all pr (track (erase t)) ks) as [[tr|[k u]]|].
  - rewrite O. cbn [exec]. rewrite !exec_pbind. destruct (exec (hcreate_from_tracked keccak pr t tr) s n) as [[[x s'] n']|]; reflexivity.
  - destruct O as (p & c & h & -> & Ld & -> & _). rewrite exec_stop. cbn [exec tells]. exists p, c, h. auto.
  - rewrite O. reflexivity.
Qed.
Lemma htext_subsets_tells keccak pr locked t kss : forall tr s n, tracks tr (erase t) ->
  tells t locked (exec (hcreate_subsets_from keccak pr t tr kss) s n) (exec (htext_subsets_from keccak pr locked t tr kss) s n).
Proof.
  induction kss as [|ks kss IH]; intros tr s n T; cbn [hcreate_subsets_from htext_subsets_from]; [reflexivity|].
  pose proof (hmark_all_outcome pr locked t ks tr T) as O. rewrite !exec_pbind, exec_lift. destruct (mark_all pr tr ks) as [[tr1|[k u]]|] eqn:Em.
  - rewrite O. cbn [exec]. rewrite !exec_pbind. destruct (exec (hcreate_from_tracked keccak pr t tr1) s n) as [[[x s1] n1]|]; [|reflexivity]. rewrite !exec_pbind.
    specialize (IH (reset_tracked tr1) s1 n1 (reset_tracks _ _ (fle_tracks _ _ _ (mark_all_fle _ _ _ _ Em) T))).
    destruct (exec (hcreate_subsets_from keccak pr t (reset_tracked tr1) kss) s1 n1) as [[[[l|[k u]] s2] n2]|]; cbn [tells] in *.
    + rewrite IH. reflexivity.
    + destruct IH as (p & c & h & -> & Ld & ->). cbn [exec]. exists p, c, h. auto.
    + rewrite IH. reflexivity.
  - destruct O as (p & c & h & -> & Ld & -> & _). rewrite exec_stop. cbn [exec tells]. exists p, c, h. auto.
  - rewrite O. reflexivity.
Qed.

(** ** Which list, which key *)
Lemma mark_all_no_hash pr t ks : forall tr tr', wf 64 t -> tracks tr t -> Forall kwf ks -> mark_all pr tr ks = Ok (ROk tr') -> forall x, In x ks -> ~ into_hash t (nseq x).
Proof.
  induction ks as [|k ks IH]; intros tr tr' W T K E x I; [destruct I|]. cbn [mark_all] in E. inversion K; subst.
  destruct (mark pr tr k) as [[tr1|e]|] eqn:Em; cbn [bind] in E; try discriminate. destruct I as [<-|I].
  - destruct (kwf_ex k ltac:(assumption)) as (l & -> & El & Hl & Ll). rewrite El. intros A.
    destruct (mark_into_hash pr t 64 tr l W Hl Ll T A) as (q & h & E1 & _). congruence.
  - exact (IH tr1 tr' W (fle_tracks _ _ _ (mark_fle _ _ _ _ Em) T) ltac:(assumption) E x I).
Qed.
Lemma first_list_cons t ks kss p q c h : (forall x, In x ks -> ~ into_hash (erase t) (nseq x)) -> first_list t kss p q c h -> first_list t (ks :: kss) p q c h.
Proof.
  intros H (kss1 & ks0 & kss2 & -> & F & S). exists (ks :: kss1), ks0, kss2. split; [reflexivity|]. split; [|exact S]. intros ks' x [<-|I] Ix; [auto|eauto].
Qed.

Lemma exec_subset_error keccak pr locked t ks s n e s' n' : wf 64 (erase t) -> Forall kwf ks -> exec (htext_subset keccak pr locked t ks) s n = Ok (RErr e, s', n') ->
  exists p q c h, first_stop t ks p q c h /\ e = UnexpectedKeyText (enc q) (line_stop h (sees locked (s' c))) /\ s' = s /\ n' = n.
Proof.
  intros W K. unfold htext_subset. pose proof (hmark_all_outcome pr locked t ks (track (erase t)) (track_tracks _)) as O.
  rewrite exec_pbind. destruct (mark_all pr (track (erase t)) ks) as [[tr|[k u]]|].
  - rewrite O. cbn [exec]. rewrite exec_pbind. destruct (exec (hcreate_from_tracked keccak pr t tr) s n) as [[[x s1] n1]|]; discriminate.
  - destruct O as (p & c & h & -> & Ld & -> & G). rewrite exec_stop. cbn [exec]. intros [= <- <- <-]. destruct (G W K) as (q & F & ->). exists p, q, c, h. auto.
  - rewrite O. discriminate.
Qed.
Lemma exec_subsets_error keccak pr locked t kss e s' n' : wf 64 (erase t) -> Forall (Forall kwf) kss -> forall tr s n, tracks tr (erase t) ->
  exec (htext_subsets_from keccak pr locked t tr kss) s n = Ok (RErr e, s', n') ->
  exists p q c h, first_list t kss p q c h /\ e = UnexpectedKeyText (enc q) (line_stop h (sees locked (s' c))).
Proof.
  intros W. induction kss as [|ks kss IH]; intros K tr s n T; cbn [htext_subsets_from]; [discriminate|]. inversion K as [|? ? K1 K2]; subst.
  pose proof (hmark_all_outcome pr locked t ks tr T) as O. rewrite exec_pbind. destruct (mark_all pr tr ks) as [[tr1|[k u]]|] eqn:Em.
  - rewrite O. cbn [exec]. rewrite exec_pbind. destruct (exec (hcreate_from_tracked keccak pr t tr1) s n) as [[[x s1] n1]|]; [|discriminate]. rewrite exec_pbind.
    destruct (exec (htext_subsets_from keccak pr locked t (reset_tracked tr1) kss) s1 n1) as [[[[l|e1] s2] n2]|] eqn:E; cbn [exec]; try discriminate. intros [= <- <- <-].
    destruct (IH K2 _ _ _ (reset_tracks _ _ (fle_tracks _ _ _ (mark_all_fle _ _ _ _ Em) T)) E) as (p & q & c & h & F & ->). exists p, q, c, h. split; [|reflexivity].
    apply first_list_cons; [|exact F]. eapply mark_all_no_hash; eauto.
  - destruct O as (p & c & h & -> & Ld & -> & G). rewrite exec_stop. cbn [exec]. intros [= <- <- <-]. destruct (G W K1) as (q & F & ->). exists p, q, c, h. split; [|reflexivity].
    exists [], ks, kss. split; [reflexivity|]. split; [intros ? ? []|exact F].
  - rewrite O. discriminate.
Qed.

(** ** Other threads *)
Lemma may_bind {A B} R (p : prog A) (f : A -> prog B) b : may R (pbind p f) b -> exists a, may R p a /\ may R (f a) b.
Proof.
  revert b. induction p as [a| |c k IH|c o p IH|k IH]; intros b M; cbn [pbind] in M.
  - exists a. split; [constructor|exact M].
  - inversion M.
  - inversion M; subst. edestruct IH as (a & M1 & M2); [eassumption|]. exists a. split; [econstructor; eassumption|exact M2].
  - inversion M; subst. edestruct IH as (a & M1 & M2); [eassumption|]. exists a. split; [econstructor; eassumption|exact M2].
  - inversion M; subst. edestruct IH as (a & M1 & M2); [eassumption|]. exists a. split; [econstructor; eassumption|exact M2].
Qed.
Lemma may_ret_inv {A} R (a b : A) : may R (Ret a) b -> b = a.
Proof. intros M. inversion M. reflexivity. Qed.
Lemma may_stop {A} R locked k c h (r : result A text_error) : may R (stop locked k c h) r ->
  exists x, sight_in R c x /\ (locked = false -> x <> Locked) /\ r = RErr (UnexpectedKeyText k (line_stop h x)).
Proof.
  unfold stop, lock_dbg. destruct locked; cbn [pbind]; intros M.
  - apply may_ret_inv in M. exists Locked. split; [exact I|]. split; [discriminate|]. rewrite M, <- line_stop_put. reflexivity.
  - inversion M; subst. match goal with X : may _ (Ret _) _ |- _ => apply may_ret_inv in X; subst end. exists (Holds o). split; [assumption|]. split; [discriminate|]. rewrite <- line_stop_put. reflexivity.
Qed.
Lemma may_subsets_error keccak pr locked R t kss e : wf 64 (erase t) -> Forall (Forall kwf) kss -> forall tr, tracks tr (erase t) ->
  may R (htext_subsets_from keccak pr locked t tr kss) (RErr e) ->
  exists p q c h x, first_list t kss p q c h /\ sight_in R c x /\ (locked = false -> x <> Locked) /\ e = UnexpectedKeyText (enc q) (line_stop h x).
Proof.
  intros W. induction kss as [|ks kss IH]; intros K tr T M; cbn [htext_subsets_from] in M; [apply may_ret_inv in M; discriminate|]. inversion K as [|? ? K1 K2]; subst.
  pose proof (hmark_all_outcome pr locked t ks tr T) as O. apply may_bind in M as (r & M1 & M2). destruct (mark_all pr tr ks) as [[tr1|[k u]]|] eqn:Em.
  - rewrite O in M1. apply may_ret_inv in M1. subst r. apply may_bind in M2 as (x & _ & M2). apply may_bind in M2 as (rs & M1 & M2). apply may_ret_inv in M2. destruct rs as [l|e1]; [discriminate|]. injection M2 as ->.
    destruct (IH K2 _ (reset_tracks _ _ (fle_tracks _ _ _ (mark_all_fle _ _ _ _ Em) T)) M1) as (p & q & c & h & y & F & S). exists p, q, c, h, y. split; [|exact S].
    apply first_list_cons; [|exact F]. eapply mark_all_no_hash; eauto.
  - destruct O as (p & c & h & -> & Ld & Es & G). rewrite Es in M1. apply may_stop in M1 as (x & S1 & S2 & ->). apply may_ret_inv in M2. injection M2 as ->. destruct (G W K1) as (q & F & ->).
    exists p, q, c, h, x. split; [|auto]. exists [], ks, kss. split; [reflexivity|]. split; [intros ? ? []|exact F].
  - rewrite O in M1. inversion M1.
Qed.
Lemma may_subset_error keccak pr locked R t ks e : wf 64 (erase t) -> Forall kwf ks ->
  may R (htext_subset keccak pr locked t ks) (RErr e) ->
  exists p q c h x, first_stop t ks p q c h /\ sight_in R c x /\ (locked = false -> x <> Locked) /\ e = UnexpectedKeyText (enc q) (line_stop h x).
Proof.
  intros W K M. unfold htext_subset in M. pose proof (hmark_all_outcome pr locked t ks (track (erase t)) (track_tracks _)) as O.
  apply may_bind in M as (r & M1 & M2). destruct (mark_all pr (track (erase t)) ks) as [[tr1|[k u]]|] eqn:Em.
  - rewrite O in M1. apply may_ret_inv in M1. subst r. apply may_bind in M2 as (x & _ & M2). apply may_ret_inv in M2. discriminate.
  - destruct O as (p & c & h & -> & Ld & Es & G). rewrite Es in M1. apply may_stop in M1 as (x & S1 & S2 & ->). apply may_ret_inv in M2. injection M2 as ->. destruct (G W K) as (q & F & ->).
    exists p, q, c, h, x. auto.
  - rewrite O in M1. inversion M1.
Qed.

Lemma wp_unbind {A B} (p : prog A) (f : A -> prog B) : forall b V Q, wp (pbind p f) b V Q -> wp p b V (fun a b' V' => wp (f a) b' V' Q).
Proof.
  induction p as [a| |c k IH|c o p IH|k IH]; intros b V Q W; cbn [wp pbind] in *; auto.
  - destruct W as [B' W]. split; auto.
  - destruct W as (B' & Ha & W). auto.
  - intros b' V' E. destruct (W b' V' E) as [x W']. exists x. auto.
Qed.
(** What [create_trie_subsets] does without a text, it does with a text. *)
Lemma wp_subsets_text keccak pr locked t kss : forall tr b V Q (Q' : result (list hnode) text_error -> N -> ghost -> Prop), tracks tr (erase t) -> wp (hcreate_subsets_from keccak pr t tr kss) b V Q ->
  (forall l b' V', ext b V b' V' -> Q (ROk l) b' V' -> Q' (ROk l) b' V') ->
  (forall k p c h b' V', ext b V b' V' -> leads t p (HHash c h) -> Q (RErr (UnexpectedKey k (Hash h))) b' V' -> wp (stop locked k c h) b' V' Q') ->
  wp (htext_subsets_from keccak pr locked t tr kss) b V Q'.
Proof.
  induction kss as [|ks kss IH]; intros tr b V Q Q' T W H1 H2; cbn [hcreate_subsets_from htext_subsets_from] in *.
  - apply H1; [apply ext_refl|exact W].
  - pose proof (hmark_all_outcome pr locked t ks tr T) as O. apply wp_unbind in W. destruct (mark_all pr tr ks) as [[tr1|[k u]]|] eqn:Em; cbn [lift wp] in W.
    + rewrite O. cbn [pbind]. apply wp_unbind in W. apply wp_bind. eapply wp_conseq; [exact W|]. intros x b1 V1 X1 W1. cbn beta in W1. apply wp_unbind in W1. apply wp_bind.
      eapply IH; [exact (reset_tracks _ _ (fle_tracks _ _ _ (mark_all_fle _ _ _ _ Em) T))|exact W1| |].
      * intros l b2 V2 X2 Hq. cbn [wp] in *. apply H1; [eapply ext_trans; eauto|exact Hq].
      * intros k p c h b2 V2 X2 Ld Hq. cbn [wp] in Hq. specialize (H2 k p c h b2 V2 (ext_trans _ _ _ _ _ _ X1 X2) Ld Hq). clear -H2.
        unfold stop, lock_dbg in *. destruct locked; cbn [pbind wp] in *; exact H2.
    + destruct O as (p & c & h & -> & Ld & Es & _). rewrite Es. cbn [wp] in W. specialize (H2 k p c h b V (ext_refl _ _) Ld W). clear -H2.
      apply wp_bind. unfold stop, lock_dbg in *. destruct locked; cbn [pbind wp] in *; exact H2.
    + destruct W.
Qed.
