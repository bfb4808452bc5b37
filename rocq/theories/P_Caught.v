(** Property C43: panics that the caller catches. A program of API calls, each of which may panic and be caught, is run once on
    plain values ([vxrun]), and once with the shared nodes and cached hashes of [HashedPartialTrie] ([xstart]). An
    observation is [None] for a panic. *)
From Verif Require Import Base Nibbles Trie Hashing Keccak Subset Cache CacheSpec CacheFacts CacheFacts2 CacheFacts3 Caught CaughtFacts P_Trie P_Hash P_Cache.
Open Scope N_scope.

(** The claim "after a caught panic, [hash()] is the hash of the contents" fails for [extend]: it inserts one element, panics
    at the second, and does not clear the cached hash. A value stays, that the hash does not know of. *)
Definition bad_extend : list xop :=
  [Try (New big_list); Try (Subset 0 []); Try (Extend 0 [(K 4 0x5611, Val (big 9)); (K 4 0x1234, HashV (big 1))]);
   Try (Get 0 (K 4 0x5611)); Try (HashOf 0)].
Definition bad_extend_v := Eval vm_compute in vxrun keccak256 Debug [] bad_extend.
Definition bad_extend_h := Eval vm_compute in match xstart keccak256 Debug bad_extend with Ok r => r | Panic => ([], []) end.
Definition digest_of (x : option obs) : list N := match x with Some (Digest h) => h | _ => [] end.
Theorem C43_extend_refuted : forall pr, exists ts hs h h',
  vxrun keccak256 pr [] bad_extend = (ts, [Some Done; Some Done; None; Some (Value (Some (big 9))); Some (Digest h)]) /\
  xstart keccak256 pr bad_extend = Ok (hs, [Some Done; Some Done; None; Some (Value (Some (big 9))); Some (Digest h')]) /\
  map erase hs = ts /\ h' <> h.
Proof.
  intros pr. exists (fst bad_extend_v), (fst bad_extend_h), (digest_of (last (snd bad_extend_v) None)), (digest_of (last (snd bad_extend_h) None)).
  destruct pr; (split; [vm_compute; reflexivity|]; split; [vm_compute; reflexivity|]; split; [vm_compute; reflexivity|]; intro; discriminate).
Qed.

(** Without handles for inner nodes and without subsets for no keys, caught panics are harmless: every program, any number of
    panics in any operations, observes what it observes on plain values, where an operation that panics has no effect (an
    [extend] has the effect of the elements before the panic). *)
Theorem C43_clones_partial : forall keccak pr os, Forall (fun o => tame (use o)) os ->
  exists hs, xstart keccak pr os = Ok (hs, snd (vxrun keccak pr [] os)) /\ map erase hs = fst (vxrun keccak pr [] os).
Proof. intros keccak pr os T. apply (xstart_ok keccak pr (fun _ => Plain)). apply xtame_respects, T. Qed.

(** With subsets for no keys, and without clones, the same, if no [extend] panics. *)
Definition no_extend_panics keccak pr : list node -> list xop -> Prop :=
  fix go ts os := match os with
  | [] => True
  | o :: os' => match use o with Extend _ _ => snd (vxstep keccak pr ts o) = Some Done | _ => True end /\ go (fst (vxstep keccak pr ts o)) os'
  end.
Theorem C43_uncloned_partial : forall keccak pr os, Forall (fun o => uncloned (use o)) os -> no_extend_panics keccak pr [] os ->
  exists hs, xstart keccak pr os = Ok (hs, snd (vxrun keccak pr [] os)) /\ map erase hs = fst (vxrun keccak pr [] os).
Proof.
  intros keccak pr os T N. apply (xstart_ok keccak pr (fun _ => Single)).
  revert N. generalize (@nil node). induction T as [|o os Ho T IH]; intros ts; cbn [xrespects no_extend_panics]; [auto|].
  intros [N1 N2]. split; [|apply IH, N2]. split; [apply uncloned_legal, Ho|]. destruct (use o); auto.
Qed.
Theorem C43_discipline_partial : forall keccak pr K os, xrespects keccak pr K [] os ->
  exists hs, xstart keccak pr os = Ok (hs, snd (vxrun keccak pr [] os)) /\ map erase hs = fst (vxrun keccak pr [] os).
Proof. intros keccak pr K os. apply xstart_ok. Qed.

(** Programs without panics are those of C29. *)
Theorem C43_no_panics : forall keccak pr os ts xs, vrun keccak pr [] os = Ok (ts, xs) ->
  vxrun keccak pr [] (map Try os) = (ts, map Some xs).
Proof.
  intros keccak pr os. generalize (@nil node). induction os as [|o os IH]; intros ts0 ts xs E; cbn [vrun map vxrun] in *.
  - injection E as <- <-. reflexivity.
  - okbind E. destruct a as [ts1 x]. okbind E. destruct a as [ts2 xs2]. injection E as <- <-. cbn [vxstep]. rewrite E0.
    rewrite (IH _ _ _ E1). reflexivity.
Qed.
(** The effect of a call of [extend] that panics: the elements before some element, whose insert panics, are inserted. *)
Theorem C43_extend_prefix : forall pr t l, trie_extend pr t l = Panic ->
  exists l1 k v l2, l = l1 ++ (k, v) :: l2 /\ trie_extend pr t l1 = Ok (extend_until_panic pr t l) /\
                    trie_insert pr (extend_until_panic pr t l) k v = Panic.
Proof.
  intros pr t l. revert t. induction l as [|[k v] l IH]; intros t E; cbn [trie_extend extend_until_panic] in *; [discriminate|].
  destruct (trie_insert pr t k v) as [u|] eqn:Ei; cbn [bind] in *.
  - destruct (IH u E) as (l1 & k' & v' & l2 & -> & E1 & E2). exists ((k, v) :: l1), k', v', l2. cbn [app trie_extend]. rewrite Ei. auto.
  - exists [], k, v, l. auto.
Qed.

(** Threads that catch panics, on clones of the handles of such a program: in every interleaving no thread ends in a panic of
    its own, and each has observed what it would have observed alone, on plain values. *)
Definition xthread_pool keccak pr (jobs : list (list hnode * list xop)) (s : store) (n : N) : pool (list hnode * list (option obs)) :=
  Pool (map (fun job => hxrun keccak pr (fst job) (snd job)) jobs) s n.
Theorem C43_threads : forall keccak pr os hs xs s n jobs js j job,
  Forall (fun o => tame (use o)) os -> exec (hxrun keccak pr [] os) (fun _ => None) 0 = Ok ((hs, xs), s, n) ->
  Forall (fun job => incl (fst job) hs /\ Forall (fun o => tame (use o)) (snd job)) jobs -> nth_error jobs j = Some job ->
  exists p, nth_error (threads (sched_run (xthread_pool keccak pr jobs s n) js)) j = Some p /\ p <> Fail /\
  forall hs' xs', p = Ret (hs', xs') -> vxrun keccak pr (map erase (fst job)) (snd job) = (map erase hs', xs').
Proof.
  intros keccak pr os hs xs s n jobs js j job T Ex FJ Ej.
  destruct (hxrun_ok keccak pr (fun _ => Plain) os [] 0 no_ghost (fun _ => None) (inv_nil keccak pr _) keeps_nil (xtame_respects keccak pr os T []))
    as (hs1 & s1 & n1 & V & Ex1 & _ & I & Kp).
  rewrite Ex in Ex1. injection Ex1 as <- _ <- <-.
  set (Qs := fun (j : nat) (r : list hnode * list (option obs)) => exists job, nth_error jobs j = Some job /\
               vxrun keccak pr (map erase (fst job)) (snd job) = (map erase (fst r), snd r)).
  assert (P0 : pool_ok Qs (xthread_pool keccak pr jobs s n)).
  { exists V. cbn [xthread_pool next_cell cells threads]. split; [exact Kp|]. intros i p Ep. rewrite nth_error_map in Ep.
    destruct (nth_error jobs i) as [[hsi osi]|] eqn:Ei; [|discriminate]. cbn [option_map fst snd] in Ep. injection Ep as <-.
    rewrite Forall_forall in FJ. destruct (FJ _ (nth_error_In _ _ Ei)) as (Inc & Tm). cbn [fst snd] in *.
    eapply wp_conseq; [apply wp_hxrun; [eapply inv_clones; [exact I|exact Inc]|exact Tm]|]. cbn beta.
    intros r b' V' _ [R1 R2]. exists (hsi, osi). split; [exact Ei|]. cbn [fst snd]. rewrite R1, R2. apply surjective_pairing. }
  set (w := sched_run _ js). destruct (sched_run_ok Qs js _ P0) as (V' & _ & W). fold w in W.
  assert (L : length (threads w) = length jobs).
  { unfold w. rewrite sched_run_length. cbn [xthread_pool threads]. apply map_length. }
  destruct (nth_error (threads w) j) as [p|] eqn:Ep.
  - exists p. split; [reflexivity|]. specialize (W j p Ep). split; [intros ->; exact W|]. intros hs' xs' ->.
    cbn [wp] in W. destruct W as (job' & Ej' & Ev'). rewrite Ej in Ej'. injection Ej' as <-. exact Ev'.
  - exfalso. apply nth_error_None in Ep. assert (j < length jobs)%nat by (apply nth_error_Some; congruence). lia.
Qed.

(** A subset is changed where it has only hashes: insert, extend and delete panic; the rest works on. *)
Definition caught_ops : list xop :=
  [Try (New big_list); Try (Clone 0); Try (Subset 1 [K 4 0x1234]); Try (HashOf 2); Try (Insert 2 (K 4 0x5678) (Val [7])); Try (HashOf 2);
   Try (Extend 2 [(K 4 0x1235, Val [8]); (K 4 0x5678, Val [7]); (K 4 0x1236, Val [9])]); Try (Get 2 (K 4 0x1235)); Try (Get 2 (K 4 0x1236));
   Try (Delete 2 (K 4 0x5678)); CutShort 0 [(K 4 0x1235, Val [8])]; Try (HashOf 2); Try (HashOf 0); Try (HashOf 1)].
Definition caught_xs := Eval vm_compute in snd (vxrun keccak256 Debug [] caught_ops).
Example C43_example : Forall (fun o => tame (use o)) caught_ops /\ snd (vxrun keccak256 Debug [] caught_ops) = caught_xs /\
  exists h h', caught_xs = [Some Done; Some Done; Some Done; Some (Digest h); None; Some (Digest h); None; Some (Value (Some [8]));
    Some (Value None); None; None; Some (Digest h'); Some (Digest h'); Some (Digest h)] /\ h <> h'.
Proof.
  split; [repeat constructor; discriminate|]. split; [vm_compute; reflexivity|].
  exists (digest_of (nth 3 caught_xs None)), (digest_of (nth 11 caught_xs None)). split; [reflexivity|]. intro; discriminate.
Qed.
Example C43_uncloned_example :
  let os := [Try (New big_list); Try (Subset 0 []); Try (Insert 0 (K 4 0x1234) (HashV (big 1))); Try (Extend 0 [(K 4 0x5611, Val [7])]); Try (Delete 1 (K 4 0x1234))] in
  Forall (fun o => uncloned (use o)) os /\ no_extend_panics keccak256 Debug [] os /\
  snd (vxrun keccak256 Debug [] os) = [Some Done; Some Done; None; Some Done; None].
Proof. cbn zeta. split; [repeat constructor|]. split; vm_compute; repeat split. Qed.
(** One thread panics inside its subset again and again, the other hashes and changes its clone. *)
Definition caught_state := match exec (hxrun keccak256 Debug [] (firstn 3 caught_ops)) (fun _ => None) 0 with Ok r => r | Panic => (([], []), fun _ => None, 0) end.
Example C43_threads_example :
  let hs := fst (fst (fst caught_state)) in
  exec (hxrun keccak256 Debug [] (firstn 3 caught_ops)) (fun _ => None) 0 = Ok caught_state /\
  Forall (fun job => incl (fst job) hs /\ Forall (fun o => tame (use o)) (snd job))
    [(hs, [Try (Insert 2 (K 4 0x5678) (Val [7])); Try (HashOf 2)]); (hs, [Try (HashOf 0); Try (Insert 0 (K 4 0x5611) (Val [7])); Try (HashOf 0)])].
Proof.
  cbn zeta. split; [vm_compute; reflexivity|]. generalize (fst (fst (fst caught_state))). intros hs.
  constructor; [|constructor; [|constructor]]; (split; [apply incl_refl|repeat constructor; discriminate]).
Qed.
Print Assumptions C43_extend_refuted.
Print Assumptions C43_clones_partial.
Print Assumptions C43_uncloned_partial.
Print Assumptions C43_discipline_partial.
Print Assumptions C43_no_panics.
Print Assumptions C43_extend_prefix.
Print Assumptions C43_threads.
