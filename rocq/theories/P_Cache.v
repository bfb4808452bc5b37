(** Properties C29-C32: [HashedPartialTrie]. [keccak] is any function. A program of API calls is run once on plain values,
    where each hash is computed from the contents ([vrun]), and once with shared nodes and cached hashes ([start]). *)
From Verif Require Import Base Nibbles Trie Hashing Keccak Subset Cache CacheSpec CacheFacts CacheFacts2 CacheFacts3 CacheFacts4 P_Trie P_Hash.
Open Scope N_scope.

(** * C29: [hash()] is the hash of the contents *)
(** The claim "every program observes what it would observe without caches" fails: *)

Definition last_digest (xs : list obs) : list N := match last xs Done with Digest h => h | _ => [] end.

(** A clone is changed, then a subset without keys is made from it; the original then has the hash of the clone. *)
Definition bad_clone : list op := [New big_list; Clone 0; Insert 1 (K 4 0x1299) (Val (big 9)); Subset 1 []; HashOf 0].
Definition clone_ts := Eval vm_compute in match vrun keccak256 Debug [] bad_clone with Ok (ts, _) => ts | Panic => [] end.
Definition clone_hs := Eval vm_compute in match start keccak256 Debug bad_clone with Ok (hs, _) => hs | Panic => [] end.
Definition clone_xs := Eval vm_compute in match vrun keccak256 Debug [] bad_clone with Ok (_, xs) => xs | Panic => [] end.
Definition clone_xs' := Eval vm_compute in match start keccak256 Debug bad_clone with Ok (_, xs) => xs | Panic => [] end.
Theorem C29_clone_refuted : forall pr, exists ts xs hs xs' h h',
  vrun keccak256 pr [] bad_clone = Ok (ts, xs ++ [Digest h]) /\
  start keccak256 pr bad_clone = Ok (hs, xs' ++ [Digest h']) /\ h' <> h /\
  nth_error ts 1 = Some (erase (nth 1 hs (HEmpty 0))) /\ hash_trie keccak256 pr (nth 1 ts Empty) = Ok h'.
Proof.
  intros pr.
  exists clone_ts, (removelast clone_xs), clone_hs, (removelast clone_xs'), (last_digest clone_xs), (last_digest clone_xs').
  destruct pr; repeat match goal with |- _ /\ _ => split end; vm_compute; try reflexivity; intro; discriminate.
Qed.

(** A node is taken out of a trie and changed, then the trie is hashed; the changed node then has its old hash. *)
Definition bad_subtrie : list op := [New big_list; SubTrie 0 [5%nat]; Insert 1 (K 3 0x611) (Val (big 9)); HashOf 0; HashOf 1].
Definition subtrie_ts := Eval vm_compute in match vrun keccak256 Debug [] bad_subtrie with Ok (ts, _) => ts | Panic => [] end.
Definition subtrie_hs := Eval vm_compute in match start keccak256 Debug bad_subtrie with Ok (hs, _) => hs | Panic => [] end.
Definition subtrie_xs := Eval vm_compute in match vrun keccak256 Debug [] bad_subtrie with Ok (_, xs) => xs | Panic => [] end.
Definition subtrie_xs' := Eval vm_compute in match start keccak256 Debug bad_subtrie with Ok (_, xs) => xs | Panic => [] end.
Theorem C29_subtrie_refuted : forall pr, exists ts xs hs xs' h h',
  vrun keccak256 pr [] bad_subtrie = Ok (ts, xs ++ [Digest h]) /\
  start keccak256 pr bad_subtrie = Ok (hs, xs' ++ [Digest h']) /\ h' <> h /\ map erase hs = ts.
Proof.
  intros pr.
  exists subtrie_ts, (removelast subtrie_xs), subtrie_hs, (removelast subtrie_xs'), (last_digest subtrie_xs), (last_digest subtrie_xs').
  destruct pr; repeat match goal with |- _ /\ _ => split end; vm_compute; try reflexivity; intro; discriminate.
Qed.

(** The node of a handle is assigned through [DerefMut] after a subset without keys was made from it. *)
Definition bad_assign : list op := [New big_list; New []; Subset 0 []; Assign 0 1; HashOf 0].
Definition assign_ts := Eval vm_compute in match vrun keccak256 Debug [] bad_assign with Ok (ts, _) => ts | Panic => [] end.
Definition assign_hs := Eval vm_compute in match start keccak256 Debug bad_assign with Ok (hs, _) => hs | Panic => [] end.
Definition assign_xs := Eval vm_compute in match vrun keccak256 Debug [] bad_assign with Ok (_, xs) => xs | Panic => [] end.
Definition assign_xs' := Eval vm_compute in match start keccak256 Debug bad_assign with Ok (_, xs) => xs | Panic => [] end.
Theorem C29_assign_refuted : forall pr, exists ts xs hs xs' h h',
  vrun keccak256 pr [] bad_assign = Ok (ts, xs ++ [Digest h]) /\
  start keccak256 pr bad_assign = Ok (hs, xs' ++ [Digest h']) /\ h' <> h /\ map erase hs = ts.
Proof.
  intros pr.
  exists assign_ts, (removelast assign_xs), assign_hs, (removelast assign_xs'), (last_digest assign_xs), (last_digest assign_xs').
  destruct pr; repeat match goal with |- _ /\ _ => split end; vm_compute; try reflexivity; intro; discriminate.
Qed.

(** A handle becomes the child of a node made by hand, is then changed, the node is hashed; the handle then has its old hash. *)
Definition bad_make : list op := [New big_list; Make (MExtension (K 1 5) 0); Insert 0 (K 4 0x5611) (Val (big 9)); HashOf 1; HashOf 0].
Definition make_ts := Eval vm_compute in match vrun keccak256 Debug [] bad_make with Ok (ts, _) => ts | Panic => [] end.
Definition make_hs := Eval vm_compute in match start keccak256 Debug bad_make with Ok (hs, _) => hs | Panic => [] end.
Definition make_xs := Eval vm_compute in match vrun keccak256 Debug [] bad_make with Ok (_, xs) => xs | Panic => [] end.
Definition make_xs' := Eval vm_compute in match start keccak256 Debug bad_make with Ok (_, xs) => xs | Panic => [] end.
Theorem C29_make_refuted : forall pr, exists ts xs hs xs' h h',
  vrun keccak256 pr [] bad_make = Ok (ts, xs ++ [Digest h]) /\
  start keccak256 pr bad_make = Ok (hs, xs' ++ [Digest h']) /\ h' <> h /\ map erase hs = ts.
Proof.
  intros pr.
  exists make_ts, (removelast make_xs), make_hs, (removelast make_xs'), (last_digest make_xs), (last_digest make_xs').
  destruct pr; repeat match goal with |- _ /\ _ => split end; vm_compute; try reflexivity; intro; discriminate.
Qed.

(** Without handles for inner nodes or handles that become children, and without subsets for no keys, every program observes the hashes of the contents:
    any number of clones and assignments, on any of which inserts, deletes, hashes and subsets happen in any order. *)
Theorem C29_clones_partial : forall keccak pr os ts xs,
  Forall tame os -> vrun keccak pr [] os = Ok (ts, xs) ->
  exists hs, start keccak pr os = Ok (hs, xs) /\ map erase hs = ts.
Proof.
  intros keccak pr os ts xs T E. apply (start_ok keccak pr (fun _ => Plain)); [|exact E].
  apply (respects_all keccak pr _ tame); [apply tame_legal|exact T].
Qed.

(** Without clones, handles for inner nodes and assignments: any inserts, deletes, hashes and subsets. *)
Theorem C29_uncloned_partial : forall keccak pr os ts xs,
  Forall uncloned os -> vrun keccak pr [] os = Ok (ts, xs) ->
  exists hs, start keccak pr os = Ok (hs, xs) /\ map erase hs = ts.
Proof.
  intros keccak pr os ts xs T E. apply (start_ok keccak pr (fun _ => Single)); [|exact E].
  apply (respects_all keccak pr _ uncloned); [apply uncloned_legal|exact T].
Qed.

(** The general form: a discipline for each handle. *)
Theorem C29_discipline_partial : forall keccak pr K os ts xs,
  respects keccak pr K [] os -> vrun keccak pr [] os = Ok (ts, xs) ->
  exists hs, start keccak pr os = Ok (hs, xs) /\ map erase hs = ts.
Proof. intros keccak pr K os ts xs. apply start_ok. Qed.

Definition good_ops : list op :=
  [New big_list; Clone 0; HashOf 0; Insert 1 (K 4 0x5611) (Val [7]); HashOf 1; Subset 1 [K 4 0x1234]; Delete 0 (K 4 0x5678);
   HashOf 0; HashOf 1; HashOf 2; Assign 2 0; Equal 0 2; HashOf 2; Get 1 (K 4 0x5678)].
Definition good_xs := Eval vm_compute in match vrun keccak256 Debug [] good_ops with Ok (_, xs) => xs | Panic => [] end.
Definition good_ts := Eval vm_compute in match vrun keccak256 Debug [] good_ops with Ok (ts, _) => ts | Panic => [] end.
Example C29_example : Forall tame good_ops /\ vrun keccak256 Debug [] good_ops = Ok (good_ts, good_xs) /\
  exists h1 h2 h3, good_xs = [Done; Done; Digest h1; Done; Digest h2; Done; Value (Some (big 2)); Digest h3;
        Digest h2; Digest h2; Done; Answer true; Digest h3; Value (Some (big 2))] /\ h1 <> h2 /\ h1 <> h3 /\ h2 <> h3.
Proof.
  split; [repeat constructor; discriminate|]. split; [vm_compute; reflexivity|].
  exists (last_digest (firstn 3 good_xs)), (last_digest (firstn 5 good_xs)), (last_digest (firstn 8 good_xs)).
  split; [reflexivity|]. repeat split; intro; discriminate.
Qed.
Definition good_uncloned : list op := [New big_list; Subset 0 []; HashOf 0; Insert 0 (K 4 0x5611) (Val [7]); HashOf 0; HashOf 1; Subsets 0 [[]; [K 4 0x1234]]].
Definition good_uncloned_r := Eval vm_compute in match vrun keccak256 Debug [] good_uncloned with Ok r => r | Panic => ([], []) end.
Example C29_uncloned_example : Forall uncloned good_uncloned /\ exists r, vrun keccak256 Debug [] good_uncloned = Ok r.
Proof.
  split; [repeat constructor|].
  exists good_uncloned_r. vm_compute. reflexivity.
Qed.
(** Handle 0 is plain, 1 and 2 are views of an inner node of it, 3 may be hashed as a whole. *)
Definition good_mixed : list op :=
  [New big_list; SubTrie 0 [5%nat]; Clone 1; New big_list; Insert 0 (K 4 0x5611) (Val [7]); HashOf 0; HashOf 1; Subset 2 []; Subset 3 []; Delete 3 (K 4 0x1234); HashOf 3; HashOf 2].
Definition mixed_kind (i : nat) : kind := match i with 1 | 2 => View | 3 => Single | _ => Plain end%nat.
Definition good_mixed_r := Eval vm_compute in match vrun keccak256 Debug [] good_mixed with Ok r => r | Panic => ([], []) end.
Example C29_discipline_example : respects keccak256 Debug mixed_kind [] good_mixed /\ exists r, vrun keccak256 Debug [] good_mixed = Ok r.
Proof.
  split.
  - vm_compute. repeat split; intros; discriminate.
  - exists good_mixed_r. vm_compute. reflexivity.
Qed.

(** Handles 0 and 1 become the children of a branch made by hand, which is then changed and hashed; 2 is a plain trie, and 5 a leaf
    made by hand that grows. *)
Definition good_make : list op :=
  [New big_list; Make MEmpty; New big_list; Make (MBranch [1; 1; 0; 1; 1; 1; 1; 1; 1; 0; 1; 1; 1; 1; 1; 1]%nat []); HashOf 3;
   Make (MLeaf (K 3 0x777) (big 1)); Insert 3 (K 5 0x25611) (Val [7]); Insert 4 (K 3 0x711) (Val [3]); HashOf 3; HashOf 0; HashOf 2; Delete 3 (K 5 0x91234);
   HashOf 3; HashOf 4; Equal 0 2; Clone 3; Insert 5 (K 1 1) (Val [1]); HashOf 5; HashOf 3].
Definition make_kind (i : nat) : kind := match i with 0 | 1 => View | _ => Plain end%nat.
Definition good_make_r := Eval vm_compute in match vrun keccak256 Debug [] good_make with Ok r => r | Panic => ([], []) end.
Example C29_make_example : respects keccak256 Debug make_kind [] good_make /\ vrun keccak256 Debug [] good_make = Ok good_make_r /\
  length (fst good_make_r) = 6%nat.
Proof.
  split; [|split; vm_compute; reflexivity].
  vm_compute. repeat split; try (intros; discriminate); intros i H;
    repeat (destruct H as [<-|H]; [reflexivity|]); destruct H.
Qed.

(** * C30: threads *)
(** A program [os] runs first. Then any number of threads start, each with clones of some of its handles ([incl]), and run
    programs of their own, which succeed on plain values. In every interleaving no thread fails, and a thread that is done has
    observed what it would have observed alone, on plain values. *)
Definition thread_jobs keccak pr (P : op -> Prop) (hs : list hnode) (jobs : list (list hnode * list op)) : Prop :=
  Forall (fun job => incl (fst job) hs /\ Forall P (snd job) /\ exists r, vrun keccak pr (map erase (fst job)) (snd job) = Ok r) jobs.
Definition thread_pool keccak pr (jobs : list (list hnode * list op)) (s : store) (n : N) : pool (list hnode * list obs) :=
  Pool (map (fun job => hrun keccak pr (fst job) (snd job)) jobs) s n.

Lemma threads_ok keccak pr (jobs : list (list hnode * list op)) s n V js :
  keeps n V s ->
  Forall (fun job => exists r, vrun keccak pr (map erase (fst job)) (snd job) = Ok r /\
    wp (hrun keccak pr (fst job) (snd job)) n V (fun x _ _ => map erase (fst x) = fst r /\ snd x = snd r)) jobs ->
  forall j job, nth_error jobs j = Some job ->
  exists p, nth_error (threads (sched_run (thread_pool keccak pr jobs s n) js)) j = Some p /\ p <> Fail /\
  forall hs' xs', p = Ret (hs', xs') -> vrun keccak pr (map erase (fst job)) (snd job) = Ok (map erase hs', xs').
Proof.
  intros Kp FJ j job Ej. set (w := sched_run _ js).
  set (Qs := fun (j : nat) (r : list hnode * list obs) => exists job, nth_error jobs j = Some job /\
               vrun keccak pr (map erase (fst job)) (snd job) = Ok (map erase (fst r), snd r)).
  assert (P0 : pool_ok Qs (thread_pool keccak pr jobs s n)).
  { exists V. cbn [thread_pool next_cell cells threads]. split; [exact Kp|]. intros i p Ep. rewrite nth_error_map in Ep.
    destruct (nth_error jobs i) as [[hsi osi]|] eqn:Ei; [|discriminate]. cbn [option_map fst snd] in Ep. injection Ep as <-.
    rewrite Forall_forall in FJ. destruct (FJ _ (nth_error_In _ _ Ei)) as ([tsi xsi] & Evi & W). cbn [fst snd] in *.
    eapply wp_conseq; [exact W|]. intros r b' V' _ [R1 R2]. exists (hsi, osi). split; [exact Ei|]. cbn [fst snd]. rewrite R1, R2. exact Evi. }
  destruct (sched_run_ok Qs js _ P0) as (V' & _ & W). fold w in W.
  assert (L : length (threads w) = length jobs).
  { unfold w. rewrite sched_run_length. cbn [thread_pool threads]. apply map_length. }
  destruct (nth_error (threads w) j) as [p|] eqn:Ep.
  - exists p. split; [reflexivity|]. specialize (W j p Ep). split; [intros ->; exact W|]. intros hs' xs' ->.
    cbn [wp] in W. destruct W as (job' & Ej' & Ev'). rewrite Ej in Ej'. injection Ej' as <-. exact Ev'.
  - exfalso. apply nth_error_None in Ep. assert (j < length jobs)%nat by (apply nth_error_Some; congruence). lia.
Qed.

(** Threads that insert, delete, make subsets, clone, compare and hash, on clones of the handles of a tame program. *)
Theorem C30_threads : forall keccak pr os ts xs hs s n jobs js j job,
  Forall tame os -> vrun keccak pr [] os = Ok (ts, xs) ->
  exec (hrun keccak pr [] os) (fun _ => None) 0 = Ok ((hs, xs), s, n) ->
  thread_jobs keccak pr tame hs jobs -> nth_error jobs j = Some job ->
  exists p, nth_error (threads (sched_run (thread_pool keccak pr jobs s n) js)) j = Some p /\ p <> Fail /\
  forall hs' xs', p = Ret (hs', xs') -> vrun keccak pr (map erase (fst job)) (snd job) = Ok (map erase hs', xs').
Proof.
  intros keccak pr os ts xs hs s n jobs js j job T E Ex FJ Ej.
  destruct (tame_state keccak pr os ts xs T E) as (hs1 & s1 & n1 & V & Ex1 & _ & I & Kp).
  rewrite Ex in Ex1. injection Ex1 as <- <- <-.
  apply (threads_ok keccak pr jobs s n V js Kp); [|exact Ej]. eapply Forall_impl; [|exact FJ].
  intros [hsi osi] (Inc & Tm & [[tsi xsi] Evi]). cbn [fst snd] in *. exists (tsi, xsi). split; [exact Evi|].
  apply wp_hrun; [eapply inv_clones; eauto|exact Tm|exact Evi].
Qed.

(** Threads that hash, compare, clone and look up, on clones of the handles of any program that keeps to the discipline of C29;
    they share inner nodes and roots of all kinds. *)
Theorem C30_readers : forall keccak pr K os ts xs hs s n jobs js j job,
  respects keccak pr K [] os -> vrun keccak pr [] os = Ok (ts, xs) ->
  exec (hrun keccak pr [] os) (fun _ => None) 0 = Ok ((hs, xs), s, n) ->
  thread_jobs keccak pr reader hs jobs -> nth_error jobs j = Some job ->
  exists p, nth_error (threads (sched_run (thread_pool keccak pr jobs s n) js)) j = Some p /\ p <> Fail /\
  forall hs' xs', p = Ret (hs', xs') -> vrun keccak pr (map erase (fst job)) (snd job) = Ok (map erase hs', xs').
Proof.
  intros keccak pr K os ts xs hs s n jobs js j job R E Ex FJ Ej.
  destruct (hrun_ok keccak pr K os [] ts xs 0 no_ghost (fun _ => None) (inv_nil keccak pr K) keeps_nil R E) as (hs1 & s1 & n1 & V & Ex1 & _ & I & Kp).
  rewrite Ex in Ex1. injection Ex1 as <- <- <-. apply inv_handles in I.
  apply (threads_ok keccak pr jobs s n V js Kp); [|exact Ej]. eapply Forall_impl; [|exact FJ].
  intros [hsi osi] (Inc & Tm & [[tsi xsi] Evi]). cbn [fst snd] in *. exists (tsi, xsi). split; [exact Evi|].
  apply wp_readers; [|exact Tm|exact Evi]. apply Forall_forall. intros t Ht. rewrite Forall_forall in I. apply I, Inc, Ht.
Qed.

(** A thread that gets its turn again and again is done at some time: no thread waits for another. Any program, any state. *)
Theorem C30_finishes : forall keccak pr jobs s n (sched : nat -> nat) j job,
  nth_error jobs j = Some job -> (forall m, exists m', (m <= m')%nat /\ sched m' = j) ->
  exists m p, nth_error (threads (states (thread_pool keccak pr jobs s n) sched m)) j = Some p /\ (p = Fail \/ exists r, p = Ret r).
Proof.
  intros keccak pr jobs s n sched j job Ej Fair.
  assert (E0 : nth_error (threads (states (thread_pool keccak pr jobs s n) sched 0)) j = Some (hrun keccak pr (fst job) (snd job))).
  { unfold states. cbn [seq map sched_run fold_left thread_pool threads]. rewrite nth_error_map, Ej. reflexivity. }
  destruct (thread_finishes _ sched j _ Fair 0 E0) as (m & q & _ & Eq & Fq).
  exists m, q. split; [exact Eq|]. destruct q; try contradiction; eauto.
Qed.

(** Both together: with a fair schedule every thread ends, with the right observations. *)
Theorem C30_fair : forall keccak pr os ts xs hs s n jobs (sched : nat -> nat) j job,
  Forall tame os -> vrun keccak pr [] os = Ok (ts, xs) ->
  exec (hrun keccak pr [] os) (fun _ => None) 0 = Ok ((hs, xs), s, n) ->
  thread_jobs keccak pr tame hs jobs -> nth_error jobs j = Some job ->
  (forall m, exists m', (m <= m')%nat /\ sched m' = j) ->
  exists m hs' xs', nth_error (threads (states (thread_pool keccak pr jobs s n) sched m)) j = Some (Ret (hs', xs')) /\
                    vrun keccak pr (map erase (fst job)) (snd job) = Ok (map erase hs', xs').
Proof.
  intros keccak pr os ts xs hs s n jobs sched j job T E Ex FJ Ej Fair.
  destruct (C30_finishes keccak pr jobs s n sched j job Ej Fair) as (m & p & Ep & D).
  destruct (C30_threads keccak pr os ts xs hs s n jobs (map sched (seq 0 m)) j job T E Ex FJ Ej) as (p' & Ep' & NF & RT).
  change (sched_run _ (map sched (seq 0 m))) with (states (thread_pool keccak pr jobs s n) sched m) in Ep'. rewrite Ep in Ep'. injection Ep' as <-.
  destruct D as [->|[[hs' xs'] ->]]; [contradiction|]. exists m, hs', xs'. auto.
Qed.

(** The shared trie and two clones of it; one thread hashes, one inserts and hashes, one deletes, hashes and makes a subset. *)
Definition ex_jobs (hs : list hnode) : list (list hnode * list op) :=
  [(hs, [HashOf 0; HashOf 1]); (hs, [Insert 0 (K 4 0x5611) (Val [7]); HashOf 0; HashOf 1]);
   (hs, [Delete 0 (K 4 0x5678); Subset 0 [K 4 0x5699]; HashOf 0; HashOf 2])].
Definition ex_start : list op := [New big_list; Clone 0].
Definition ex_state := match exec (hrun keccak256 Debug [] ex_start) (fun _ => None) 0 with Ok r => r | Panic => (([], []), fun _ => None, 0) end.
Ltac runs := match goal with |- exists r, ?e = Ok r => exists (match e with Ok r => r | Panic => ([], []) end); vm_compute; reflexivity end.
Example C30_example : Forall tame ex_start /\
  exec (hrun keccak256 Debug [] ex_start) (fun _ => None) 0 = Ok ex_state /\
  thread_jobs keccak256 Debug tame (fst (fst (fst ex_state))) (ex_jobs (fst (fst (fst ex_state)))).
Proof.
  split; [repeat constructor|]. split; [reflexivity|].
  constructor; [|constructor; [|constructor; [|constructor]]]; (split; [apply incl_refl|]; split; [repeat constructor; discriminate|]; cbn [fst snd]; runs).
Qed.
Example C30_readers_example :
  thread_jobs keccak256 Debug reader (fst (fst (fst ex_state)))
    [(fst (fst (fst ex_state)), [SubTrie 0 [5%nat]; HashOf 2; HashOf 0]); (fst (fst (fst ex_state)), [HashOf 1; Equal 0 1; HashOf 0])].
Proof.
  constructor; [|constructor; [|constructor]]; (split; [apply incl_refl|]; split; [repeat constructor|]; cbn [fst snd]; runs).
Qed.

(** * C31: equality *)
(** [==] of [HashedPartialTrie] and of [StandardTrie] is equality of the nodes. The cells [cell] do not matter. *)
Theorem C31_equal_iff : forall a b, heqb a b = true <-> erase a = erase b.
Proof. intros a b. rewrite heqb_erase. apply node_eqb_spec. Qed.
Theorem C31_standard_equal_iff : forall a b, node_eqb a b = true <-> a = b.
Proof. intros a b. apply node_eqb_spec. Qed.
Theorem C31_equivalence :
  (forall a, heqb a a = true) /\ (forall a b, heqb a b = true -> heqb b a = true) /\
  (forall a b c, heqb a b = true -> heqb b c = true -> heqb a c = true).
Proof.
  repeat split.
  - intros a. apply C31_equal_iff. reflexivity.
  - intros a b H. apply C31_equal_iff. symmetry. apply C31_equal_iff, H.
  - intros a b c H1 H2. apply C31_equal_iff. transitivity (erase b); apply C31_equal_iff; assumption.
Qed.
(** In every program that keeps to the discipline: handles that compare equal have the same hash. *)
Theorem C31_equal_hashes : forall keccak pr K os i j hs xs h h' ts xs',
  respects keccak pr K [] (os ++ [Equal i j; HashOf i; HashOf j]) ->
  vrun keccak pr [] (os ++ [Equal i j; HashOf i; HashOf j]) = Ok (ts, xs') ->
  start keccak pr (os ++ [Equal i j; HashOf i; HashOf j]) = Ok (hs, xs ++ [Answer true; Digest h; Digest h']) -> h = h'.
Proof.
  intros keccak pr K os i j hs xs h h' ts xs' R E S. destruct (start_ok keccak pr K _ ts xs' R E) as (hs1 & S1 & _).
  rewrite S in S1. injection S1 as _ <-. clear S R hs hs1.
  assert (G : forall os ts0 xs, vrun keccak pr ts0 (os ++ [Equal i j; HashOf i; HashOf j]) = Ok (ts, xs ++ [Answer true; Digest h; Digest h']) -> h = h').
  { clear. induction os as [|o os IH]; intros ts0 xs E.
    - cbn [app vrun vstep] in E. destruct (the ts0 i) as [a|] eqn:Ea; [|discriminate]. cbn [bind] in E.
      destruct (the ts0 j) as [b|] eqn:Eb; [|discriminate]. cbn [bind] in E. rewrite Ea in E. cbn [bind] in E.
      destruct (hash_trie keccak pr a) as [h1|] eqn:H1; [|discriminate]. cbn [bind] in E. rewrite Eb in E. cbn [bind] in E.
      destruct (hash_trie keccak pr b) as [h2|] eqn:H2; [|discriminate]. cbn [bind] in E. injection E as _ E.
      destruct xs as [|x [|y [|z [|u xs]]]]; cbn [app] in E; try discriminate. injection E as E <- <-.
      apply node_eqb_spec in E. subst b. congruence.
    - cbn [app vrun] in E. destruct (vstep keccak pr ts0 o) as [[ts1 x]|]; [|discriminate]. cbn [bind] in E.
      destruct (vrun keccak pr ts1 (os ++ [Equal i j; HashOf i; HashOf j])) as [[ts2 xs2]|] eqn:E2; [|discriminate]. cbn [bind] in E.
      injection E as -> E. destruct xs as [|x0 xs].
      + exfalso. cbn [app] in E. injection E as _ E. subst xs2. clear - E2.
        assert (L : forall os ts0 xs, vrun keccak pr ts0 os = Ok (ts, xs) -> length xs = length os).
        { clear. induction os as [|o os IH]; intros ts0 xs E; cbn [vrun] in E; [injection E as _ <-; reflexivity|].
          destruct (vstep keccak pr ts0 o) as [[ts1 x]|]; [|discriminate]. cbn [bind] in E.
          destruct (vrun keccak pr ts1 os) as [[ts2 xs2]|] eqn:E2; [|discriminate]. cbn [bind] in E. injection E as -> <-.
          cbn [length]. rewrite (IH _ _ E2). reflexivity. }
        apply L in E2. rewrite app_length in E2. cbn [length] in E2. lia.
      + cbn [app] in E. injection E as _ ->. eapply IH, E2. }
  exact (G os [] xs E).
Qed.
Example C31_example : exists a b, a <> b /\ heqb a b = true /\ heqb a (HEmpty 0) = false.
Proof. exists (HLeaf 3 (K 2 0x12) [1]), (HLeaf 4 (K 2 0x12) [1]). repeat split. intro E. discriminate E. Qed.
Definition ex_eq : list op := [New big_list; New (rev big_list)] ++ [Equal 0 1; HashOf 0; HashOf 1].
Definition ex_eq_hs := Eval vm_compute in match start keccak256 Debug ex_eq with Ok (hs, _) => hs | Panic => [] end.
Definition ex_eq_h := Eval vm_compute in match start keccak256 Debug ex_eq with Ok (_, xs) => last_digest xs | Panic => [] end.
Example C31_hash_example : Forall tame ex_eq /\
  start keccak256 Debug ex_eq = Ok (ex_eq_hs, [Done; Done] ++ [Answer true; Digest ex_eq_h; Digest ex_eq_h]).
Proof. split; [repeat constructor|]. vm_compute. reflexivity. Qed.

(** * C32: handles do not see each other's changes *)
(** Whatever operations run, whatever is cached: a handle that is not itself changed keeps its trie, node by node. *)
Theorem C32_unchanged : forall keccak pr os hs s n hs' xs s' n' j t,
  exec (hrun keccak pr hs os) s n = Ok ((hs', xs), s', n') -> nth_error hs j = Some t ->
  Forall (fun o => written o <> Some j) os -> nth_error hs' j = Some t.
Proof. intros keccak pr os hs s n hs' xs s' n' j t. apply frame_run. Qed.

(** All contents and all observations but hashes are those of independent values, for programs with any clones, assignments,
    handles for inner nodes and hashes, whether or not the cached hashes are right. *)
Theorem C32_contents : forall keccak pr os ts xs,
  Forall hash_free os -> vrun keccak pr [] os = Ok (ts, xs) ->
  exists hs xs', start keccak pr os = Ok (hs, xs') /\ map erase hs = ts /\ Forall2 same_but_digest xs' xs.
Proof.
  intros keccak pr os ts xs NS E.
  destruct (contents_run keccak pr os [] ts xs (fun _ => None) 0 NS (Forall_nil _) (fun _ _ => eq_refl) E) as (hs & xs' & s & n & Ex & M & S).
  exists hs, xs'. unfold start. rewrite Ex. auto.
Qed.
Definition ex_sharing : list op := [New big_list; Clone 0; SubTrie 0 [5%nat]; Insert 1 (K 4 0x5611) (Val [7]); Delete 0 (K 4 0x1234);
  Insert 2 (K 3 0x611) (Val [8]); HashOf 2; HashOf 0; HashOf 2; Get 0 (K 4 0x5611); Get 1 (K 4 0x1234); Get 1 (K 4 0x5611); Get 2 (K 3 0x611)].
Example C32_example : Forall hash_free ex_sharing /\
  rmap (fun r => skipn 9 (snd r)) (vrun keccak256 Debug [] ex_sharing) = Ok [Value None; Value (Some (big 1)); Value (Some [7]); Value (Some [8])].
Proof. split; [repeat constructor|vm_compute; reflexivity]. Qed.
Print Assumptions C29_clone_refuted.
Print Assumptions C29_subtrie_refuted.
Print Assumptions C29_make_refuted.
Print Assumptions C29_assign_refuted.
Print Assumptions C29_clones_partial.
Print Assumptions C29_uncloned_partial.
Print Assumptions C29_discipline_partial.
Print Assumptions C30_threads.
Print Assumptions C30_readers.
Print Assumptions C30_finishes.
Print Assumptions C30_fair.
Print Assumptions C31_equal_iff.
Print Assumptions C31_standard_equal_iff.
Print Assumptions C31_equivalence.
Print Assumptions C31_equal_hashes.
Print Assumptions C32_unchanged.
Print Assumptions C32_contents.
