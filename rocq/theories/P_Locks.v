(** Property C51: the locks of the cells. Statements and examples; the proofs are in LocksFacts.v. *)
From Verif Require Import Base Nibbles Trie Rlp Hashing Keccak Cache Query Diff DiffCache Subset CacheSpec Locks LocksFacts Caught CaughtFacts P_Trie P_Cache P_Caught.
Open Scope N_scope.

(** Any number of threads, each with any handles and any program over the API. [refuses] is the rule by which the lock keeps readers
    waiting for writers that wait; [js] is the order in which the threads try to make their steps. *)
Definition ljobs keccak pr (jobs : list (list hnode * list op)) (s : store) (n : N) : lpool (list hnode * list obs) :=
  lstart (thread_pool keccak pr jobs s n).

Lemma ljobs_inv keccak pr jobs s n refuses js :
  exists js', linv (lsched_run refuses (ljobs keccak pr jobs s n) js) (sched_run (thread_pool keccak pr jobs s n) js').
Proof. apply lrun_inv, lstart_inv. Qed.

(** No data races: while a thread writes a cell no other thread reads or writes it. *)
Theorem C51_no_races : forall keccak pr jobs s n refuses js i j p q c,
  i <> j ->
  nth_error (lthreads (lsched_run refuses (ljobs keccak pr jobs s n) js)) i = Some p ->
  nth_error (lthreads (lsched_run refuses (ljobs keccak pr jobs s n) js)) j = Some q ->
  about_to_write p c -> ~ about_to_read q c /\ ~ about_to_write q c.
Proof.
  intros keccak pr jobs s n refuses js i j p q c N Ei Ej W. destruct (ljobs_inv keccak pr jobs s n refuses js) as [js' I].
  exact (no_race _ _ _ _ _ _ _ I N Ei Ej W).
Qed.

(** No deadlock: as long as a thread has not ended, some thread can make a step. *)
Theorem C51_no_deadlock : forall keccak pr jobs s n refuses js,
  polite refuses ->
  (exists j p, nth_error (lthreads (lsched_run refuses (ljobs keccak pr jobs s n) js)) j = Some p /\ ~ lfinished p) ->
  exists j w, lsched_try refuses (lsched_run refuses (ljobs keccak pr jobs s n) js) j = Some w.
Proof.
  intros keccak pr jobs s n refuses js Po U. destruct (ljobs_inv keccak pr jobs s n refuses js) as [js' I].
  exact (someone_steps _ _ _ Po I U).
Qed.

(** No endless run, from any state: threads cannot keep each other busy for ever. *)
Theorem C51_no_livelock : forall refuses (w : nat -> lpool (list hnode * list obs)),
  ~ forall m, exists j, lsched_try refuses (w m) j = Some (w (S m)).
Proof.
  intros refuses w H.
  assert (forall l, Acc shrinks l -> forall m, lthreads (w m) = l -> False) as X.
  { intros l Al. induction Al as [l _ IH]. intros m E. destruct (H m) as [j T]. apply (IH (lthreads (w (S m)))) with (m := S m); [|reflexivity].
    rewrite <- E. exact (try_shrinks _ _ _ _ T). }
  exact (X _ (shrinks_wf _) 0%nat eq_refl).
Qed.

(** Every thread ends, if each gets its turn again and again. *)
Theorem C51_ends : forall keccak pr jobs s n refuses (sched : nat -> nat),
  polite refuses -> (forall j m, (j < length jobs)%nat -> exists m', (m <= m')%nat /\ sched m' = j) ->
  exists m, forall j p, nth_error (lthreads (lstates refuses (ljobs keccak pr jobs s n) sched m)) j = Some p -> lfinished p.
Proof.
  intros keccak pr jobs s n refuses sched Po Fair. eapply lfair_ends; [exact Po|apply shrinks_wf|reflexivity|apply lstart_inv|].
  intros j m L. apply Fair. cbn [ljobs lstart lthreads thread_pool threads] in L. rewrite !map_length in L. exact L.
Qed.

(** The results, as in C30: threads that insert, delete, make subsets, clone, compare and hash, on clones of the handles of a tame
    program. No thread panics, and one that is done has observed what it would have observed alone, on plain values. *)
Theorem C51_results : forall keccak pr os ts xs hs s n jobs refuses js j job,
  Forall tame os -> vrun keccak pr [] os = Ok (ts, xs) ->
  exec (hrun keccak pr [] os) (fun _ => None) 0 = Ok ((hs, xs), s, n) ->
  thread_jobs keccak pr tame hs jobs -> nth_error jobs j = Some job ->
  exists p, nth_error (lthreads (lsched_run refuses (ljobs keccak pr jobs s n) js)) j = Some p /\ p <> LFail /\
  forall hs' xs', p = LRet (hs', xs') -> vrun keccak pr (map erase (fst job)) (snd job) = Ok (map erase hs', xs').
Proof.
  intros keccak pr os ts xs hs s n jobs refuses js j job T E Ex FJ Ej.
  destruct (ljobs_inv keccak pr jobs s n refuses js) as [js' (F & _)].
  destruct (C30_threads keccak pr os ts xs hs s n jobs js' j job T E Ex FJ Ej) as (p & Ep & NF & R).
  destruct (Forall2_nth' _ _ _ F j p Ep) as (lp & El & Ph). exists lp. split; [exact El|].
  inversion Ph; subst; try (split; [discriminate|intros; discriminate]).
  destruct p; cbn [locked]; try (split; [discriminate|intros; discriminate]); [|contradiction].
  split; [discriminate|]. intros hs' xs' Eq. apply R. congruence.
Qed.

(** Both together. *)
Theorem C51_fair : forall keccak pr os ts xs hs s n jobs refuses (sched : nat -> nat),
  Forall tame os -> vrun keccak pr [] os = Ok (ts, xs) ->
  exec (hrun keccak pr [] os) (fun _ => None) 0 = Ok ((hs, xs), s, n) ->
  thread_jobs keccak pr tame hs jobs -> polite refuses ->
  (forall j m, (j < length jobs)%nat -> exists m', (m <= m')%nat /\ sched m' = j) ->
  exists m, forall j job, nth_error jobs j = Some job ->
  exists hs' xs', nth_error (lthreads (lstates refuses (ljobs keccak pr jobs s n) sched m)) j = Some (LRet (hs', xs')) /\
                  vrun keccak pr (map erase (fst job)) (snd job) = Ok (map erase hs', xs').
Proof.
  intros keccak pr os ts xs hs s n jobs refuses sched T E Ex FJ Po Fair.
  destruct (C51_ends keccak pr jobs s n refuses sched Po Fair) as [m D]. exists m. intros j job Ej.
  destruct (C51_results keccak pr os ts xs hs s n jobs refuses (map sched (seq 0 m)) j job T E Ex FJ Ej) as (p & Ep & NF & R).
  fold (lstates refuses (ljobs keccak pr jobs s n) sched m) in Ep. specialize (D j p Ep).
  destruct p as [[hs' xs']| | | | | |]; try contradiction. exists hs', xs'. split; [exact Ep|]. apply R. reflexivity.
Qed.

(** A lock that prefers writers, a round robin scheduler, and the threads of C30's example. *)
Definition writers_first {A} (w : lpool A) (j : nat) : bool :=
  match nth_error (lthreads w) j with
  | Some (LLock false c _) => existsb (fun p => match p with LLock true c' _ => c' =? c | _ => false end) (lthreads w)
  | _ => false
  end.
Lemma writers_first_polite {A} : polite (@writers_first A).
Proof.
  intros w j R. unfold writers_first in R. destruct (nth_error (lthreads w) j) as [p|]; [|discriminate].
  destruct p as [| |[|] c p| | | |]; try discriminate. apply existsb_exists in R. destruct R as (q & Hq & T).
  destruct q as [| |[|] c' q| | | |]; try discriminate. apply N.eqb_eq in T. subst.
  apply In_nth_error in Hq. destruct Hq as [i Ei]. exists c, p, i, q. auto.
Qed.
Example C51_fair_example : polite (@writers_first (list hnode * list obs)) /\
  (forall j m, (j < 3)%nat -> exists m', (m <= m')%nat /\ (fun i => i mod 3)%nat m' = j) /\
  let jobs := ex_jobs (fst (fst (fst ex_state))) in length jobs = 3%nat.
Proof.
  split; [apply writers_first_polite|]. split; [|reflexivity]. intros j m L. exists (j + m * 3)%nat. split; [lia|].
  cbv beta. rewrite Nat.mod_add by lia. apply Nat.mod_small, L.
Qed.
(** Waiting does happen: thread 0 has the read lock of the shared root cell, thread 1 waits to write it, thread 2 is not let in before
    thread 1; only thread 0 can go on. *)
Definition waiting {A} (w : lpool A) : bool :=
  match lthreads w with
  | LGet c _ :: LLock true c' _ :: LLock false c'' _ :: _ =>
      (c' =? c) && (c'' =? c) && match lsched_try writers_first w 0, lsched_try writers_first w 1, lsched_try writers_first w 2 with Some _, None, None => true | _, _, _ => false end
  | _ => false
  end.
Example C51_waiting_example :
  let hs := fst (fst (fst ex_state)) in
  waiting (lsched_run writers_first
             (ljobs keccak256 Debug [(hs, [HashOf 0]); (hs, [Insert 0 (K 4 0x5611) (Val [7]); HashOf 0]); (hs, [HashOf 1])] (snd (fst ex_state)) (snd ex_state))
             (0%nat :: repeat 1%nat 100 ++ [2%nat])) = true.
Proof. vm_compute. reflexivity. Qed.

(** The same for threads that catch panics (C43): a panic never leaves a lock behind, so all threads still end, with the results they would
    have had alone. *)
Theorem C51_panics : forall keccak pr os hs xs s n jobs refuses (sched : nat -> nat),
  Forall (fun o => tame (use o)) os -> exec (hxrun keccak pr [] os) (fun _ => None) 0 = Ok ((hs, xs), s, n) ->
  Forall (fun job => incl (fst job) hs /\ Forall (fun o => tame (use o)) (snd job)) jobs -> polite refuses ->
  (forall j m, (j < length jobs)%nat -> exists m', (m <= m')%nat /\ sched m' = j) ->
  exists m, forall j job, nth_error jobs j = Some job ->
  exists hs' xs', nth_error (lthreads (lstates refuses (lstart (xthread_pool keccak pr jobs s n)) sched m)) j = Some (LRet (hs', xs')) /\
                  vxrun keccak pr (map erase (fst job)) (snd job) = (map erase hs', xs').
Proof.
  intros keccak pr os hs xs s n jobs refuses sched T Ex FJ Po Fair.
  assert (D : exists m, forall j p, nth_error (lthreads (lstates refuses (lstart (xthread_pool keccak pr jobs s n)) sched m)) j = Some p -> lfinished p).
  { eapply lfair_ends; [exact Po|apply shrinks_wf|reflexivity|apply lstart_inv|].
    intros j m L. apply Fair. cbn [lstart lthreads xthread_pool threads] in L. rewrite !map_length in L. exact L. }
  destruct D as [m D]. exists m. intros j job Ej. set (w := lstates _ _ _ _) in *.
  assert (I : exists js', linv w (sched_run (xthread_pool keccak pr jobs s n) js')) by (apply lrun_inv, lstart_inv).
  destruct I as [js' (F & _)].
  destruct (C43_threads keccak pr os hs xs s n jobs js' j job T Ex FJ Ej) as (p & Ep & NF & R).
  destruct (Forall2_nth' _ _ _ F j p Ep) as (lp & El & Ph). specialize (D j lp El). rewrite El.
  inversion Ph; subst; try contradiction.
  destruct p as [[hs' xs']| | | |]; cbn [locked lfinished] in *; try contradiction. exists hs', xs'. split; [reflexivity|]. apply R. reflexivity.
Qed.
Example C51_panics_example :
  let hs := fst (fst (fst caught_state)) in
  let w := lsched_run writers_first (lstart (xthread_pool keccak256 Debug
    [(hs, [Try (Insert 2 (K 4 0x5678) (Val [7])); Try (HashOf 2)]); (hs, [Try (HashOf 0); Try (Insert 0 (K 4 0x5611) (Val [7])); Try (HashOf 0)])] (snd (fst caught_state)) (snd caught_state)))
    (concat (repeat [0%nat; 1%nat; 1%nat] 400)) in
  match lthreads w with [LRet (_, [None; Some (Digest h)]); LRet (_, [Some (Digest h1); Some Done; Some (Digest h2)])] => h = h1 /\ h1 <> h2 | _ => False end.
Proof. vm_compute. split; [reflexivity|]. intro. discriminate. Qed.

Print Assumptions C51_no_races.
Print Assumptions C51_no_deadlock.
Print Assumptions C51_no_livelock.
Print Assumptions C51_ends.
Print Assumptions C51_results.
Print Assumptions C51_fair.
Print Assumptions C51_panics.
