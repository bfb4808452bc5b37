(** Property C90: replaying a log. *)
From Coq Require Import Permutation.
From Verif Require Import Base Nibbles NibblesSpec NibblesFacts NibblesFacts2 NibblesFacts3 Trie TrieSpec TrieHistSpec TrieFacts TrieInsert TrieGet TrieDelete TrieUnique TrieIter TrieHist TrieObs OrderSpec Rlp YellowPaper Hashing Keccak HashSpec HashFacts KeccakFacts HideSpec HideFacts Cache CacheSpec CacheFacts2 P_Cache P_Trie P_Hash ItemsFacts Subset SubsetSpec ReplaySpec ReplayFacts P_Subset P_Refresh FreeSpec FreeFacts P_Free TrieHistSpec RollSpec P_Roll CommuteSpec P_Commute NetSpec P_Net LogSpec.
Open Scope N_scope.

Lemma ch_app a b : changes (a ++ b) = changes a ++ changes b.
Proof. apply flat_map_app. Qed.

Definition settled (log h : list op) (p : nat) : Prop :=
  forall j, last_change (changes (skipn p log)) j = None -> last_change (changes h) j = last_change (changes (firstn p log)) j.

Lemma split_at f : forall (log : list op) e, (f <= e)%nat -> firstn e log = firstn f log ++ piece log f e /\ skipn f log = piece log f e ++ skipn e log.
Proof.
  induction f as [|f IH]; intros log e L.
  - unfold piece. rewrite Nat.sub_0_r. cbn [skipn firstn app]. split; [reflexivity|symmetry; apply firstn_skipn].
  - destruct e as [|e]; [lia|]. destruct log as [|o log]; [unfold piece; cbn [skipn firstn app]; rewrite firstn_nil; split; reflexivity|].
    destruct (IH log e ltac:(lia)) as [A B]. unfold piece in *. cbn [Nat.sub skipn firstn app]. split; [f_equal; exact A|exact B].
Qed.

Lemma none_app a b j : last_change (a ++ b) j = None <-> last_change a j = None /\ last_change b j = None.
Proof. rewrite last_app. destruct (last_change b j); split; [discriminate|intros [_ Q]; discriminate|auto|tauto]. Qed.

Lemma settle_step log h p f e : settled log h p -> (f <= p)%nat -> (f <= e)%nat -> settled log (h ++ piece log f e) e.
Proof.
  intros H Lp Le j N. destruct (split_at f log e Le) as [A B]. rewrite A, !ch_app, !last_app. destruct (last_change (changes (piece log f e)) j) eqn:E; [reflexivity|].
  destruct (split_at f log p Lp) as [Ap Bp].
  assert (F : last_change (changes (skipn f log)) j = None) by (rewrite B, ch_app; apply none_app; auto).
  rewrite Bp, ch_app in F. apply none_app in F. destruct F as [F1 F2]. rewrite (H j F2), Ap, ch_app, last_app, F1. reflexivity.
Qed.

Lemma settle log runs : forall h p, settled log h p -> resumes (length log) p runs -> settled log (h ++ done log runs) (length log).
Proof.
  induction runs as [|[f e] runs IH]; intros h p H R; cbn [resumes] in R.
  - subst p. unfold done. cbn [flat_map]. rewrite app_nil_r. exact H.
  - destruct R as (L1 & L2 & _ & R). unfold done. cbn [flat_map fst snd]. rewrite app_assoc. apply (IH (h ++ piece log f e) e); [exact (settle_step log h p f e H L1 L2)|exact R].
Qed.

Lemma done_last log runs j : resumes (length log) 0 runs -> last_change (changes (done log runs)) j = last_change (changes log) j.
Proof.
  intros R. pose proof (settle log runs [] 0%nat ltac:(intros i _; reflexivity) R j) as H. cbn [app] in H. rewrite skipn_all, firstn_all in H. exact (H eq_refl).
Qed.
Lemma done_sub log runs o : In o (done log runs) -> In o log.
Proof.
  intros I. unfold done in I. apply in_flat_map in I. destruct I as ([f e] & _ & I). unfold piece in I. cbn [fst snd] in I.
  assert (J : In o (skipn f log)) by (rewrite <- (firstn_skipn (e - f) (skipn f log)); apply in_or_app; left; exact I).
  rewrite <- (firstn_skipn f log). apply in_or_app. right. exact J.
Qed.

(** A log that is followed in any number of runs, each of which starts no later in the log than where the one before stopped: whatever is done again, the trie at the
    end is the one that following the log once gives. *)
Theorem C90_log : forall pr pr' U t log runs t1 xs,
  prefix_free U -> free_trie U t -> Forall (op_in U) log -> Forall (get_long_key U) log -> resumes (length log) 0 runs -> trie_ops pr t log = Ok (t1, xs) ->
  exists ys, trie_ops pr' t (done log runs) = Ok (t1, ys).
Proof.
  intros pr pr' U t log runs t1 xs PF Ft F G R E. apply (C89_net pr pr' U t log (done log runs) t1 xs PF Ft F); [| | |exact E].
  - rewrite Forall_forall in *. intros o I. apply F, (done_sub log runs), I.
  - rewrite Forall_forall in *. intros o I. apply G, (done_sub log runs), I.
  - intros j. apply done_last, R.
Qed.
Print Assumptions C90_log.

(** With one crash: from the trie after any part of the log, going on anywhere before. *)
Theorem C90_crash : forall pr pr' U t a b c t1 xs t2 ys,
  prefix_free U -> free_trie U t -> Forall (op_in U) (a ++ b ++ c) -> Forall (get_long_key U) (a ++ b ++ c) ->
  trie_ops pr t (a ++ b ++ c) = Ok (t1, xs) -> trie_ops pr t (a ++ b) = Ok (t2, ys) ->
  exists zs, trie_ops pr' t2 (b ++ c) = Ok (t1, zs).
Proof.
  intros pr pr' U t a b c t1 xs t2 ys PF Ft F G E E2.
  assert (F2 : Forall (op_in U) (a ++ b)) by (rewrite app_assoc in F; apply Forall_app in F; apply F).
  assert (G2 : Forall (get_long_key U) (a ++ b)) by (rewrite app_assoc in G; apply Forall_app in G; apply G).
  assert (Fb : Forall (op_in U) (b ++ c)) by (apply Forall_app in F; apply F). assert (Gb : Forall (get_long_key U) (b ++ c)) by (apply Forall_app in G; apply G).
  destruct (C89_net pr pr' U t (a ++ b) (a ++ b) t2 ys PF Ft F2 F2 G2 (fun j => eq_refl) E2) as (ys' & E2').
  destruct (C89_net pr pr' U t (a ++ b ++ c) ((a ++ b) ++ b ++ c) t1 xs PF Ft F) as (zs & Ez); [apply Forall_app; split; assumption|apply Forall_app; split; assumption| |exact E|].
  - intros j. rewrite !ch_app, !last_app. destruct (last_change (changes c) j), (last_change (changes b) j); reflexivity.
  - rewrite ops_app, E2' in Ez. cbn [bind] in Ez. destruct (trie_ops pr' t2 (b ++ c)) as [[t3 ws]|]; [|discriminate]. cbn [bind] in Ez. injection Ez as -> _. eauto.
Qed.
Print Assumptions C90_crash.

(** The same with the trie that caches its hashes: the same hash. *)
Theorem C90_cached : forall keccak pr U l t log runs t1 xs h,
  prefix_free U -> from_iter pr l = Ok t -> free_trie U t -> Forall (op_in U) log -> Forall (get_long_key U) log -> resumes (length log) 0 runs ->
  trie_ops pr t log = Ok (t1, xs) -> hash_trie keccak pr t1 = Ok h ->
  exists hs ys, start keccak pr ([New l] ++ map (on 0) (done log runs) ++ [HashOf 0]) = Ok (hs, [Done] ++ map seen ys ++ [Digest h]) /\ map erase hs = [t1].
Proof.
  intros keccak pr U l t log runs t1 xs h PF El Ft F G R E Eh. destruct (C90_log pr pr U t log runs t1 xs PF Ft F G R E) as (ys & E').
  destruct (run_hashed keccak pr l t _ t1 ys h El E' Eh) as (hs & A & B). exists hs, ys. auto.
Qed.
Print Assumptions C90_cached.

(** Going on later than where it stopped is something else. *)
Theorem C90_gap_refuted : forall pr, exists U t log runs t1 xs t2 ys,
  prefix_free U /\ free_trie U t /\ Forall (op_in U) log /\ Forall (get_long_key U) log /\ runs = [(0, 1); (2, 3)]%nat /\
  trie_ops pr t log = Ok (t1, xs) /\ trie_ops pr t (done log runs) = Ok (t2, ys) /\ t1 <> t2.
Proof.
  intros pr. exists (fun k => length k = 4%nat), roll_trie, [OInsert (K 4 0x1234) [5]; OInsert (K 4 0x1256) [6]; ODelete (K 4 0x3333)], [(0, 1); (2, 3)]%nat.
  destruct C87_example as (PF & _ & Ft & _). do 4 eexists. split; [exact PF|]. split; [exact Ft|].
  split; [repeat (apply Forall_cons; [cbn [op_in]; repeat split; vm_compute; (reflexivity || discriminate || (intro; discriminate))|]); apply Forall_nil|].
  split; [repeat constructor|]. split; [reflexivity|]. split; [destruct pr; vm_compute; reflexivity|]. split; [destruct pr; vm_compute; reflexivity|]. discriminate.
Qed.
Print Assumptions C90_gap_refuted.

(** The history of C87 and C89 as a log, with two crashes. *)
Definition log_runs : list (nat * nat) := [(0, 4); (1, 3); (2, 7)]%nat.
Example C90_example : Forall (op_in (fun k => length k = 4%nat)) net_ops /\ Forall (get_long_key (fun k => length k = 4%nat)) net_ops /\
  resumes (length net_ops) 0 log_runs /\ length (done net_ops log_runs) = 11%nat /\
  exists t1 xs ys, trie_ops Debug roll_trie net_ops = Ok (t1, xs) /\ trie_ops Release roll_trie (done net_ops log_runs) = Ok (t1, ys).
Proof.
  destruct C89_example as (PF & Ft & F & G & _ & _ & t1 & xs & E & _).
  assert (R : resumes (length net_ops) 0 log_runs) by (cbn; lia). split; [exact F|]. split; [exact G|]. split; [exact R|]. split; [reflexivity|].
  destruct (C90_log Debug Release _ roll_trie net_ops log_runs t1 xs PF Ft F G R E) as (ys & E'). exists t1, xs, ys. auto.
Qed.
