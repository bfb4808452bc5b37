(** Property C59: an iterator goes through the items that the trie had when the iterator was opened. [keccak] is any function. *)
From Verif Require Import Base Nibbles NibblesSpec Rlp Hashing Keccak Serde Query Diff DiffCache Subset Cache CacheSpec CacheFacts CacheFacts2 CacheFacts3 HIter IterSpec IterFacts P_Trie P_Hash P_Query P_Diff TrieHistSpec Trie TrieSpec ItemsSpec ItemsFacts TrieIter P_Items.
Open Scope N_scope.

(** A program of API calls, with any number of iterators, observes what it would observe with plain values, where an iterator is the list
    of the items that are left. The hypothesis on hashes is that of C29; iterators do not weaken it. *)
Theorem C59_values : forall keccak pr fuel K os ts ls xs,
  respects keccak pr K [] (uses os) -> virun keccak pr fuel ([], []) os = Ok ((ts, ls), xs) ->
  exists hs its s n, exec (irun keccak pr fuel ([], []) os) (fun _ => None) 0 = Ok (((hs, its), xs), s, n) /\ map erase hs = ts.
Proof.
  intros keccak pr fuel K os ts ls xs R E.
  destruct (irun_ok keccak pr fuel K os [] [] [] (ts, ls) xs 0 no_ghost (fun _ => None) (inv_nil keccak pr K) keeps_nil (Forall2_nil _) R E)
    as (hs & its & s & n & Ex & M & _).
  exists hs, its, s, n. auto.
Qed.
Theorem C59_clones : forall keccak pr fuel os ts ls xs,
  Forall tame (uses os) -> virun keccak pr fuel ([], []) os = Ok ((ts, ls), xs) ->
  exists hs its s n, exec (irun keccak pr fuel ([], []) os) (fun _ => None) 0 = Ok (((hs, its), xs), s, n) /\ map erase hs = ts.
Proof.
  intros keccak pr fuel os ts ls xs T. apply (C59_values keccak pr fuel (fun _ => Plain)).
  apply (respects_all keccak pr _ tame); [apply tame_legal|exact T].
Qed.

(** Without any hypothesis on how handles are used, in any state: whatever happens to the handles and to other iterators, the answers of the
    iterator are those of calls that follow each other directly. *)
Theorem C59_snapshot : forall keccak pr fuel ts its s n i t os w' xs s' n',
  nth_error ts i = Some t ->
  exec (irun keccak pr fuel (ts, its) (Items i :: os)) s n = Ok ((w', xs), s', n') ->
  let got := answers_of (length its) (Items i :: os) xs in
  answers (length got) fuel pr (items_iter (erase t)) = Some (Ok got).
Proof.
  intros keccak pr fuel ts its s n i t os w' xs s' n' Hi E.
  destruct (irun_items keccak pr fuel i t os (ts, its) w' xs s n s' n' Hi E) as (xs' & it' & -> & _ & A).
  cbn [answers_of]. exact (after_answers _ _ _ _ _ _ A).
Qed.

(** So they are the items that the trie had, in order, and then [None] for ever. *)
Theorem C59_items : forall keccak pr pr' fuel ts its s n i t os w' xs s' n',
  nth_error ts i = Some t -> reach pr' (erase t) -> (nsize (erase t) + 1 < fuel)%nat ->
  exec (irun keccak pr fuel (ts, its) (Items i :: os)) s n = Ok ((w', xs), s', n') ->
  let got := answers_of (length its) (Items i :: os) xs in
  exists l, trie_items fuel pr (erase t) = Some (Ok l) /\ got = firstn (length got) (map Some l ++ repeat None (length got)).
Proof.
  intros keccak pr pr' fuel ts its s n i t os w' xs s' n' Hi R F E got.
  destruct (C56_next pr pr' (erase t) (length got) fuel R F) as (l & El & A). exists l. split; [exact El|].
  pose proof (C59_snapshot keccak pr fuel ts its s n i t os w' xs s' n' Hi E) as S. fold got in S. cbv zeta in S. fold got in S. congruence.
Qed.

(** The next call does not panic either, and changes no handle, no cached hash and no other iterator. *)
Theorem C59_next : forall keccak pr pr' fuel ts its s n i t os ts' its' xs s' n',
  nth_error ts i = Some t -> reach pr' (erase t) -> (nsize (erase t) + 1 < fuel)%nat ->
  exec (irun keccak pr fuel (ts, its) (Items i :: os)) s n = Ok (((ts', its'), xs), s', n') ->
  exists it a, exec (istep keccak pr fuel (ts', its') (Next (length its))) s' n' = Ok (((ts', replace its' (length its) it), Item a), s', n').
Proof.
  intros keccak pr pr' fuel ts its s n i t os ts' its' xs s' n' Hi R F E.
  destruct (irun_items keccak pr fuel i t os (ts, its) _ xs s n s' n' Hi E) as (xs' & it' & -> & Ni & A). cbn [fst snd] in *.
  set (got := answers_of (length its) os xs') in *.
  destruct (C56_next pr pr' (erase t) (length got + 1) fuel R F) as (l & _ & B).
  rewrite (answers_more _ _ _ _ _ _ A) in B. cbn [answers] in B. rewrite <- hnext_erase in B.
  cbn [istep fst snd]. unfold the. rewrite Ni. cbn [lift pbind].
  destruct (hnext fuel pr it') as [[[it2 a]|]|]; try discriminate. exists it2, a. reflexivity.
Qed.

(** Opening an iterator neither changes a handle nor reads or writes a cached hash. *)
Theorem C59_open : forall keccak pr fuel ts its s n i t, nth_error ts i = Some t ->
  exists it, exec (istep keccak pr fuel (ts, its) (Items i)) s n = Ok (((ts, its ++ [it]), Opened), update s n None, n + 1).
Proof.
  intros keccak pr fuel ts its s n i t E. cbn [istep fst snd]. unfold the. rewrite E. eexists. reflexivity.
Qed.

(** Iterators over two handles for one trie; meanwhile the trie is changed, hashed, cloned, assigned and deleted from. *)
Definition ex_iter : list iop :=
  [Use (New big_list); Items 0; Next 0; Use (Clone 0); Use (Insert 0 (K 4 0x5611) (Val [7])); Use (HashOf 0); Items 0; Next 0; Next 1;
   Use (Delete 0 (K 4 0x1234)); Use (Assign 1 0); Next 1; Use (HashOf 1); Next 0; Next 1; Next 1; Next 0; Next 1; Next 1; Next 0; Next 0].
Definition ex_iter_r := Eval vm_compute in match virun keccak256 Debug 300 ([], []) ex_iter with Ok r => r | Panic => (([], []), []) end.
Example C59_example : Forall tame (uses ex_iter) /\ virun keccak256 Debug 300 ([], []) ex_iter = Ok ex_iter_r /\
  answers_of 0 ex_iter (snd ex_iter_r) = [Some (K 4 0x1234, Val (big 1)); Some (K 4 0x5678, Val (big 2)); Some (K 4 0x5699, Val (big 3)); None; None; None] /\
  answers_of 1 ex_iter (snd ex_iter_r) = [Some (K 4 0x1234, Val (big 1)); Some (K 4 0x5611, Val [7]); Some (K 4 0x5678, Val (big 2)); Some (K 4 0x5699, Val (big 3)); None; None] /\
  reach Debug ex_big /\ (nsize ex_big + 1 < 300)%nat /\ from_iter Debug big_list = Ok ex_big.
Proof.
  split; [repeat constructor|]. split; [vm_compute; reflexivity|]. split; [vm_compute; reflexivity|]. split; [vm_compute; reflexivity|].
  split; [exact (reach_start Debug ex_big (proj1 (proj2 ex_big_ok)) (proj1 (proj2 (proj2 ex_big_ok))))|]. split; [apply Nat.ltb_lt; vm_compute; reflexivity|exact (proj1 ex_big_ok)].
Qed.
Print Assumptions C59_values.
Print Assumptions C59_clones.
Print Assumptions C59_snapshot.
Print Assumptions C59_items.
Print Assumptions C59_next.
Print Assumptions C59_open.
