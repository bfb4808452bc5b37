(** Property C46: cached hashes are used. *)
From Verif Require Import Base Nibbles Trie TrieFacts Rlp Hashing Subset StatsSpec Cache CacheSpec CacheFacts CacheFacts2 CostSpec CostFacts CostFacts2 CostFacts3 P_Trie.
Open Scope N_scope.

(** * C46: [hash()] after a few changes does not depend on the size of the trie *)
(** [hash_cost] counts the nodes at which [hash()] looks. Once a handle has been hashed, what its next [hash()] costs is bounded by the
    number of entries changed through it in between, whatever else the program did before and in between, and for any trie. *)
Theorem C46_changes : forall keccak pr os1 os2 i c,
  Forall regular (os1 ++ HashOf i :: os2) -> hash_cost keccak pr (os1 ++ HashOf i :: os2) i = Some c -> c <= 497 * (1 + 131 * changes i os2).
Proof. exact cost_after_changes. Qed.

(** In particular, when only other handles were changed, their clones included. *)
Theorem C46_unchanged : forall keccak pr os1 os2 i c,
  Forall regular (os1 ++ HashOf i :: os2) -> Forall (fun o => written o <> Some i) os2 ->
  hash_cost keccak pr (os1 ++ HashOf i :: os2) i = Some c -> c <= 497.
Proof.
  intros keccak pr os1 os2 i c R W H. apply C46_changes in H; [|exact R]. assert (Z : changes i os2 = 0); [|rewrite Z in H; exact H].
  clear - W. induction W as [|o os N W IH]; cbn [changes]; [reflexivity|]. rewrite IH.
  destruct o; cbn [changes1 written] in *; try reflexivity; (match goal with |- context [Nat.eqb i ?j] => destruct (Nat.eqb_spec i j); [congruence|reflexivity] end).
Qed.

(** A clone of a hashed handle, or what is loaded after saving one, starts with the hashes that the handle had: its own [hash()] costs no
    more than the entries changed since. [length hs] is the index of the new handle. *)
Theorem C46_copies : forall keccak pr os1 os2 os3 o i hs xs c,
  o = Clone i \/ o = Reload i -> Forall regular (os1 ++ HashOf i :: os2 ++ o :: os3) ->
  start keccak pr (os1 ++ HashOf i :: os2) = Ok (hs, xs) -> hash_cost keccak pr (os1 ++ HashOf i :: os2 ++ o :: os3) (length hs) = Some c ->
  c <= 497 * (1 + 131 * (changes i os2 + changes (length hs) os3)).
Proof. exact cost_of_copies. Qed.

(** Every use of the crate, also with handles for inner nodes: no node is looked at twice. *)
Lemma subnodes_len d t : forall d', length (subnodes d t) = length (subnodes d' t).
Proof.
  revert d. induction t as [|h|ch v IH|n c IH|n v] using node_ind'; intros d d'; cbn [subnodes length]; try reflexivity; [|f_equal; apply IH].
  f_equal. induction IH as [|x l Hx F IHl]; [reflexivity|]. cbn [flat_map]. rewrite !app_length, IHl. f_equal. apply Hx.
Qed.
Definition size (t : node) : N := N.of_nat (length (subnodes 0 t)).
Lemma size_branch ch v : size (Branch ch v) = 1 + sumN (map size ch).
Proof.
  unfold size. cbn [subnodes length]. rewrite Nat2N.inj_succ, <- N.add_1_l. f_equal. induction ch as [|x l IH]; [reflexivity|].
  cbn [flat_map map sumN fold_right]. rewrite app_length, Nat2N.inj_add, IH. unfold sumN. f_equal. f_equal. apply subnodes_len.
Qed.
Lemma size_extension n c : size (Extension n c) = 1 + size c.
Proof. unfold size. cbn [subnodes length]. rewrite (subnodes_len _ c 0). lia. Qed.
Lemma intern_reads keccak pr t s n : reads (hash_intern keccak pr t) s n <= 1 + reads (encode_node keccak pr t) s n.
Proof.
  rewrite hash_intern_eq. cbn [reads]. destruct (s (cell t)); cbn [reads]; [lia|]. rewrite reads_pbind.
  destruct (exec (encode_node keccak pr t) s n) as [[[[b|h] s1] n1]|]; cbn [reads]; lia.
Qed.
Lemma encode_size keccak pr t : forall s n, 1 + reads (encode_node keccak pr t) s n <= size (erase t).
Proof.
  induction t as [c|c h|c ch v IH|c k t IH|c k v] using hnode_ind'; intros s n; cbn [encode_node erase]; try (cbn; lia).
  - rewrite size_branch, reads_pbind. assert (C : forall l st s n, Forall (fun t => forall s n, 1 + reads (encode_node keccak pr t) s n <= size (erase t)) l ->
      reads (hash_children keccak pr l st) s n <= sumN (map size (map erase l))).
    { clear. intros l st s n F. revert st s n. induction F as [|x l Hx F IHl]; intros st s n; cbn [hash_children map sumN fold_right]; [cbn; lia|].
      rewrite reads_pbind. specialize (Hx s n). pose proof (intern_reads keccak pr x s n). destruct (exec (hash_intern keccak pr x) s n) as [[[e s1] n1]|]; [|unfold sumN in *; lia].
      specialize (IHl (append_to_stream st e) s1 n1). unfold hash_children, sumN in *. lia. }
    specialize (C ch new_list s n IH). destruct (exec (hash_children keccak pr ch new_list) s n) as [[[st s1] n1]|]; [|lia]. rewrite reads_pbind, reads_lift, exec_lift.
    match goal with |- context [stream_out 17 ?x] => destruct (stream_out 17 x) end; cbn [reads]; lia.
  - rewrite size_extension, reads_pbind, reads_lift, exec_lift. destruct (to_hex_prefix_encoding pr k false); [|lia]. rewrite reads_pbind. specialize (IH s n). pose proof (intern_reads keccak pr t s n).
    destruct (exec (hash_intern keccak pr t) s n) as [[[e s1] n1]|]; [|lia]. rewrite reads_pbind, reads_lift, exec_lift.
    match goal with |- context [stream_out 2 ?x] => destruct (stream_out 2 x) end; cbn [reads]; lia.
  - rewrite reads_pbind, reads_lift, exec_lift. destruct (to_hex_prefix_encoding pr k true); [|cbn; lia]. rewrite reads_pbind, reads_lift, exec_lift.
    match goal with |- context [stream_out 2 ?x] => destruct (stream_out 2 x) end; cbn [reads]; cbn; lia.
Qed.
Lemma hash_of_size keccak pr t s n : reads (hhash_of keccak pr t) s n <= size (erase t).
Proof.
  pose proof (encode_size keccak pr t s n). unfold hhash_of. cbn [reads]. destruct (s (cell t)); cbn [reads]; [lia|]. rewrite reads_pbind.
  destruct (exec (encode_node keccak pr t) s n) as [[[e s1] n1]|]; cbn [reads]; lia.
Qed.
Theorem C46_once : forall keccak pr os i c hs xs t,
  start keccak pr os = Ok (hs, xs) -> nth_error hs i = Some t -> hash_cost keccak pr os i = Some c -> c <= how_many (fun _ => true) (erase t).
Proof.
  intros keccak pr os i c hs xs t S E H. unfold start, hash_cost in *. destruct (exec (hrun keccak pr [] os) (fun _ => None) 0) as [[[[hs' xs'] s] n]|]; [|discriminate].
  cbn [rmap fst] in S. injection S as -> ->. rewrite E in H. assert (c = reads (hhash_of keccak pr t) s n) by congruence. subst c.
  replace (how_many (fun _ => true) (erase t)) with (size (erase t)).
  2:{ unfold how_many, size. f_equal. f_equal. induction (subnodes 0 (erase t)) as [|x l IH]; [reflexivity|]. cbn [filter]. rewrite <- IH. reflexivity. }
  apply (hash_of_size keccak pr t s n).
Qed.

(** The hash of the root itself is not kept: [hash()] twice in a row encodes the root twice, and looks at all children of it each time. *)
Theorem C46_root_recomputed : exists os i, forall keccak pr, Forall regular os /\ hash_cost keccak pr (os ++ [HashOf i]) i = Some 17 /\ hash_cost keccak pr (os ++ [HashOf i; HashOf i]) i = Some 17.
Proof.
  exists [New [(K 2 0x12, Val [1]); (K 2 0x22, Val [2])]], 0%nat. intros keccak pr. split; [repeat constructor; cbv; discriminate|]. destruct pr; split; vm_compute; reflexivity.
Qed.

(** The hypotheses are met: 256 entries, a hash, other operations on other handles, one more insert. The first [hash()] looks at all 273
    nodes, the next one at 33 of them. *)
Definition ex_fill : list (nibbles * val_or_hash) := map (fun i => (K 2 (N.of_nat i), Val (repeat 7 40))) (seq 0 256).
Definition ex_cost : list op := [New ex_fill; Clone 0; HashOf 0].
Definition ex_later : list op := [Delete 1 (K 2 0x10); Insert 0 (K 2 0x34) (Val [1]); Subset 1 [K 2 0x22]; Get 0 (K 2 0x34); Differ 0 1].
Definition stub (b : list N) : list N := repeat (lenN b mod 256) 32.
Example C46_example :
  Forall regular (ex_cost ++ ex_later) /\ changes 0 ex_later = 1 /\ changes 1 ex_later = 1 /\
  hash_cost stub Debug [New ex_fill] 0 = Some 273 /\ hash_cost stub Debug ex_cost 0 = Some 17 /\ hash_cost stub Debug (ex_cost ++ [Insert 0 (K 2 0x34) (Val [1])]) 0 = Some 33 /\
  (exists c, hash_cost stub Debug (ex_cost ++ ex_later) 0 = Some c).
Proof.
  split.
  - assert (F : Forall (fun e => short (fst e)) ex_fill).
    { unfold ex_fill. apply Forall_forall. intros e I. apply in_map_iff in I. destruct I as (i & <- & _). cbv. discriminate. }
    cbn [ex_cost ex_later app]. repeat (constructor; [first [exact I|exact F|cbv; discriminate|intros X; discriminate X]|]). constructor.
  - repeat split; try (vm_compute; reflexivity). eexists. vm_compute. reflexivity.
Qed.
(** Saving and loading before the first [hash()]: 273 nodes. After it: 17, and 33 after one more insert. *)
Example ex_copies :
  Forall regular ([New ex_fill] ++ HashOf 0 :: [] ++ Reload 0 :: [Insert 1 (K 2 0x34) (Val [1])]) /\
  (exists hs xs, start stub Debug ([New ex_fill] ++ HashOf 0 :: []) = Ok (hs, xs) /\ length hs = 1%nat) /\
  hash_cost stub Debug [New ex_fill; Reload 0] 1 = Some 273 /\ hash_cost stub Debug [New ex_fill; HashOf 0; Reload 0] 1 = Some 17 /\
  hash_cost stub Debug ([New ex_fill] ++ HashOf 0 :: [] ++ Reload 0 :: [Insert 1 (K 2 0x34) (Val [1])]) 1 = Some 33.
Proof.
  split.
  - assert (F : Forall (fun e => short (fst e)) ex_fill).
    { unfold ex_fill. apply Forall_forall. intros e I. apply in_map_iff in I. destruct I as (i & <- & _). cbv. discriminate. }
    cbn [app]. repeat (constructor; [first [exact I|exact F|cbv; discriminate]|]). constructor.
  - split.
    + destruct (start stub Debug ([New ex_fill] ++ HashOf 0 :: [])) as [[hs xs]|] eqn:E; [|exfalso; revert E; vm_compute; discriminate]. exists hs, xs. split; [reflexivity|].
      assert (L : match start stub Debug ([New ex_fill; HashOf 0]) with Ok (hs, _) => (length hs = 1%nat) | Panic => True end) by (vm_compute; reflexivity). change [New ex_fill; HashOf 0] with ([New ex_fill] ++ HashOf 0 :: []) in L. rewrite E in L. exact L.
    + repeat split; vm_compute; reflexivity.
Qed.
Example ex_unchanged : Forall (fun o => written o <> Some 1%nat) [Insert 0 (K 2 0x34) (Val [1])].
Proof. repeat constructor. discriminate. Qed.
Example ex_once : exists hs xs t, start stub Debug ex_cost = Ok (hs, xs) /\ nth_error hs 0 = Some t /\ hash_cost stub Debug ex_cost 0 = Some 17.
Proof.
  destruct (start stub Debug ex_cost) as [[hs xs]|] eqn:E; [|exfalso; revert E; vm_compute; discriminate].
  destruct (nth_error hs 0) as [t|] eqn:Et.
  - exists hs, xs, t. split; [reflexivity|]. split; [exact Et|]. vm_compute. reflexivity.
  - exfalso. unfold start in E. assert (L : match rmap (fun r => fst (fst r)) (exec (hrun stub Debug [] ex_cost) (fun _ => None) 0) with Ok (hs, _) => nth_error hs 0 <> None | Panic => True end) by (vm_compute; discriminate).
    rewrite E in L. contradiction.
Qed.

Print Assumptions C46_changes.
Print Assumptions C46_unchanged.
Print Assumptions C46_copies.
Print Assumptions C46_once.
Print Assumptions C46_root_recomputed.
