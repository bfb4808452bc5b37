(** Model of the tests of the repository that use random keys and values: the generators of /repo/src/testing_utils.rs, as functions of
    the random words drawn, and the tests, as programs that panic or not. With a fixed seed a test sees one outcome of the generators; the
    properties of P_RandomTests.v are about all of them. *)
From Verif Require Import Base Nibbles NibblesSpec Trie TrieSpec OrderSpec YellowPaper Hashing Stats Cache CacheSpec EthSpec UserSpec.
From Coq Require Import Permutation.
Open Scope N_scope.

(** ** Generators *)
Definition entry : Type := (nibbles * list N)%type.

(** testing_utils.rs:140-146 [gen_fixed_nibbles], for the words drawn: [U256(k_bytes)], least significant word first. *)
Definition gen_fixed_nibbles (a b c d : N) : nibbles := to_nibbles 256 (a + 2 ^ 64 * b + 2 ^ 128 * c + 2 ^ 192 * d).
Definition fixed_key (k : nibbles) : Prop :=
  exists a b c d, a < 2 ^ 64 /\ b < 2 ^ 64 /\ c < 2 ^ 64 /\ 0x1000000000000000 <= d < 0xffffffffffffffff /\ k = gen_fixed_nibbles a b c d.

(** testing_utils.rs:157-166 [gen_variable_nibbles], for the bytes drawn; the other bytes of the array are 0. *)
Definition gen_variable_nibbles (bs : list N) : nibbles := to_nibbles 256 (from_le bs).
Definition variable_key (k : nibbles) : Prop :=
  exists bs, bytesl bs /\ (5 <= length bs <= 32)%nat /\ k = gen_variable_nibbles bs.

(** testing_utils.rs:148-155 [gen_variable_nibbles_even_padded_nibbles]. *)
Definition pad_even (n : nibbles) : nibbles := if N.even (count n) then n else Nib (count n + 1) (packed n).
Definition padded_key (k : nibbles) : Prop := exists n, variable_key n /\ k = pad_even n.

(** testing_utils.rs:184-191 [gen_rand_u256_bytes]; also an [H256] (76-88). *)
Definition bytes32 (v : list N) : Prop := bytesl v /\ length v = 32%nat.

(** testing_utils.rs:76-121 [generate_n_random_..._entries]: any number of entries. *)
Definition drawn (key : nibbles -> Prop) (es : list entry) : Prop := Forall (fun e => key (fst e) /\ bytes32 (snd e)) es.

(** ** Tests *)
(** A test that iterates needs fuel for the iterator (Trie.v). It passes if it ends and does not panic. *)
Definition test (A : Type) : Type := nat -> option (res A).
Definition pure {A} (r : res A) : test A := fun _ => Some r.
Definition tbind {A B} (m : test A) (f : A -> test B) : test B :=
  fun fuel => match m fuel with None => None | Some Panic => Some Panic | Some (Ok a) => f a fuel end.
Notation "x <+ m ;; f" := (tbind m (fun x => f)) (at level 100, m at next level, right associativity).
Definition passes (t : test unit) : Prop := exists F, forall fuel, (F <= fuel)%nat -> t fuel = Some (Ok tt).

(** Equality of keys, entries and items; [HashSet]s as lists. *)
Definition entry_eqb (a b : entry) : bool := nib_eqb (fst a) (fst b) && key_eqb (snd a) (snd b).
Definition item_eqb (a b : item) : bool :=
  nib_eqb (fst a) (fst b) &&
  match snd a, snd b with Val v, Val w => key_eqb v w | HashV v, HashV w => key_eqb v w | _, _ => false end.
Definition contains {A} (eqb : A -> A -> bool) (l : list A) (x : A) : bool := existsb (eqb x) l.
Definition is_some (o : option (list N)) (v : list N) : bool := match o with Some w => key_eqb w v | None => false end.
Definition is_none (o : option (list N)) : bool := match o with Some _ => false | None => true end.
Fixpoint mapr {A B} (f : A -> res B) (l : list A) : res (list B) :=
  match l with [] => Ok [] | x :: l' => y <- f x ;; ys <- mapr f l' ;; Ok (y :: ys) end.

Section Tests.
Variable keccak : list N -> list N.
Variable pr : profile.

Definition collect (t : node) : test (list item) := fun fuel => trie_items fuel pr t.

(** testing_utils.rs:168-175 [get_non_hash_values_in_trie]. *)
Definition get_non_hash_values_in_trie (t : node) : test (list entry) :=
  l <+ collect t ;; pure (mapr (fun e => v <- expect_val (snd e) ;; Ok (fst e, v)) l).

(** trie_ops.rs:796-828 [assert_all_entries_in_trie], 791-794 [insert_entries_and_assert_all_exist_in_trie_with_no_extra], with which the
    tests 879-885 and 888-894 end. *)
Definition assert_all_entries_in_trie (es : list entry) (t : node) : test unit :=
  got <+ get_non_hash_values_in_trie t ;;
  pure (_ <- assert (forallb (contains entry_eqb got) es) ;; assert (forallb (contains entry_eqb es) got)).
Definition mass_inserts (es : list entry) : test unit :=
  t <+ pure (from_iter pr (vals es)) ;; assert_all_entries_in_trie es t.

(** testing_utils.rs:123-138 [generate_n_hash_nodes_entries_for_empty_slots_in_trie]; [rng] chooses some of the slots, and hashes. *)
Definition slots_of (l : list item) : res (list nibbles) :=
  mapr (fun e => merge_nibble (fst e) 1)
    (filter (fun e => (count (fst e) <=? 63) && match snd e with Val _ => true | HashV _ => false end) l).
Definition chooses (rng : list nibbles -> list entry) : Prop :=
  forall slots, (exists rest, Permutation slots (map fst (rng slots) ++ rest)) /\ Forall (fun e => bytes32 (snd e)) (rng slots).

(** trie_ops.rs:897-920 [mass_inserts_variable_sized_keys_with_hash_nodes_all_entries_are_retrievable]. *)
Definition mass_inserts_with_hash_nodes (rng : list nibbles -> list entry) (es : list entry) : test unit :=
  t <+ pure (from_iter pr (vals es)) ;;
  l <+ collect t ;;
  slots <+ pure (slots_of l) ;;
  let extra := rng slots in
  t' <+ pure (trie_extend pr t (map (fun e => (fst e, HashV (snd e))) extra)) ;;
  all <+ collect t' ;;
  pure (_ <- assert (forallb (fun e => contains item_eqb all (fst e, Val (snd e))) es) ;;
        assert (forallb (fun e => contains item_eqb all (fst e, HashV (snd e))) extra)).

(** trie_ops.rs:923-939 [equivalency_check_works]. *)
Definition equivalency_check (es1 es2 : list entry) : res unit :=
  _ <- assert (node_eqb Empty Empty) ;;
  t1 <- from_iter pr (vals es1) ;; _ <- assert (node_eqb t1 t1) ;;
  t2 <- from_iter pr (vals es2) ;; assert (negb (node_eqb t1 t2)).

(** trie_ops.rs:953-966 [get_massive_trie_works]. *)
Fixpoint all_found (t : node) (es : list entry) : res unit :=
  match es with [] => Ok tt | (k, v) :: es' => r <- trie_get pr t k ;; _ <- assert (is_some r v) ;; all_found t es' end.
Definition get_massive (es : list entry) : res unit := t <- from_iter pr (vals es) ;; all_found t es.

(** trie_ops.rs:969-992 [held_trie_cow_references_do_not_change_as_trie_changes]: the contents seen after each insert, with a clone. *)
Fixpoint inserts_and_clones (t : node) (es : list entry) : test (list (list entry * node)) :=
  match es with
  | [] => pure (Ok [])
  | (k, v) :: es' =>
      t' <+ pure (trie_insert pr t k (Val v)) ;;
      seen <+ get_non_hash_values_in_trie t' ;;
      rest <+ inserts_and_clones t' es' ;; pure (Ok ((seen, t') :: rest))
  end.
Fixpoint clones_unchanged (l : list (list entry * node)) : test unit :=
  match l with
  | [] => pure (Ok tt)
  | (seen, t) :: l' =>
      now <+ get_non_hash_values_in_trie t ;;
      _ <+ pure (assert (forallb (contains entry_eqb now) seen && forallb (contains entry_eqb seen) now)) ;; clones_unchanged l'
  end.
Definition held_clones (es : list entry) : test unit := l <+ inserts_and_clones Empty es ;; clones_unchanged l.

(** trie_ops.rs:995-1009 [trie_iter_works]; [es] are the elements of the [HashSet] in the order in which it gives them. *)
Definition trie_iter_works (es : list entry) : test unit :=
  t <+ pure (from_iter pr (vals es)) ;;
  got <+ get_non_hash_values_in_trie t ;;
  pure (_ <- assert (forallb (contains entry_eqb got) es) ;; assert (forallb (contains entry_eqb es) got)).
Definition set_of (es l : list entry) : Prop := NoDup es /\ forall e, In e es <-> In e l.

(** trie_ops.rs:1030-1052 [deletion_massive_trie]. *)
Fixpoint delete_each (t : node) (es : list entry) : res node :=
  match es with
  | [] => Ok t
  | (k, v) :: es' =>
      '(t', r) <- trie_delete pr t k ;;
      g <- trie_get pr t' k ;; _ <- assert (is_none g) ;; _ <- assert (is_some r v) ;; delete_each t' es'
  end.
Definition deletion_massive (es : list entry) : res unit :=
  t <- from_iter pr (vals es) ;;
  let half := Nat.div2 (length es) in
  t' <- delete_each t (firstn half es) ;; all_found t' (skipn half es).

(** ** Hashes *)
(** The reference (crate [eth_trie], external): a table from the nibbles of byte strings to values, with the root of the Yellow Paper.
    trie_hashing.rs:213-227, 240-249 and 369-382. *)
Definition lib_key (k : nibbles) : res (list N) := b <- bytes_be pr k ;; Ok (unpair b).
Fixpoint lib_hashes (table : list (list N * list N)) (es : list entry) : res (list (list N)) :=
  match es with
  | [] => Ok []
  | (k, v) :: es' =>
      k' <- lib_key k ;; let table' := assign k' v table in
      hs <- lib_hashes table' es' ;; Ok (yp_root keccak table' :: hs)
  end.

Definition digests (xs : list obs) : list (list N) := flat_map (fun x => match x with Digest h => [h] | _ => [] end) xs.
(** trie_hashing.rs:229-238 [get_root_hashes_for_our_trie_after_each_insert]. *)
Definition our_hashes (es : list entry) : res (list (list N)) :=
  rmap (fun r => digests (snd r)) (start keccak pr (New [] :: flat_map (fun e => [Insert 0 (fst e) (Val (snd e)); HashOf 0]) es)).
(** [for (our_h, lib_h) in our_hashes.zip(lib_hashes) { assert_eq!(our_h, lib_h) }]. *)
Definition assert_same (l l' : list (list N)) : res unit := assert (forallb (fun p => key_eqb (fst p) (snd p)) (combine l l')).
(** trie_hashing.rs:240-249 [insert_entries_into_our_and_lib_tries_and_assert_equal_hashes]. *)
Definition insert_hashes_agree (es : list entry) : res unit :=
  a <- our_hashes es ;; b <- lib_hashes [] es ;; assert_same a b.

(** trie_hashing.rs:360-385 [massive_trie_data_deletion_agrees_with_eth_trie]. *)
Fixpoint lib_inserts (table : list (list N * list N)) (es : list entry) : res (list (list N * list N)) :=
  match es with [] => Ok table | (k, v) :: es' => k' <- lib_key k ;; lib_inserts (assign k' v table) es' end.
Fixpoint lib_delete_hashes (table : list (list N * list N)) (ks : list nibbles) : res (list (list N)) :=
  match ks with
  | [] => Ok []
  | k :: ks' => k' <- lib_key k ;; let table' := remove k' table in hs <- lib_delete_hashes table' ks' ;; Ok (yp_root keccak table' :: hs)
  end.
Definition deletion_hashes_agree (es : list entry) : res unit :=
  let ks := map fst (firstn (Nat.div2 (length es)) es) in
  a <- rmap (fun r => digests (snd r)) (start keccak pr (New (vals es) :: flat_map (fun k => [Delete 0 k; HashOf 0]) ks)) ;;
  table <- lib_inserts [] es ;; b <- lib_delete_hashes table ks ;; assert_same a b.

(** trie_hashing.rs:417-430: the keys of the [i]-th group are forced to start with nibble [i]. *)
Definition force (i : N) (e : entry) : res entry :=
  k <- truncate_n_nibbles_front pr (fst e) 1 ;; k' <- push_nibble_front k i ;; Ok (k', snd e).
Fixpoint force_groups (i : N) (gs : list (list entry)) : res (list entry) :=
  match gs with [] => Ok [] | g :: gs' => a <- mapr (force i) g ;; b <- force_groups (i + 1) gs' ;; Ok (a ++ b) end.
(** trie_hashing.rs:416-452 [replacing_part_of_a_trie_with_a_hash_node_produces_same_hash], as a program over handles (UserSpec.v) whose
    handle 0 is the trie. The new array of children is put together from clones of the children of the root and new hash nodes (no key is
    empty, so that the root has no value), and assigned through [DerefMut]. *)
Fixpoint new_children (i todo made : nat) (ch : list nat) (k : nat -> list nat -> user (option (list N * list N))) : user (option (list N * list N)) :=
  match todo with
  | O => k made ch
  | S todo' =>
      Call (SubTrie 0 [i]) (fun _ =>
        if Nat.even i then
          Call (HashOf made) (fun x => match x with
            | Digest h => Call (Make (MHash h)) (fun _ => new_children (S i) todo' (S (S made)) (ch ++ [S made]) k)
            | _ => Return None end)
        else new_children (S i) todo' (S made) (ch ++ [made]) k)
  end.
Definition replacing_program (es : list entry) : user (option (list N * list N)) :=
  Call (New (vals es)) (fun _ => Call (HashOf 0) (fun x =>
    match x with
    | Digest h0 =>
        new_children 0 16 1 [] (fun made ch =>
          Call (Make (MBranch ch [])) (fun _ => Call (Assign 0 made) (fun _ => Call (HashOf 0) (fun y =>
            match y with Digest h1 => Return (Some (h0, h1)) | _ => Return None end))))
    | _ => Return None
    end)).
Definition replacing_children (gs : list (list entry)) : res unit :=
  es <- force_groups 0 gs ;;
  '(_, r) <- play keccak pr (replacing_program es) ;;
  match r with Some (h0, h1) => assert (key_eqb h0 h1) | None => Panic end.

(** ** Subsets *)
(** trie_subsets.rs:622-645 [create_massive_trie_and_subsets], with the keys of the subsets: any lists of the keys of the entries.
    A failed [unwrap] is a panic. *)
Definition massive_subsets (es : list entry) (kss : list (list nibbles)) (os : list CacheSpec.op) : res (list hnode * list obs) :=
  '(hs, xs) <- start keccak pr (New (vals es) :: Subsets 0 kss :: os) ;;
  match xs with Done :: Done :: xs' => Ok (hs, xs') | _ => Panic end.
(** trie_subsets.rs:423-427 [get_all_nibbles_of_leaf_nodes_in_trie], 575-582
    [all_leafs_of_keys_to_create_subset_are_included_in_subset_for_giant_trie]. [items()] does not use the caches (C59). *)
Fixpoint keys_included (l : list (hnode * list nibbles)) : test unit :=
  match l with
  | [] => pure (Ok tt)
  | (h, ks) :: l' =>
      items <+ collect (erase h) ;;
      let got := map fst (filter (fun e => match snd e with Val _ => true | HashV _ => false end) items) in
      _ <+ pure (assert (forallb (contains nib_eqb got) ks)) ;; keys_included l'
  end.
Definition subset_keys (es : list entry) (kss : list (list nibbles)) : test unit :=
  r <+ pure (massive_subsets es kss []) ;; keys_included (combine (tl (fst r)) kss).
(** trie_subsets.rs:613-620 [hash_of_giant_random_partial_tries_matches_original_trie]. *)
Definition subset_hashes (es : list entry) (kss : list (list nibbles)) : res unit :=
  '(_, xs) <- massive_subsets es kss (map HashOf (seq 0 (S (length kss)))) ;;
  match digests xs with h :: hs => assert (forallb (key_eqb h) hs) | [] => Panic end.

(** ** Statistics *)
(** stats.rs:358-375 [create_trie_and_stats_from_entries_and_assert]. *)
Definition stats_count (es hs : list entry) : res unit :=
  '(ts, _) <- start keccak pr [New []; Extend 0 (vals es); Extend 0 (map (fun e => (fst e, HashV (snd e))) hs)] ;;
  match ts with
  | [t] =>
      s <- get_trie_stats pr (erase t) ;;
      _ <- assert (n_leaf (s_counts s) =? N.of_nat (length es)) ;;
      assert (n_hash (s_counts s) =? N.of_nat (length hs))
  | _ => Panic
  end.
End Tests.

(** No key has two values. *)
Definition single_valued (es : list entry) : Prop := forall k v w, In (k, v) es -> In (k, w) es -> v = w.

(** Two of the keys go on differently after [q]. *)
Definition parts (ks : list (list N)) (q : list N) : Prop := exists x y r s, x <> y /\ In (q ++ x :: r) ks /\ In (q ++ y :: s) ks.
(** [k] ends between two places where the keys part, or before the first one. *)
Definition ends_between (ks : list (list N)) (k : list N) : Prop :=
  exists q p s, k = q ++ s /\ (length s < length p)%nat /\ (q = [] \/ exists q0 d, q = q0 ++ [d] /\ parts ks q0) /\
    (forall j, In j ks -> is_prefix q j -> is_prefix (q ++ p) j) /\ parts ks (q ++ p).
