(** Keeping an excerpt of a trie up to date. Specification vocabulary. *)
From Verif Require Import Base Nibbles NibblesSpec Trie TrieSpec TrieHistSpec Hashing Subset ReplaySpec NeighbourSpec.
Open Scope N_scope.

(** A round: some operations, and the keys that are still needed afterwards. *)
Definition round : Type := list op * list nibbles.

(** The holder of the complete trie runs the operations. Each round shows their outputs and the new root hash. *)
Fixpoint holder (keccak : list N -> list N) (pr : profile) (t : node) (rs : list round) : res (node * list (list out * list N)) :=
  match rs with
  | [] => Ok (t, [])
  | (ops, _) :: rs' =>
      ' (t1, xs) <- trie_ops pr t ops ;;
      h <- hash_trie keccak pr t1 ;;
      ' (t2, l) <- holder keccak pr t1 rs' ;;
      Ok (t2, (xs, h) :: l)
  end.

(** The follower has only a subset, does the same on it, and after each round cuts it down to the keys still needed. *)
Fixpoint follower (keccak : list N -> list N) (pr : profile) (s : node) (rs : list round) : res (node * list (list out * list N)) :=
  match rs with
  | [] => Ok (s, [])
  | (ops, ks) :: rs' =>
      ' (s1, xs) <- trie_ops pr s ops ;;
      h <- hash_trie keccak pr s1 ;;
      r <- create_trie_subset keccak pr s1 ks ;;
      match r with
      | RErr _ => Panic
      | ROk s2 => ' (s3, l) <- follower keccak pr s2 rs' ;; Ok (s3, (xs, h) :: l)
      end
  end.

(** Operations use the keys needed at the time, deletes have a neighbour among them (see NeighbourSpec.v), and the keys needed
    afterwards are some of them. *)
Fixpoint rounds_ok (pr : profile) (t : node) (ks : list nibbles) (rs : list round) : Prop :=
  match rs with
  | [] => True
  | (ops, ks') :: rs' =>
      Forall (op_on ks) ops /\ neighbours_held pr t ks ops /\ incl ks' ks /\
      forall t1 xs, trie_ops pr t ops = Ok (t1, xs) -> rounds_ok pr t1 ks' rs'
  end.

Definition last_keys (ks : list nibbles) (rs : list round) : list nibbles := last (map snd rs) ks.

(** The same over the map of a trie's entries: the operations' outputs and the map after each round. *)
Fixpoint map_rounds (m : kvmap) (rs : list round) : list (list out * kvmap) :=
  match rs with
  | [] => []
  | (ops, _) :: rs' => let m1 := fst (spec_ops m ops) in (snd (spec_ops m ops), m1) :: map_rounds m1 rs'
  end.
Fixpoint rounds_requested (m : kvmap) (ks : list nibbles) (rs : list round) : Prop :=
  match rs with
  | [] => True
  | (ops, ks') :: rs' =>
      Forall (op_on ks) ops /\ neighbours_requested m ks ops /\ incl ks' ks /\ rounds_requested (fst (spec_ops m ops)) ks' rs'
  end.
