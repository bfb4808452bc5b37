(** The derived [Hash] and [PartialEq] of the types that go into hash sets and maps: [Nibbles] (nibbles.rs:107-114), [ValOrHash] (trie_ops.rs:45-54),
    [PathSegment] (common.rs:9-16), [NodePath] (common.rs:90-91), [TrieNodeType] (utils.rs:8-16), [NodeInfo] (diff.rs:118-129), [DiffPoint] (diff.rs:78-85).
    [hashed] is the sequence of bytes that a [Hasher] gets (a 64-bit machine with the lowest byte first; the methods of [Hasher] for numbers and lengths write the
    bytes of the number, which is their default). Derived implementations hand over the fields in order, for an enum the position of the variant first; [Vec]s and
    arrays ([U512] has an array of eight words) hand over their length first; [H256] (crate fixed-hash) writes its 32 bytes; tuples are as structs. *)
From Verif Require Import Base Nibbles Trie Query Diff Binary.
Open Scope N_scope.
Open Scope list_scope.

Definition hash_usize (n : N) : list N := le_bytes 8 n.
Definition hash_bytes (v : list N) : list N := hash_usize (N.of_nat (length v)) ++ v.
(** nibbles.rs:107-114. *)
Definition hash_nibbles (n : nibbles) : list N := hash_usize (count n) ++ hash_usize 8 ++ le_bytes 64 (packed n).
(** trie_ops.rs:45-54. *)
Definition hash_val (v : val_or_hash) : list N := match v with Val b => hash_usize 0 ++ hash_bytes b | HashV h => hash_usize 1 ++ h end.
(** An item of a trie, [(Nibbles, ValOrHash)]. *)
Definition hash_item (e : nibbles * val_or_hash) : list N := hash_nibbles (fst e) ++ hash_val (snd e).
(** common.rs:9-16, 90-91. *)
Definition hash_seg (s : segment) : list N :=
  match s with
  | SEmpty => hash_usize 0
  | SHash => hash_usize 1
  | SBranch b => hash_usize 2 ++ [b]
  | SExtension n => hash_usize 3 ++ hash_nibbles n
  | SLeaf n => hash_usize 4 ++ hash_nibbles n
  end.
Definition hash_path (p : list segment) : list N := hash_usize (N.of_nat (length p)) ++ flat_map hash_seg p.
(** utils.rs:8-16. *)
Definition type_position (t : node_type) : N := match t with TEmpty => 0 | THash => 1 | TBranch => 2 | TExtension => 3 | TLeaf => 4 end.
Definition hash_type (t : node_type) : list N := hash_usize (type_position t).
Definition hash_option (o : option (list N)) : list N := match o with None => hash_usize 0 | Some v => hash_usize 1 ++ hash_bytes v end.
(** diff.rs:118-129. *)
Definition hash_info (i : node_info) : list N := hash_nibbles (i_key i) ++ hash_option (i_value i) ++ hash_type (i_type i) ++ i_hash i.
(** diff.rs:78-85. *)
Definition hash_point (d : diff_point) : list N :=
  hash_usize (d_depth d) ++ hash_path (d_path d) ++ hash_nibbles (d_key d) ++ hash_info (a_info d) ++ hash_info (b_info d).

(** The derived [PartialEq]: all fields are equal, in order ([nib_eqb] in Nibbles.v). *)
Fixpoint list_eqb {A} (eqb : A -> A -> bool) (a b : list A) : bool :=
  match a, b with [], [] => true | x :: a', y :: b' => eqb x y && list_eqb eqb a' b' | _, _ => false end.
Definition bytes_eqb : list N -> list N -> bool := list_eqb N.eqb.
Definition val_eqb (a b : val_or_hash) : bool :=
  match a, b with Val v, Val w => bytes_eqb v w | HashV v, HashV w => bytes_eqb v w | _, _ => false end.
Definition pair_eqb (a b : nibbles * val_or_hash) : bool := nib_eqb (fst a) (fst b) && val_eqb (snd a) (snd b).
Definition seg_eqb (a b : segment) : bool :=
  match a, b with
  | SEmpty, SEmpty | SHash, SHash => true
  | SBranch x, SBranch y => x =? y
  | SExtension m, SExtension n | SLeaf m, SLeaf n => nib_eqb m n
  | _, _ => false
  end.
Definition path_eqb : list segment -> list segment -> bool := list_eqb seg_eqb.
Definition option_eqb (a b : option (list N)) : bool := match a, b with None, None => true | Some v, Some w => bytes_eqb v w | _, _ => false end.
Definition info_eqb (a b : node_info) : bool :=
  nib_eqb (i_key a) (i_key b) && option_eqb (i_value a) (i_value b) && (type_position (i_type a) =? type_position (i_type b)) && bytes_eqb (i_hash a) (i_hash b).
Definition point_eqb (a b : diff_point) : bool :=
  (d_depth a =? d_depth b) && path_eqb (d_path a) (d_path b) && nib_eqb (d_key a) (d_key b) && info_eqb (a_info a) (a_info b) && info_eqb (b_info a) (b_info b).

(** ** A hash map *)
(** [std::collections::HashMap], as buckets: a key is looked for in the bucket that its hash selects ([bucket]: the hasher, and how the number is used; any function),
    by [==]. [HashSet<K>] is [HashMap<K, ()>]. *)
Inductive map_op (K V : Type) : Type := MInsert (k : K) (v : V) | MRemove (k : K) | MGet (k : K).
Arguments MInsert {K V}. Arguments MRemove {K V}. Arguments MGet {K V}.
Section Map.
Context {K V : Type}.
Variable hashed : K -> list N.
Variable eqb : K -> K -> bool.
Variable bucket : list N -> N.
Definition table : Type := N -> list (K * V).
Definition no_entries : table := fun _ => [].
Definition lookup (m : table) (k : K) : option V := option_map snd (find (fun e => eqb k (fst e)) (m (bucket (hashed k)))).
Definition set_bucket (m : table) (i : N) (l : list (K * V)) : table := fun j => if j =? i then l else m j.
Fixpoint put (l : list (K * V)) (k : K) (v : V) : list (K * V) :=
  match l with [] => [(k, v)] | (k', v') :: l' => if eqb k k' then (k', v) :: l' else (k', v') :: put l' k v end.
Fixpoint drop (l : list (K * V)) (k : K) : list (K * V) :=
  match l with [] => [] | (k', v') :: l' => if eqb k k' then l' else (k', v') :: drop l' k end.
Definition map_insert (m : table) (k : K) (v : V) : table * option V :=
  let i := bucket (hashed k) in (set_bucket m i (put (m i) k v), lookup m k).
Definition map_remove (m : table) (k : K) : table * option V :=
  let i := bucket (hashed k) in (set_bucket m i (drop (m i) k), lookup m k).
(** A program on the map, with the outputs. *)
Definition map_step (m : table) (o : map_op K V) : table * option V :=
  match o with MInsert k v => map_insert m k v | MRemove k => map_remove m k | MGet k => (m, lookup m k) end.
Fixpoint map_run (m : table) (os : list (map_op K V)) : table * list (option V) :=
  match os with [] => (m, []) | o :: os' => let '(m', x) := map_step m o in let '(m'', xs) := map_run m' os' in (m'', x :: xs) end.
End Map.
