(** Specification vocabulary for hashing: which tries fit the types, and their Yellow Paper structure. *)
From Verif Require Import Base Nibbles NibblesSpec Trie TrieSpec YellowPaper.
Open Scope N_scope.

(** The byte strings of the trie are lists of bytes, hashes have 32 bytes, values less than 2^31 (the [rlp] crate counts
    sizes in an [u32]). *)
Fixpoint fits (t : node) : Prop :=
  match t with
  | Empty => True
  | Hash h => bytesl h /\ len h = 32
  | Branch ch v => bytesl v /\ len v < 2147483648 /\ (fix all l := match l with [] => True | c :: l' => fits c /\ all l' end) ch
  | Extension _ c => fits c
  | Leaf _ v => bytesl v /\ len v < 2147483648
  end.

(** A hash function with 32-byte outputs. *)
Definition hash32 (keccak : list N -> list N) : Prop := forall b, bytesl (keccak b) /\ len (keccak b) = 32.

(** No hash nodes. *)
Definition hash_free (t : node) : Prop := forall k h, lk t k <> Some (HashV h).

(** [J] lists the contents of [t], which has no hash nodes. *)
Definition lists (J : pairs) (t : node) : Prop :=
  NoDup (map fst J) /\ forall k e, lk t k = Some e <-> exists v, e = Val v /\ In (k, v) J.

Section Items.
Variable keccak : list N -> list N.

(** The structure that is RLP-encoded for a node, and how the node appears inside its parent. *)
Definition shorten (x : rlp) : rlp := if len (RLP x) <? 32 then x else RStr (keccak (RLP x)).

Fixpoint item (t : node) : rlp :=
  let ref c := match c with Hash h => RStr h | _ => shorten (item c) end in
  match t with
  | Empty => RStr []
  | Hash h => RStr h
  | Branch ch v => RList (map ref ch ++ [RStr v])
  | Extension n c => RList [RStr (yp_hp (nseq n) false); ref c]
  | Leaf n v => RList [RStr (yp_hp (nseq n) true); RStr v]
  end.
Definition ref (t : node) : rlp := match t with Hash h => RStr h | _ => shorten (item t) end.

(** The encodings of all nodes of a trie. *)
Fixpoint encodings (t : node) : list (list N) :=
  RLP (item t) ::
  match t with
  | Branch ch _ => flat_map encodings ch
  | Extension _ c => encodings c
  | _ => []
  end.

(** Two different strings, one of each list, with the same digest. *)
Definition collision (A B : list (list N)) : Prop := exists x y, In x A /\ In y B /\ x <> y /\ keccak x = keccak y.
End Items.
