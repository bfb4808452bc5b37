(** Partial tries that are built by hand from values and hashes of subtrees (/repo/examples/hash_nodes.rs, /repo/README.md).
    Specification vocabulary. *)
From Verif Require Import Base Nibbles NibblesSpec Trie TrieSpec Rlp YellowPaper Hashing HashSpec HideSpec.
Open Scope N_scope.

(** Going down [t] along the nibbles [k] ends at the node [u]. *)
Inductive node_at : node -> list N -> node -> Prop :=
| na_here t : node_at t [] t
| na_branch ch v d k c u : nth_error ch (N.to_nat d) = Some c -> node_at c k u -> node_at (Branch ch v) (d :: k) u
| na_ext n c k u : node_at c k u -> node_at (Extension n c) (nseq n ++ k) u.

Section Hand.
Variable keccak : list N -> list N.
Variable pr : profile.

(** The entry [k], [x] describes a part of [t]: it is an entry of [t], or [x] is what [hash] gives for the node at [k], whose
    encoding has at least 32 bytes. *)
Definition part_of (t : node) (k : list N) (x : val_or_hash) : Prop :=
  lk t k = Some x \/
  exists u h, node_at t k u /\ not_hash u /\ 32 <= len (RLP (item keccak u)) /\ hash_trie keccak pr u = Ok h /\ x = HashV h.

(** No key of the list is a prefix of a later or an earlier one. *)
Definition apart (l : list (nibbles * val_or_hash)) : Prop :=
  forall a e b e' c, l = a ++ e :: b ++ e' :: c ->
    ~ is_prefix (nseq (fst e)) (nseq (fst e')) /\ ~ is_prefix (nseq (fst e')) (nseq (fst e)).

(** The list gives the key [k] the value or hash [x]. *)
Definition gives (l : list (nibbles * val_or_hash)) (k : list N) (x : val_or_hash) : Prop :=
  exists n, In (n, x) l /\ nseq n = k.

(** The list describes all of [t]: what is not in the list itself is below a hash of the list. *)
Definition describes (l : list (nibbles * val_or_hash)) (t : node) : Prop :=
  Forall (fun e => kwf (fst e) /\ part_of t (nseq (fst e)) (snd e)) l /\ apart l /\
  forall k x, lk t k = Some x -> gives l k x \/ exists j h, gives l j (HashV h) /\ is_prefix j k.
End Hand.
