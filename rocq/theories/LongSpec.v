(** Tries with keys longer than the documented 64 nibbles. Only specification vocabulary. *)
From Verif Require Import Base Nibbles NibblesSpec Trie TrieSpec.
Open Scope N_scope.

(** The tries got from the empty one by successful inserts and deletes, with any keys that fit the representation
    (at most 127 nibbles). *)
Inductive built (pr : profile) : node -> Prop :=
| built_empty : built pr Empty
| built_insert t k v t' : built pr t -> nwf k -> proper v -> trie_insert pr t k v = Ok t' -> built pr t'
| built_delete t k t' w : built pr t -> nwf k -> trie_delete pr t k = Ok (t', w) -> built pr t'.

(** Every stored key has at most 64 nibbles. *)
Definition short (t : node) : Prop := forall k, stored t k -> (length k <= 64)%nat.

(** Below some prefix [p] of [k], all other stored keys share more than 64 further nibbles, from which [k] departs. *)
Definition long_gap (t : node) (k : list N) : Prop := exists p q,
  is_prefix p k /\ is_prefix p q /\ ~ is_prefix q k /\ ~ is_prefix k q /\ (64 + length p < length q)%nat /\
  (exists j, stored t j /\ is_prefix q j) /\ (forall j, stored t j -> j <> k -> is_prefix p j -> is_prefix q j).
