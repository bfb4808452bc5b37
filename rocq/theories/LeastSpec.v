(** Subsets are the smallest excerpts: specification vocabulary. *)
From Verif Require Import Base Nibbles NibblesSpec Trie TrieSpec.
Open Scope N_scope.

(** On the way of the key [k] in [t] there is a hash node, perhaps at the end of [k]. *)
Definition cut_off (t : node) (k : list N) : Prop := exists p h, lk t p = Some (HashV h) /\ is_prefix p k.
