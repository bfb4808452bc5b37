(** Merging two tries by extending one of them with the items of the other. Specification vocabulary. *)
From Verif Require Import Base Nibbles NibblesSpec Trie TrieSpec.
Open Scope N_scope.

(** [a] has a hash node at or above a key of [b], or [b] has one at or above a key of [a]. *)
Definition clash (a b : node) : Prop :=
  exists i x j y, lk a i = Some x /\ lk b j = Some y /\
    ((exists h, x = HashV h) /\ is_prefix i j \/ (exists h, y = HashV h) /\ is_prefix j i).

(** The entries of [b], and those of [a] for the other keys. *)
Definition over (a b : node) (k : list N) : option val_or_hash := match lk b k with Some e => Some e | None => lk a k end.

(** Extending [a] with the items of each of the tries [ts] in turn ends with [r]. *)
Inductive merged (pr : profile) : node -> list node -> node -> Prop :=
| mg_nil a : merged pr a [] a
| mg_cons a b ts fuel l a' r :
    trie_items fuel pr b = Some (Ok l) -> trie_extend pr a l = Ok a' -> merged pr a' ts r -> merged pr a (b :: ts) r.

(** No key is in both. *)
Definition disjoint_keys (a b : node) : Prop := forall k, lk a k = None \/ lk b k = None.
