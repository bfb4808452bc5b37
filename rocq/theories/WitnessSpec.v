(** What a reader of a foreign text has to check before relying on the root hash. Specification vocabulary. *)
From Verif Require Import Base Nibbles NibblesSpec Trie TrieSpec YellowPaper HashSpec.
Open Scope N_scope.

(** No bits beyond the counted nibbles. *)
Definition clean (n : nibbles) : bool := packed n <? 16 ^ count n.
Definition short (v : list N) : bool := len v <? 2147483648.

(** Every part of a key is clean, no way down has more than [L] nibbles, values have less than 2^31 bytes. *)
Fixpoint checked (L : N) (t : node) : bool :=
  match t with
  | Empty | Hash _ => true
  | Branch ch v => (0 <? L) && short v && forallb (checked (L - 1)) ch
  | Extension n c => (count n <=? L) && clean n && checked (L - count n) c
  | Leaf n v => (count n <=? L) && clean n && short v
  end.

(** Extensions are not empty and lead to a branch or a hash node, branches have a child, leaves have a value. *)
Fixpoint shaped (t : node) : bool :=
  match t with
  | Empty | Hash _ => true
  | Branch ch _ => existsb (fun c => match c with Empty => false | _ => true end) ch && forallb shaped ch
  | Extension n c => negb (count n =? 0) && match c with Branch _ _ | Hash _ => true | _ => false end && shaped c
  | Leaf _ v => match v with [] => false | _ => true end
  end.
