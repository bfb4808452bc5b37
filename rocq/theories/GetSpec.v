(** Where a canonical trie has a stretch of nibbles without a fork, in terms of the stored keys only. *)
From Verif Require Import Base Nibbles NibblesSpec Trie TrieSpec.
Open Scope N_scope.

(** [q] is where stored keys part: two stored keys extend [q] and differ right after it, or one of them ends there. *)
Definition fork (t : node) (q : list N) : Prop :=
  (stored t q /\ exists j, stored t j /\ strict_prefix q j) \/
  (exists x y r s, x <> y /\ stored t (q ++ x :: r) /\ stored t (q ++ y :: s)).

(** [q ++ p] is the next fork, or hash, at or below [q], and [q] is the root or one nibble after a fork. *)
Definition stretch (t : node) (q p : list N) : Prop :=
  (q = [] \/ exists q0 d, q = q0 ++ [d] /\ fork t q0) /\
  p <> [] /\
  (forall j, stored t j -> is_prefix q j -> is_prefix (q ++ p) j) /\
  (fork t (q ++ p) \/ exists h, lk t (q ++ p) = Some (HashV h)).

(** [k] reaches the stretch from [q] to [q ++ p] and is too short to cross it. *)
Definition ends_in (t : node) (k q p : list N) : Prop :=
  stretch t q p /\ exists s, k = q ++ s /\ (length s < length p)%nat.

(** The answer of Release builds to such a key, whatever the key: the value at the end of the stretch if the stretch consists of
    zero nibbles only, nothing otherwise. *)
Definition beyond (t : node) (q p : list N) : option (list N) :=
  if key_eqb p (repeat 0 (length p)) then match lk t (q ++ p) with Some (Val v) => Some v | _ => None end else None.
