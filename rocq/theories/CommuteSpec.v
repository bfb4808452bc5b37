(** Several callers that take turns on one trie. Specification vocabulary. *)
From Verif Require Import Base Nibbles NibblesSpec Trie TrieSpec TrieHistSpec ReplaySpec.
Open Scope N_scope.

(** A schedule: who (a number) does what, in this order. What caller [i] does of it: *)
Definition of (i : nat) (c : list (nat * op)) : list op := map snd (filter (fun e => Nat.eqb (fst e) i) c).
(** And the answers caller [i] gets, if [xs] are the answers of the schedule. *)
Fixpoint answers (i : nat) (c : list (nat * op)) (xs : list out) : list out :=
  match c, xs with
  | (j, _) :: c', x :: xs' => if Nat.eqb j i then x :: answers i c' xs' else answers i c' xs'
  | _, _ => []
  end.

(** Every caller [i] uses keys of its own, [ks i], and no two callers have one in common. *)
Definition owned (ks : nat -> list nibbles) (c : list (nat * op)) : Prop := Forall (fun e => op_on (ks (fst e)) (snd e)) c.
Definition apart (ks : nat -> list nibbles) : Prop := forall i j k k', i <> j -> In k (ks i) -> In k' (ks j) -> nseq k <> nseq k'.
