(** What the recursion of the crate's functions should be bounded by. Only specification vocabulary. *)
From Verif Require Import Base Trie.

(** The nodes on the longest way down a trie, empty ones at the end included. *)
Fixpoint levels (t : node) : nat :=
  match t with
  | Branch ch _ => S (fold_right Nat.max 0%nat (map levels ch))
  | Extension _ c => S (levels c)
  | _ => 1%nat
  end.

(** A computation [f] with room for [d] nested calls, [None] when the stack is exhausted: it needs no more than [room], and with less room it
    comes to the same end [r] or exhausts the stack. *)
Definition runs {A} (room : nat) (f : nat -> option (res A)) (r : res A) : Prop :=
  forall d, f d = Some r \/ (f d = None /\ (d < room)%nat).
(** It needs exactly [room]. *)
Definition needs {A} (room : nat) (f : nat -> option (res A)) (r : res A) : Prop :=
  forall d, ((room <= d)%nat -> f d = Some r) /\ ((d < room)%nat -> f d = None).
