(** What a [Nibbles] value means: the list of its hex digits, first digit first.
    This file only contains specification vocabulary. *)
From Verif Require Import Base Nibbles.
Open Scope N_scope.

(** The [c] lowest base-16 digits of [p], most significant first. *)
Fixpoint digits (c : nat) (p : N) : list N :=
  match c with
  | O => []
  | S c' => digits c' (p / 16) ++ [p mod 16]
  end.

(** The nibble sequence denoted by a [Nibbles] value. *)
Definition nseq (n : nibbles) : list N := digits (N.to_nat (count n)) (packed n).

(** The number written by a sequence of hex digits. *)
Definition undigits (l : list N) : N := fold_left (fun a d => a * 16 + d) l 0.

(** A list of hex digits. *)
Definition hexl (l : list N) : Prop := Forall (fun d => d < 16) l.

(** The [Nibbles] value that denotes the sequence [l]. *)
Definition enc (l : list N) : nibbles := Nib (N.of_nat (length l)) (undigits l).

(** The documented invariant of the struct (nibbles.rs:154-155: unused bits are zero), and few enough nibbles that every
    mask fits: [create_mask_of_1s(512)] panics, so full-width operations stop at 127 nibbles. *)
Definition nwf (n : nibbles) : Prop := packed n < 16 ^ count n /\ count n <= 127.

(** Length of the longest common prefix of two sequences. *)
Fixpoint lcp (a b : list N) : nat :=
  match a, b with
  | x :: a', y :: b' => if x =? y then S (lcp a' b') else O
  | _, _ => O
  end.

Definition is_prefix (a b : list N) : Prop := exists c, b = a ++ c.

(** Two hex digits per byte, high digit first, and back. *)
Fixpoint pair_up (l : list N) : list N :=
  match l with
  | a :: b :: r => (16 * a + b) :: pair_up r
  | _ => []
  end.

Fixpoint unpair (l : list N) : list N :=
  match l with
  | [] => []
  | b :: r => b / 16 :: b mod 16 :: unpair r
  end.

(** A list of bytes. *)
Definition bytesl (l : list N) : Prop := Forall (fun b => b < 256) l.

(** Yellow Paper, appendix C, hex-prefix encoding [HP(x, t)]. *)
Definition yp_hp (x : list N) (t : bool) : list N :=
  let f := if t then 2 else 0 in
  if Nat.even (length x) then 16 * f :: pair_up x
  else match x with
       | x0 :: r => (16 * (f + 1) + x0) :: pair_up r
       | [] => []
       end.

(** Shortlex order on sequences: shorter first, then the first differing digit decides. *)
Fixpoint lex_compare (a b : list N) : comparison :=
  match a, b with
  | [], [] => Eq
  | [], _ => Lt
  | _, [] => Gt
  | x :: a', y :: b' => match x ?= y with Eq => lex_compare a' b' | c => c end
  end.
Definition shortlex (a b : list N) : comparison :=
  match Nat.compare (length a) (length b) with
  | Eq => lex_compare a b
  | c => c
  end.

(** [m] returns, without panicking, the well-formed value that denotes [l]. *)
Definition yields (m : res nibbles) (l : list N) : Prop :=
  exists r, m = Ok r /\ nwf r /\ nseq r = l.
Definition yields2 (m : res (nibbles * nibbles)) (l1 l2 : list N) : Prop :=
  exists r1 r2, m = Ok (r1, r2) /\ (nwf r1 /\ nseq r1 = l1) /\ (nwf r2 /\ nseq r2 = l2).
Definition yields_pop (m : res (N * nibbles)) (d : N) (l : list N) : Prop :=
  exists r, m = Ok (d, r) /\ nwf r /\ nseq r = l.
