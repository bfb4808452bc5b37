(** What floating point numbers and their texts mean, in rational numbers. Only specification vocabulary. *)
From Coq Require Import SpecFloat QArith Qabs.
From Verif Require Import Base Stats TextSpec.
Open Scope Q_scope.

(** The value of a finite [f32]. *)
Definition f32_value (x : f32) : option Q :=
  match x with
  | S754_zero _ => Some 0
  | S754_finite s m e => Some ((if s then -1 else 1) * inject_Z (Z.pos m) * 2 ^ e)
  | _ => None
  end.

Definition q_of (n : N) : Q := inject_Z (Z.of_N n).

(** [l] writes the number [n / 10^k]: digits with a decimal point before the last [k] of them. *)
Definition writes (k : nat) (l : list N) (n : N) : Prop :=
  exists a b, l = a ++ 46%N :: b /\ length b = k /\ a <> [] /\ Forall (fun c => (48 <= c <= 57)%N) (a ++ b) /\
    undec (a ++ b) = n /\ (forall r, a = 48%N :: r -> r = []).

(** [n] is the integer nearest to [q], the even one if there are two. *)
Definition nearest (q : Q) (n : N) : Prop :=
  Qabs (q - q_of n) <= 1 # 2 /\ (Qabs (q - q_of n) == 1 # 2 -> N.even n = true).

(** [l] is a decimal number with [k] fraction digits that differs from [x] by at most half a unit of the last digit and a
    [1/2^19]th part of [x]. *)
Definition shows (k : nat) (l : list N) (x : Q) : Prop :=
  exists n, writes k l n /\ Qabs (q_of n / q_of (10 ^ N.of_nat k) - x) <= (1 # 2) / q_of (10 ^ N.of_nat k) + x * (1 # 524288).
