(** Model of how Rust's standard library prints an [f32] with a fixed number of fraction digits ([{:.2}], [{:.3}] in
    /repo/src/debug_tools/stats.rs:72, 171, 228, 229). External code: core::fmt::float and core::num::flt2dec ([to_exact_fixed_str]).
    The digits are those of the exact value, rounded to the nearest, ties to even. *)
From Coq Require Import String SpecFloat.
From Verif Require Import Base Nibbles Trie Query Diff Text Stats.
Open Scope N_scope.
Open Scope list_scope.

(** [a / b] rounded to an integer, to the nearest, ties to even. *)
Definition div_even (a b : N) : N :=
  let q := a / b in
  let r := a mod b in
  if 2 * r <? b then q else if b <? 2 * r then q + 1 else if N.even q then q else q + 1.

(** The last [k] decimal digits of [n], with leading zeros. *)
Fixpoint low_digits (k : nat) (n : N) : list N :=
  match k with O => [] | S k' => low_digits k' (n / 10) ++ [48 + n mod 10] end.

(** The number [n / 10^k] with [k] fraction digits. *)
Definition fixed_text (k : nat) (n : N) : list N :=
  dec (n / 10 ^ N.of_nat k) ++ (match k with O => [] | _ => txt "." end) ++ low_digits k n.

(** [{:.k}] of an [f32]. *)
Definition f32_text (k : nat) (x : f32) : list N :=
  match x with
  | S754_nan => txt "NaN"
  | S754_infinity s => (if s then txt "-" else []) ++ txt "inf"
  | S754_zero s => (if s then txt "-" else []) ++ fixed_text k 0
  | S754_finite s m e =>
      let a := N.pos m * 10 ^ N.of_nat k in
      (if s then txt "-" else []) ++ fixed_text k (div_even (a * 2 ^ Z.to_N e) (2 ^ Z.to_N (- e)))
  end.
