(** Common definitions: panics, build profiles, [usize] and [U512] arithmetic. *)
From Coq Require Export List NArith ZArith Lia Bool.
From Coq Require Export ZifyBool ZifyNat ZifyN.
Export ListNotations.
Open Scope N_scope.

(** A Rust computation that may panic. *)
Inductive res (A : Type) : Type :=
| Ok (a : A)
| Panic.
Arguments Ok {A} a.
Arguments Panic {A}.

Definition bind {A B} (m : res A) (f : A -> res B) : res B :=
  match m with Ok a => f a | Panic => Panic end.

Definition rmap {A B} (f : A -> B) (m : res A) : res B :=
  match m with Ok a => Ok (f a) | Panic => Panic end.

Notation "x <- m ;; f" := (bind m (fun x => f))
  (at level 100, m at next level, right associativity).
Notation "' pat <- m ;; f" := (bind m (fun x => match x with pat => f end))
  (at level 100, pat pattern, m at next level, right associativity).

(** [assert!(b)]: panics in every profile. *)
Definition assert (b : bool) : res unit := if b then Ok tt else Panic.

(** Rust [Result<A, E>]. *)
Inductive result (A E : Type) : Type :=
| ROk (a : A)
| RErr (e : E).
Arguments ROk {A E} a.
Arguments RErr {A E} e.

(** Cargo build profiles: [dev]/[test] check [usize] overflow, [release] wraps. *)
Inductive profile : Type := Debug | Release.

Definition usize_range : N := 18446744073709551616. (* 2^64 *)

(** [a - b] on [usize]. *)
Definition usub (pr : profile) (a b : N) : res N :=
  if b <=? a then Ok (a - b)
  else match pr with Debug => Panic | Release => Ok (a + usize_range - b) end.

(** [a + b] on [usize]. *)
Definition uadd (pr : profile) (a b : N) : res N :=
  if a + b <? usize_range then Ok (a + b)
  else match pr with Debug => Panic | Release => Ok ((a + b) mod usize_range) end.

(** [a * b] on [usize]. *)
Definition umul (pr : profile) (a b : N) : res N :=
  if a * b <? usize_range then Ok (a * b)
  else match pr with Debug => Panic | Release => Ok ((a * b) mod usize_range) end.

(** ** [ethereum_types::U512] (crate [uint]), a number below [2^512].
    External crate: these definitions state the behaviour of [uint] 0.9.5 that the model relies on. *)
Definition u512_bits : N := 512.

(** [<<]: bits shifted out are lost; a shift of 512 or more gives 0. *)
Definition u512_shl (x s : N) : N :=
  if u512_bits <=? s then 0 else N.land (N.shiftl x s) (N.ones u512_bits).

(** [>>]. *)
Definition u512_shr (x s : N) : N :=
  if u512_bits <=? s then 0 else N.shiftr x s.

(** [!x]. *)
Definition u512_not (x : N) : N := N.lnot x u512_bits.

(** [-]: panics on underflow in every profile. *)
Definition u512_sub (x y : N) : res N := if y <=? x then Ok (x - y) else Panic.

(** [x.byte(i)]: the [i]-th least significant byte; indexing panics beyond 64 bytes. *)
Definition u512_byte (x i : N) : res N :=
  if i <? 64 then Ok (N.land (N.shiftr x (8 * i)) 255) else Panic.

(** [U512::from_big_endian] / [from_little_endian] on at most 64 bytes. *)
Definition from_be (l : list N) : N := fold_left (fun a b => a * 256 + b) l 0.
Definition from_le (l : list N) : N := from_be (rev l).

(** [to_big_endian] into a buffer of [len] bytes. *)
Fixpoint be_bytes (len : nat) (x : N) : list N :=
  match len with
  | O => []
  | S len' => be_bytes len' (x / 256) ++ [x mod 256]
  end.

(** [x.bits()]: position of the highest set bit, 0 for 0. *)
Definition u512_size (x : N) : N := N.size x.
