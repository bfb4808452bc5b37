(** An executable Keccak-256 (the function of the external crate [keccak_hash]), used for concrete values only: every theorem
    about hashing holds for an arbitrary hash function. *)
From Verif Require Import Base.
Open Scope N_scope.

Definition m64 : N := N.ones 64.
Definition rotl (x n : N) : N := N.lor (N.land (N.shiftl x n) m64) (N.shiftr x (64 - n)).
Definition lane (s : list N) (i : nat) : N := nth i s 0.

Definition idx5 : list nat := [0;1;2;3;4]%nat.
Definition idx25 : list nat := seq 0 25.

Definition rho_offsets : list N :=
  [0;1;62;28;27; 36;44;6;55;20; 3;10;43;25;39; 41;45;15;21;8; 18;2;61;56;14].

Definition round_constants : list N :=
  [0x0000000000000001; 0x0000000000008082; 0x800000000000808a; 0x8000000080008000; 0x000000000000808b; 0x0000000080000001;
   0x8000000080008081; 0x8000000000008009; 0x000000000000008a; 0x0000000000000088; 0x0000000080008009; 0x000000008000000a;
   0x000000008000808b; 0x800000000000008b; 0x8000000000008089; 0x8000000000008003; 0x8000000000008002; 0x8000000000000080;
   0x000000000000800a; 0x800000008000000a; 0x8000000080008081; 0x8000000000008080; 0x0000000080000001; 0x8000000080008008].

Definition theta (s : list N) : list N :=
  let c := map (fun x => N.lxor (lane s x) (N.lxor (lane s (x + 5)) (N.lxor (lane s (x + 10))
                          (N.lxor (lane s (x + 15)) (lane s (x + 20)))))) idx5 in
  let d := map (fun x => N.lxor (nth ((x + 4) mod 5) c 0) (rotl (nth ((x + 1) mod 5) c 0) 1)) idx5 in
  map (fun i => N.lxor (lane s i) (nth (i mod 5) d 0)) idx25.

(** Destination (X, Y) takes the rotated lane (x, y) with X = y and Y = 2x + 3y, i.e. x = X + 3Y, y = X (mod 5). *)
Definition rho_pi (s : list N) : list N :=
  map (fun i => let X := (i mod 5)%nat in let Y := (i / 5)%nat in
                let j := ((X + 3 * Y) mod 5 + 5 * X)%nat in rotl (lane s j) (nth j rho_offsets 0)) idx25.

Definition chi (s : list N) : list N :=
  map (fun i => let y5 := (5 * (i / 5))%nat in let x := (i mod 5)%nat in
                N.lxor (lane s i) (N.land (N.lxor (lane s (y5 + (x + 1) mod 5)) m64) (lane s (y5 + (x + 2) mod 5)))) idx25.

Definition iota (rc : N) (s : list N) : list N := match s with a :: r => N.lxor a rc :: r | [] => [] end.

Definition keccak_f (s : list N) : list N := fold_left (fun s rc => iota rc (chi (rho_pi (theta s)))) round_constants s.

(** Little-endian lanes of a block. *)
Fixpoint lanes (n : nat) (b : list N) : list N :=
  match n with
  | O => []
  | S n' => from_le (firstn 8 b) :: lanes n' (skipn 8 b)
  end.

Definition absorb (s b : list N) : list N :=
  let l := lanes 17 b in
  keccak_f (map (fun i => N.lxor (lane s i) (nth i l 0)) idx25).

Fixpoint absorb_all (n : nat) (s b : list N) : list N :=
  match n with
  | O => s
  | S n' => absorb_all n' (absorb s (firstn 136 b)) (skipn 136 b)
  end.

Definition pad (b : list N) : list N :=
  let r := Nat.modulo (length b) 136 in
  match Nat.sub 135 r with
  | O => b ++ [0x81]
  | S q => b ++ [0x01] ++ repeat 0 q ++ [0x80]
  end.

Definition keccak256 (b : list N) : list N :=
  let p := pad b in
  let s := absorb_all (Nat.div (length p) 136) (repeat 0 25) p in
  flat_map (fun x => rev (be_bytes 8 x)) (firstn 4 s).

Definition hexval (b : list N) : N := from_be b.

Example keccak_empty : hexval (keccak256 []) = 0xc5d2460186f7233c927e7db2dcc703c0e500b653ca82273b7bfad8045d85a470.
Proof. vm_compute. reflexivity. Qed.
Example keccak_null_rlp : hexval (keccak256 [0x80]) = 0x56e81f171bcc55a6ff8345e692c0f86e5b48e01b996cadc001622fb5e363b421.
Proof. vm_compute. reflexivity. Qed.
(** A message longer than one block: 200 bytes 0xa3 (padded to two blocks). *)
Example keccak_two_blocks : length (keccak256 (repeat 0xa3 200)) = 32%nat.
Proof. vm_compute. reflexivity. Qed.
