(** C47: keys back to integers, and the size functions of [Nibbles]. [undigits] (NibblesSpec.v) is the number written by hex digits. *)
From Verif Require Import Base Nibbles NibblesSpec NibblesFacts NibblesFacts2 NibblesFacts3.
Open Scope N_scope.

(** The digits without leading zeros. *)
Fixpoint strip0 (l : list N) : list N := match l with 0 :: l' => strip0 l' | _ => l end.

(** Up to 64 nibbles, whatever they are, give the number they write; more, as long as they fit into the key, give an error, never a
    panic. The error has the number of nibbles and the nibbles. *)
Theorem C47_try_into_u256 : forall pr n, packed n < 16 ^ count n -> (length (nseq n) <= 128)%nat ->
  try_into_u256 pr n = Ok (if (length (nseq n) <=? 64)%nat then ROk (undigits (nseq n))
                           else RErr (N.of_nat (length (nseq n)), [48; 120] ++ map (hex_char false) (nseq n))).
Proof.
  intros pr n W L128. unfold try_into_u256. pose proof (nseq_length n) as L. pose proof (enc_nseq n W) as E.
  destruct (N.leb_spec (count n) 64) as [H|H], (Nat.leb_spec (length (nseq n)) 64) as [H'|H']; try lia;
    [|rewrite <- E at 1; rewrite as_hex_str_enc by (apply nseq_hexl || exact L128); cbn [bind]; do 3 f_equal; lia].
  apply (f_equal packed) in E. cbn [enc packed] in E.
  destruct (N.ltb_spec (packed n) (2 ^ 256)) as [P|P]; [rewrite E; reflexivity|exfalso].
  assert (16 ^ count n <= 16 ^ 64) by (apply N.pow_le_mono_r; lia). change (16 ^ 64) with (2 ^ 256) in *. lia.
Qed.

(** A key that claims more nibbles than fit makes the text of the error panic, so there is no error to return. *)
Theorem C47_long_panics : forall pr n, (128 < length (nseq n))%nat -> count n < 2 ^ 64 - 1 -> try_into_u256 pr n = Panic.
Proof.
  intros pr n L C. rewrite nseq_length in L. unfold try_into_u256, as_hex_str, min_bytes. destruct (N.leb_spec (count n) 64); [lia|].
  rewrite uadd_ok by (change (2 ^ 64 - 1) with 18446744073709551615 in C; lia). cbn [bind].
  destruct (N.ltb_spec 64 ((count n + 1) / 2)) as [X|X]; [reflexivity|exfalso].
  pose proof (N.div_mod (count n + 1) 2). pose proof (N.mod_lt (count n + 1) 2). lia.
Qed.

(** Integers, byte strings and hashes turned into keys give their number back. *)
Theorem C47_roundtrip : forall pr v, v < 2 ^ 256 ->
  try_into_u256 pr (to_nibbles 256 v) = Ok (ROk v) /\ try_into_u256 pr (to_nibbles_byte_padded 256 v) = Ok (ROk v).
Proof.
  intros pr v H. destruct (to_nibbles_spec 256 v H) as [E1 E2].
  assert (S : N.size v <= 256).
  { destruct v as [|p]; [vm_compute; congruence|]. rewrite N.size_log2 by lia.
    assert (N.log2 (N.pos p) < 256) by (apply N.log2_lt_pow2; [lia|exact H]). lia. }
  assert (C : (N.size v + 3) / 4 <= 64) by (pose proof (N.div_mod (N.size v + 3) 4); pose proof (N.mod_lt (N.size v + 3) 4); lia).
  assert (C2 : ((N.size v + 3) / 4 + 1) / 2 * 2 <= 64).
  { pose proof (N.div_mod ((N.size v + 3) / 4 + 1) 2). pose proof (N.mod_lt ((N.size v + 3) / 4 + 1) 2). lia. }
  unfold try_into_u256, to_nibbles_byte_padded. cbn [count packed]. rewrite E1, E2.
  destruct (N.leb_spec ((N.size v + 3) / 4) 64); [|lia]. destruct (N.leb_spec (((N.size v + 3) / 4 + 1) / 2 * 2) 64); [|lia].
  destruct (N.ltb_spec v (2 ^ 256)); [auto|lia].
Qed.

(** The number does not say how many zeros the key starts with, and nothing else is lost. *)
Theorem C47_back : forall pr n v, packed n < 16 ^ count n -> try_into_u256 pr n = Ok (ROk v) -> v < 2 ^ 256 /\ nseq (to_nibbles 256 v) = strip0 (nseq n).
Proof.
  intros pr n v W E. assert (L128 : (length (nseq n) <= 128)%nat).
  { rewrite nseq_length. revert E. unfold try_into_u256. destruct (N.leb_spec (count n) 64); [lia|]. destruct (as_hex_str pr false n); discriminate. }
  rewrite (C47_try_into_u256 pr n W L128) in E. destruct (Nat.leb_spec (length (nseq n)) 64) as [L|L]; [|discriminate].
  injection E as <-. pose proof (nseq_hexl n) as H. revert H L. generalize (nseq n). intros l H L.
  assert (B : undigits l < 2 ^ 256).
  { pose proof (undigits_lt l H). assert (16 ^ N.of_nat (length l) <= 16 ^ 64) by (apply N.pow_le_mono_r; lia). change (16 ^ 64) with (2 ^ 256) in *. lia. }
  split; [exact B|].
  assert (S : undigits (strip0 l) = undigits l /\ hexl (strip0 l) /\ forall d r, strip0 l = d :: r -> d <> 0).
  { clear L B. induction l as [|d l IH]; [split; [reflexivity|split; [constructor|discriminate]]|].
    inversion H as [|? ? Hd Hl]; subst. destruct d as [|d].
    - destruct (IH Hl) as (E1 & E2 & E3). cbn [strip0]. split; [rewrite E1; reflexivity|auto].
    - cbn [strip0]. split; [reflexivity|]. split; [exact H|]. intros d' r [= <- <-]. lia. }
  destruct S as (S1 & S2 & S3). rewrite <- S1 in B |- *. revert B S2 S3. generalize (strip0 l). clear. intros l B H NZ.
  destruct (to_nibbles_spec 256 (undigits l) B) as [E3 E4]. pose proof (leading_digits_count l H) as C. rewrite <- E3 in C.
  assert (Z : leading_zero_digits l = 0%nat).
  { destruct l as [|d l]; [reflexivity|]. cbn [leading_zero_digits]. destruct (N.eqb_spec d 0) as [->|_]; [|reflexivity]. exfalso. eapply NZ; reflexivity. }
  rewrite Z in C. rewrite <- (nseq_enc l H) at 2. f_equal. unfold enc. destruct (to_nibbles 256 (undigits l)) as [c p]. cbn [count packed] in *. f_equal; [lia|exact E4].
Qed.

Theorem C47_h256 : forall pr h, bytesl h -> length h = 32%nat ->
  try_into_u256 pr (from_h256_be h) = Ok (ROk (from_be h)) /\ try_into_u256 pr (from_h256_le h) = Ok (ROk (from_be (rev h))).
Proof.
  intros pr h B L. unfold try_into_u256, from_h256_be, from_h256_le, from_le. cbn [count packed].
  pose proof (from_be_lt h B) as P. assert (B' : bytesl (rev h)) by (apply Forall_rev; exact B). pose proof (from_be_lt _ B') as P'.
  rewrite rev_length in P'. rewrite L in P, P'. change (256 ^ N.of_nat 32) with (2 ^ 256) in *. change (64 <=? 64) with true. cbn iota.
  destruct (N.ltb_spec (from_be h) (2 ^ 256)); [|lia]. destruct (N.ltb_spec (from_be (rev h)) (2 ^ 256)); [|lia]. auto.
Qed.

(** The fewest digits and bytes. *)
Theorem C47_num_nibbles : forall k, k < 16 ^ get_num_nibbles_in_key k /\ forall c, k < 16 ^ c -> get_num_nibbles_in_key k <= c.
Proof.
  intros k. split; [apply min_digits|]. intros c H. unfold get_num_nibbles_in_key, u512_size.
  destruct k as [|p]; [vm_compute; destruct c; congruence|]. rewrite N.size_log2 by lia.
  assert (N.log2 (N.pos p) < 4 * c). { apply N.log2_lt_pow2; [lia|]. rewrite N.pow_mul_r. exact H. }
  pose proof (N.div_mod (N.succ (N.log2 (N.pos p)) + 3) 4). pose proof (N.mod_lt (N.succ (N.log2 (N.pos p)) + 3) 4). lia.
Qed.

Theorem C47_min_bytes : forall pr n, count n < 2 ^ 64 - 1 ->
  exists m, min_bytes pr n = Ok m /\ (length (nseq n) <= 2 * N.to_nat m)%nat /\ forall m', (length (nseq n) <= 2 * m')%nat -> (N.to_nat m <= m')%nat.
Proof.
  intros pr n H. unfold min_bytes. rewrite uadd_ok by (change (2 ^ 64 - 1) with 18446744073709551615 in H; lia). cbn [bind]. eexists. split; [reflexivity|].
  rewrite nseq_length. pose proof (N.div_mod (count n + 1) 2). pose proof (N.mod_lt (count n + 1) 2). split; [lia|]. intros m' Hm. lia.
Qed.

Example C47_example :
  try_into_u256 Debug (Nib 5 0x123a) = Ok (ROk 0x123a) /\ try_into_u256 Debug (Nib 64 (2 ^ 256 - 1)) = Ok (ROk (2 ^ 256 - 1)) /\
  try_into_u256 Debug (Nib 65 7) = Ok (RErr (65, [48; 120] ++ repeat 48 64 ++ [55])) /\ try_into_u256 Debug (Nib 129 7) = Panic /\ strip0 (nseq (Nib 5 0x123a)) = [1; 2; 3; 10] /\
  get_num_nibbles_in_key 0x123a = 4 /\ min_bytes Debug (Nib 5 0x123a) = Ok 3.
Proof. vm_compute. repeat split. Qed.

Print Assumptions C47_try_into_u256.
Print Assumptions C47_long_panics.
Print Assumptions C47_roundtrip.
Print Assumptions C47_back.
Print Assumptions C47_h256.
Print Assumptions C47_num_nibbles.
Print Assumptions C47_min_bytes.
