(** Property C38: integers as trie values. *)
From Verif Require Import Base Nibbles NibblesSpec NibblesFacts Trie TrieSpec RlpFacts Values P_Trie.
Open Scope N_scope.

Lemma be_length n : forall x, length (be_bytes n x) = n.
Proof. induction n as [|n IH]; intros x; cbn [be_bytes]; [reflexivity|]. rewrite app_length, IH. cbn [length]. lia. Qed.
Lemma be_app a b : forall x, be_bytes (a + b) x = be_bytes a (x / 256 ^ N.of_nat b) ++ be_bytes b x.
Proof.
  induction b as [|b IH]; intros x.
  - rewrite Nat.add_0_r. cbn [be_bytes]. rewrite app_nil_r. change (256 ^ N.of_nat 0) with 1. rewrite N.div_1_r. reflexivity.
  - rewrite Nat.add_succ_r. cbn [be_bytes]. rewrite IH, app_assoc, N.div_div by (try apply N.pow_nonzero; lia).
    do 4 f_equal. rewrite Nat2N.inj_succ, N.pow_succ_r'. reflexivity.
Qed.
Lemma be_mod n : forall x, be_bytes n (x mod 256 ^ N.of_nat n) = be_bytes n x.
Proof.
  induction n as [|n IH]; intros x; [reflexivity|]. cbn [be_bytes]. rewrite Nat2N.inj_succ, N.pow_succ_r'.
  rewrite N.mod_mul_r by (try apply N.pow_nonzero; lia).
  rewrite (N.mul_comm 256 ((x / 256) mod _)), N.div_add by lia. rewrite (N.div_small (x mod 256)) by (apply N.mod_lt; lia).
  rewrite N.add_0_l, IH. rewrite N.mod_add by lia. rewrite N.mod_mod by lia. reflexivity.
Qed.

Lemma skipn_add {A} (l : list A) : forall a b, skipn a (skipn b l) = skipn (a + b) l.
Proof. induction l as [|x l IH]; intros a [|b]; rewrite ?skipn_nil, ?Nat.add_0_r; try reflexivity. rewrite Nat.add_succ_r. cbn [skipn]. apply IH. Qed.

Lemma write_words_ok n v : forall k rest, (k <= n)%nat -> (8 * k <= length rest)%nat ->
  write_words n k (n - k) v (be_bytes (8 * (n - k)) (v / 256 ^ N.of_nat (8 * k)) ++ rest) = Ok (be_bytes (8 * n) v ++ skipn (8 * k) rest).
Proof.
  induction k as [|k IH]; intros rest Hk Hl; cbn [write_words].
  - rewrite Nat.sub_0_r. change (256 ^ N.of_nat (8 * 0)) with 1. rewrite N.div_1_r. reflexivity.
  - replace (n - (n - S k) - 1)%nat with k by lia.
    set (w := N.land (N.shiftr v (64 * N.of_nat k)) (N.ones 64)).
    assert (Ew : be_bytes 8 w = be_bytes 8 (v / 256 ^ N.of_nat (8 * k))).
    { unfold w. rewrite N.land_ones, N.shiftr_div_pow2. rewrite <- be_mod. rewrite <- (be_mod 8 (v / _)).
      replace (256 ^ N.of_nat 8) with (2 ^ 64) by reflexivity. rewrite N.mod_mod by discriminate.
      replace (256 ^ N.of_nat (8 * k)) with (2 ^ (64 * N.of_nat k)); [reflexivity|]. change 256 with (2 ^ 8). rewrite <- N.pow_mul_r. f_equal. lia. }
    unfold write_at. rewrite be_length, app_length, be_length.
    replace (8 * (n - S k) + 8 <=? 8 * (n - S k) + length rest)%nat with true by (symmetry; apply Nat.leb_le; lia). cbn [bind].
    rewrite firstn_app, be_length, Nat.sub_diag, (firstn_all2 (be_bytes _ _)) by (rewrite be_length; lia). cbn [firstn]. rewrite app_nil_r.
    rewrite skipn_app, be_length, skipn_all2 by (rewrite be_length; lia). cbn [app]. replace (8 * (n - S k) + 8 - 8 * (n - S k))%nat with 8%nat by lia.
    rewrite Ew, app_assoc.
    replace (be_bytes (8 * (n - S k)) (v / 256 ^ N.of_nat (8 * S k)) ++ be_bytes 8 (v / 256 ^ N.of_nat (8 * k)))
      with (be_bytes (8 * (n - k)) (v / 256 ^ N.of_nat (8 * k))).
    + replace (S (n - S k)) with (n - k)%nat by lia. rewrite IH by (try rewrite skipn_length; lia).
      rewrite skipn_add. replace (8 * k + 8)%nat with (8 * S k)%nat by lia. reflexivity.
    + replace (8 * (n - k))%nat with (8 * (n - S k) + 8)%nat by lia. rewrite be_app. f_equal. f_equal.
      rewrite N.div_div by (try apply N.pow_nonzero; discriminate). rewrite <- N.pow_add_r. do 2 f_equal. lia.
Qed.
Lemma write_words_start n v buf : (8 * n <= length buf)%nat -> write_words n n 0 v buf = Ok (be_bytes (8 * n) v ++ skipn (8 * n) buf).
Proof. intros H. pose proof (write_words_ok n v n buf (le_n n) H) as E. rewrite Nat.sub_diag in E. exact E. Qed.

(** [l] is the big-endian representation of [v] with [n] bytes. *)
Definition big_endian (n : nat) (v : N) (l : list N) : Prop := length l = n /\ bytesl l /\ from_be l = v.
Lemma big_endian_bytes n v : v < 256 ^ N.of_nat n -> big_endian n v (be_bytes n v).
Proof.
  intros H. split; [apply be_length|]. split; [|apply from_be_bytes, H]. clear H. revert v. induction n as [|n IH]; intros v; cbn [be_bytes]; [constructor|].
  apply Forall_app. split; [apply IH|]. constructor; [apply N.mod_lt; discriminate|constructor].
Qed.
(** ... which is unique. *)
Lemma big_endian_unique n v l l' : big_endian n v l -> big_endian n v l' -> l = l'.
Proof.
  assert (U : forall l, bytesl l -> be_bytes (length l) (from_be l) = l).
  { induction l0 as [|b r IH] using rev_ind; intros F; [reflexivity|]. apply Forall_app in F. destruct F as [Fr Fb]. inversion Fb; subst.
    rewrite app_length. cbn [length]. rewrite Nat.add_1_r. cbn [be_bytes]. rewrite from_be_snoc.
    rewrite N.add_comm, N.div_add by lia. rewrite N.div_small, N.add_0_l by assumption. rewrite N.mod_add, N.mod_small by (lia || assumption). rewrite IH by exact Fr. reflexivity. }
  intros (A & B & C) (A' & B' & C'). rewrite <- (U l B), <- (U l' B'). congruence.
Qed.

(** [u8], [u16], [u32], [u64] (and any width). *)
Theorem C38_prim : forall n v, v < 256 ^ N.of_nat n -> exists l, val_from_prim n v = Val l /\ big_endian n v l.
Proof. intros n v H. exists (be_bytes n v). split; [reflexivity|apply big_endian_bytes, H]. Qed.

(** [U256], in both profiles. *)
Theorem C38_u256 : forall pr v, v < 2 ^ 256 -> exists l, val_from_u256 pr v = Ok (Val l) /\ big_endian 32 v l.
Proof.
  intros pr v H. exists (be_bytes 32 v). split; [|apply big_endian_bytes; exact H].
  unfold val_from_u256, val_from_eth, to_big_endian. rewrite write_words_start by (cbn; lia).
  destruct pr; cbn [assert bind Nat.eqb length repeat Nat.mul Nat.add skipn]; rewrite app_nil_r; reflexivity.
Qed.

(** [U128]: debug builds panic for every value ... *)
Theorem C38_u128_refuted : forall v, val_from_u128 Debug v = Panic.
Proof. reflexivity. Qed.
(** ... and release builds write the 16 bytes followed by 16 zero bytes: 32 bytes that stand for v * 2^128. *)
Theorem C38_u128_release_refuted : forall v, v < 2 ^ 128 ->
  exists l, val_from_u128 Release v = Ok (Val (l ++ repeat 0 16)) /\ big_endian 16 v l /\ big_endian 32 (v * 2 ^ 128) (l ++ repeat 0 16).
Proof.
  intros v H. exists (be_bytes 16 v). pose proof (big_endian_bytes 16 v H) as (A & B & C). split; [|split].
  - unfold val_from_u128, val_from_eth, to_big_endian. rewrite write_words_start by (cbn; lia). reflexivity.
  - repeat split; assumption.
  - split; [reflexivity|]. split.
    + apply Forall_app. split; [exact B|]. repeat constructor.
    + unfold from_be in *. rewrite fold_left_app, C. cbn [fold_left repeat]. change (2 ^ 128) with (256 ^ 16). cbn [N.pow Pos.pow Pos.iter]. lia.
Qed.
(** [U512] panics for every value, in both profiles. *)
Theorem C38_u512_refuted : forall pr v, val_from_u512 pr v = Panic.
Proof. intros [] v; reflexivity. Qed.

(** All conversions that succeed keep different integers different. *)
Theorem C38_injective_partial : forall pr a b l,
  a < 2 ^ 256 -> b < 2 ^ 256 -> val_from_u256 pr a = Ok (Val l) -> val_from_u256 pr b = Ok (Val l) -> a = b.
Proof.
  intros pr a b l Ha Hb Ea Eb. destruct (C38_u256 pr a Ha) as (la & Ea' & _ & _ & <-). destruct (C38_u256 pr b Hb) as (lb & Eb' & _ & _ & <-). congruence.
Qed.
(** Byte strings and hashes are taken as they are. *)
Theorem C38_bytes : forall b h, val_from_bytes b = Val b /\ val_from_h256 h = HashV h.
Proof. split; reflexivity. Qed.

Example C38_example : val_from_prim 4 0x1234 = Val [0; 0; 0x12; 0x34] /\ val_from_u256 Debug 258 = Ok (Val (repeat 0 30 ++ [1; 2])) /\
  val_from_u128 Release 258 = Ok (Val (repeat 0 14 ++ [1; 2] ++ repeat 0 16)).
Proof. repeat split. Qed.
Print Assumptions C38_prim.
Print Assumptions C38_u256.
Print Assumptions C38_u128_refuted.
Print Assumptions C38_u128_release_refuted.
Print Assumptions C38_u512_refuted.
Print Assumptions C38_injective_partial.
Print Assumptions C38_bytes.
