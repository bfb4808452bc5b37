(** The decimal text of an [f32]. *)
From Coq Require Import String SpecFloat QArith Qabs Qpower Lqa.
From Verif Require Import Base Nibbles Trie Query Diff Text TextSpec TextFacts Stats FloatSpec FloatFacts FloatText.
Open Scope N_scope.
Open Scope list_scope.

Lemma undec_snoc l c : undec (l ++ [c]) = 10 * undec l + (c - 48).
Proof. unfold undec. rewrite fold_left_app. reflexivity. Qed.
Lemma undec_low k : forall l n, undec (l ++ low_digits k n) = undec l * 10 ^ N.of_nat k + n mod 10 ^ N.of_nat k.
Proof.
  induction k as [|k IH]; intros l n; cbn [low_digits].
  - rewrite app_nil_r. change (10 ^ N.of_nat 0) with 1. rewrite N.mod_1_r. lia.
  - rewrite app_assoc, undec_snoc, IH. rewrite Nat2N.inj_succ, N.pow_succ_r'.
    pose proof (N.pow_nonzero 10 (N.of_nat k) ltac:(lia)). rewrite N.mod_mul_r by lia. lia.
Qed.
Lemma low_length k : forall n, length (low_digits k n) = k.
Proof. induction k as [|k IH]; intros n; cbn [low_digits]; [reflexivity|]. rewrite app_length, IH. cbn. lia. Qed.
Lemma low_chars k : forall n, Forall (fun c => 48 <= c <= 57) (low_digits k n).
Proof.
  induction k as [|k IH]; intros n; cbn [low_digits]; [constructor|]. apply Forall_app. split; [apply IH|]. constructor; [|constructor].
  pose proof (N.mod_lt n 10 ltac:(lia)). lia.
Qed.
Lemma dec_chars n : Forall (fun c => 48 <= c <= 57) (dec n).
Proof. unfold dec. induction (N.to_uint n); cbn [uint_chars]; constructor; (lia || assumption). Qed.
Lemma dec_lead n r : dec n = 48 :: r -> r = [].
Proof.
  intros E. unfold dec in E. pose proof (DecimalN.Unsigned.to_of (N.to_uint n)) as U. rewrite DecimalN.Unsigned.of_to in U.
  rewrite U in E. unfold Decimal.unorm in E. destruct (Decimal.nzhead (N.to_uint n)) eqn:Z; cbn [uint_chars] in E; try discriminate E.
  - injection E as <-. reflexivity.
  - exfalso. eapply DecimalFacts.nzhead_nonzero, Z.
Qed.
Lemma fixed_writes k n : (0 < k)%nat -> writes k (fixed_text k n) n.
Proof.
  intros Pk. exists (dec (n / 10 ^ N.of_nat k)), (low_digits k n). unfold fixed_text. pose proof (N.pow_nonzero 10 (N.of_nat k) ltac:(lia)) as NZ.
  split; [destruct k; [lia|reflexivity]|]. split; [apply low_length|]. split.
  { intros E. pose proof (undec_dec (n / 10 ^ N.of_nat k)) as U. rewrite E in U. cbn in U. rewrite <- U in E. discriminate E. }
  split; [apply Forall_app; split; [apply dec_chars|apply low_chars]|]. split; [|apply dec_lead].
  rewrite undec_low, undec_dec. rewrite (N.div_mod n (10 ^ N.of_nat k)) at 3 by exact NZ. lia.
Qed.

Open Scope Q_scope.
Lemma q_of_pos n : (0 < n)%N -> 0 < q_of n.
Proof. intros H. unfold q_of. change 0 with (inject_Z 0). rewrite <- Zlt_Qlt. lia. Qed.
Lemma q_of_le a b : (a <= b)%N -> q_of a <= q_of b.
Proof. intros H. unfold q_of. rewrite <- Zle_Qle. lia. Qed.
Lemma q_of_mul a b : q_of (a * b) == q_of a * q_of b.
Proof. unfold q_of. rewrite N2Z.inj_mul, inject_Z_mult. reflexivity. Qed.
Lemma q_of_add a b : q_of (a + b) == q_of a + q_of b.
Proof. unfold q_of. rewrite N2Z.inj_add, inject_Z_plus. reflexivity. Qed.
Lemma q_of_le_inv a b : q_of a <= q_of b -> (a <= b)%N.
Proof. unfold q_of. rewrite <- Zle_Qle. lia. Qed.

Lemma div_even_nearest a b : (0 < b)%N -> nearest (q_of a / q_of b) (div_even a b).
Proof.
  intros Pb. pose proof (N.div_mod a b ltac:(lia)) as DM. pose proof (N.mod_lt a b ltac:(lia)) as RB. unfold div_even, nearest.
  set (q := (a / b)%N) in *. set (r := (a mod b)%N) in *. pose proof (q_of_pos b Pb) as PB.
  assert (E : q_of a / q_of b == q_of q + q_of r / q_of b).
  { rewrite DM. rewrite q_of_add, q_of_mul. field. lra. }
  assert (ER : q_of r / q_of b * q_of b == q_of r) by (rewrite Qmult_comm; apply Qmult_div_r; lra).
  set (f := q_of r / q_of b) in *. assert (F0 : 0 <= f).
  { apply (Qmult_le_r _ _ _ PB). rewrite ER, Qmult_0_l. apply (q_of_le 0 r). lia. }
  assert (F1 : f <= 1). { apply (Qmult_le_r _ _ _ PB). rewrite ER, Qmult_1_l. apply q_of_le. lia. }
  assert (T : q_of (2 * r) == 2 * f * q_of b) by (rewrite q_of_mul; change (q_of 2) with 2; rewrite <- ER; ring).
  destruct (2 * r <? b)%N eqn:C1; [|destruct (b <? 2 * r)%N eqn:C2].
  - assert (H : 2 * f < 1).
    { apply (Qmult_lt_r _ _ _ PB). rewrite <- T, Qmult_1_l. unfold q_of. rewrite <- Zlt_Qlt. lia. }
    assert (EA : Qabs (q_of a / q_of b - q_of q) == f) by (rewrite E; rewrite <- (Qabs_pos f F0) at 2; apply Qabs_wd; ring).
    rewrite EA. split; lra.
  - assert (H : 1 < 2 * f).
    { apply (Qmult_lt_r _ _ _ PB). rewrite <- T, Qmult_1_l. unfold q_of. rewrite <- Zlt_Qlt. lia. }
    assert (EA : Qabs (q_of a / q_of b - q_of (q + 1)) == 1 - f).
    { rewrite E, q_of_add. change (q_of 1) with 1. rewrite <- (Qabs_pos (1 - f)) by lra. rewrite <- Qabs_opp. apply Qabs_wd. ring. }
    rewrite EA. split; lra.
  - assert (H : 2 * f == 1).
    { apply (Qmult_inj_r _ _ (q_of b)); [lra|]. rewrite <- T, Qmult_1_l. replace (2 * r)%N with b by lia. reflexivity. }
    destruct (N.even q) eqn:EV.
    + assert (EA : Qabs (q_of a / q_of b - q_of q) == f) by (rewrite E; rewrite <- (Qabs_pos f F0) at 2; apply Qabs_wd; ring).
      rewrite EA. split; [lra|auto].
    + assert (EA : Qabs (q_of a / q_of b - q_of (q + 1)) == 1 - f).
      { rewrite E, q_of_add. change (q_of 1) with 1. rewrite <- (Qabs_pos (1 - f)) by lra. rewrite <- Qabs_opp. apply Qabs_wd. ring. }
      rewrite EA. split; [lra|]. intros _. rewrite N.even_add, EV. reflexivity.
Qed.

Lemma q_of_two n : q_of (2 ^ n) == 2 ^ Z.of_N n.
Proof. unfold q_of. rewrite N2Z.inj_pow. rewrite two_Z by lia. reflexivity. Qed.
Lemma scaled_value m e k : q_of (N.pos m * k * 2 ^ Z.to_N e) / q_of (2 ^ Z.to_N (- e)) == inject_Z (Z.pos m) * 2 ^ e * q_of k.
Proof.
  rewrite !q_of_mul, !q_of_two. change (q_of (N.pos m)) with (inject_Z (Z.pos m)).
  pose proof (two_pos (Z.of_N (Z.to_N (- e)))) as P. 
  assert (E : 2 ^ e * 2 ^ Z.of_N (Z.to_N (- e)) == 2 ^ Z.of_N (Z.to_N e)) by (rewrite <- two_plus; replace (e + Z.of_N (Z.to_N (- e)))%Z with (Z.of_N (Z.to_N e)) by lia; reflexivity).
  rewrite <- E. field. lra.
Qed.

Lemma nearest_wd q q' n : q == q' -> nearest q n -> nearest q' n.
Proof. unfold nearest. intros E [A B]. rewrite E in A. split; [exact A|]. rewrite <- E. exact B. Qed.

(** The text of a number that is near [v] shows [v]. *)
Lemma near_shows k lo hi c x v : (0 < k)%nat -> 0 < v -> c <= 16 -> near lo hi c x v -> shows k (f32_text k x) v.
Proof.
  intros Pk Pv C (m & e & -> & _ & _ & V1 & V2). unfold f32_text. cbn [app].
  set (n := div_even _ _). exists n. split; [apply fixed_writes, Pk|].
  assert (H : nearest (inject_Z (Z.pos m) * 2 ^ e * q_of (10 ^ N.of_nat k)) n).
  { eapply nearest_wd; [apply scaled_value|]. apply div_even_nearest. apply N.neq_0_lt_0, N.pow_nonzero. lia. }
  destruct H as [H _]. set (q := inject_Z (Z.pos m) * 2 ^ e) in *. clearbody n q.
  assert (PT : 0 < q_of (10 ^ N.of_nat k)) by (apply q_of_pos, N.neq_0_lt_0, N.pow_nonzero; lia). set (T := q_of (10 ^ N.of_nat k)) in *. clearbody T.
  apply Qabs_Qle_condition in H. apply Qabs_Qle_condition.
  assert (EN : q_of n / T * T == q_of n) by (rewrite Qmult_comm; apply Qmult_div_r; lra). set (d := q_of n / T) in *. clearbody d.
  assert (EH : (1 # 2) / T * T == 1 # 2) by (rewrite Qmult_comm; apply Qmult_div_r; lra). set (h := (1 # 2) / T) in *. clearbody h.
  assert (D1 : d <= q + h). { apply (Qmult_le_r _ _ _ PT). rewrite Qmult_plus_distr_l, EN, EH. lra. }
  assert (D2 : q <= d + h). { apply (Qmult_le_r _ _ _ PT). rewrite Qmult_plus_distr_l, EN, EH. lra. }
  assert (W : c * u * v <= (1 # 524288) * v).
  { apply Qmult_le_r; [exact Pv|]. setoid_replace (1 # 524288) with (16 * u) by reflexivity. apply Qmult_le_r; [reflexivity|exact C]. }
  split; lra.
Qed.
Lemma zero_shows k : (0 < k)%nat -> shows k (f32_text k (S754_zero false)) 0.
Proof.
  intros Pk. exists 0%N. split; [apply (fixed_writes k 0 Pk)|].
  assert (PT : 0 < q_of (10 ^ N.of_nat k)) by (apply q_of_pos, N.neq_0_lt_0, N.pow_nonzero; lia).
  assert (EH : (1 # 2) / q_of (10 ^ N.of_nat k) * q_of (10 ^ N.of_nat k) == 1 # 2) by (rewrite Qmult_comm; apply Qmult_div_r; lra).
  assert (P : 0 <= (1 # 2) / q_of (10 ^ N.of_nat k)) by (apply (Qmult_le_r _ _ _ PT); rewrite EH; lra).
  assert (E0 : q_of 0 / q_of (10 ^ N.of_nat k) - 0 == 0) by (unfold Qdiv; change (q_of 0) with 0; ring).
  rewrite E0. change (Qabs 0) with 0. lra.
Qed.
