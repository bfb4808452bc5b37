(** Rounding errors of [f32] operations, in rational numbers. *)
From Coq Require Import SpecFloat QArith Qabs Qpower Lqa.
From Verif Require Import Base Stats FloatSpec.
Open Scope Z_scope.

Lemma digits2_bounds p : 2 ^ (Z.pos (digits2_pos p) - 1) <= Z.pos p < 2 ^ Z.pos (digits2_pos p).
Proof.
  induction p as [p IH|p IH|]; cbn [digits2_pos]; [| |cbn; lia];
  (rewrite Pos2Z.inj_succ; replace (Z.succ (Z.pos (digits2_pos p)) - 1) with (Z.succ (Z.pos (digits2_pos p) - 1)) by lia;
   rewrite Z.pow_succ_r by lia; rewrite (Z.pow_succ_r 2 (Z.pos (digits2_pos p))) by lia; lia).
Qed.
Lemma digits2_unique m d : 0 < m -> 0 < d -> 2 ^ (d - 1) <= m < 2 ^ d -> Zdigits2 m = d.
Proof.
  intros Pm Pd [A B]. destruct m as [|p|p]; try lia. cbn [Zdigits2]. pose proof (digits2_bounds p) as [C D].
  destruct (Z.lt_trichotomy (Z.pos (digits2_pos p)) d) as [H|[H|H]]; [|exact H|].
  - assert (2 ^ Z.pos (digits2_pos p) <= 2 ^ (d - 1)) by (apply Z.pow_le_mono_r; lia). lia.
  - assert (2 ^ d <= 2 ^ (Z.pos (digits2_pos p) - 1)) by (apply Z.pow_le_mono_r; lia). lia.
Qed.
Lemma digits2_Z m : 0 < m -> 0 < Zdigits2 m /\ 2 ^ (Zdigits2 m - 1) <= m < 2 ^ Zdigits2 m.
Proof. intros Pm. destruct m as [|p|p]; try lia. split; [reflexivity|]. apply digits2_bounds. Qed.

Lemma shr_1_m x : 0 <= shr_m x -> shr_m (shr_1 x) = shr_m x / 2.
Proof.
  destruct x as [m r s]. unfold shr_m at 1. intros Pm. destruct m as [|[p|p|]|p]; cbn [shr_1 shr_m]; try reflexivity; try lia.
Qed.
Lemma iter_shr p : forall x, 0 <= shr_m x -> shr_m (SpecFloat.iter_pos shr_1 p x) = shr_m x / 2 ^ Z.pos p.
Proof.
  induction p as [p IH|p IH|]; intros x Px; cbn [SpecFloat.iter_pos].
  - assert (H1 : 0 <= shr_m (shr_1 x)) by (rewrite shr_1_m by exact Px; apply Z.div_pos; lia).
    assert (H2 : 0 <= shr_m (SpecFloat.iter_pos shr_1 p (shr_1 x))) by (rewrite IH by exact H1; apply Z.div_pos; [lia|apply Z.pow_pos_nonneg; lia]).
    rewrite IH by exact H2. rewrite IH by exact H1. rewrite shr_1_m by exact Px.
    rewrite !Z.div_div by (try lia; try (apply Z.pow_pos_nonneg; lia); try (apply Z.pow_nonzero; lia)). f_equal.
    replace (Z.pos p~1) with (1 + Z.pos p + Z.pos p) by lia. rewrite !Z.pow_add_r by lia. lia.
  - assert (H2 : 0 <= shr_m (SpecFloat.iter_pos shr_1 p x)) by (rewrite IH by exact Px; apply Z.div_pos; [lia|apply Z.pow_pos_nonneg; lia]).
    rewrite IH by exact H2. rewrite IH by exact Px.
    rewrite !Z.div_div by (try lia; try (apply Z.pow_pos_nonneg; lia); try (apply Z.pow_nonzero; lia)). f_equal.
    replace (Z.pos p~0) with (Z.pos p + Z.pos p) by lia. rewrite !Z.pow_add_r by lia. lia.
  - apply shr_1_m, Px.
Qed.
Lemma shr_floor x e n : 0 <= n -> 0 <= shr_m x -> shr_m (fst (shr x e n)) = shr_m x / 2 ^ n /\ snd (shr x e n) = e + n.
Proof.
  intros Pn Px. destruct n as [|p|p]; try lia; cbn [shr fst snd].
  - rewrite Z.div_1_r. split; [reflexivity|lia].
  - split; [apply iter_shr, Px|reflexivity].
Qed.
Lemma round_even_cases m l : round_nearest_even m l = m \/ round_nearest_even m l = m + 1.
Proof. destruct l as [|[| |]]; cbn; auto. destruct (Z.even m); auto. Qed.
Lemma shr_record_m m l : shr_m (shr_record_of_loc m l) = m.
Proof. destruct l as [|[| |]]; reflexivity. Qed.

(** Rounding a number of at least 24 binary digits gives one of 24 digits, next to it. *)
Lemma round_aux m e l : 24 <= Zdigits2 m -> -125 <= Zdigits2 m + e <= 127 -> 0 < m ->
  let n := Zdigits2 m - 24 in
  exists m' e' M, binary_round_aux 24 128 false m e l = S754_finite false m' e' /\ 2 ^ 23 <= Z.pos m' < 2 ^ 24 /\
    (M = m / 2 ^ n \/ M = m / 2 ^ n + 1) /\ 2 ^ 23 <= m / 2 ^ n /\
    ((Z.pos m' = M /\ e' = e + n) \/ (2 * Z.pos m' = M /\ e' = e + n + 1)).
Proof.
  intros D R Pm n. destruct (digits2_Z m Pm) as [_ [B1 B2]]. set (d := Zdigits2 m) in *.
  assert (F : fexp 24 128 (d + e) - e = n) by (unfold fexp, emin; lia).
  unfold binary_round_aux, shr_fexp. fold d. rewrite F.
  pose proof (shr_floor (shr_record_of_loc m l) e n ltac:(lia)) as S. rewrite shr_record_m in S. specialize (S ltac:(lia)).
  destruct (shr (shr_record_of_loc m l) e n) as [x ex]. cbn [fst snd] in S. destruct S as [S1 ->]. rewrite S1.
  set (m1 := m / 2 ^ n) in *.
  assert (P2 : 0 < 2 ^ n) by (apply Z.pow_pos_nonneg; lia).
  assert (Q1 : 2 ^ 23 <= m1).
  { apply Z.div_le_lower_bound; [exact P2|]. rewrite <- Z.pow_add_r by lia. replace (n + 23) with (d - 1) by lia. exact B1. }
  assert (Q2 : m1 < 2 ^ 24).
  { apply Z.div_lt_upper_bound; [exact P2|]. rewrite <- Z.pow_add_r by lia. replace (n + 24) with d by lia. exact B2. }
  set (M := round_nearest_even m1 (loc_of_shr_record x)).
  assert (HM : M = m1 \/ M = m1 + 1) by apply round_even_cases.
  change (2 ^ 23) with 8388608 in *. change (2 ^ 24) with 16777216 in *.
  assert (HM2 : M < 16777216 \/ M = 16777216) by lia. destruct HM2 as [HM2|HM2].
  - assert (DM : Zdigits2 M = 24) by (apply digits2_unique; [lia|lia|change (2 ^ (24 - 1)) with 8388608; change (2 ^ 24) with 16777216; lia]).
    rewrite DM. replace (fexp 24 128 (24 + (e + n)) - (e + n)) with 0 by (unfold fexp, emin; lia). cbn [shr shr_record_of_loc shr_m].
    destruct M as [|p|p] eqn:EM; try lia. rewrite <- EM in *. exists p, (e + n), M. rewrite EM.
    replace (e + n <=? 128 - 24) with true by lia. repeat split; try lia. 
  - assert (DM : Zdigits2 M = 25) by (rewrite HM2; reflexivity).
    rewrite DM. replace (fexp 24 128 (25 + (e + n)) - (e + n)) with 1 by (unfold fexp, emin; lia). rewrite HM2.
    change (shr (shr_record_of_loc 16777216 loc_Exact) (e + n) 1) with ({| shr_m := 8388608; shr_r := false; shr_s := false |}, e + n + 1). cbn [shr_m].
    exists 8388608%positive, (e + n + 1), M. rewrite HM2. replace (e + n + 1 <=? 128 - 24) with true by lia. repeat split; try lia.
Qed.

Open Scope Q_scope.
Lemma two_pos e : 0 < 2 ^ e.
Proof. apply Qpower_0_lt. reflexivity. Qed.
Lemma two_plus a b : 2 ^ (a + b) == 2 ^ a * 2 ^ b.
Proof. apply Qpower_plus. discriminate. Qed.
Lemma two_Z n : (0 <= n)%Z -> 2 ^ n == inject_Z (2 ^ n).
Proof. intros H. rewrite Zpower_Qpower by exact H. reflexivity. Qed.

(** [x] is a positive normal number, in the exponent range [lo..hi], whose value is [v] up to a relative error of [k/2^23]. *)
Definition u : Q := 1 # 8388608.
Definition near (lo hi : Z) (k : Q) (x : f32) (v : Q) : Prop :=
  exists m e, x = S754_finite false m e /\ (2 ^ 23 <= Z.pos m < 2 ^ 24)%Z /\ (lo <= e <= hi)%Z /\
    (1 - k * u) * v <= inject_Z (Z.pos m) * 2 ^ e <= (1 + k * u) * v.

Lemma round_near m e l v : (24 <= Zdigits2 m)%Z -> (-125 <= Zdigits2 m + e <= 127)%Z -> (0 < m)%Z ->
  inject_Z m * 2 ^ e <= v -> v <= inject_Z (m + 1) * 2 ^ e ->
  near (e + Zdigits2 m - 24) (e + Zdigits2 m - 23) 1 (binary_round_aux 24 128 false m e l) v.
Proof.
  intros D R Pm V1 V2. destruct (round_aux m e l D R Pm) as (m' & e' & M & -> & B & HM & Q1 & H). set (n := (Zdigits2 m - 24)%Z) in *.
  exists m', e'. split; [reflexivity|]. split; [exact B|]. split; [lia|].
  assert (E : inject_Z (Z.pos m') * 2 ^ e' == inject_Z M * (2 ^ e * inject_Z (2 ^ n))).
  { destruct H as [[<- ->]|[<- ->]].
    - rewrite two_plus, (two_Z n) by lia. reflexivity.
    - rewrite !two_plus, (two_Z n) by lia. rewrite inject_Z_mult. change (2 ^ 1) with 2. change (inject_Z 2) with 2. ring. }
  rewrite E. pose proof (two_pos e) as PX. set (X := 2 ^ e) in *.
  assert (Pn : (0 < 2 ^ n)%Z) by (apply Z.pow_pos_nonneg; lia). set (N := (2 ^ n)%Z) in *.
  pose proof (Z.div_mod m N ltac:(lia)) as DM. pose proof (Z.mod_pos_bound m N Pn) as MB. set (m1 := (m / N)%Z) in *.
  assert (L1 : inject_Z (m1 * N) <= inject_Z m) by (rewrite <- Zle_Qle; lia).
  assert (L2 : inject_Z (m + 1) <= inject_Z ((m1 + 1) * N)) by (rewrite <- Zle_Qle; lia).
  rewrite inject_Z_mult in L1, L2. rewrite !inject_Z_plus in *. change (inject_Z 1) with 1 in *.
  assert (QN : 0 < inject_Z N) by (change 0 with (inject_Z 0); rewrite <- Zlt_Qlt; exact Pn).
  assert (Qm : 8388608 <= inject_Z m1) by (change 8388608 with (inject_Z 8388608); rewrite <- Zle_Qle; exact Q1).
  set (Y := X * inject_Z N). assert (PY : 0 < Y) by (unfold Y; nra).
  assert (W1 : inject_Z m1 * Y <= v) by (unfold Y; nra). assert (W2 : v <= (inject_Z m1 + 1) * Y) by (unfold Y; nra).
  assert (W3 : 8388608 * Y <= v) by nra.
  unfold u. destruct HM as [->| ->]; [|rewrite inject_Z_plus; change (inject_Z 1) with 1]; split; nra.
Qed.

Lemma near_weaken lo hi lo' hi' k x v : near lo hi k x v -> (lo' <= lo)%Z -> (hi <= hi')%Z -> near lo' hi' k x v.
Proof. intros (m & e & A & B & C & D) H1 H2. exists m, e. split; [exact A|]. split; [exact B|]. split; [lia|exact D]. Qed.

Lemma as_f32_near_k k n : (0 < n < 2 ^ k)%N -> (k <= 64)%N -> near (-23) (Z.max 1 (Z.of_N k - 23)) 1 (as_f32 n) (q_of n).
Proof.
  intros H K64. unfold as_f32, q_of. destruct n as [|p]; [lia|]. cbn [Z.of_N binary_normalize]. unfold binary_round, shl_align.
  pose proof (digits2_bounds p) as B. set (d := Z.pos (digits2_pos p)) in *.
  assert (D64 : (d <= Z.of_N k)%Z).
  { destruct (Z.le_gt_cases d (Z.of_N k)) as [A|A]; [exact A|]. assert (2 ^ Z.of_N k <= 2 ^ (d - 1))%Z by (apply Z.pow_le_mono_r; lia).
    pose proof (N2Z.inj_pow 2 k) as E. change (Z.of_N 2) with 2%Z in E. lia. }
  assert (D0 : (0 < d)%Z) by (subst d; lia).
  replace (fexp 24 128 (d + 0) - 0)%Z with (d - 24)%Z by (unfold fexp, emin; lia).
  replace (fexp 24 128 (d + 0))%Z with (d - 24)%Z by (unfold fexp, emin; lia).
  assert (Big : (24 <= d)%Z -> near (-23) (Z.max 1 (Z.of_N k - 23)) 1 (binary_round_aux 24 128 false (Z.pos p) 0 loc_Exact) (inject_Z (Z.pos p))).
  { intros Hd. eapply near_weaken; [apply (round_near (Z.pos p) 0 loc_Exact)|cbn [Zdigits2]; fold d; lia|cbn [Zdigits2]; fold d; lia]; cbn [Zdigits2]; fold d; try lia.
    - change (2 ^ 0) with 1. rewrite Qmult_1_r. apply Qle_refl.
    - change (2 ^ 0) with 1. rewrite Qmult_1_r. rewrite <- Zle_Qle. lia. }
  destruct (d - 24)%Z as [|q|q] eqn:E; [apply Big; lia|apply Big; lia|].
  assert (Ez : (Z.pos (shift_pos q p) = 2 ^ Z.pos q * Z.pos p)%Z) by (rewrite shift_pos_correct, Zpower_pos_nat, Zpower_nat_Z, positive_nat_Z; reflexivity).
  assert (Dz : Zdigits2 (Z.pos (shift_pos q p)) = 24%Z).
  { apply digits2_unique; [lia|lia|]. rewrite Ez. replace (24 - 1)%Z with (Z.pos q + (d - 1))%Z by lia. replace (2 ^ 24)%Z with (2 ^ (Z.pos q + d))%Z by (f_equal; lia).
    rewrite !Z.pow_add_r by lia. assert (0 < 2 ^ Z.pos q)%Z by (apply Z.pow_pos_nonneg; lia).
    split; [apply Z.mul_le_mono_nonneg_l; lia|apply Z.mul_lt_mono_pos_l; lia]. }
  assert (V : inject_Z (Z.pos (shift_pos q p)) * 2 ^ Z.neg q == inject_Z (Z.pos p)).
  { rewrite Ez, inject_Z_mult. rewrite <- (two_Z (Z.pos q)) by lia. rewrite (Qmult_comm (2 ^ Z.pos q)), <- Qmult_assoc, <- two_plus.
    replace (Z.pos q + Z.neg q)%Z with 0%Z by lia. change (2 ^ 0) with 1. apply Qmult_1_r. }
  eapply near_weaken; [apply round_near|rewrite Dz; lia|rewrite Dz; lia]; rewrite ?Dz; try lia.
  - rewrite V. apply Qle_refl.
  - rewrite inject_Z_plus, Qmult_plus_distr_l, V. pose proof (two_pos (Z.neg q)). change (inject_Z 1) with 1. lra.
Qed.

Lemma as_f32_near n : (0 < n < 2 ^ 64)%N -> near (-23) 41 1 (as_f32 n) (q_of n).
Proof. intros H. exact (as_f32_near_k 64 n H ltac:(lia)). Qed.

(** Relative errors of quotients and products. *)
Lemma quotient_error (a b c v w X Y Z R : Q) : 0 < v -> 0 < w -> 0 <= a -> a < 1 -> 0 <= b -> b < 1 ->
  (1 - a) * v <= X <= (1 + a) * v -> (1 - b) * w <= Y <= (1 + b) * w -> Z * Y == X -> (1 - u) * Z <= R <= (1 + u) * Z ->
  (1 + a) * (1 + u) <= (1 + c) * (1 - b) -> (1 - c) * (1 + b) <= (1 - a) * (1 - u) -> c <= 1 ->
  (1 - c) * (v / w) <= R <= (1 + c) * (v / w).
Proof.
  intros Pv Pw A0 A1 B0 B1 [X1 X2] [Y1 Y2] EZ [R1 R2] C1 C2 C3.
  assert (Et : (v / w) * w == v) by (rewrite Qmult_comm; apply Qmult_div_r; intros E; rewrite E in Pw; discriminate Pw).
  set (t := v / w) in *. assert (Pt : 0 < t).
  { destruct (Qlt_le_dec 0 t) as [H|H]; [exact H|]. exfalso. rewrite <- Et in Pv. clear - H Pw Pv. nra. }
  assert (PY : 0 < Y) by nra. assert (PX : 0 < X) by nra.
  assert (PZ : 0 < Z). { destruct (Qlt_le_dec 0 Z) as [H|H]; [exact H|]. exfalso. rewrite <- EZ in PX. clear - H PY PX. nra. }
  assert (U : 0 < u /\ u < 1) by (split; reflexivity). destruct U as [U0 U1].
  assert (Z1 : Z * (1 - b) <= (1 + a) * t).
  { assert (H : (Z * (1 - b)) * w <= ((1 + a) * t) * w).
    { rewrite <- (Qmult_assoc (1 + a)), Et, <- Qmult_assoc. apply Qle_trans with X; [|exact X2]. rewrite <- EZ. apply Qmult_le_l; assumption. } exact (proj1 (Qmult_le_r _ _ w Pw) H). }
  assert (Z2 : (1 - a) * t <= Z * (1 + b)).
  { assert (H : ((1 - a) * t) * w <= (Z * (1 + b)) * w).
    { rewrite <- (Qmult_assoc (1 - a)), Et, <- Qmult_assoc. apply Qle_trans with X; [exact X1|]. rewrite <- EZ. apply Qmult_le_l; assumption. } exact (proj1 (Qmult_le_r _ _ w Pw) H). }
  assert (Pb : 0 < 1 - b) by lra. assert (Pb' : 0 < 1 + b) by lra. split.
  - apply (Qmult_le_r _ _ (1 + b) Pb').
    assert (H : ((1 - c) * (1 + b)) * t <= ((1 - a) * (1 - u)) * t) by (apply Qmult_le_r; assumption).
    assert (H2 : (1 - u) * ((1 - a) * t) <= (1 - u) * (Z * (1 + b))) by (apply Qmult_le_l; [lra|assumption]).
    assert (H3 : ((1 - u) * Z) * (1 + b) <= R * (1 + b)) by (apply Qmult_le_r; assumption). lra.
  - apply (Qmult_le_r _ _ (1 - b) Pb).
    assert (H : ((1 + a) * (1 + u)) * t <= ((1 + c) * (1 - b)) * t) by (apply Qmult_le_r; assumption).
    assert (H2 : (1 + u) * (Z * (1 - b)) <= (1 + u) * ((1 + a) * t)) by (apply Qmult_le_l; [lra|assumption]).
    assert (H3 : R * (1 - b) <= ((1 + u) * Z) * (1 - b)) by (apply Qmult_le_r; assumption). lra.
Qed.

Lemma div_near lo1 hi1 lo2 hi2 a b c x y v w : near lo1 hi1 a x v -> near lo2 hi2 b y w -> 0 < v -> 0 < w ->
  (-120 <= lo1 - hi2)%Z -> (hi1 - lo2 <= 120)%Z ->
  0 <= a -> a * u < 1 -> 0 <= b -> b * u < 1 ->
  (1 + a * u) * (1 + u) <= (1 + c * u) * (1 - b * u) -> (1 - c * u) * (1 + b * u) <= (1 - a * u) * (1 - u) -> c * u <= 1 ->
  near (lo1 - hi2 - 24) (hi1 - lo2 - 22) c (f32_div x y) (v / w).
Proof.
  intros (m1 & e1 & -> & B1 & E1 & V1) (m2 & e2 & -> & B2 & E2 & V2) Pv Pw L H A0 A1 B0 B1' C1 C2 C3.
  change (2 ^ 23)%Z with 8388608%Z in *. change (2 ^ 24)%Z with 16777216%Z in *.
  unfold f32_div, SFdiv. cbn [xorb]. unfold SFdiv_core_binary.
  assert (D1 : Zdigits2 (Z.pos m1) = 24%Z) by (apply digits2_unique; [lia|lia|change (2 ^ (24 - 1))%Z with 8388608%Z; change (2 ^ 24)%Z with 16777216%Z; lia]).
  assert (D2 : Zdigits2 (Z.pos m2) = 24%Z) by (apply digits2_unique; [lia|lia|change (2 ^ (24 - 1))%Z with 8388608%Z; change (2 ^ 24)%Z with 16777216%Z; lia]).
  rewrite D1, D2. replace (Z.min (fexp 24 128 (24 + e1 - (24 + e2))) (e1 - e2)) with (e1 - e2 - 24)%Z by (unfold fexp, emin; lia).
  replace (e1 - e2 - (e1 - e2 - 24))%Z with 24%Z by lia. cbv iota zeta.
  rewrite Z.shiftl_mul_pow2 by lia. change (2 ^ 24)%Z with 16777216%Z.
  pose proof (Z_div_mod (Z.pos m1 * 16777216) (Z.pos m2) ltac:(lia)) as DM.
  destruct (Z.div_eucl (Z.pos m1 * 16777216) (Z.pos m2)) as [q r]. destruct DM as [DM RB].
  assert (Q1 : (8388608 <= q)%Z) by nia. assert (Q2 : (q < 33554432)%Z) by nia.
  assert (DQ : (Zdigits2 q = 24 \/ Zdigits2 q = 25)%Z).
  { destruct (Z.lt_ge_cases q 16777216); [left|right]; apply digits2_unique; lia. }
  set (X := inject_Z (Z.pos m1) * 2 ^ e1) in *. set (Y := inject_Z (Z.pos m2) * 2 ^ e2) in *.
  pose proof (two_pos e1) as P1. pose proof (two_pos e2) as P2.
  assert (M2 : 8388608 <= inject_Z (Z.pos m2)) by (change 8388608 with (inject_Z 8388608); rewrite <- Zle_Qle; lia).
  assert (PY : 0 < Y) by (unfold Y; nra).
  assert (EZ : X / Y * Y == X) by (rewrite Qmult_comm; apply Qmult_div_r; intros E; rewrite E in PY; discriminate PY).
  assert (T : 2 ^ (e1 - e2 - 24) * 2 ^ e2 * 16777216 == 2 ^ e1).
  { change 16777216 with (2 ^ 24). rewrite <- !two_plus. replace (e1 - e2 - 24 + e2 + 24)%Z with e1 by lia. reflexivity. }
  pose proof (two_pos (e1 - e2 - 24)) as PT. set (T0 := 2 ^ (e1 - e2 - 24)) in *.
  assert (DMQ : inject_Z (Z.pos m1) * 16777216 == inject_Z (Z.pos m2) * inject_Z q + inject_Z r).
  { change 16777216 with (inject_Z 16777216). rewrite <- !inject_Z_mult, <- inject_Z_plus, DM. reflexivity. }
  assert (R0 : 0 <= inject_Z r) by (change 0 with (inject_Z 0); rewrite <- Zle_Qle; lia).
  assert (R1 : inject_Z r <= inject_Z (Z.pos m2)) by (rewrite <- Zle_Qle; lia).
  assert (XE : X == (inject_Z (Z.pos m2) * inject_Z q + inject_Z r) * (T0 * 2 ^ e2)) by (unfold X; rewrite <- T, <- DMQ; ring).
  assert (G : near (e1 - e2 - 24 + Zdigits2 q - 24) (e1 - e2 - 24 + Zdigits2 q - 23) 1 (binary_round_aux 24 128 false q (e1 - e2 - 24) (new_location (Z.pos m2) r)) (X / Y)).
  { apply round_near; try lia; apply (Qmult_le_r _ _ Y PY); rewrite EZ, XE; unfold Y; fold T0.
    - assert (0 <= inject_Z r * (T0 * 2 ^ e2)) by (apply Qmult_le_0_compat; [exact R0|nra]). ring_simplify. ring_simplify in H0. nra.
    - rewrite inject_Z_plus. change (inject_Z 1) with 1.
      assert (inject_Z r * (T0 * 2 ^ e2) <= inject_Z (Z.pos m2) * (T0 * 2 ^ e2)) by (apply Qmult_le_compat_r; [exact R1|nra]). nra. }
  destruct G as (m & e & -> & B & E & V). exists m, e. split; [reflexivity|]. split; [exact B|]. split; [lia|].
  refine (quotient_error (a * u) (b * u) (c * u) v w X Y (X / Y) _ Pv Pw _ A1 _ B1' V1 V2 EZ _ C1 C2 C3).
  - unfold u. lra. 
  - unfold u. lra.
  - rewrite !Qmult_1_l in V. exact V.
Qed.

Lemma mul100_near lo hi a c x v : near lo hi a x v -> 0 < v -> (-150 <= lo)%Z -> (hi <= 94)%Z ->
  0 <= a -> (1 + a * u) * (1 + u) <= 1 + c * u -> 1 - c * u <= (1 - a * u) * (1 - u) -> a * u < 1 ->
  near (lo + 6) (hi + 8) c (f32_mul x (as_f32 100)) (v * 100).
Proof.
  intros (m & e & -> & B & E & V) Pv L H A0 C1 C2 A1. change (as_f32 100) with (S754_finite false 13107200 (-17)).
  change (2 ^ 23)%Z with 8388608%Z in *. change (2 ^ 24)%Z with 16777216%Z in *.
  unfold f32_mul, SFmul. cbn [xorb]. set (q := Z.pos (m * 13107200)). assert (Eq : (q = Z.pos m * 13107200)%Z) by reflexivity.
  assert (DQ : (Zdigits2 q = 47 \/ Zdigits2 q = 48)%Z).
  { destruct (Z.lt_ge_cases q 140737488355328); [left|right]; apply digits2_unique; lia. }
  set (X := inject_Z (Z.pos m) * 2 ^ e) in *. pose proof (two_pos (e + -17)) as P1.
  assert (XE : X * 100 == inject_Z q * 2 ^ (e + -17)).
  { unfold X. rewrite Eq, inject_Z_mult, two_plus. change (inject_Z 13107200) with (100 * 2 ^ 17).
    transitivity (inject_Z (Z.pos m) * 2 ^ e * 100 * (2 ^ 17 * 2 ^ (-17))); [|ring]. rewrite <- (two_plus 17 (-17)). change (2 ^ (17 + -17)) with 1. ring. }
  assert (G : near (e + -17 + Zdigits2 q - 24) (e + -17 + Zdigits2 q - 23) 1 (binary_round_aux 24 128 false q (e + -17) loc_Exact) (X * 100)).
  { apply round_near; try lia; rewrite XE; [apply Qle_refl|]. rewrite inject_Z_plus. change (inject_Z 1) with 1. nra. }
  destruct G as (m' & e' & -> & B' & E' & V'). exists m', e'. split; [reflexivity|]. split; [exact B'|]. split; [lia|].
  destruct V as [Va Vb]. destruct V' as [Vc Vd]. rewrite Qmult_1_l in Vc, Vd.
  assert (U : 0 < u /\ u < 1) by (split; reflexivity). destruct U as [U0 U1].
  assert (S1 : (1 - u) * ((1 - a * u) * v) <= (1 - u) * X) by (apply Qmult_le_l; [lra|exact Va]).
  assert (S2 : (1 + u) * X <= (1 + u) * ((1 + a * u) * v)) by (apply Qmult_le_l; [lra|exact Vb]).
  assert (S3 : (1 - c * u) * v <= ((1 - a * u) * (1 - u)) * v) by (apply Qmult_le_r; [exact Pv|exact C2]).
  assert (S4 : ((1 + a * u) * (1 + u)) * v <= (1 + c * u) * v) by (apply Qmult_le_r; [exact Pv|exact C1]).
  split; lra.
Qed.
