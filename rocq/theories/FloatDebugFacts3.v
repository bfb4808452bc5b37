(** From rational numbers that are rounded to an [f32] to the range between its ends. *)
From Coq Require Import String SpecFloat QArith Qabs Qpower Lqa.
From Verif Require Import Base Nibbles NibblesSpec Trie Query Diff Text TextSpec TextFacts Stats FloatSpec FloatText FloatFacts FloatFacts2.
From Verif Require Import Rlp Hashing Cache Subset DebugText DebugTextSpec FloatDebug FloatDebugSpec FloatDebugFacts FloatDebugFacts2.
Open Scope N_scope.
Open Scope list_scope.

(** ** How many digits a number has *)
Lemma undec_lt l : Forall (fun c => 48 <= c <= 57) l -> undec l < 10 ^ N.of_nat (length l).
Proof.
  induction l as [|c l IH] using rev_ind; intros F; [reflexivity|]. apply Forall_app in F as [F C]. inversion C; subst.
  rewrite undec_snoc, app_length. cbn [length]. rewrite Nat.add_1_r, Nat2N.inj_succ, N.pow_succ_r'. specialize (IH F). lia.
Qed.
Lemma undec_ge c l : 49 <= c -> 10 ^ N.of_nat (length l) <= undec (c :: l).
Proof.
  intros C. induction l as [|x l IH] using rev_ind; [unfold undec; cbn [fold_left length]; change (10 ^ N.of_nat 0) with 1; lia|].
  change (c :: l ++ [x]) with ((c :: l) ++ [x]). rewrite undec_snoc, app_length. cbn [length]. rewrite Nat.add_1_r, Nat2N.inj_succ, N.pow_succ_r'. lia.
Qed.
Lemma dec_lt n : n < 10 ^ N.of_nat (length (dec n)).
Proof. rewrite <- (undec_dec n) at 1. apply undec_lt, dec_chars. Qed.
Lemma dec_ge n : 0 < n -> exists d, length (dec n) = S d /\ 10 ^ N.of_nat d <= n.
Proof.
  intros P. pose proof (dec_digits n) as [Ne F]. destruct (dec n) as [|c l] eqn:E; [congruence|]. exists (length l). split; [reflexivity|].
  rewrite <- (undec_dec n), E. apply undec_ge. inversion F; subst. destruct (N.eq_dec c 48) as [->|]; [|lia].
  apply dec_lead in E as X. subst l. pose proof (undec_dec n) as U. rewrite E in U. cbn in U. lia.
Qed.

(** ** Neighbours *)
Lemma quarter_succ e : (-149 <= e)%Z -> quarter (e + 1) = 2 * quarter e.
Proof. intros H. unfold quarter. replace (Z.to_N (e + 1 + 149)) with (N.succ (Z.to_N (e + 149))) by lia. rewrite N.pow_succ_r'. lia. Qed.
Lemma neighbour_below m e : normal m e -> (m, e) <> (8388608%positive, -149)%Z ->
  exists m' e', normal m' e' /\ (m', e') <> (m, e) /\ scaled m' e' + scaled m e = 2 * low_end m e /\ scaled m' e' < scaled m e.
Proof.
  intros [M E] Ne. assert (P : forall x, 0 < quarter x) by (intros x; pose proof (quarter_ge x); assert (0 < 2 ^ 151) by reflexivity; lia).
  unfold normal, scaled, low_end. change (2 ^ 23) with 8388608 in *. change (2 ^ 24) with 16777216 in *.
  destruct (N.eqb_spec (N.pos m) 8388608) as [X|X].
  - injection X as ->. assert (e <> (-149)%Z) by congruence. exists 16777215%positive, (e - 1)%Z.
    replace (quarter e) with (2 * quarter (e - 1)) by (rewrite <- quarter_succ by lia; f_equal; lia). specialize (P (e - 1)%Z).
    repeat split; try lia; congruence.
  - exists (Pos.pred m), e. assert (N.pos (Pos.pred m) = N.pos m - 1) as R by lia. rewrite R. specialize (P e). repeat split; try lia; try nia. intros C. injection C as C. lia.
Qed.
Lemma neighbour_above m e : normal m e -> (m, e) <> (16777215%positive, 104)%Z ->
  exists m' e', normal m' e' /\ (m', e') <> (m, e) /\ scaled m' e' + scaled m e = 2 * high_end m e /\ scaled m e < scaled m' e'.
Proof.
  intros [M E] Ne. assert (P : forall x, 0 < quarter x) by (intros x; pose proof (quarter_ge x); assert (0 < 2 ^ 151) by reflexivity; lia).
  unfold normal, scaled, high_end. change (2 ^ 23) with 8388608 in *. change (2 ^ 24) with 16777216 in *. specialize (P e).
  destruct (N.eqb_spec (N.pos m) 16777215) as [X|X].
  - injection X as ->. assert (e <> 104%Z) by congruence. exists 8388608%positive, (e + 1)%Z. rewrite quarter_succ by lia. repeat split; try lia; congruence.
  - exists (Pos.succ m), e. assert (N.pos (Pos.succ m) = N.pos m + 1) as R by lia. rewrite R. repeat split; try lia; try nia. intros C. injection C as C. lia.
Qed.

Open Scope Q_scope.
Lemma q_of_lt a b : (a < b)%N -> q_of a < q_of b.
Proof. intros H. unfold q_of. rewrite <- Zlt_Qlt. lia. Qed.
Lemma q_of_le_inv a b : q_of a <= q_of b -> (a <= b)%N.
Proof. unfold q_of. rewrite <- Zle_Qle. lia. Qed.
Lemma q_of_lt_inv a b : q_of a < q_of b -> (a < b)%N.
Proof. unfold q_of. rewrite <- Zlt_Qlt. lia. Qed.
Lemma abs_scaled v x w : Qabs (v - x) * q_of whole == Qabs (v * q_of whole - w) \/ ~ w == x * q_of whole.
Proof.
  destruct (Qeq_dec w (x * q_of whole)) as [E|E]; [left|right; exact E]. pose proof whole_pos as P. rewrite <- (Qabs_pos (q_of whole)) at 1 by lra. rewrite <- Qabs_Qmult.
  rewrite E. apply Qabs_wd. ring.
Qed.
Lemma abs_whole v x w : w == x * q_of whole -> Qabs (v - x) * q_of whole == Qabs (v * q_of whole - w).
Proof. intros E. destruct (abs_scaled v x w) as [H|H]; [exact H|contradiction]. Qed.
Lemma rounds_scaled v m e m' e' : normal m e -> normal m' e' -> (m', e') <> (m, e) -> rounds_to v m e ->
  Qabs (v * q_of whole - q_of (scaled m e)) <= Qabs (v * q_of whole - q_of (scaled m' e')) /\
  (Qabs (v * q_of whole - q_of (scaled m e)) == Qabs (v * q_of whole - q_of (scaled m' e')) -> N.even (N.pos m) = true).
Proof.
  intros [_ N1] N2 Ne R. specialize (R m' e' N2 Ne). cbn zeta in R. destruct R as [R1 R2]. destruct N2 as [_ N2]. pose proof whole_pos as P.
  pose proof (abs_whole v _ _ (scaled_q m e ltac:(lia))) as A. pose proof (abs_whole v _ _ (scaled_q m' e' ltac:(lia))) as B. rewrite <- A, <- B. split.
  - apply Qmult_le_r; assumption.
  - intros E. apply R2. apply (Qmult_inj_r _ _ (q_of whole)); [lra|exact E].
Qed.
Lemma rounds_within v m e : normal m e -> inner m e -> rounds_to v m e ->
  q_of (low_end m e) <= v * q_of whole <= q_of (high_end m e) /\
  (N.even (N.pos m) = false -> q_of (low_end m e) < v * q_of whole < q_of (high_end m e)).
Proof.
  intros N1 [I1 I2] R. destruct (neighbour_below m e N1 I1) as (m1 & e1 & N2 & D1 & E1 & L1). destruct (neighbour_above m e N1 I2) as (m2 & e2 & N3 & D2 & E2 & L2).
  destruct (rounds_scaled v m e m1 e1 N1 N2 D1 R) as [A1 A2]. destruct (rounds_scaled v m e m2 e2 N1 N3 D2 R) as [B1 B2].
  set (V := v * q_of whole) in *. apply q_of_lt in L1, L2. assert (F1 : q_of (scaled m1 e1) + q_of (scaled m e) == 2 * q_of (low_end m e)) by (rewrite <- q_of_add, E1, q_of_mul; reflexivity).
  assert (F2 : q_of (scaled m2 e2) + q_of (scaled m e) == 2 * q_of (high_end m e)) by (rewrite <- q_of_add, E2, q_of_mul; reflexivity). clear E1 E2 R.
  set (x := q_of (scaled m e)) in *. set (y := q_of (scaled m1 e1)) in *. set (z := q_of (scaled m2 e2)) in *. set (lo := q_of (low_end m e)) in *. set (hi := q_of (high_end m e)) in *. clearbody V x y z lo hi.
  split.
  - split.
    + destruct (Qlt_le_dec V lo) as [C|C]; [exfalso|exact C]. revert A1. apply (Qabs_case (V - x)); apply (Qabs_case (V - y)); intros; lra.
    + destruct (Qlt_le_dec hi V) as [C|C]; [exfalso|exact C]. revert B1. apply (Qabs_case (V - x)); apply (Qabs_case (V - z)); intros; lra.
  - intros Od. split.
    + destruct (Qlt_le_dec lo V) as [C|C]; [exact C|exfalso]. rewrite A2 in Od; [discriminate|]. revert A1. apply (Qabs_case (V - x)); apply (Qabs_case (V - y)); intros; lra.
    + destruct (Qlt_le_dec V hi) as [C|C]; [exact C|exfalso]. rewrite B2 in Od; [discriminate|]. revert B1. apply (Qabs_case (V - x)); apply (Qabs_case (V - z)); intros; lra.
Qed.
(** Whole multiples of the unit are then inside. *)
Lemma rounds_inside a v m e : normal m e -> inner m e -> rounds_to v m e -> v * q_of whole == q_of a -> inside m e a = true.
Proof.
  intros N1 I R E. destruct (rounds_within v m e N1 I R) as [[A B] C]. rewrite E in *. unfold inside. apply q_of_le_inv in A, B.
  destruct (N.even (N.pos m)); [apply andb_true_intro; split; apply N.leb_le; assumption|]. destruct (C eq_refl) as [C1 C2]. apply q_of_lt_inv in C1, C2.
  apply andb_true_intro; split; apply N.ltb_lt; assumption.
Qed.
(** Powers of ten. *)
Lemma ten_q j : q_of (ten j) == 10 ^ (Z.of_nat j - 46) * q_of whole.
Proof.
  unfold ten, whole. rewrite !q_of_mul. assert (T : forall k, q_of (10 ^ k) == 10 ^ Z.of_N k).
  { intros k. unfold q_of. rewrite N2Z.inj_pow, Zpower_Qpower by lia. reflexivity. }
  rewrite (T (N.of_nat j)), (T 46%N). rewrite nat_N_Z. replace (Z.of_nat j) with ((Z.of_nat j - 46) + 46)%Z at 1 by lia. rewrite Qpower_plus by discriminate.
  change (Z.of_N 46) with 46%Z. ring.
Qed.
Lemma power_q n x : (-46 <= x)%Z -> q_of n * 10 ^ x * q_of whole == q_of (n * ten (Z.to_nat (x + 46))).
Proof. intros H. rewrite q_of_mul, ten_q. replace (Z.of_nat (Z.to_nat (x + 46)) - 46)%Z with x by lia. ring. Qed.
