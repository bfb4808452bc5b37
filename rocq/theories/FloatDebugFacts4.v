(** The digits of the text of an [f32] are the fewest and the nearest; it has no superfluous zeros. *)
From Coq Require Import String SpecFloat QArith Qabs Qpower Lqa.
From Verif Require Import Base Nibbles NibblesSpec Trie Query Diff Text TextSpec TextFacts Stats FloatSpec FloatText FloatFacts FloatFacts2.
From Verif Require Import Rlp Hashing Cache Subset DebugText DebugTextSpec FloatDebug FloatDebugSpec FloatDebugFacts FloatDebugFacts2 FloatDebugFacts3.
Open Scope N_scope.
Open Scope list_scope.

Lemma narrow m e : normal m e -> 9 * high_end m e < 10 * low_end m e.
Proof.
  intros [M _]. unfold high_end, low_end. change (2 ^ 23) with 8388608 in *. pose proof (quarter_ge e) as G. assert (0 < 2 ^ 151) by reflexivity.
  rewrite !N.mul_assoc. apply N.mul_lt_mono_pos_r; [lia|]. destruct (N.pos m =? 8388608); lia.
Qed.
Lemma shortest_pos m e n i : shortest m e 85 = (n, i) -> 0 < n.
Proof. intros E. apply shortest_inside in E as [I _]. destruct (N.eq_dec n 0) as [->|]; [|lia]. rewrite N.mul_0_l, zero_outside in I. discriminate. Qed.
(** A power of ten below the chosen number is not inside, if that has several digits. *)
Lemma power_outside m e n i d : normal m e -> shortest m e 85 = (n, i) -> length (dec n) = S (S d) -> low_end m e < 10 ^ N.of_nat (S d) * ten i -> False.
Proof.
  intros N1 E L B. destruct (dec_ge n (shortest_pos _ _ _ _ E)) as (d' & L' & G). rewrite L in L'. injection L' as <-.
  assert (X : inside m e (10 ^ N.of_nat d * ten (S i)) = true).
  { replace (10 ^ N.of_nat d * ten (S i)) with (10 ^ N.of_nat (S d) * ten i).
    - destruct (N.le_gt_cases (10 ^ N.of_nat (S d) * ten i) (scaled m e)) as [C|C]; [apply below_inside; assumption|].
      apply (inside_between m e (scaled m e) _ (n * ten i)); [apply scaled_inside| |apply (shortest_inside _ _ _ _ _ E)]. split; [lia|]. apply N.mul_le_mono_r, G.
    - replace (S i) with (i + 1)%nat by lia. rewrite ten_add. change (10 ^ N.of_nat 1) with 10. rewrite Nat2N.inj_succ, N.pow_succ_r'. lia. }
  rewrite (greatest m e n i N1 E) in X; [discriminate|lia].
Qed.
Lemma last_nonzero m e n i : normal m e -> shortest m e 85 = (n, i) -> n mod 10 <> 0.
Proof.
  intros N1 E C. pose proof (shortest_inside _ _ _ _ _ E) as [I _]. pose proof (N.div_mod' n 10) as D. rewrite C, N.add_0_r in D. 
  assert (X : inside m e (n / 10 * ten (i + 1)) = true).
  { rewrite ten_add. change (10 ^ N.of_nat 1) with 10. rewrite N.mul_assoc, (N.mul_comm (n / 10)), <- D. exact I. }
  rewrite (greatest m e n i N1 E) in X; [discriminate|lia].
Qed.

Open Scope Q_scope.
Lemma smaller_power n' x i : (x < Z.of_nat i - 46)%Z -> q_of n' * 10 ^ x * q_of whole * 10 <= q_of (n' * ten i).
Proof.
  intros H. rewrite q_of_mul, ten_q. pose proof whole_pos as P. assert (N0 : 0 <= q_of n') by (change 0 with (q_of 0); apply q_of_le; lia).
  assert (L : 10 ^ x * 10 <= 10 ^ (Z.of_nat i - 46)).
  { setoid_replace (10 ^ x * 10) with (10 ^ (x + 1)) by (rewrite Qpower_plus by discriminate; reflexivity). apply Qpower_le_compat_l; [lia|discriminate]. }
  setoid_replace (q_of n' * 10 ^ x * q_of whole * 10) with (q_of n' * q_of whole * (10 ^ x * 10)) by ring.
  setoid_replace (q_of n' * (10 ^ (Z.of_nat i - 46) * q_of whole)) with (q_of n' * q_of whole * 10 ^ (Z.of_nat i - 46)) by ring.
  rewrite (Qmult_comm _ (10 ^ x * 10)), (Qmult_comm _ (10 ^ (Z.of_nat i - 46))). apply Qmult_le_compat_r; [exact L|]. apply Qmult_le_0_compat; [exact N0|lra].
Qed.
(** Another number with as few digits is a multiple of the same power of ten. *)
Lemma same_power m e n i n' x : normal m e -> inner m e -> shortest m e 85 = (n, i) -> rounds_to (q_of n' * 10 ^ x) m e ->
  (length (dec n') <= length (dec n))%nat -> x = (Z.of_nat i - 46)%Z /\ length (dec n') = length (dec n) /\ inside m e (n' * ten i) = true.
Proof.
  intros N1 In E R L. destruct (dec_ge n (shortest_pos _ _ _ _ E)) as (d & Ln & Gn). pose proof (dec_lt n') as Ln'.
  destruct (Z.lt_trichotomy x (Z.of_nat i - 46)) as [C|[C|C]].
  - exfalso. pose proof (rounds_within _ m e N1 In R) as [[A _] _]. pose proof (smaller_power n' x i C) as S1.
    assert (B : (n' * ten i < 10 ^ N.of_nat (S d) * ten i)%N).
    { apply N.mul_lt_mono_pos_r; [apply ten_pos|]. eapply N.lt_le_trans; [exact Ln'|]. apply N.pow_le_mono_r; [discriminate|lia]. }
    assert (T : (10 * low_end m e <= n' * ten i)%N).
    { apply q_of_le_inv. rewrite q_of_mul. change (q_of 10) with 10. lra. }
    destruct d as [|d].
    + pose proof (shortest_inside _ _ _ _ _ E) as [I _]. apply inside_within in I as [[_ I] _]. pose proof (narrow m e N1) as W.
      change (10 ^ N.of_nat 0)%N with 1%N in Gn. change (10 ^ N.of_nat 1)%N with 10%N in B. pose proof (ten_pos i) as P.
      assert (Q : (n' <= 9)%N) by (apply N.mul_lt_mono_pos_r in B; [lia|exact P]). assert ((n' * ten i <= 9 * ten i)%N) by (apply N.mul_le_mono_r, Q).
      assert ((1 * ten i <= n * ten i)%N) by (apply N.mul_le_mono_r, Gn). lia.
    + apply (power_outside m e n i d N1 E Ln). rewrite Nat2N.inj_succ, N.pow_succ_r' in B. lia.
  - subst x. assert (I : inside m e (n' * ten i) = true).
    { apply (rounds_inside _ _ m e N1 In R). rewrite power_q by lia. replace (Z.to_nat (Z.of_nat i - 46 + 46)) with i by lia. reflexivity. }
    split; [reflexivity|]. split; [|exact I]. destruct (Nat.eq_dec (length (dec n')) (length (dec n))) as [X|X]; [exact X|exfalso].
    assert (n' <> 0)%N by (intros ->; rewrite N.mul_0_l, zero_outside in I; discriminate). destruct (dec_ge n' ltac:(lia)) as (d' & L' & _).
    destruct d as [|d]; [lia|]. apply (power_outside m e n i d N1 E Ln). apply inside_within in I as [[I _] _]. eapply N.le_lt_trans; [exact I|].
    apply N.mul_lt_mono_pos_r; [apply ten_pos|]. eapply N.lt_le_trans; [exact Ln'|]. apply N.pow_le_mono_r; [discriminate|lia].
  - exfalso. assert (I : inside m e (n' * ten (Z.to_nat (x + 46))) = true).
    { apply (rounds_inside _ _ m e N1 In R). rewrite power_q by lia. reflexivity. }
    rewrite (greatest m e n i N1 E) in I; [discriminate|lia].
Qed.
(** ** The value of the text *)
Lemma number_value m e n i : shortest m e 85 = (n, i) -> denotes (number_text m e) (q_of n * 10 ^ (Z.of_nat i - 46)).
Proof.
  intros E. unfold number_text. rewrite E. pose proof (shortest_inside _ _ _ _ _ E) as [_ J].
  assert (V : q_of (n * ten i) / q_of whole == q_of n * 10 ^ (Z.of_nat i - 46)) by (rewrite q_of_mul, ten_q; field; pose proof whole_pos; lra).
  assert (D : denotes (if (_ : bool) then plain_text n i else exp_text n i) (q_of (n * ten i) / q_of whole)) by
    (instantiate (1 := (scaled 13743895 (-37) <=? scaled m e)%N && (scaled m e <? scaled 9313226 30)%N); destruct (_ && _); [apply plain_denotes, J|apply exp_denotes]).
  destruct D as [(k & a & W & Q)|(d & ds & xs & mi & El & D1 & D2 & Q)]; rewrite V in Q; [left; exists k, a; auto|right; exists d, ds, xs, mi; auto].
Qed.
Lemma value_near m e n i n' : normal m e -> shortest m e 85 = (n, i) -> inside m e (n' * ten i) = true ->
  let v := q_of n * 10 ^ (Z.of_nat i - 46) in let v' := q_of n' * 10 ^ (Z.of_nat i - 46) in let x := inject_Z (Z.pos m) * 2 ^ e in
  Qabs (v - x) <= Qabs (v' - x) /\ (Qabs (v - x) == Qabs (v' - x) -> v' <= v).
Proof.
  intros [_ N1] E I. cbn zeta. destruct (shortest_near m e 85 n i E n' I) as [A B]. pose proof whole_pos as P. set (x := inject_Z (Z.pos m) * 2 ^ e).
  assert (V : forall k, q_of k * 10 ^ (Z.of_nat i - 46) == q_of (k * ten i) / q_of whole) by (intros k; rewrite q_of_mul, ten_q; field; lra).
  pose proof (dist_q (n * ten i) (scaled m e) _ x (V n) (scaled_q m e ltac:(lia))) as D1. pose proof (dist_q (n' * ten i) (scaled m e) _ x (V n') (scaled_q m e ltac:(lia))) as D2.
  split.
  - apply (Qmult_le_r _ _ (q_of whole) P). rewrite D1, D2. rewrite <- Zle_Qle. exact A.
  - intros X. assert (n' <= n)%N as Y. { apply B. apply inject_Z_injective. rewrite <- D1, <- D2, X. reflexivity. }
    apply Qmult_le_compat_r; [apply q_of_le, Y|]. apply Qpower_pos. discriminate.
Qed.
Lemma inside_power m e n i : normal m e -> shortest m e 85 = (n, i) -> rounds_to (q_of n * 10 ^ (Z.of_nat i - 46)) m e.
Proof.
  intros N1 E. pose proof (shortest_inside _ _ _ _ _ E) as [I _]. pose proof (inside_rounds m e _ N1 I) as R.
  assert (V : q_of (n * ten i) / q_of whole == q_of n * 10 ^ (Z.of_nat i - 46)) by (rewrite q_of_mul, ten_q; field; pose proof whole_pos; lra).
  intros m' e' N2 Ne. specialize (R m' e' N2 Ne). cbn zeta in *. rewrite V in R. exact R.
Qed.
(** ** No superfluous zeros *)
Open Scope N_scope.
Lemma dec_tidy n : dec n = [48] \/ hd 48 (dec n) <> 48.
Proof.
  destruct (dec n) as [|c l] eqn:E; [left; destruct (dec_digits n); congruence|]. destruct (N.eq_dec c 48) as [->|C]; [left|right; exact C].
  f_equal. eapply dec_lead, E.
Qed.
Lemma last_digit l : Forall (fun c => 48 <= c <= 57) l -> undec l mod 10 <> 0 -> last l 48 <> 48.
Proof.
  destruct l as [|c l _] using rev_ind; [intros _ H; cbn in H; congruence|]. intros F H. rewrite last_last. rewrite undec_snoc in H. intros ->.
  apply H. rewrite N.sub_diag, N.add_0_r, N.mul_comm. apply N.mod_mul. discriminate.
Qed.
Lemma low_last k n : (0 < k)%nat -> last (low_digits k n) 48 = 48 + n mod 10.
Proof. destruct k as [|k]; [lia|]. intros _. cbn [low_digits]. apply last_last. Qed.
Lemma plain_tidy n i : n mod 10 <> 0 -> tidy_plain (plain_text n i).
Proof.
  intros H. unfold plain_text. set (k := Nat.max 1 (46 - i)). set (w := n * 10 ^ N.of_nat (i + k - 46)). unfold fixed_text.
  exists (dec (w / 10 ^ N.of_nat k)), (low_digits k w). assert (Ek : k = Nat.max 1 (46 - i)) by reflexivity. assert (K : (0 < k)%nat) by (rewrite Ek; apply Nat.max_lt_iff; left; auto). split; [clear Ek; clearbody w; clearbody k; destruct k; [lia|reflexivity]|]. split; [apply dec_digits|].
  split; [split; [intros X; pose proof (low_length k w) as L; rewrite X in L; cbn [length] in L; lia|apply low_chars]|]. split; [apply dec_tidy|].
  destruct (Nat.le_gt_cases 46 i) as [C|C].
  - left. assert (k = 1%nat) as K1 by lia. rewrite K1. cbn [low_digits app]. unfold w. rewrite K1. replace (i + 1 - 46)%nat with (S (i - 46)) by lia. rewrite Nat2N.inj_succ, N.pow_succ_r'.
    replace (n * (10 * 10 ^ N.of_nat (i - 46))) with (n * 10 ^ N.of_nat (i - 46) * 10) by lia. rewrite N.mod_mul by discriminate. reflexivity.
  - right. rewrite low_last by exact K. unfold w. replace (i + k - 46)%nat with 0%nat by lia. change (10 ^ N.of_nat 0) with 1. rewrite N.mul_1_r. generalize dependent (n mod 10). lia.
Qed.
Lemma exp_tidy n i : n mod 10 <> 0 -> tidy_exp (exp_text n i).
Proof.
  intros H. destruct (exp_text_eq n i) as (d & ds & E & ->). pose proof (dec_digits n) as D. rewrite E in D. set (x := (Z.of_nat (i + length ds) - 46)%Z).
  exists d, ds, (dec (Z.abs_N x)), (x <? 0)%Z. split; [reflexivity|]. split; [exact D|]. split; [apply dec_digits|]. split.
  - intros ->. pose proof (dec_lead _ _ E) as ->. pose proof (undec_dec n) as U. rewrite E in U. cbn in U. subst n. apply H. reflexivity.
  - split; [|apply dec_tidy]. apply last_digit; [apply D|]. rewrite <- E, undec_dec. exact H.
Qed.

(** ** When there is an exponent *)
Lemma above m e m' e' a a' : normal m e -> normal m' e' -> scaled m e < scaled m' e' -> inside m e a = true -> inside m' e' a' = true -> a < a'.
Proof.
  intros N1 N2 L I J. assert (D : (m', e') <> (m, e)) by (intros X; injection X as -> ->; lia).
  destruct (N.lt_ge_cases a a') as [C|C]; [exact C|exfalso]. pose proof (apart m e m' e' N1 N2 D) as A. pose proof (apart m' e' m e N2 N1 ltac:(congruence)) as B.
  pose proof (inside_within _ _ _ I) as [I1 _]. pose proof (inside_within _ _ _ J) as [J1 _]. pose proof (ends m e). pose proof (ends m' e').
  assert (a = a') by lia. subst a'. apply D. apply (inside_unique m e m' e' a); assumption.
Qed.
Lemma scaled_unique m e m' e' : normal m e -> normal m' e' -> scaled m e = scaled m' e' -> (m', e') = (m, e).
Proof. intros N1 N2 E. apply (inside_unique m e m' e' (scaled m e)); auto; [apply scaled_inside|rewrite E; apply scaled_inside]. Qed.
(** A decimal number [k * ten j] that is the shortest one for [m'], [e'] separates the numbers below from the others. *)
Lemma threshold m' e' k j m e n i : normal m' e' -> shortest m' e' 85 = (k, j) -> normal m e -> shortest m e 85 = (n, i) ->
  scaled m' e' <= scaled m e <-> k * ten j <= n * ten i.
Proof.
  intros N1 E1 N2 E2. pose proof (shortest_inside _ _ _ _ _ E1) as [I1 _]. pose proof (shortest_inside _ _ _ _ _ E2) as [I2 _].
  destruct (N.lt_trichotomy (scaled m' e') (scaled m e)) as [L|[L|L]].
  - pose proof (above _ _ _ _ _ _ N1 N2 L I1 I2). lia.
  - pose proof (scaled_unique _ _ _ _ N1 N2 L) as X. assert (E1' : shortest m e 85 = (k, j)) by congruence. rewrite E2 in E1'. injection E1' as -> ->. lia.
  - pose proof (above _ _ _ _ _ _ N2 N1 L I2 I1). lia.
Qed.
Lemma number_layout m e n i : normal m e -> shortest m e 85 = (n, i) -> let v := (q_of n * 10 ^ (Z.of_nat i - 46))%Q in
  ((1 # 10000 <= v /\ v < 10000000000000000)%Q -> tidy_plain (number_text m e)) /\ ((v < 1 # 10000 \/ 10000000000000000 <= v)%Q -> tidy_exp (number_text m e)).
Proof.
  intros N1 E. cbn zeta. set (v := (q_of n * 10 ^ (Z.of_nat i - 46))%Q). pose proof (last_nonzero m e n i N1 E) as Z.
  assert (C1 : scaled 13743895 (-37) <= scaled m e <-> (1 # 10000 <= v)%Q).
  { rewrite (threshold 13743895 (-37) 1 42 m e n i); [|vm_compute; intuition discriminate|vm_compute; reflexivity|exact N1|exact E].
    pose proof whole_pos as P. assert (V : (v * q_of whole == q_of (n * ten i))%Q) by (unfold v; rewrite q_of_mul, ten_q; ring).
    assert (U : ((1 # 10000) * q_of whole == q_of (1 * ten 42))%Q) by (vm_compute; reflexivity).
    split; intros H.
    - apply (Qmult_le_r _ _ (q_of whole) P). rewrite U, V. apply q_of_le, H.
    - apply q_of_le_inv. rewrite <- U, <- V. apply Qmult_le_r; assumption. }
  assert (C2 : scaled 9313226 30 <= scaled m e <-> (10000000000000000 <= v)%Q).
  { rewrite (threshold 9313226 30 1 62 m e n i); [|vm_compute; intuition discriminate|vm_compute; reflexivity|exact N1|exact E].
    pose proof whole_pos as P. assert (V : (v * q_of whole == q_of (n * ten i))%Q) by (unfold v; rewrite q_of_mul, ten_q; ring).
    assert (U : (10000000000000000 * q_of whole == q_of (1 * ten 62))%Q) by (vm_compute; reflexivity).
    split; intros H.
    - apply (Qmult_le_r _ _ (q_of whole) P). rewrite U, V. apply q_of_le, H.
    - apply q_of_le_inv. rewrite <- U, <- V. apply Qmult_le_r; assumption. }
  unfold number_text. rewrite E. split.
  - intros [A B]. replace (_ && _) with true; [apply plain_tidy, Z|]. symmetry. apply andb_true_intro. split; [apply N.leb_le, C1, A|apply N.ltb_lt].
    apply N.lt_nge. intros X. apply C2 in X. lra.
  - intros H. replace (_ && _) with false; [apply exp_tidy, Z|]. symmetry. apply andb_false_iff. destruct H as [H|H].
    + left. apply N.leb_gt, N.lt_nge. intros X. apply C1 in X. lra.
    + right. apply N.ltb_ge, C2, H.
Qed.
