(** The shortest text of an [f32] identifies it. *)
From Coq Require Import String SpecFloat QArith Qabs Qpower Lqa.
From Verif Require Import Base Nibbles NibblesSpec Trie Query Diff Text TextSpec TextFacts Stats FloatSpec FloatText FloatFacts FloatFacts2.
From Verif Require Import Rlp Hashing Cache Subset DebugText DebugTextSpec FloatDebug FloatDebugSpec.
Open Scope N_scope.
Open Scope list_scope.

(** ** Numbers between the ends *)
Lemma ten_pos j : 0 < ten j.
Proof. unfold ten. pose proof (N.pow_nonzero 10 (N.of_nat j) ltac:(discriminate)). nia. Qed.
Lemma quarter_ge e : 2 ^ 151 <= quarter e.
Proof.
  unfold quarter. pose proof (N.pow_nonzero 2 (Z.to_N (e + 149)) ltac:(discriminate)) as P. assert (2 ^ 151 <= 10 ^ 46) by (vm_compute; discriminate).
  remember (2 ^ 151) as a. remember (10 ^ 46) as b. remember (2 ^ Z.to_N (e + 149)) as c. nia.
Qed.
Lemma inside_within m e a : inside m e a = true -> low_end m e <= a <= high_end m e /\ (N.even (N.pos m) = false -> low_end m e < a < high_end m e).
Proof.
  unfold inside. destruct (N.even (N.pos m)); intros H; apply andb_prop in H as [H1 H2].
  - apply N.leb_le in H1, H2. split; [auto|discriminate].
  - apply N.ltb_lt in H1, H2. split; [lia|auto].
Qed.
Lemma ends m e : low_end m e < scaled m e < high_end m e.
Proof.
  unfold low_end, scaled, high_end. pose proof (quarter_ge e) as G. assert (0 < 2 ^ 151) by reflexivity. assert (0 < quarter e) by lia.
  destruct (N.pos m =? 2 ^ 23); split; apply N.mul_lt_mono_pos_r; lia.
Qed.
Lemma below_inside m e a : low_end m e < a -> a <= scaled m e -> inside m e a = true.
Proof.
  intros L H. pose proof (ends m e) as E. unfold inside. destruct (N.even (N.pos m)); apply andb_true_intro; split; first [apply N.leb_le; lia|apply N.ltb_lt; lia].
Qed.
Lemma shortest_inside m e : forall j n i, shortest m e j = (n, i) -> inside m e (n * ten i) = true /\ (i <= j)%nat.
Proof.
  induction j as [|j IH]; intros n i E; cbn [shortest] in E;
    set (w := scaled m e) in *; match type of E with context [ten ?k] => set (u := ten k) in * end; set (q := w / u) in *;
    destruct (inside m e ((q + 1) * u) && (negb (inside m e (q * u)) || (u <=? 2 * (w - q * u)))) eqn:Eu.
  - injection E as <- <-. apply andb_prop in Eu as [Eu _]. auto.
  - destruct (inside m e (q * u)) eqn:Ed; [injection E as <- <-; auto|exfalso].
    rewrite below_inside in Ed; [discriminate| |].
    + pose proof (N.div_mod' w u) as D. fold q in D. pose proof (N.mod_lt w u ltac:(pose proof (ten_pos 0); unfold u; lia)).
      assert (Q : quarter e <= w - low_end m e).
      { unfold w, low_end, scaled. rewrite <- N.mul_sub_distr_r. rewrite <- (N.mul_1_l (quarter e)) at 1. apply N.mul_le_mono_r. destruct (N.pos m =? 2 ^ 23); lia. }
      pose proof (quarter_ge e). assert (u = 2 ^ 151) by (unfold u, ten; cbn [N.of_nat]; rewrite N.pow_0_r; lia). pose proof (ends m e) as [L _]. fold w in L.
      remember (2 ^ 151). nia.
    + rewrite N.mul_comm. apply N.mul_div_le. pose proof (ten_pos 0). unfold u. lia.
  - injection E as <- <-. apply andb_prop in Eu as [Eu _]. auto.
  - destruct (inside m e (q * u)) eqn:Ed; [injection E as <- <-; auto|]. apply IH in E as [E1 E2]. auto.
Qed.

(** ** Different numbers are apart *)
Lemma quarter_lt e e' : (-149 <= e < e')%Z -> exists k, 0 < k /\ quarter e' = 2 * k * quarter e.
Proof.
  intros H. exists (2 ^ Z.to_N (e' - e - 1)). split; [apply N.neq_0_lt_0, N.pow_nonzero; discriminate|]. unfold quarter. rewrite N.mul_assoc. f_equal.
  replace (Z.to_N (e' + 149)) with (1 + Z.to_N (e' - e - 1) + Z.to_N (e + 149)) by lia. rewrite !N.pow_add_r. lia.
Qed.
Lemma apart m e m' e' : normal m e -> normal m' e' -> (m', e') <> (m, e) ->
  scaled m' e' + scaled m e <= 2 * low_end m e \/ 2 * high_end m e <= scaled m' e' + scaled m e.
Proof.
  unfold normal. change (2 ^ 23) with 8388608. change (2 ^ 24) with 16777216. intros [M E] [M' E'] Ne. unfold scaled, low_end, high_end. change (2 ^ 23) with 8388608.
  assert (P : forall x, 0 < quarter x) by (intros x; pose proof (quarter_ge x); assert (0 < 2 ^ 151) by reflexivity; lia).
  destruct (Z.lt_trichotomy e e') as [L|[<-|L]].
  - right. destruct (quarter_lt e e') as (k & Pk & Ek); [lia|]. rewrite Ek. rewrite !N.mul_assoc, <- N.mul_add_distr_r. apply N.mul_le_mono_r. nia.
  - specialize (P e). destruct (N.lt_trichotomy (N.pos m) (N.pos m')) as [L|[L|L]].
    + right. rewrite !N.mul_assoc, <- N.mul_add_distr_r. apply N.mul_le_mono_r. lia.
    + injection L as L. subst m'. congruence.
    + left. destruct (N.eqb_spec (N.pos m) 8388608); [lia|]. rewrite !N.mul_assoc, <- N.mul_add_distr_r. apply N.mul_le_mono_r. lia.
  - left. destruct (quarter_lt e' e) as (k & Pk & Ek); [lia|]. rewrite Ek. rewrite !N.mul_assoc, <- N.mul_add_distr_r. apply N.mul_le_mono_r.
    destruct (N.eqb_spec (N.pos m) 8388608); nia.
Qed.
(** Where the two ranges meet one of the mantissas is odd. *)
Lemma touch m e m' e' : normal m e -> normal m' e' -> 2 * high_end m e = scaled m' e' + scaled m e -> N.even (N.pos m) = true -> N.even (N.pos m') = true -> False.
Proof.
  unfold normal. change (2 ^ 23) with 8388608. change (2 ^ 24) with 16777216. intros [M E] [M' E'] Eq Ev Ev'. unfold scaled, high_end in Eq.
  assert (P : forall x, 0 < quarter x) by (intros x; pose proof (quarter_ge x); assert (0 < 2 ^ 151) by reflexivity; lia).
  apply N.even_spec in Ev as [a Ea], Ev' as [b Eb]. rewrite Ea, Eb in *.
  destruct (Z.lt_trichotomy e e') as [L|[<-|L]].
  - destruct (quarter_lt e e') as (k & Pk & Ek); [lia|]. rewrite Ek in Eq. specialize (P e). assert (X : (8 * a + 4) * quarter e = (16 * b * k) * quarter e) by lia.
    apply N.mul_cancel_r in X; [nia|lia].
  - specialize (P e). assert (X : (8 * a + 4) * quarter e = (8 * b) * quarter e) by lia. apply N.mul_cancel_r in X; lia.
  - destruct (quarter_lt e' e) as (k & Pk & Ek); [lia|]. rewrite Ek in Eq. specialize (P e'). assert (X : (8 * a + 4) * 2 * k * quarter e' = (8 * b) * quarter e') by lia.
    apply N.mul_cancel_r in X; [nia|lia].
Qed.
Lemma inside_unique m e m' e' a : normal m e -> normal m' e' -> inside m e a = true -> inside m' e' a = true -> (m', e') = (m, e).
Proof.
  intros N1 N2 I1 I2. apply inside_within in I1 as [I1 J1], I2 as [I2 J2].
  assert (D : (m', e') = (m, e) \/ (m', e') <> (m, e)).
  { destruct (Pos.eq_dec m' m) as [->|]; [|right; congruence]. destruct (Z.eq_dec e' e) as [->|]; [left; reflexivity|right; congruence]. }
  destruct D as [D|D]; [exact D|exfalso].
  pose proof (apart m e m' e' N1 N2 D) as A. pose proof (apart m' e' m e N2 N1 ltac:(congruence)) as B. pose proof (ends m e). pose proof (ends m' e').
  destruct (N.even (N.pos m)) eqn:Ev; [|specialize (J1 eq_refl); lia]. destruct (N.even (N.pos m')) eqn:Ev'; [|specialize (J2 eq_refl); lia].
  destruct (N.lt_ge_cases (scaled m e) (scaled m' e')) as [L|L].
  - apply (touch m e m' e'); auto. lia.
  - apply (touch m' e' m e); auto. lia.
Qed.
Lemma nearest_inside m e m' e' a : normal m e -> normal m' e' -> (m', e') <> (m, e) -> inside m e a = true ->
  (Z.abs (Z.of_N a - Z.of_N (scaled m e)) <= Z.abs (Z.of_N a - Z.of_N (scaled m' e')))%Z /\
  ((Z.abs (Z.of_N a - Z.of_N (scaled m e)) = Z.abs (Z.of_N a - Z.of_N (scaled m' e')))%Z -> N.even (N.pos m) = true).
Proof.
  intros N1 N2 Ne I. apply inside_within in I as [I J]. pose proof (apart m e m' e' N1 N2 Ne) as A. pose proof (ends m e) as E.
  split; [lia|]. intros Eq. destruct (N.even (N.pos m)); [reflexivity|]. specialize (J eq_refl). lia.
Qed.

(** ** From the text back to the number *)
Lemma split_at (c : N) a b a' b' : Forall (fun x => x <> c) a -> Forall (fun x => x <> c) a' -> a ++ c :: b = a' ++ c :: b' -> a = a' /\ b = b'.
Proof.
  revert a'. induction a as [|x a IH]; intros a' F F' E; destruct a' as [|x' a']; cbn [app] in E.
  - injection E as ->. auto.
  - injection E as <- _. inversion F'; congruence.
  - injection E as -> _. inversion F; congruence.
  - injection E as <- E. inversion F; inversion F'; subst. destruct (IH a') as [-> ->]; auto.
Qed.
Lemma digit_not c l : c < 48 \/ 57 < c -> Forall (fun x => 48 <= x <= 57) l -> Forall (fun x => x <> c) l.
Proof. intros C F. eapply Forall_impl; [|exact F]. cbn beta. intros x H. lia. Qed.
Lemma writes_inj k n k' n' l : writes k l n -> writes k' l n' -> k = k' /\ n = n'.
Proof.
  intros (a & b & -> & Lb & _ & F & U & _) (a' & b' & E & Lb' & _ & F' & U' & _). apply Forall_app in F as [Fa Fb], F' as [Fa' Fb'].
  apply split_at in E as [<- <-]; [split; congruence| |]; apply digit_not; auto; left; reflexivity.
Qed.
Lemma dec_digits n : digits (dec n).
Proof. split; [|apply dec_chars]. intros E. pose proof (undec_dec n) as U. rewrite E in U. cbn in U. subst n. discriminate E. Qed.
Lemma plain_back n j n' j' : (j <= 85)%nat -> (j' <= 85)%nat -> plain_text n j = plain_text n' j' -> n * ten j = n' * ten j'.
Proof.
  intros J J' E. unfold plain_text in E. set (k := Nat.max 1 (46 - j)) in *. set (k' := Nat.max 1 (46 - j')) in *.
  pose proof (fixed_writes k (n * 10 ^ N.of_nat (j + k - 46)) ltac:(lia)) as W. pose proof (fixed_writes k' (n' * 10 ^ N.of_nat (j' + k' - 46)) ltac:(lia)) as W'.
  rewrite <- E in W'. destruct (writes_inj _ _ _ _ _ W W') as [Ek En]. unfold ten.
  assert (X : n * 10 ^ N.of_nat j = n' * 10 ^ N.of_nat j').
  { replace (N.of_nat j) with (N.of_nat (j + k - 46) + N.of_nat (46 - k)) by lia. replace (N.of_nat j') with (N.of_nat (j' + k' - 46) + N.of_nat (46 - k)) by lia.
    rewrite !N.pow_add_r, !N.mul_assoc, En. reflexivity. }
  rewrite !N.mul_assoc, (N.mul_comm n), (N.mul_comm n'), <- !N.mul_assoc, X. reflexivity.
Qed.
Lemma exponent_back x x' : exponent_text x = exponent_text x' -> x = x'.
Proof.
  unfold exponent_text. intros E.
  assert (G : forall n l, txt "-" ++ l <> dec n).
  { intros n l C. pose proof (dec_chars n) as F. rewrite <- C in F. inversion F as [|? ? H]. cbn in H. lia. }
  destruct (Z.ltb_spec x 0) as [L|L], (Z.ltb_spec x' 0) as [L'|L']; cbn [app] in E.
  - apply app_inv_head in E. apply (f_equal undec) in E. rewrite !undec_dec in E. lia.
  - exfalso. eapply G. exact E.
  - exfalso. eapply G. symmetry. exact E.
  - apply (f_equal undec) in E. rewrite !undec_dec in E. lia.
Qed.
Definition mantissa (d : N) (ds : list N) : list N := d :: match ds with [] => [] | _ => 46 :: ds end.
Lemma mantissa_inj d ds d' ds' : mantissa d ds = mantissa d' ds' -> d = d' /\ ds = ds'.
Proof. unfold mantissa. destruct ds, ds'; intros E; try discriminate; injection E; intros; subst; auto. Qed.
Lemma mantissa_not d ds : digits (d :: ds) -> Forall (fun x => x <> 101) (mantissa d ds).
Proof.
  intros [_ F]. apply (digit_not 101) in F; [|right; reflexivity]. inversion F; subst. unfold mantissa. destruct ds; constructor; auto. constructor; [discriminate|auto].
Qed.
Lemma exp_text_eq n j : exists d ds, dec n = d :: ds /\ exp_text n j = mantissa d ds ++ 101 :: exponent_text (Z.of_nat (j + length ds) - 46).
Proof.
  unfold exp_text. destruct (dec_digits n) as [Ne _]. destruct (dec n) as [|d ds]; [congruence|]. exists d, ds. split; [reflexivity|].
  unfold mantissa. destruct ds; reflexivity.
Qed.
Lemma exp_back n j n' j' : exp_text n j = exp_text n' j' -> n = n' /\ j = j'.
Proof.
  destruct (exp_text_eq n j) as (d & ds & E & ->), (exp_text_eq n' j') as (d' & ds' & E' & ->). intros X.
  apply split_at in X as [M X]; try (apply mantissa_not; rewrite <- ?E, <- ?E'; apply dec_digits). apply mantissa_inj in M as [<- <-].
  apply exponent_back in X. split; [|lia]. rewrite <- (undec_dec n), <- (undec_dec n'), E, E'. reflexivity.
Qed.
Lemma plain_not_exp n j n' j' : plain_text n j <> exp_text n' j'.
Proof.
  intros E. destruct (exp_text_eq n' j') as (d & ds & _ & X). rewrite X in E. unfold plain_text in E. set (k := Nat.max 1 (46 - j)) in *.
  destruct (fixed_writes k (n * 10 ^ N.of_nat (j + k - 46)) ltac:(lia)) as (a & b & Ea & _ & _ & F & _). rewrite Ea in E.
  assert (G : Forall (fun x => x <> 101) (a ++ 46 :: b)).
  { apply Forall_app in F as [Fa Fb]. apply Forall_app. split; [apply digit_not; auto; right; reflexivity|]. constructor; [discriminate|apply digit_not; auto; right; reflexivity]. }
  rewrite E in G. apply Forall_app in G as [_ G]. inversion G. congruence.
Qed.
Lemma plain_head n j : exists c r, plain_text n j = c :: r /\ 48 <= c <= 57.
Proof.
  unfold plain_text. set (k := Nat.max 1 (46 - j)). destruct (fixed_writes k (n * 10 ^ N.of_nat (j + k - 46)) ltac:(lia)) as (a & b & -> & _ & Ne & F & _).
  destruct a as [|c a]; [congruence|]. inversion F; subst. exists c, (a ++ 46 :: b). auto.
Qed.
Lemma exp_head n j : exists c r, exp_text n j = c :: r /\ 48 <= c <= 57.
Proof. destruct (exp_text_eq n j) as (d & ds & E & ->). destruct (dec_digits n) as [_ F]. rewrite E in F. inversion F; subst. eexists _, _. split; [reflexivity|assumption]. Qed.

(** ** Every text identifies its number *)
Definition number_text (m : positive) (e : Z) : list N :=
  let '(n, j) := shortest m e 85 in
  if (scaled 13743895 (-37) <=? scaled m e) && (scaled m e <? scaled 9313226 30) then plain_text n j else exp_text n j.
Lemma number_head m e : exists c r, number_text m e = c :: r /\ 48 <= c <= 57.
Proof. unfold number_text. destruct (shortest m e 85) as [n j]. destruct (_ && _); [apply plain_head|apply exp_head]. Qed.
Lemma number_inj m e m' e' : normal m e -> normal m' e' -> number_text m e = number_text m' e' -> (m', e') = (m, e).
Proof.
  intros N1 N2. unfold number_text. destruct (shortest m e 85) as [n j] eqn:S1, (shortest m' e' 85) as [n' j'] eqn:S2.
  apply shortest_inside in S1 as [I1 J1], S2 as [I2 J2].
  destruct (_ && _), (_ && _); intros E.
  - apply plain_back in E; auto. rewrite <- E in I2. eapply inside_unique; eauto.
  - exfalso. eapply plain_not_exp; eauto.
  - exfalso. eapply plain_not_exp; symmetry; eauto.
  - apply exp_back in E as [-> ->]. eapply inside_unique; eauto.
Qed.
Lemma zero_not m e : number_text m e <> txt "0.0".
Proof.
  unfold number_text. destruct (shortest m e 85) as [n j] eqn:S1. apply shortest_inside in S1 as [I J]. apply inside_within in I as [I _].
  assert (P : 0 < n).
  { destruct n as [|n]; [|reflexivity]. exfalso. rewrite N.mul_0_l in I. unfold low_end in I. pose proof (quarter_ge e). assert (0 < 2 ^ 151) by reflexivity.
    assert (0 < 4 * N.pos m - (if N.pos m =? 2 ^ 23 then 1 else 2)) by (destruct (_ =? _); lia). nia. }
  destruct (_ && _); intros E.
  - change (txt "0.0") with (plain_text 0 46) in E. apply plain_back in E; [|lia..]. pose proof (ten_pos j). nia.
  - change (txt "0.0") with (plain_text 0 46) in E. symmetry in E. exact (plain_not_exp _ _ _ _ E).
Qed.
Lemma f32_debug_inj x y : proper x -> proper y -> f32_debug x = f32_debug y -> x = y.
Proof.
  assert (G : forall m e, f32_debug (S754_finite false m e) = number_text m e).
  { intros m e. unfold f32_debug, number_text. destruct (shortest m e 85). reflexivity. }
  assert (H : forall m e c r, c < 48 \/ 57 < c -> number_text m e <> c :: r).
  { intros m e c r C E. destruct (number_head m e) as (c' & r' & E' & C'). rewrite E' in E. injection E as -> _. lia. }
  destruct x as [s|s| |s m e], y as [s'|s'| |s' m' e']; cbn [proper]; intros P P'; try (subst s); try (subst s');
    try match type of P with _ /\ _ => destruct P as [-> P] end; try match type of P' with _ /\ _ => destruct P' as [-> P'] end;
    rewrite ?G; intros E; try reflexivity; try discriminate E.
  - symmetry in E. exfalso. exact (zero_not _ _ E).
  - symmetry in E. exfalso. exact (H m' e' 105 (txt "nf") ltac:(lia) E).
  - symmetry in E. exfalso. exact (H m' e' 78 (txt "aN") ltac:(lia) E).
  - exfalso. exact (zero_not _ _ E).
  - exfalso. exact (H m e 105 (txt "nf") ltac:(lia) E).
  - exfalso. exact (H m e 78 (txt "aN") ltac:(lia) E).
  - apply number_inj in E; auto. congruence.
Qed.

(** ** In rational numbers *)
Open Scope Q_scope.
Definition whole : N := (2 ^ 151 * 10 ^ 46)%N.
Lemma whole_pos : 0 < q_of whole.
Proof. apply q_of_pos. reflexivity. Qed.
Lemma q_of_pow_pos k : 0 < q_of (10 ^ k).
Proof. apply q_of_pos. apply N.neq_0_lt_0, N.pow_nonzero. discriminate. Qed.
Lemma scaled_q m e : (-149 <= e)%Z -> q_of (scaled m e) == inject_Z (Z.pos m) * 2 ^ e * q_of whole.
Proof.
  intros H. unfold scaled, quarter, whole. rewrite !q_of_mul, !q_of_two. rewrite Z2N.id by lia. rewrite two_plus.
  change (2 ^ Z.of_N 151) with (2 ^ 151). setoid_replace (2 ^ 151) with (4 * 2 ^ 149) by reflexivity. change (q_of 4) with 4. change (q_of (N.pos m)) with (inject_Z (Z.pos m)). ring.
Qed.
Lemma dist_q a w v x : v == q_of a / q_of whole -> q_of w == x * q_of whole -> Qabs (v - x) * q_of whole == inject_Z (Z.abs (Z.of_N a - Z.of_N w)).
Proof.
  intros Ev Ex. pose proof whole_pos as P. rewrite <- (Qabs_pos (q_of whole)) at 1 by lra. rewrite <- Qabs_Qmult.
  setoid_replace ((v - x) * q_of whole) with (inject_Z (Z.of_N a - Z.of_N w)).
  - unfold inject_Z, Qabs. cbn [Qnum Qden]. reflexivity.
  - rewrite Ev. unfold Qminus. rewrite Qmult_plus_distr_l. setoid_replace (- x * q_of whole) with (- (x * q_of whole)) by ring. rewrite <- Ex.
    unfold Z.sub. rewrite inject_Z_plus, inject_Z_opp. unfold q_of. field. fold (q_of whole). lra.
Qed.
Lemma inside_rounds m e a : normal m e -> inside m e a = true -> rounds_to (q_of a / q_of whole) m e.
Proof.
  intros N1 I m' e' N2 Ne. cbn zeta. set (v := q_of a / q_of whole). set (x := inject_Z (Z.pos m) * 2 ^ e). set (y := inject_Z (Z.pos m') * 2 ^ e').
  destruct (nearest_inside m e m' e' a N1 N2 Ne I) as [L T]. pose proof N1 as [_ E1]. pose proof N2 as [_ E2]. pose proof whole_pos as P.
  pose proof (dist_q a (scaled m e) v x ltac:(reflexivity) (scaled_q m e ltac:(lia))) as D1. pose proof (dist_q a (scaled m' e') v y ltac:(reflexivity) (scaled_q m' e' ltac:(lia))) as D2.
  split.
  - apply (Qmult_le_r _ _ (q_of whole)); [exact P|]. rewrite D1, D2. rewrite <- Zle_Qle. exact L.
  - intros E. apply T. apply inject_Z_injective. rewrite <- D1, <- D2, E. reflexivity.
Qed.
Lemma plain_denotes n j : (j <= 85)%nat -> denotes (plain_text n j) (q_of (n * ten j) / q_of whole).
Proof.
  intros J. left. unfold plain_text. set (k := Nat.max 1 (46 - j)). exists k, (n * 10 ^ N.of_nat (j + k - 46))%N. split; [apply fixed_writes; lia|].
  unfold ten, whole. rewrite !q_of_mul. replace (N.of_nat j) with (N.of_nat (j + k - 46) + N.of_nat (46 - k))%N by lia.
  replace 46%N with (N.of_nat k + N.of_nat (46 - k))%N at 1 by lia. rewrite !N.pow_add_r, !q_of_mul.
  pose proof (q_of_pow_pos (N.of_nat k)). pose proof (q_of_pow_pos (N.of_nat (46 - k))). assert (0 < q_of (2 ^ 151)) by (apply q_of_pos; reflexivity).
  field. repeat split; lra.
Qed.
Lemma exp_denotes n j : denotes (exp_text n j) (q_of (n * ten j) / q_of whole).
Proof.
  destruct (exp_text_eq n j) as (d & ds & E & ->). right. pose proof (dec_digits n) as D. rewrite E in D. set (x := (Z.of_nat (j + length ds) - 46)%Z).
  exists d, ds, (dec (Z.abs_N x)), (x <? 0)%Z. split; [reflexivity|]. split; [exact D|]. split; [apply dec_digits|]. rewrite <- E, !undec_dec.
  unfold ten, whole. rewrite !q_of_mul.
  pose proof (q_of_pow_pos (N.of_nat (length ds))) as P1. pose proof (q_of_pow_pos (Z.abs_N x)) as P2. pose proof (q_of_pow_pos 46) as P3. assert (P4 : 0 < q_of (2 ^ 151)) by (apply q_of_pos; reflexivity).
  assert (G : q_of (10 ^ N.of_nat j) * q_of (10 ^ N.of_nat (length ds)) == q_of (10 ^ 46) * (if (x <? 0)%Z then / q_of (10 ^ Z.abs_N x) else q_of (10 ^ Z.abs_N x))).
  { destruct (Z.ltb_spec x 0) as [L|L].
    - setoid_replace (q_of (10 ^ 46)) with (q_of (10 ^ N.of_nat j) * q_of (10 ^ N.of_nat (length ds)) * q_of (10 ^ Z.abs_N x)).
      + field. lra.
      + rewrite <- !q_of_mul, <- !N.pow_add_r. unfold q_of. replace (N.of_nat j + N.of_nat (length ds) + Z.abs_N x)%N with 46%N by lia. reflexivity.
    - rewrite <- !q_of_mul, <- !N.pow_add_r. replace (46 + Z.abs_N x)%N with (N.of_nat j + N.of_nat (length ds))%N by lia. reflexivity. }
  set (f := if (x <? 0)%Z then _ else _) in *. assert (Ej : q_of (10 ^ N.of_nat j) == q_of (10 ^ 46) * f / q_of (10 ^ N.of_nat (length ds))) by (rewrite <- G; field; lra).
  rewrite Ej. field. lra.
Qed.
Lemma number_reads m e : normal m e -> exists v, denotes (number_text m e) v /\ rounds_to v m e.
Proof.
  intros N1. unfold number_text. destruct (shortest m e 85) as [n j] eqn:S. apply shortest_inside in S as [I J].
  exists (q_of (n * ten j) / q_of whole). split; [|apply inside_rounds; assumption]. destruct (_ && _); [apply plain_denotes, J|apply exp_denotes].
Qed.
