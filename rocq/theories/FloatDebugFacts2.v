(** No decimal number that is rounded to an [f32] has fewer digits than its text; none with as few is nearer. *)
From Coq Require Import String SpecFloat QArith Qabs Qpower Lqa.
From Verif Require Import Base Nibbles NibblesSpec Trie Query Diff Text TextSpec TextFacts Stats FloatSpec FloatText FloatFacts FloatFacts2.
From Verif Require Import Rlp Hashing Cache Subset DebugText DebugTextSpec FloatDebug FloatDebugSpec FloatDebugFacts.
Open Scope N_scope.
Open Scope list_scope.

(** ** The power of ten is the greatest one *)
Lemma inside_between m e a b c : inside m e a = true -> a <= b <= c -> inside m e c = true -> inside m e b = true.
Proof.
  unfold inside. destruct (N.even (N.pos m)); rewrite !andb_true_iff, ?N.leb_le, ?N.ltb_lt; lia.
Qed.
Lemma scaled_inside m e : inside m e (scaled m e) = true.
Proof. pose proof (ends m e) as E. apply below_inside; lia. Qed.
Lemma low_pos m e : 0 < low_end m e.
Proof.
  unfold low_end. pose proof (quarter_ge e) as G. assert (0 < 2 ^ 151) by reflexivity. apply N.mul_pos_pos; [|lia]. destruct (N.pos m =? 2 ^ 23); lia.
Qed.
Lemma zero_outside m e : inside m e 0 = false.
Proof. destruct (inside m e 0) eqn:I; [|reflexivity]. apply inside_within in I as [[I _] _]. pose proof (low_pos m e). lia. Qed.
Lemma none_inside m e u q : 0 < u -> inside m e (scaled m e / u * u) = false -> inside m e ((scaled m e / u + 1) * u) = false -> inside m e (q * u) = false.
Proof.
  intros P D U. destruct (inside m e (q * u)) eqn:I; [exfalso|reflexivity]. set (w := scaled m e) in *.
  pose proof (N.div_mod' w u) as Dm. pose proof (N.mod_lt w u ltac:(lia)) as M. set (n := w / u) in *. pose proof (scaled_inside m e) as W. fold w in W.
  destruct (N.le_gt_cases q n) as [L|L].
  - rewrite (inside_between m e (q * u) (n * u) w) in D; [discriminate|exact I| |exact W]. split; [apply N.mul_le_mono_r, L|lia].
  - rewrite (inside_between m e w ((n + 1) * u) (q * u)) in U; [discriminate|exact W| |exact I]. split; [lia|apply N.mul_le_mono_r; lia].
Qed.
Lemma shortest_greatest m e : forall j n i, shortest m e j = (n, i) -> forall k q, (i < k <= j)%nat -> inside m e (q * ten k) = false.
Proof.
  induction j as [|j IH]; intros n i E k q K; [lia|]. cbn [shortest] in E.
  destruct (inside m e ((scaled m e / ten (S j) + 1) * ten (S j))) eqn:Eu; cbn [andb] in E.
  - destruct (inside m e (scaled m e / ten (S j) * ten (S j))) eqn:Ed; cbn [negb orb] in E.
    + destruct (_ <=? _); injection E as <- <-; lia.
    + injection E as <- <-. lia.
  - destruct (inside m e (scaled m e / ten (S j) * ten (S j))) eqn:Ed; [injection E as <- <-; lia|].
    destruct (Nat.eq_dec k (S j)) as [->|Nk].
    + apply none_inside; [apply ten_pos|exact Ed|exact Eu].
    + eapply IH; [exact E|lia].
Qed.
Lemma ten_add i k : ten (i + k) = 10 ^ N.of_nat k * ten i.
Proof. unfold ten. rewrite Nat2N.inj_add, N.pow_add_r. lia. Qed.
Lemma high_bound m e : normal m e -> high_end m e < ten 86.
Proof.
  intros [M E]. unfold high_end, quarter, ten. assert (A : 2 ^ Z.to_N (e + 149) <= 2 ^ 253) by (apply N.pow_le_mono_r; lia).
  apply N.le_lt_trans with ((4 * 2 ^ 24 + 2) * (2 ^ 253 * 10 ^ 46)); [|reflexivity].
  apply N.mul_le_mono; [lia|]. apply N.mul_le_mono_r, A.
Qed.
Lemma greatest m e n i : normal m e -> shortest m e 85 = (n, i) -> forall k q, (i < k)%nat -> inside m e (q * ten k) = false.
Proof.
  intros N1 E k q K. destruct (Nat.le_gt_cases k 85) as [L|L]; [eapply shortest_greatest; [exact E|lia]|].
  destruct (inside m e (q * ten k)) eqn:I; [exfalso|reflexivity]. destruct (N.eq_dec q 0) as [->|Q]; [rewrite zero_outside in I; discriminate|].
  apply inside_within in I as [[_ I] _]. pose proof (high_bound m e N1) as H. replace k with (86 + (k - 86))%nat in I by lia. rewrite ten_add in I.
  pose proof (N.pow_nonzero 10 (N.of_nat (k - 86)) ltac:(discriminate)). set (t := ten 86) in *. clearbody t. assert (1 <= q * 10 ^ N.of_nat (k - 86)) by nia. nia.
Qed.
(** ** The nearest multiple is taken, the greater one of two *)
Lemma shortest_near m e : forall j n i, shortest m e j = (n, i) -> forall n', inside m e (n' * ten i) = true ->
  (Z.abs (Z.of_N (n * ten i) - Z.of_N (scaled m e)) <= Z.abs (Z.of_N (n' * ten i) - Z.of_N (scaled m e)))%Z /\
  ((Z.abs (Z.of_N (n * ten i) - Z.of_N (scaled m e)) = Z.abs (Z.of_N (n' * ten i) - Z.of_N (scaled m e)))%Z -> n' <= n).
Proof.
  assert (G : forall j n i, (if inside m e ((scaled m e / ten j + 1) * ten j) && (negb (inside m e (scaled m e / ten j * ten j)) || (ten j <=? 2 * (scaled m e - scaled m e / ten j * ten j)))
      then Some (scaled m e / ten j + 1, j) else if inside m e (scaled m e / ten j * ten j) then Some (scaled m e / ten j, j) else None) = Some (n, i) ->
    forall n', inside m e (n' * ten i) = true ->
    (Z.abs (Z.of_N (n * ten i) - Z.of_N (scaled m e)) <= Z.abs (Z.of_N (n' * ten i) - Z.of_N (scaled m e)))%Z /\
    ((Z.abs (Z.of_N (n * ten i) - Z.of_N (scaled m e)) = Z.abs (Z.of_N (n' * ten i) - Z.of_N (scaled m e)))%Z -> n' <= n)).
  { intros j n i E n' I. pose proof (ten_pos j) as P. pose proof (N.div_mod' (scaled m e) (ten j)) as Dm. pose proof (N.mod_lt (scaled m e) (ten j) ltac:(lia)) as M.
    set (w := scaled m e) in *. set (u := ten j) in *. set (q := w / u) in *. pose proof (scaled_inside m e) as W. fold w in W.
    destruct (inside m e ((q + 1) * u)) eqn:Eu; cbn [andb] in E.
    - destruct (inside m e (q * u)) eqn:Ed; cbn [negb orb] in E.
      + destruct (N.leb_spec u (2 * (w - q * u))) as [L|L]; injection E as <- <-; fold u in I |- *.
        * destruct (N.le_gt_cases n' q) as [K|K]; [assert (n' * u <= q * u) by (apply N.mul_le_mono_r, K); lia|].
          assert ((q + 1) * u <= n' * u) by (apply N.mul_le_mono_r; lia). split; [lia|]. intros X. apply (N.mul_le_mono_pos_r n' (q + 1) u P). lia.
        * destruct (N.le_gt_cases n' q) as [K|K]; [assert (n' * u <= q * u) by (apply N.mul_le_mono_r, K); split; [lia|auto]|].
          assert ((q + 1) * u <= n' * u) by (apply N.mul_le_mono_r; lia). lia.
      + injection E as <- <-. fold u in I |- *. destruct (N.le_gt_cases n' q) as [K|K].
        * exfalso. assert (n' * u <= q * u) by (apply N.mul_le_mono_r, K). rewrite (inside_between m e (n' * u) (q * u) w) in Ed; [discriminate|exact I|lia|exact W].
        * assert ((q + 1) * u <= n' * u) by (apply N.mul_le_mono_r; lia). split; [lia|]. intros X. apply (N.mul_le_mono_pos_r n' (q + 1) u P). lia.
    - destruct (inside m e (q * u)) eqn:Ed; [|discriminate]. injection E as <- <-. fold u in I |- *. destruct (N.le_gt_cases n' q) as [K|K].
      + assert (n' * u <= q * u) by (apply N.mul_le_mono_r, K). split; [lia|auto].
      + exfalso. assert ((q + 1) * u <= n' * u) by (apply N.mul_le_mono_r; lia). rewrite (inside_between m e w ((q + 1) * u) (n' * u)) in Eu; [discriminate|exact W|lia|exact I]. }
  induction j as [|j IH]; intros n i E n' I; pose proof (shortest_inside _ _ _ _ _ E) as [In _]; cbn [shortest] in E.
  - destruct (_ && _) eqn:C1 in E; [|destruct (inside m e (scaled m e / ten 0 * ten 0)) eqn:C2 in E].
    + apply (G 0%nat n i); [rewrite C1; congruence|exact I].
    + apply (G 0%nat n i); [rewrite C1, C2; congruence|exact I].
    + injection E as <- <-. congruence.
  - destruct (_ && _) eqn:C1 in E; [|destruct (inside m e (scaled m e / ten (S j) * ten (S j))) eqn:C2 in E].
    + apply (G (S j) n i); [rewrite C1; congruence|exact I].
    + apply (G (S j) n i); [rewrite C1, C2; congruence|exact I].
    + eapply IH; eassumption.
Qed.
