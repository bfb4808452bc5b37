(** Property C52: the averages and percentages in the reports are accurate, and how they are printed. *)
From Coq Require Import String SpecFloat QArith Qabs Qpower Lqa.
From Verif Require Import Base Nibbles NibblesSpec Trie TrieSpec TrieHistSpec TrieHist P_Trie CacheFacts2 Query Diff P_Diff Text TextSpec TextFacts Stats StatsSpec StatsFacts P_Stats StatsText P_StatsText FloatText FloatSpec FloatFacts FloatFacts2.
Open Scope list_scope.
Open Scope Q_scope.

(** Any [f32] is printed as the decimal number nearest to its value. *)
Theorem C52_text : forall k s m e, (0 < k)%nat -> exists l n q,
  f32_text k (S754_finite s m e) = (if s then txt "-" else []) ++ l /\ writes k l n /\
  f32_value (S754_finite s m e) = Some q /\ nearest (Qabs q * q_of (10 ^ N.of_nat k)) n.
Proof.
  intros k s m e Pk. unfold f32_text. set (n := div_even _ _). exists (fixed_text k n), n. eexists. split; [reflexivity|].
  split; [apply fixed_writes, Pk|]. split; [reflexivity|].
  apply nearest_wd with (q_of (N.pos m * 10 ^ N.of_nat k * 2 ^ Z.to_N e) / q_of (2 ^ Z.to_N (- e))).
  - rewrite scaled_value. apply Qmult_comp; [|reflexivity]. pose proof (two_pos e) as P.
    assert (PM : 0 < inject_Z (Z.pos m)) by reflexivity. rewrite !Qabs_Qmult, (Qabs_pos (inject_Z (Z.pos m))), (Qabs_pos (2 ^ e)) by lra. assert (QS : Qabs (if s then -1 else 1) == 1) by (destruct s; reflexivity). rewrite QS. ring.
  - apply div_even_nearest. apply N.neq_0_lt_0, N.pow_nonzero. lia.
Qed.

(** Texts are one line, so C48_stats_unambiguous and C48_comparison_unambiguous apply to them. *)
Theorem C52_one_line : forall k x, free 10 (f32_text k x).
Proof.
  assert (D : forall l, Forall (fun c => 48 <= c <= 57)%N l -> free 10 l) by (intros l F; eapply Forall_impl; [|exact F]; intros c Hc; cbv beta in Hc; lia).
  assert (T : forall k n, free 10 (fixed_text k n)).
  { intros k n. unfold fixed_text. apply free_app; [apply D, dec_chars|]. apply free_app; [|apply D, low_chars]. destruct k; repeat constructor; discriminate. }
  intros k [s|s| |s m e]; unfold f32_text; try (apply free_app; [destruct s; repeat constructor; discriminate|]); try apply T; repeat constructor; discriminate.
Qed.

Lemma div_zero_zero : f32_div (as_f32 0) (as_f32 0) = S754_nan.
Proof. reflexivity. Qed.
Lemma zero_div n : (0 < n < 2 ^ 64)%N -> f32_div (as_f32 0) (as_f32 n) = S754_zero false.
Proof. intros H. destruct (as_f32_near n H) as (m & e & -> & _). reflexivity. Qed.
Lemma div_zero n : (0 < n < 2 ^ 64)%N -> f32_div (as_f32 n) (as_f32 0) = S754_infinity false.
Proof. intros H. destruct (as_f32_near n H) as (m & e & -> & _). reflexivity. Qed.
Lemma quotient_near a b : (0 < a < 2 ^ 64)%N -> (0 < b < 2 ^ 64)%N -> near (-88) 42 4 (f32_div (as_f32 a) (as_f32 b)) (q_of a / q_of b).
Proof.
  intros A B. eapply near_weaken; [apply (div_near (-23) 41 (-23) 41 1 1 4 _ _ _ _ (as_f32_near a A) (as_f32_near b B)); try (apply q_of_pos; lia); try lia; try (unfold u; lra)|lia|lia].
Qed.
Lemma div_pos a b : 0 < a -> 0 < b -> 0 < a / b.
Proof. intros A B. apply Qlt_shift_div_l; [exact B|]. lra. Qed.
Lemma percent_near a b : (0 < a < 2 ^ 64)%N -> (0 < b < 2 ^ 64)%N ->
  near (-82) 50 6 (f32_mul (f32_div (as_f32 a) (as_f32 b)) (as_f32 100)) (q_of a / q_of b * 100).
Proof.
  intros A B. eapply near_weaken; [apply (mul100_near _ _ 4 6 _ _ (quotient_near a b A B)); try lia; try (unfold u; lra)|lia|lia].
  apply div_pos; apply q_of_pos; lia.
Qed.
Lemma shows_wd k l x y : x == y -> shows k l x -> shows k l y.
Proof. intros E (n & W & H). exists n. split; [exact W|]. rewrite <- E. exact H. Qed.
Lemma quotient_shows k a b : (0 < k)%nat -> (a < 2 ^ 64)%N -> (0 < b < 2 ^ 64)%N -> shows k (f32_text k (f32_div (as_f32 a) (as_f32 b))) (q_of a / q_of b).
Proof.
  intros Pk A B. destruct (N.eq_dec a 0) as [->|Na].
  - rewrite zero_div by exact B. eapply shows_wd; [|apply zero_shows, Pk]. unfold Qdiv. change (q_of 0) with 0. ring.
  - eapply near_shows; [exact Pk| |..|apply (quotient_near a b); [lia|exact B]]; [apply div_pos; apply q_of_pos; lia|lra].
Qed.
Lemma percent_shows k a b : (0 < k)%nat -> (a < 2 ^ 64)%N -> (0 < b < 2 ^ 64)%N ->
  shows k (f32_text k (f32_mul (f32_div (as_f32 a) (as_f32 b)) (as_f32 100))) (q_of a / q_of b * 100).
Proof.
  intros Pk A B. destruct (N.eq_dec a 0) as [->|Na].
  - rewrite zero_div by exact B. change (f32_mul (S754_zero false) (as_f32 100)) with (S754_zero false).
    eapply shows_wd; [|apply zero_shows, Pk]. unfold Qdiv. change (q_of 0) with 0. ring.
  - eapply near_shows; [exact Pk| |..|apply (percent_near a b); [lia|exact B]]; [|lra].
    pose proof (div_pos (q_of a) (q_of b) (q_of_pos a ltac:(lia)) (q_of_pos b ltac:(lia))). lra.
Qed.

Definition fits64 (t : node) : Prop :=
  (N.of_nat (length (subnodes 0 t)) < 2 ^ 64)%N /\ (depth_sum is_leaf_node t < 2 ^ 64)%N /\ (depth_sum is_hash_node t < 2 ^ 64)%N.

(** The statistics of a trie: the printed average depths are those of its leaves and of its hash nodes, NaN if it has none. *)
Theorem C52_averages : forall pr t nm s, fits64 t -> get_trie_stats_common pr t nm = Ok s ->
  (how_many is_leaf_node t = 0%N -> f32_text 3 (avg_leaf_depth s) = txt "NaN") /\
  (how_many is_leaf_node t <> 0%N -> shows 3 (f32_text 3 (avg_leaf_depth s)) (q_of (depth_sum is_leaf_node t) / q_of (how_many is_leaf_node t))) /\
  (how_many is_hash_node t = 0%N -> f32_text 3 (avg_hash_depth s) = txt "NaN") /\
  (how_many is_hash_node t <> 0%N -> shows 3 (f32_text 3 (avg_hash_depth s)) (q_of (depth_sum is_hash_node t) / q_of (how_many is_hash_node t))).
Proof.
  intros pr t nm s (S1 & S2 & S3) E. destruct (C35_exact pr t nm S1 S2 S3) as (low & _ & E'). rewrite E in E'. injection E' as ->. cbn [avg_leaf_depth avg_hash_depth].
  assert (Z : forall p, how_many p t = 0%N -> depth_sum p t = 0%N).
  { intros p H. unfold how_many, depth_sum in *. destruct (filter p (subnodes 0 t)); [reflexivity|cbn in H; lia]. }
  pose proof (how_many_le is_leaf_node t) as L1. pose proof (how_many_le is_hash_node t) as L2.
  repeat split.
  - intros H. rewrite H, (Z _ H). reflexivity.
  - intros H. apply quotient_shows; unfold size in *; lia.
  - intros H. rewrite H, (Z _ H). reflexivity.
  - intros H. apply quotient_shows; unfold size in *; lia.
Qed.

(** The printed share of the nodes that satisfy [p], in percent; never above 100.00. *)
Theorem C52_shares : forall p t, fits64 t ->
  let l := f32_text 2 (f32_mul (f32_div (as_f32 (how_many p t)) (as_f32 (N.of_nat (length (subnodes 0 t))))) (as_f32 100)) in
  shows 2 l (q_of (how_many p t) / q_of (N.of_nat (length (subnodes 0 t))) * 100) /\
  exists n, writes 2 l n /\ (n <= 10000)%N.
Proof.
  intros p t (S1 & _ & _). cbv zeta. pose proof (how_many_le p t) as L.
  assert (P : (0 < N.of_nat (length (subnodes 0 t)))%N) by (destruct t; cbn; lia).
  assert (S : shows 2 (f32_text 2 (f32_mul (f32_div (as_f32 (how_many p t)) (as_f32 (N.of_nat (length (subnodes 0 t))))) (as_f32 100)))
    (q_of (how_many p t) / q_of (N.of_nat (length (subnodes 0 t))) * 100)) by (apply percent_shows; unfold size in *; lia).
  split; [exact S|]. destruct S as (n & W & H). exists n. split; [exact W|].
  assert (Q1 : q_of (how_many p t) / q_of (N.of_nat (length (subnodes 0 t))) <= 1).
  { apply Qle_shift_div_r; [apply q_of_pos, P|]. rewrite Qmult_1_l. apply q_of_le. exact L. }
  apply Qabs_Qle_condition in H. change (q_of (10 ^ N.of_nat 2)) with (100 # 1) in H.
  assert (E1 : (1 # 2) / (100 # 1) == 1 # 200) by reflexivity. rewrite E1 in H.
  assert (E2 : q_of n / (100 # 1) * 100 == q_of n) by field. assert (H2 : q_of n <= 10000 + (6 # 10)) by lra.
  destruct (N.le_gt_cases n 10000) as [A|A]; [exact A|]. assert (H3 : q_of 10001 <= q_of n) by (apply q_of_le; lia). change (q_of 10001) with (10001 # 1) in H3. lra.
Qed.

(** The whole report of a trie with fewer than 2^64 nodes, with the numbers as they are printed. *)
Theorem C52_report : forall pr L t nm, wf L t -> fits64 t ->
  exists low s, deepest (fun x => is_hash_node x || is_leaf_node x) t low /\ get_trie_stats_common pr t nm = Ok s /\
    stats_text f32_text pr s = Ok (shown_stats f32_text nm t low).
Proof. intros pr L t nm W (S1 & S2 & S3). exact (C48_stats_text f32_text pr L t nm W S1 S2 S3). Qed.

(** Comparisons of counts: the first as a percentage of the second; inf or NaN if the second is 0. *)
Theorem C52_ratios : forall a b, (a < 2 ^ 64)%N -> (b < 2 ^ 64)%N ->
  let l := f32_text 3 (a_over_b_perc (a, b)) in
  (b <> 0%N -> shows 3 l (q_of a / q_of b * 100)) /\
  (b = 0%N -> a <> 0%N -> l = txt "inf") /\ (b = 0%N -> a = 0%N -> l = txt "NaN").
Proof.
  intros a b A B. cbv zeta. unfold a_over_b_perc. cbn [fst snd]. repeat split.
  - intros Nb. apply percent_shows; lia.
  - intros -> Na. rewrite div_zero by lia. reflexivity.
  - intros -> ->. reflexivity.
Qed.

(** Comparisons of averages: the average leaf (hash) depth of the first trie as a percentage of that of the second. *)
Lemma quotient_near_56 a b : (0 < a < 2 ^ 56)%N -> (0 < b < 2 ^ 56)%N -> near (-80) 34 4 (f32_div (as_f32 a) (as_f32 b)) (q_of a / q_of b).
Proof.
  intros A B. eapply near_weaken; [apply (div_near _ _ _ _ 1 1 4 _ _ _ _ (as_f32_near_k 56 a A ltac:(lia)) (as_f32_near_k 56 b B ltac:(lia))); try (apply q_of_pos; lia); try lia; try (unfold u; lra)|lia|lia].
Qed.
Lemma average_ratio : forall sa ca sb cb, (sa < 2 ^ 56)%N -> (0 < ca < 2 ^ 56)%N -> (0 < sb < 2 ^ 56)%N -> (0 < cb < 2 ^ 56)%N ->
  shows 3 (f32_text 3 (f32_mul (f32_div (f32_div (as_f32 sa) (as_f32 ca)) (f32_div (as_f32 sb) (as_f32 cb))) (as_f32 100)))
    (q_of sa / q_of ca / (q_of sb / q_of cb) * 100).
Proof.
  intros sa ca sb cb A CA B CB. pose proof (quotient_near_56 sb cb B CB) as NB.
  assert (PB : 0 < q_of sb / q_of cb) by (apply div_pos; apply q_of_pos; lia).
  destruct (N.eq_dec sa 0) as [->|Na].
  - rewrite zero_div by lia. destruct NB as (m & e & -> & _). change (f32_mul (f32_div (S754_zero false) (S754_finite false m e)) (as_f32 100)) with (S754_zero false).
    eapply shows_wd; [|apply zero_shows; lia]. unfold Qdiv. change (q_of 0) with 0. ring.
  - pose proof (quotient_near_56 sa ca ltac:(lia) CA) as NA. assert (PA : 0 < q_of sa / q_of ca) by (apply div_pos; apply q_of_pos; lia).
    pose proof (div_near _ _ _ _ 4 4 12 _ _ _ _ NA NB PA PB ltac:(lia) ltac:(lia) ltac:(lra) ltac:(unfold u; lra) ltac:(lra) ltac:(unfold u; lra) ltac:(unfold u; lra) ltac:(unfold u; lra) ltac:(unfold u; lra)) as ND.
    pose proof (div_pos _ _ PA PB) as PD.
    pose proof (mul100_near _ _ 12 14 _ _ ND PD ltac:(lia) ltac:(lia) ltac:(lra) ltac:(unfold u; lra) ltac:(unfold u; lra) ltac:(unfold u; lra)) as NM.
    eapply near_shows; [lia| |..|exact NM]; lra.
Qed.

Definition average_of (p : N * node -> bool) (t : node) : Q := q_of (depth_sum p t) / q_of (how_many p t).
Theorem C52_average_ratios : forall pr t t' nm nm' s s' c,
  (N.of_nat (length (subnodes 0 t)) < 2 ^ 48)%N -> (N.of_nat (length (subnodes 0 t')) < 2 ^ 48)%N ->
  (forall x, In x (subnodes 0 t) \/ In x (subnodes 0 t') -> (fst x < 2 ^ 8)%N) ->
  get_trie_stats_common pr t nm = Ok s -> get_trie_stats_common pr t' nm' = Ok s' -> compare_stats pr s s' = Ok c ->
  (how_many is_leaf_node t <> 0%N -> depth_sum is_leaf_node t' <> 0%N ->
    shows 3 (f32_text 3 (f32_mul (f32_div (fst (avg_leaf_depth_rat c)) (snd (avg_leaf_depth_rat c))) (as_f32 100)))
      (average_of is_leaf_node t / average_of is_leaf_node t' * 100)) /\
  (how_many is_hash_node t <> 0%N -> depth_sum is_hash_node t' <> 0%N ->
    shows 3 (f32_text 3 (f32_mul (f32_div (fst (avg_hash_depth_rat c)) (snd (avg_hash_depth_rat c))) (as_f32 100)))
      (average_of is_hash_node t / average_of is_hash_node t' * 100)).
Proof.
  intros pr t t' nm nm' s s' c S S' D E E' EC.
  assert (SUM : forall l, (forall x, In x l -> x < 2 ^ 8)%N -> (sum l <= N.of_nat (length l) * 2 ^ 8)%N).
  { intros l. induction l as [|x l IH]; intros H; [cbn; lia|]. cbn [sum fold_right length]. fold (sum l). pose proof (H x (or_introl eq_refl)).
    specialize (IH (fun y Hy => H y (or_intror Hy))). lia. }
  assert (DS : forall p t0, (t0 = t \/ t0 = t') -> (depth_sum p t0 < 2 ^ 56)%N /\ (how_many p t0 < 2 ^ 48)%N /\ (depth_sum p t0 <> 0 -> how_many p t0 <> 0)%N).
  { intros p t0 H0. pose proof (how_many_le p t0) as L. unfold size in L.
    assert (SZ : (N.of_nat (length (subnodes 0 t0)) < 2 ^ 48)%N) by (destruct H0 as [->| ->]; assumption).
    assert (B : (depth_sum p t0 <= how_many p t0 * 2 ^ 8)%N).
    { unfold depth_sum, how_many. rewrite <- (map_length fst). apply SUM. intros x Hx. apply in_map_iff in Hx. destruct Hx as (y & <- & Hy).
      apply filter_In in Hy. destruct Hy as [Hy _]. apply D. destruct H0 as [->| ->]; auto. }
    change (2 ^ 8)%N with 256%N in *. change (2 ^ 48)%N with 281474976710656%N in *. change (2 ^ 56)%N with 72057594037927936%N in *. lia. }
  assert (US : forall n, (n < 2 ^ 56 -> n < usize_range)%N) by (intros n; unfold usize_range; change (2 ^ 56)%N with 72057594037927936%N; lia).
  change (2 ^ 48)%N with 281474976710656%N in *. change (2 ^ 56)%N with 72057594037927936%N in *.
  destruct (C35_exact pr t nm ltac:(apply US; lia) ltac:(apply US, DS; auto) ltac:(apply US, DS; auto)) as (low & _ & F).
  destruct (C35_exact pr t' nm' ltac:(apply US; lia) ltac:(apply US, DS; auto) ltac:(apply US, DS; auto)) as (low' & _ & F').
  rewrite E in F. injection F as ->. rewrite E' in F'. injection F' as ->. 
  destruct (C35_compare pr _ _ c EC) as (_ & _ & _ & _ & _ & _ & _ & <- & <-). cbn [fst snd avg_leaf_depth avg_hash_depth]. unfold average_of.
  split; intros H1 H2; apply average_ratio;
  match goal with
  | |- (depth_sum ?p ?x < _)%N => apply (DS p x); auto
  | |- (0 < depth_sum ?p ?x < _)%N => destruct (DS p x) as (X1 & X2 & X3); auto; change (2 ^ 56)%N with 72057594037927936%N; lia
  | |- (0 < how_many ?p ?x < _)%N => destruct (DS p x) as (X1 & X2 & X3); auto; change (2 ^ 56)%N with 72057594037927936%N; lia
  end.
Qed.

(** A trie with two leaves at depth 2 and 14 empty children, and one without leaves. *)
Example C52_example : let t := okn (from_iter Debug [(K 4 0x1234, Val [1%N]); (K 4 0x1256, Val [2%N])]) in
  wf 64 t /\ fits64 t /\ (forall x, In x (subnodes 0 t) -> (fst x < 2 ^ 8)%N) /\ how_many is_leaf_node t = 2%N /\ how_many is_hash_node t = 0%N /\
  exists s, get_trie_stats Debug t = Ok s /\
    stats_text f32_text Debug s = Ok (txt "Trie Stats:" ++ [10%N] ++ txt "Counts:" ++ [10%N] ++ txt "Empty: 14 (77.78%)" ++ [10%N] ++ txt "Hash: 0 (0.00%)" ++ [10%N] ++
      txt "Branch: 1 (5.56%)" ++ [10%N] ++ txt "Extension: 1 (5.56%)" ++ [10%N] ++ txt "Leaf: 2 (11.11%)" ++ [10%N] ++ [10%N] ++
      txt "Depth stats:" ++ [10%N] ++ txt "Lowest depth: 2" ++ [10%N] ++ txt "Average leaf depth: 2.000" ++ [10%N] ++ txt "Average hash depth: NaN" ++ [10%N] ++ [10%N]).
Proof.
  cbv zeta. split.
  { assert (R : reach Debug (okn (from_iter Debug [(K 4 0x1234, Val [1%N]); (K 4 0x1256, Val [2%N])]))) by (reach_tac [(K 4 0x1234, Val [1%N]); (K 4 0x1256, Val [2%N])]).
    exact (proj1 (reach_valid Debug _ R)). }
  split; [vm_compute; auto|]. split.
  { set (l := subnodes 0 _). assert (F : forallb (fun x => fst x <? 2 ^ 8)%N l = true) by (vm_compute; reflexivity).
    intros x Hx. rewrite forallb_forall in F. specialize (F x Hx). lia. }
  split; [vm_compute; reflexivity|]. split; [vm_compute; reflexivity|]. eexists. split; [vm_compute; reflexivity|vm_compute; reflexivity].
Qed.
(** Ties go to the even digit: 1/8 and 3/8. *)
Example C52_ties : f32_text 2 (f32_div (as_f32 1) (as_f32 8)) = txt "0.12" /\ f32_text 2 (f32_div (as_f32 3) (as_f32 8)) = txt "0.38".
Proof. vm_compute. auto. Qed.

Print Assumptions C52_text.
Print Assumptions C52_one_line.
Print Assumptions C52_averages.
Print Assumptions C52_shares.
Print Assumptions C52_report.
Print Assumptions C52_ratios.
Print Assumptions C52_average_ratios.
