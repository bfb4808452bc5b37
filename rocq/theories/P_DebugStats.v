(** Property C63, continued: [Debug] output of statistics and of their comparisons. *)
From Coq Require Import String SpecFloat QArith Qabs Qpower Lqa.
From Verif Require Import Base Nibbles NibblesSpec NibblesFacts Trie TrieSpec P_Trie Query Diff P_Query Text TextSpec TextFacts.
From Verif Require Import TrieFacts Rlp Hashing Subset Cache CacheFacts Stats StatsSpec StatsFacts P_Stats FloatSpec FloatText FloatFacts FloatFacts2 P_Float.
From Verif Require Import DebugText DebugTextSpec DebugTextFacts DebugTextFacts2 DebugTextFacts3 FloatDebug FloatDebugSpec FloatDebugFacts FloatDebugFacts2 FloatDebugFacts3 FloatDebugFacts4.
Open Scope N_scope.
Open Scope list_scope.

(** The text of a number of 24 bits is a decimal number that is rounded to it and to no other; so the text identifies the number. *)
Theorem C63_float : forall m e, normal m e -> exists v, denotes (f32_debug (S754_finite false m e)) v /\ rounds_to v m e.
Proof.
  intros m e N1. assert (E : f32_debug (S754_finite false m e) = number_text m e) by (unfold f32_debug, number_text; destruct (shortest m e 85); reflexivity).
  rewrite E. apply number_reads, N1.
Qed.
Theorem C63_float_identifies : forall x y, proper x -> proper y -> f32_debug x = f32_debug y <-> x = y.
Proof. intros x y P P'. split; [apply f32_debug_inj; assumption|congruence]. Qed.
(** No decimal number that is rounded to it has fewer digits; none with as few is nearer to it, and of two as near the text shows the greater one. *)
Theorem C63_float_shortest : forall m e, normal m e -> inner m e ->
  exists n x, let v := (q_of n * 10 ^ x)%Q in let number := (inject_Z (Z.pos m) * 2 ^ e)%Q in
  denotes (f32_debug (S754_finite false m e)) v /\ rounds_to v m e /\
  forall n' x', let v' := (q_of n' * 10 ^ x')%Q in rounds_to v' m e ->
    (length (dec n) <= length (dec n'))%nat /\
    (length (dec n') = length (dec n) -> (Qabs (v - number) <= Qabs (v' - number) /\ (Qabs (v - number) == Qabs (v' - number) -> v' <= v))%Q).
Proof.
  intros m e N1 In. assert (E : f32_debug (S754_finite false m e) = number_text m e) by (unfold f32_debug, number_text; destruct (shortest m e 85); reflexivity).
  rewrite E. destruct (shortest m e 85) as [n i] eqn:S1. exists n, (Z.of_nat i - 46)%Z. cbn zeta. split; [apply number_value, S1|]. split; [apply inside_power; assumption|].
  intros n' x' R. split.
  - destruct (Nat.le_gt_cases (length (dec n)) (length (dec n'))) as [L|L]; [exact L|exfalso].
    destruct (same_power m e n i n' x' N1 In S1 R) as (_ & X & _); lia.
  - intros L. destruct (same_power m e n i n' x' N1 In S1 R) as (-> & _ & I); [lia|]. exact (value_near m e n i n' N1 S1 I).
Qed.
Example C63_float_shortest_example : normal 11184811 (-25) /\ inner 11184811 (-25) /\ f32_div (as_f32 1) (as_f32 3) = S754_finite false 11184811 (-25).
Proof. split; [vm_compute; intuition discriminate|]. split; [split; discriminate|vm_compute; reflexivity]. Qed.
(** It has an exponent exactly if it is less than 0.0001 or at least 10^16, and no zeros that could be left out. *)
Theorem C63_float_layout : forall m e, normal m e ->
  exists v, denotes (f32_debug (S754_finite false m e)) v /\ rounds_to v m e /\
  ((1 # 10000 <= v /\ v < 10000000000000000)%Q -> tidy_plain (f32_debug (S754_finite false m e))) /\
  ((v < 1 # 10000 \/ 10000000000000000 <= v)%Q -> tidy_exp (f32_debug (S754_finite false m e))).
Proof.
  intros m e N1. assert (E : f32_debug (S754_finite false m e) = number_text m e) by (unfold f32_debug, number_text; destruct (shortest m e 85); reflexivity).
  rewrite E. destruct (shortest m e 85) as [n i] eqn:S1. exists (q_of n * 10 ^ (Z.of_nat i - 46))%Q. split; [apply number_value, S1|]. split; [apply inside_power; assumption|].
  exact (number_layout m e n i N1 S1).
Qed.
(** Numbers with a sign. (The averages of a trie have none.) *)
Theorem C63_float_sign : forall x, proper x -> x <> S754_nan -> f32_debug (SFopp x) = txt "-" ++ f32_debug x.
Proof.
  intros [s|s| |s m e] P N1; cbn [proper] in P; try (subst s; reflexivity); [contradiction|]. destruct P as [-> _]. cbn [SFopp negb]. unfold f32_debug.
  destruct (shortest m e 85) as [n j]. reflexivity.
Qed.
Example C63_float_example : proper (f32_div (as_f32 1) (as_f32 3)) /\ f32_debug (f32_div (as_f32 1) (as_f32 3)) = txt "0.33333334" /\
  f32_debug (f32_div (as_f32 5) (as_f32 2)) = txt "2.5" /\ f32_debug (as_f32 16777216) = txt "16777216.0" /\ f32_debug (f32_div (as_f32 1) (as_f32 10001)) = txt "9.999e-5" /\
  f32_debug (as_f32 0) = txt "0.0" /\ f32_debug (f32_div (as_f32 0) (as_f32 0)) = txt "NaN" /\ f32_debug (S754_finite false 16777215 104) = txt "3.4028235e38".
Proof. split; [vm_compute; intuition discriminate|]. repeat split; vm_compute; reflexivity. Qed.

(** ** Pieces *)
Lemma wc_digit c : 48 <= c <= 57 -> wc c = true.
Proof. intros H. unfold wc, word. destruct (N.leb_spec 48 c), (N.leb_spec c 57); try lia; reflexivity. Qed.
Lemma wc_digits l : Forall (fun c => 48 <= c <= 57) l -> Forall (fun c => wc c = true) l.
Proof. intros F. eapply Forall_impl; [|exact F]. cbn beta. apply wc_digit. Qed.
Lemma plain_wl n j : wl (plain_text n j).
Proof.
  split; [destruct (plain_head n j) as (c & r & -> & _); discriminate|]. unfold plain_text. set (k := Nat.max 1 (46 - j)).
  destruct (fixed_writes k (n * 10 ^ N.of_nat (j + k - 46)) ltac:(lia)) as (a & b & -> & _ & _ & F & _). apply Forall_app in F as [Fa Fb].
  apply Forall_app. split; [apply wc_digits, Fa|]. constructor; [reflexivity|apply wc_digits, Fb].
Qed.
Lemma exp_wl n j : wl (exp_text n j).
Proof.
  split; [destruct (exp_head n j) as (c & r & -> & _); discriminate|]. destruct (exp_text_eq n j) as (d & ds & E & ->). destruct (dec_digits n) as [_ F]. rewrite E in F.
  inversion F as [|? ? Fd Fs]; subst. apply Forall_app. split.
  - unfold mantissa. constructor; [apply wc_digit, Fd|]. destruct ds; constructor; [reflexivity|apply wc_digits, Fs].
  - constructor; [reflexivity|]. unfold exponent_text. apply Forall_app. split; [destruct (_ <? _)%Z; repeat constructor|apply wc_digits, dec_chars].
Qed.
Lemma f32_wl x : proper x -> wl (f32_debug x).
Proof.
  destruct x as [s|s| |s m e]; cbn [proper f32_debug]; intros P; [subst s; wl_tac|subst s; wl_tac|wl_tac|]. destruct P as [-> _].
  destruct (shortest m e 85) as [n j]. cbn [app]. destruct (_ && _); [apply plain_wl|apply exp_wl].
Qed.
Lemma f32_ok x : proper x -> dok (f32_dbg x).
Proof. intros P. constructor. apply f32_wl, P. Qed.
Lemma f32_inj x y : proper x -> proper y -> f32_dbg x = f32_dbg y -> x = y.
Proof. intros P P' E. apply f32_debug_inj; auto. unfold f32_dbg in E. congruence. Qed.

Ltac fields := repeat (constructor; [split; cbn [fst snd]; [wl_tac|auto using dok_num, f32_ok]|]); constructor.
Lemma name_dok o : name_ok o -> dok (option_dbg DText o).
Proof.
  destruct o as [n|]; cbn [option_dbg name_ok]; intros P; [|constructor; wl_tac]. apply dok_one; [wl_tac|]. constructor.
  eapply Forall_impl; [|exact P]. cbn beta. intros c C ->. lia.
Qed.
Lemma counts_ok c : dok (counts_dbg c).
Proof. apply dok_field; [wl_tac|discriminate|]. fields. Qed.
Lemma stats_ok s : proper_stats s -> dok (stats_dbg s).
Proof.
  intros (P & P1 & P2). apply dok_field; [wl_tac|discriminate|]. constructor; [split; [wl_tac|apply name_dok, P]|]. constructor; [split; [wl_tac|apply counts_ok]|].
  constructor; [|constructor]. split; [wl_tac|]. apply dok_field; [wl_tac|discriminate|]. fields.
Qed.
Lemma counts_inj c c' : counts_dbg c = counts_dbg c' -> c = c'.
Proof.
  destruct c as [a1 a2 a3 a4 a5], c' as [b1 b2 b3 b4 b5]. unfold counts_dbg. cbn [n_empty n_hash n_branch n_extension n_leaf]. intros E.
  assert (a1 = b1) by (apply num_inj; congruence). assert (a2 = b2) by (apply num_inj; congruence). assert (a3 = b3) by (apply num_inj; congruence).
  assert (a4 = b4) by (apply num_inj; congruence). assert (a5 = b5) by (apply num_inj; congruence). congruence.
Qed.
Lemma stats_inj s s' : proper_stats s -> proper_stats s' -> stats_dbg s = stats_dbg s' -> s = s'.
Proof.
  destruct s as [nm c d x y], s' as [nm' c' d' x' y']. intros (_ & P1 & P2) (_ & P1' & P2'). unfold stats_dbg. cbn [name s_counts s_lowest_depth avg_leaf_depth avg_hash_depth] in *. intros E.
  assert (nm = nm') by (destruct nm, nm'; cbn [option_dbg] in E; congruence). assert (c = c') by (apply counts_inj; congruence).
  assert (d = d') by (apply num_inj; congruence). assert (x = x') by (apply f32_inj; auto; congruence). assert (y = y') by (apply f32_inj; auto; congruence). congruence.
Qed.
Lemma quoted_escape s : [34] ++ escape s ++ [34] = quoted s.
Proof.
  unfold quoted. f_equal. f_equal. unfold escape. apply flat_map_ext. intros c. destruct (N.eqb_spec c 34) as [->|]; [reflexivity|]. destruct (N.eqb_spec c 92) as [->|]; reflexivity.
Qed.
Lemma put_name o : put false (option_dbg DText o) = line_option quoted o.
Proof. destruct o as [n|]; [|reflexivity]. cbn [option_dbg line_option]. putters. cbn [put]. rewrite quoted_escape. reflexivity. Qed.
Lemma put_counts c : put false (counts_dbg c) = line_counts c.
Proof. unfold counts_dbg, line_counts. putters. rewrite <- !app_assoc. reflexivity. Qed.
Lemma put_stats s : put false (stats_dbg s) = line_stats f32_debug s.
Proof. unfold stats_dbg, line_stats. putters. rewrite put_name, put_counts, <- !app_assoc. reflexivity. Qed.

(** * Statistics *)
(** The text has the name, the counts and the averages. In either form it identifies them. *)
Theorem C63_stats : forall s, proper_stats s ->
  debug_stats false s = line_stats f32_debug s /\ line_stats f32_debug s = one_line (After 0) (debug_stats true s) /\
  forall pretty s', proper_stats s' -> debug_stats pretty s = debug_stats pretty s' <-> s = s'.
Proof.
  intros s P. unfold debug_stats. pose proof (stats_ok s P) as D. split; [apply put_stats|]. split; [rewrite put_one_line by exact D; symmetry; apply put_stats|].
  intros pretty s' P'. pose proof (stats_ok s' P') as D'. split; [|intros ->; reflexivity]. intros E. apply stats_inj; auto. destruct pretty; [apply put_tall_inj; assumption|apply put_inj; assumption].
Qed.
Lemma ratio_ok {A} (f : A -> dbg) r : dok (f (fst r)) -> dok (f (snd r)) -> dok (ratio_dbg f r).
Proof. intros. apply dok_node2; [wl_tac|wl_tac|assumption|wl_tac|assumption]. Qed.
Lemma comparison_ok c : proper_comparison c -> dok (comparison_dbg c).
Proof.
  intros ((P1 & P2) & (P3 & P4)). apply dok_node2; [wl_tac|wl_tac| |wl_tac|]; (apply dok_field; [wl_tac|discriminate|]);
    repeat (constructor; [split; cbn [fst snd]; [wl_tac|apply ratio_ok; auto using dok_num, f32_ok]|]); constructor.
Qed.
Lemma ratio_inj {A} (f : A -> dbg) (P : A -> Prop) r r' : (forall x y, P x -> P y -> f x = f y -> x = y) -> P (fst r) -> P (snd r) -> P (fst r') -> P (snd r') ->
  ratio_dbg f r = ratio_dbg f r' -> r = r'.
Proof. destruct r as [a b], r' as [a' b']. cbn [fst snd]. unfold ratio_dbg. intros I A1 B1 A2 B2 E. cbn [fst snd] in E. assert (a = a') by (apply I; auto; congruence). assert (b = b') by (apply I; auto; congruence). congruence. Qed.
Lemma comparison_inj c c' : proper_comparison c -> proper_comparison c' -> comparison_dbg c = comparison_dbg c' -> c = c'.
Proof.
  destruct c as [a1 a2 a3 a4 a5 a6 a7 a8 a9 a10], c' as [b1 b2 b3 b4 b5 b6 b7 b8 b9 b10]. intros ((P1 & P2) & (P3 & P4)) ((Q1 & Q2) & (Q3 & Q4)). unfold comparison_dbg.
  cbn [tot_node_rat non_empty_rat empty_rat hash_rat branch_rat extension_rat leaf_rat lowest_depth_rat avg_leaf_depth_rat avg_hash_depth_rat] in *. intros E.
  assert (N1 : forall r r' : N * N, ratio_dbg num_dbg r = ratio_dbg num_dbg r' -> r = r').
  { intros r r'. apply (ratio_inj num_dbg (fun _ => True)); auto. intros x y _ _. apply num_inj. }
  assert (F1 : forall r r' : f32 * f32, proper (fst r) -> proper (snd r) -> proper (fst r') -> proper (snd r') -> ratio_dbg f32_dbg r = ratio_dbg f32_dbg r' -> r = r').
  { intros r r'. apply (ratio_inj f32_dbg proper). intros x y. apply f32_inj. }
  assert (a1 = b1) by (apply N1; congruence). assert (a2 = b2) by (apply N1; congruence). assert (a3 = b3) by (apply N1; congruence). assert (a4 = b4) by (apply N1; congruence).
  assert (a5 = b5) by (apply N1; congruence). assert (a6 = b6) by (apply N1; congruence). assert (a7 = b7) by (apply N1; congruence). assert (a8 = b8) by (apply N1; congruence).
  assert (a9 = b9) by (apply F1; auto; congruence). assert (a10 = b10) by (apply F1; auto; congruence). congruence.
Qed.
Lemma put_ratio {A} (f : A -> dbg) g r : (forall x, put false (f x) = g x) -> put false (ratio_dbg f r) = line_ratio g r.
Proof. intros H. unfold ratio_dbg, line_ratio. putters. rewrite !H, <- !app_assoc. reflexivity. Qed.
Lemma put_comparison c : put false (comparison_dbg c) = line_comparison f32_debug c.
Proof.
  assert (H1 : forall r, put false (ratio_dbg num_dbg r) = line_ratio dec r) by (intros r; apply put_ratio; reflexivity).
  assert (H2 : forall r, put false (ratio_dbg f32_dbg r) = line_ratio f32_debug r) by (intros r; apply put_ratio; reflexivity).
  unfold comparison_dbg, line_comparison. putters. rewrite !H1, !H2, <- !app_assoc. reflexivity.
Qed.
Theorem C63_comparison : forall c, proper_comparison c ->
  debug_comparison false c = line_comparison f32_debug c /\ line_comparison f32_debug c = one_line (After 0) (debug_comparison true c) /\
  forall pretty c', proper_comparison c' -> debug_comparison pretty c = debug_comparison pretty c' <-> c = c'.
Proof.
  intros c P. unfold debug_comparison. pose proof (comparison_ok c P) as D. split; [apply put_comparison|]. split; [rewrite put_one_line by exact D; symmetry; apply put_comparison|].
  intros pretty c' P'. pose proof (comparison_ok c' P') as D'. split; [|intros ->; reflexivity]. intros E. apply comparison_inj; auto. destruct pretty; [apply put_tall_inj; assumption|apply put_inj; assumption].
Qed.

(** ** What the API makes *)
Lemma near_proper lo hi k x v : near lo hi k x v -> (-149 <= lo)%Z -> (hi <= 104)%Z -> proper x.
Proof. intros (m & e & -> & B & E & _) L H. cbn [proper]. split; [reflexivity|]. split; [|lia]. change (2 ^ 23)%Z with 8388608%Z in B. change (2 ^ 24)%Z with 16777216%Z in B. change (2 ^ 23)%N with 8388608%N. change (2 ^ 24)%N with 16777216%N. lia. Qed.
Lemma quotient_proper a b : a < 2 ^ 64 -> b < 2 ^ 64 -> proper (f32_div (as_f32 a) (as_f32 b)).
Proof.
  intros A B. destruct (N.eq_0_gt_0_cases a) as [->|A0], (N.eq_0_gt_0_cases b) as [->|B0].
  - rewrite div_zero_zero. exact Logic.I.
  - rewrite zero_div by lia. reflexivity.
  - rewrite div_zero by lia. reflexivity.
  - eapply near_proper; [apply quotient_near; lia|lia|lia].
Qed.
Definition bounded (st : tracking) : Prop := n_hash (counts st) < 2 ^ 64 /\ n_leaf (counts st) < 2 ^ 64 /\ leaf_depth_sum st < 2 ^ 64 /\ hash_depth_sum st < 2 ^ 64.
Lemma uadd_bound pr a b c : uadd pr a b = Ok c -> c < 2 ^ 64.
Proof.
  unfold uadd. change (2 ^ 64) with usize_range. destruct (N.ltb_spec (a + b) usize_range); [intros [= <-]; assumption|].
  destruct pr; intros E; [discriminate|]. injection E as <-. apply N.mod_lt. discriminate.
Qed.
Lemma stats_bounded pr t : forall st d st', bounded st -> get_trie_stats_rec pr t st d = Ok st' -> bounded st'.
Proof.
  induction t as [|h|ch v IH|n c IH|n v] using node_ind'; intros [[e h' b x l] ls hs low] d st' B E; cbn [get_trie_stats_rec] in E; unfold bounded in *; cbn [counts n_hash n_leaf leaf_depth_sum hash_depth_sum] in *.
  - okbind E. injection E as <-. exact B.
  - okbind E. okbind E. injection E as <-. cbn [counts n_hash n_leaf leaf_depth_sum hash_depth_sum]. repeat split; try apply B; eapply uadd_bound; eauto.
  - okbind E. assert (G : bounded (Tracking (Counts e h' a x l) ls hs low)) by exact B. clear B E0. fold (bounded st'). revert G E. generalize (Tracking (Counts e h' a x l) ls hs low).
    induction IH as [|c ch Hc _ IHl]; intros st G E; [congruence|]. okbind E. okbind E. eapply IHl; [|exact E]. eapply Hc; eauto.
  - okbind E. okbind E. eapply IH; [|exact E]. exact B.
  - okbind E. okbind E. injection E as <-. cbn [counts n_hash n_leaf leaf_depth_sum hash_depth_sum]. repeat split; try apply B; eapply uadd_bound; eauto.
Qed.
Theorem C63_api_stats : forall pr t nm s, name_ok nm -> get_trie_stats_common pr t nm = Ok s -> proper_stats s.
Proof.
  intros pr t nm s P E. unfold get_trie_stats_common in E. okbind E. injection E as <-. apply stats_bounded in E0 as (B1 & B2 & B3 & B4); [|repeat split].
  split; [exact P|]. cbn [avg_leaf_depth avg_hash_depth]. split; apply quotient_proper; assumption.
Qed.
Theorem C63_api_comparison : forall pr s s' c, proper_stats s -> proper_stats s' -> compare_stats pr s s' = Ok c -> proper_comparison c.
Proof.
  intros pr s s' c (_ & P1 & P2) (_ & Q1 & Q2) E. unfold compare_stats in E. okbind E. okbind E. okbind E. okbind E. injection E as <-. repeat split; assumption.
Qed.
Definition stats_trie : node := Eval vm_compute in match from_iter Debug [(K 4 0x1234, Val [1]); (K 4 0x5678, Val [2]); (K 4 0x5679, Val [3]); (K 4 0x9999, HashV [7])] with Ok t => t | Panic => Empty end.
Definition stats_shown : trie_stats := Eval vm_compute in match get_trie_stats_with_name Debug stats_trie (txt "a ""name""") with Ok s => s | Panic => Stats None (Counts 0 0 0 0 0) 0 S754_nan S754_nan end.
Definition other_shown : trie_stats := Eval vm_compute in match get_trie_stats Debug Empty with Ok s => s | Panic => Stats None (Counts 0 0 0 0 0) 0 S754_nan S754_nan end.
Example C63_stats_example : get_trie_stats_with_name Debug stats_trie (txt "a ""name""") = Ok stats_shown /\ name_ok (name stats_shown) /\
  debug_stats false stats_shown = txt ("TrieStats { name: Some(""a \""name\""""), counts: NodeCounts { empty: 27, hash: 1, branch: 2, extension: 2, leaf: 3 }, " ++
    "depth_stats: DepthStats { lowest_depth: 3, avg_leaf_depth: 2.3333333, avg_hash_depth: 2.0 } }")%string /\
  debug_stats false other_shown = txt ("TrieStats { name: None, counts: NodeCounts { empty: 1, hash: 0, branch: 0, extension: 0, leaf: 0 }, " ++
    "depth_stats: DepthStats { lowest_depth: 0, avg_leaf_depth: NaN, avg_hash_depth: NaN } }")%string /\
  exists c, compare_stats Debug stats_shown other_shown = Ok c /\ debug_comparison false c = txt ("TrieComparison { node_comp: NodeComparison { tot_node_rat: RatioStat { a: 35, b: 1 }, " ++
    "non_empty_rat: RatioStat { a: 8, b: 0 }, empty_rat: RatioStat { a: 27, b: 1 }, hash_rat: RatioStat { a: 1, b: 0 }, branch_rat: RatioStat { a: 2, b: 0 }, " ++
    "extension_rat: RatioStat { a: 2, b: 0 }, leaf_rat: RatioStat { a: 3, b: 0 } }, depth_comp: DepthComparison { lowest_depth_rat: RatioStat { a: 3, b: 0 }, " ++
    "avg_leaf_depth_rat: RatioStat { a: 2.3333333, b: NaN }, avg_hash_depth_rat: RatioStat { a: 2.0, b: NaN } } }")%string.
Proof.
  split; [vm_compute; reflexivity|]. split; [vm_compute; repeat (constructor; [intuition discriminate|]); constructor|]. split; [vm_compute; reflexivity|]. split; [vm_compute; reflexivity|].
  eexists. split; [vm_compute; reflexivity|]. vm_compute. reflexivity.
Qed.
Print Assumptions C63_float.
Print Assumptions C63_float_identifies.
Print Assumptions C63_float_shortest.
Print Assumptions C63_float_sign.
Print Assumptions C63_float_layout.
Print Assumptions C63_stats.
Print Assumptions C63_comparison.
Print Assumptions C63_api_stats.
Print Assumptions C63_api_comparison.
