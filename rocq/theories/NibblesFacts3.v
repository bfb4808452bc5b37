(** From statements about [enc] to statements about well-formed values and their sequences. *)
From Verif Require Import Base Nibbles NibblesSpec NibblesFacts NibblesFacts2.
Open Scope N_scope.
Ltac Zify.zify_post_hook ::= Z.div_mod_to_equations.

Lemma nwf_as_enc n : nwf n -> n = enc (nseq n) /\ hexl (nseq n) /\ (length (nseq n) <= 127)%nat.
Proof.
  intros [H L]. split; [symmetry; apply enc_nseq, H|]. split; [apply nseq_hexl|]. rewrite nseq_length. lia.
Qed.

Lemma yields_enc m l : hexl l -> (length l <= 127)%nat -> m = Ok (enc l) -> yields m l.
Proof. intros H L ->. exists (enc l). split; [reflexivity|]. split; [apply nwf_enc; assumption|apply nseq_enc, H]. Qed.

Lemma yields2_enc m l1 l2 : hexl l1 -> hexl l2 -> (length l1 <= 127)%nat -> (length l2 <= 127)%nat ->
  m = Ok (enc l1, enc l2) -> yields2 m l1 l2.
Proof.
  intros H1 H2 L1 L2 ->. exists (enc l1), (enc l2). split; [reflexivity|].
  repeat split; try (apply nwf_enc; assumption); try (apply nseq_enc; assumption); cbn; try (apply undigits_lt; assumption); lia.
Qed.

Lemma yields_pop_enc m d l : hexl l -> (length l <= 127)%nat -> m = Ok (d, enc l) -> yields_pop m d l.
Proof. intros H L ->. exists (enc l). split; [reflexivity|]. split; [apply nwf_enc; assumption|apply nseq_enc, H]. Qed.

Lemma lex_undigits a b : hexl a -> hexl b -> length a = length b -> lex_compare a b = (undigits a ?= undigits b).
Proof.
  revert b; induction a as [|x a IH]; intros [|y b] Ha Hb E; try discriminate; [reflexivity|].
  inversion Ha as [|? ? Hx Ha']; subst. inversion Hb as [|? ? Hy Hb']; subst. injection E as E.
  cbn [lex_compare]. rewrite !undigits_cons. rewrite <- E.
  pose proof (undigits_lt a Ha') as U1. pose proof (undigits_lt b Hb') as U2. rewrite <- E in U2.
  set (P := 16 ^ N.of_nat (length a)) in *.
  destruct (N.compare_spec x y) as [->|H|H].
  - rewrite IH by assumption. destruct (N.compare_spec (undigits a) (undigits b)); symmetry.
    + apply N.compare_eq_iff. nia.
    + apply N.compare_lt_iff. nia.
    + apply N.compare_gt_iff. nia.
  - symmetry. apply N.compare_lt_iff. nia.
  - symmetry. apply N.compare_gt_iff. nia.
Qed.

Lemma nib_compare_enc a b : hexl a -> hexl b -> nib_compare (enc a) (enc b) = shortlex a b.
Proof.
  intros Ha Hb. unfold nib_compare, shortlex. cbn [enc count packed]. rewrite Nat2N.inj_compare.
  destruct (N.compare_spec (N.of_nat (length a)) (N.of_nat (length b))); try reflexivity.
  symmetry. apply lex_undigits; auto. lia.
Qed.

Lemma is_prefix_lcp a b : is_prefix a b <-> lcp a b = length a.
Proof. split; [intros [c ->]; apply lcp_app_l|apply lcp_full_prefix]. Qed.

Lemma identical_prefix a b :
  Nat.leb (Nat.min (length a) (length b)) (lcp a b) = true <-> is_prefix a b \/ is_prefix b a.
Proof.
  rewrite !is_prefix_lcp, (lcp_comm b a). pose proof (lcp_le a b). rewrite Nat.leb_le. lia.
Qed.

Lemma split_release_panic n idx : nwf n -> count n < idx -> idx < 4611686018427387776 ->
  split_at_idx Release n idx = Panic /\ split_at_idx_postfix Release n idx = Panic.
Proof.
  intros [_ L] H1 H2. unfold split_at_idx, split_at_idx_postfix. rewrite usub_release by lia. cbn [bind].
  unfold umul, usize_range.
  set (d := count n + 18446744073709551616 - idx).
  destruct (N.ltb_spec (d * 4) 18446744073709551616) as [Hd|Hd].
  - cbn [bind]. rewrite mask_panic_ge by lia. split; reflexivity.
  - assert (Hs : 512 <= (d * 4) mod 18446744073709551616).
    { replace (d * 4) with (18446744073709551616 - 4 * (idx - count n) + 3 * 18446744073709551616) by (unfold d; lia).
      rewrite N.mod_add by lia. rewrite N.mod_small by lia. lia. }
    cbn [bind]. rewrite mask_panic_ge by lia. split; reflexivity.
Qed.

Lemma hp_inj_aux x y t u : hexl x -> hexl y -> yp_hp x t = yp_hp y u -> x = y /\ t = u.
Proof.
  intros Hx Hy. unfold yp_hp.
  destruct (Nat.even (length x)) eqn:Ex; destruct (Nat.even (length y)) eqn:Ey.
  - intros E. pose proof (f_equal (hd 0) E) as E1; pose proof (f_equal (@tl N) E) as E2; cbn [hd tl] in E1, E2; clear E. split.
    + rewrite <- (unpair_pair_up x Hx Ex), <- (unpair_pair_up y Hy Ey), E2. reflexivity.
    + destruct t, u; try reflexivity; lia.
  - destruct y as [|y0 y]; [discriminate|]. inversion Hy; subst. intros E. pose proof (f_equal (hd 0) E) as E1; pose proof (f_equal (@tl N) E) as E2; cbn [hd tl] in E1, E2; clear E. destruct t, u; lia.
  - destruct x as [|x0 x]; [discriminate|]. inversion Hx; subst. intros E. pose proof (f_equal (hd 0) E) as E1; pose proof (f_equal (@tl N) E) as E2; cbn [hd tl] in E1, E2; clear E. destruct t, u; lia.
  - destruct x as [|x0 x]; [discriminate|]. destruct y as [|y0 y]; [discriminate|].
    inversion Hx; subst. inversion Hy; subst. cbn [length] in Ex, Ey.
    assert (Ex' : Nat.even (length x) = true) by (rewrite Nat.even_succ in Ex; rewrite <- Nat.negb_odd, Ex; reflexivity).
    assert (Ey' : Nat.even (length y) = true) by (rewrite Nat.even_succ in Ey; rewrite <- Nat.negb_odd, Ey; reflexivity).
    intros E. pose proof (f_equal (hd 0) E) as E1; pose proof (f_equal (@tl N) E) as E2; cbn [hd tl] in E1, E2; clear E. split.
    + f_equal; [destruct t, u; lia|]. rewrite <- (unpair_pair_up x), <- (unpair_pair_up y), E2 by assumption. reflexivity.
    + destruct t, u; try reflexivity; lia.
Qed.

Lemma yp_hp_cons x t : hexl x -> exists b0 rest, yp_hp x t = b0 :: rest /\ bytesl (b0 :: rest) /\
  length rest = Nat.div2 (length x) /\ hp_decoded b0 rest = x ++ (if t then [1; 0] else []) /\ b0 / 16 <= 3.
Proof.
  intros Hx. unfold yp_hp. destruct (Nat.even (length x)) eqn:Ex.
  - eexists _, _. split; [reflexivity|]. split; [constructor; [destruct t; lia|apply pair_up_bytesl, Hx]|].
    split; [apply pair_up_length, Ex|]. split; [|destruct t; lia].
    unfold hp_decoded. rewrite unpair_pair_up by assumption. destruct t; reflexivity.
  - destruct x as [|x0 x]; [discriminate|]. inversion Hx as [|? ? H0 Hx']; subst. cbn [length] in Ex.
    assert (Ex' : Nat.even (length x) = true) by (rewrite Nat.even_succ in Ex; rewrite <- Nat.negb_odd, Ex; reflexivity).
    eexists _, _. split; [reflexivity|]. split; [constructor; [destruct t; lia|apply pair_up_bytesl; assumption]|].
    split.
    { rewrite pair_up_length by assumption. cbn [length]. apply Nat.even_spec in Ex'. destruct Ex' as [m ->].
      rewrite Nat.div2_double, Nat.div2_succ_double. reflexivity. }
    split; [|destruct t; lia]. unfold hp_decoded. rewrite unpair_pair_up by assumption.
    destruct t.
    + replace ((16 * (2 + 1) + x0) / 16) with 3 by lia. replace ((16 * (2 + 1) + x0) mod 16) with x0 by lia. reflexivity.
    + replace ((16 * (0 + 1) + x0) / 16) with 1 by lia. replace ((16 * (0 + 1) + x0) mod 16) with x0 by lia. reflexivity.
Qed.

Lemma hp_roundtrip pr n t : nwf n -> count n <= 65 ->
  exists b, to_hex_prefix_encoding pr n t = Ok b /\
  from_hex_prefix_encoding b = Ok (ROk (enc (nseq n ++ (if t then [1; 0] else [])))).
Proof.
  intros W L. destruct (nwf_as_enc n W) as (E & H & L1).
  assert (T : to_hex_prefix_encoding pr n t = Ok (yp_hp (nseq n) t)) by (rewrite E at 1; apply to_hp_enc; [assumption|lia]).
  eexists; split; [exact T|].
  destruct (yp_hp_cons (nseq n) t H) as (b0 & rest & E1 & Hb & Lr & D & F).
  rewrite E1, from_hp_spec; [|assumption|].
  - destruct (N.leb_spec (b0 / 16) 3); [|lia]. rewrite D. reflexivity.
  - rewrite Lr, nseq_length, Nat.div2_div. pose proof (Nat.div_mod (N.to_nat (count n)) 2). lia.
Qed.

Lemma to_nibbles_nseq width v : v < 2 ^ width ->
  undigits (nseq (to_nibbles width v)) = v /\ packed (to_nibbles width v) < 16 ^ count (to_nibbles width v).
Proof.
  intros H. destruct (to_nibbles_spec width v H) as [E1 E2].
  assert (P : packed (to_nibbles width v) < 16 ^ count (to_nibbles width v)) by (rewrite E1, E2; apply min_digits).
  split; [|exact P]. unfold nseq. rewrite undigits_digits; [exact E2|]. rewrite N2Nat.id. exact P.
Qed.

Lemma to_nibbles_hd width v d l : v < 2 ^ width -> nseq (to_nibbles width v) = d :: l -> d <> 0.
Proof.
  intros H E Hd. subst d. destruct (to_nibbles_spec width v H) as [E1 E2].
  destruct (to_nibbles_nseq width v H) as [E3 _].
  assert (Hx : hexl (0 :: l)) by (rewrite <- E; apply nseq_hexl).
  pose proof (leading_digits_count _ Hx) as C. rewrite <- E in C at 2. rewrite E3 in C.
  rewrite <- E1 in C. assert (L : length (nseq (to_nibbles width v)) = length (0 :: l)) by (rewrite E; reflexivity).
  rewrite nseq_length in L. cbn [leading_zero_digits] in C. change (0 =? 0) with true in C. cbv iota in C.
  rewrite <- L in C. lia.
Qed.

Lemma strip_0x_cons s : strip_0x (48 :: 120 :: s) = s.
Proof. reflexivity. Qed.

Lemma strip_0x_hex upper l : hexl l -> strip_0x (map (hex_char upper) l) = map (hex_char upper) l.
Proof.
  intros H. destruct l as [|a [|b l]]; [reflexivity|reflexivity|]. cbn [map strip_0x].
  inversion H as [|? ? Ha H3]; subst. inversion H3 as [|? ? Hb H4]; subst.
  destruct ((hex_char upper a =? 48) && (hex_char upper b =? 120)) eqn:E; [|reflexivity].
  apply andb_true_iff in E. destruct E as [_ E]. apply N.eqb_eq in E.
  pose proof (hex_val_char upper b Hb) as V. rewrite E in V. discriminate.
Qed.

Lemma pop_back_short_release l k : hexl l -> (length l < k)%nat -> (k <= 127)%nat ->
  exists r n', pop_nibbles_back Release (enc l) (N.of_nat k) = Ok (r, n').
Proof.
  intros H L K. unfold pop_nibbles_back. rewrite count_enc. rewrite usub_release by lia. cbn [bind].
  unfold get_nibble_range. rewrite usub_release by (unfold usize_range; lia). cbn [bind].
  rewrite count_enc. rewrite usub_ok by lia. cbn [bind].
  rewrite umul_ok by lia. cbn [bind].
  replace (N.of_nat (length l) + usize_range - (N.of_nat (length l) + usize_range - N.of_nat k)) with (N.of_nat k)
    by (unfold usize_range; lia).
  rewrite umul_ok by lia. cbn [bind]. rewrite mask_ok by lia. cbn [bind].
  rewrite truncate_back_enc by (assumption || lia). cbn [bind]. eauto.
Qed.

Lemma nwf_ex n : nwf n -> exists l, n = enc l /\ nseq n = l /\ hexl l /\ (length l <= 127)%nat /\ count n = N.of_nat (length l).
Proof.
  intros W. destruct (nwf_as_enc n W) as (E & H & L). exists (nseq n). repeat split; try assumption.
  rewrite nseq_length. lia.
Qed.
