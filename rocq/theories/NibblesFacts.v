(** Proofs that the bit-level operations of [Nibbles] compute on sequences. *)
From Verif Require Import Base Nibbles NibblesSpec.
Open Scope N_scope.
Ltac Zify.zify_post_hook ::= Z.div_mod_to_equations.
Local Arguments N.mul : simpl never.
Local Arguments N.add : simpl never.
Local Arguments N.sub : simpl never.
Local Arguments N.pow : simpl never.
Local Arguments N.div : simpl never.
Local Arguments N.modulo : simpl never.

(** ** Powers *)
Lemma pow16_2 c : 16 ^ c = 2 ^ (4 * c).
Proof. rewrite N.pow_mul_r. reflexivity. Qed.

Lemma pow16_pos c : 0 < 16 ^ c.
Proof. apply N.neq_0_lt_0, N.pow_nonzero. lia. Qed.

Lemma pow2_pos c : 0 < 2 ^ c.
Proof. apply N.neq_0_lt_0, N.pow_nonzero. lia. Qed.

Lemma pow2_le a b : a <= b -> 2 ^ a <= 2 ^ b.
Proof. intros. apply N.pow_le_mono_r; lia. Qed.

(** ** Bit-level lemmas *)
Lemma ones_lt k : N.ones k < 2 ^ k.
Proof. rewrite N.ones_equiv. pose proof (pow2_pos k). lia. Qed.

Lemma shl_small x s b : x < 2 ^ b -> b + s <= 512 -> u512_shl x s = x * 2 ^ s.
Proof.
  intros Hx Hs. unfold u512_shl, u512_bits.
  destruct (N.leb_spec 512 s).
  - assert (b = 0) by lia. subst b. assert (x = 0) by (rewrite N.pow_0_r in Hx; lia). subst. reflexivity.
  - rewrite N.land_ones, N.shiftl_mul_pow2. apply N.mod_small.
    apply N.lt_le_trans with (2 ^ (b + s)).
    + rewrite N.pow_add_r. apply N.mul_lt_mono_pos_r; auto using pow2_pos.
    + apply pow2_le; lia.
Qed.

Lemma shr_spec x s : x < 2 ^ 512 -> u512_shr x s = x / 2 ^ s.
Proof.
  intros Hx. unfold u512_shr, u512_bits.
  destruct (N.leb_spec 512 s).
  - symmetry. apply N.div_small. apply N.lt_le_trans with (1 := Hx). apply pow2_le; lia.
  - apply N.shiftr_div_pow2.
Qed.

Lemma mask_ok k : k < 512 -> create_mask_of_1s k = Ok (N.ones k).
Proof.
  intros Hk. unfold create_mask_of_1s.
  rewrite (shl_small 1 k 1) by (try (cbv; reflexivity); lia).
  unfold u512_sub. pose proof (pow2_pos k).
  destruct (N.leb_spec 1 (1 * 2 ^ k)); [|lia].
  f_equal. rewrite N.ones_equiv. lia.
Qed.

Lemma mask_panic : create_mask_of_1s 512 = Panic.
Proof. vm_compute. reflexivity. Qed.

Lemma mask_panic_ge k : 512 <= k -> create_mask_of_1s k = Panic.
Proof.
  intros H. unfold create_mask_of_1s, u512_shl, u512_bits.
  destruct (N.leb_spec 512 k); [reflexivity|lia].
Qed.

Lemma land_shifted_ones p k s :
  N.land p (N.ones k * 2 ^ s) / 2 ^ s = (p / 2 ^ s) mod 2 ^ k.
Proof.
  rewrite <- N.shiftl_mul_pow2, <- N.shiftr_div_pow2, N.shiftr_land.
  rewrite N.shiftr_shiftl_l by lia. rewrite N.sub_diag, N.shiftl_0_r.
  rewrite N.land_ones, N.shiftr_div_pow2. reflexivity.
Qed.

Lemma testbit_small x b i : x < 2 ^ b -> b <= i -> N.testbit x i = false.
Proof.
  intros Hx Hi. destruct (N.eq_dec x 0) as [->|Hz]; [apply N.bits_0|].
  apply N.bits_above_log2. apply N.log2_lt_pow2; try lia.
  apply N.lt_le_trans with (1 := Hx). apply pow2_le; lia.
Qed.

Lemma land_not_high p k s :
  k + s <= 512 -> p < 2 ^ (k + s) ->
  N.land p (u512_not (N.ones k * 2 ^ s)) = p mod 2 ^ s.
Proof.
  intros Hks Hp. unfold u512_not, u512_bits. rewrite <- N.land_ones, <- N.shiftl_mul_pow2.
  apply N.bits_inj. intros i. rewrite !N.land_spec.
  destruct (N.lt_ge_cases i s) as [Hi|Hi].
  - rewrite (N.ones_spec_low s i) by lia.
    rewrite N.lnot_spec_low by lia. rewrite N.shiftl_spec_low by lia. reflexivity.
  - rewrite (N.ones_spec_high s i) by lia. rewrite andb_false_r.
    destruct (N.lt_ge_cases i (k + s)) as [Hi2|Hi2].
    + rewrite N.lnot_spec_low by lia. rewrite N.shiftl_spec_high' by lia.
      rewrite N.ones_spec_low by lia. apply andb_false_r.
    + rewrite (testbit_small p (k + s) i) by lia. reflexivity.
Qed.

Lemma land_not_low p k :
  k <= 512 -> p < 2 ^ 512 ->
  N.land p (u512_not (N.ones k)) / 2 ^ k = p / 2 ^ k.
Proof.
  intros Hk Hp. rewrite <- !N.shiftr_div_pow2.
  apply N.bits_inj. intros i. rewrite !N.shiftr_spec', N.land_spec. unfold u512_not, u512_bits.
  destruct (N.lt_ge_cases (i + k) 512) as [Hi|Hi].
  - rewrite N.lnot_spec_low by lia. rewrite N.ones_spec_high by lia. apply andb_true_r.
  - rewrite (testbit_small p 512 (i + k)) by lia. reflexivity.
Qed.

Lemma land_le_l a b : N.land a b <= a.
Proof.
  assert (N.land a b + N.ldiff a b = a) as H3; [|lia].
  rewrite N.add_nocarry_lxor.
  - apply N.bits_inj; intros i. rewrite N.lxor_spec, N.land_spec, N.ldiff_spec.
    destruct (N.testbit a i), (N.testbit b i); reflexivity.
  - apply N.bits_inj; intros j. rewrite !N.land_spec, N.ldiff_spec, N.bits_0.
    destruct (N.testbit a j), (N.testbit b j); reflexivity.
Qed.

Lemma lor_disjoint p x s : p < 2 ^ s -> N.lor p (x * 2 ^ s) = p + x * 2 ^ s.
Proof.
  intros Hp. rewrite <- N.shiftl_mul_pow2. rewrite N.add_nocarry_lxor.
  - symmetry. apply N.lxor_lor. apply N.bits_inj; intros j. rewrite !N.land_spec, N.bits_0.
    destruct (N.lt_ge_cases j s).
    + rewrite N.shiftl_spec_low by lia. apply andb_false_r.
    + rewrite (testbit_small p s j) by lia. reflexivity.
  - apply N.bits_inj; intros j. rewrite !N.land_spec, N.bits_0.
    destruct (N.lt_ge_cases j s).
    + rewrite N.shiftl_spec_low by lia. apply andb_false_r.
    + rewrite (testbit_small p s j) by lia. reflexivity.
Qed.

(** ** Digit sequences *)
Lemma digits_length c p : length (digits c p) = c.
Proof. revert p; induction c; intros p; cbn [digits]; [reflexivity|]. rewrite app_length, IHc. cbn. lia. Qed.

Lemma digits_hexl c p : hexl (digits c p).
Proof.
  revert p; induction c; intros p; cbn [digits]; [constructor|].
  apply Forall_app; split; [apply IHc|]. repeat constructor. lia.
Qed.

Lemma fold_undigits l a : fold_left (fun a d => a * 16 + d) l a = a * 16 ^ N.of_nat (length l) + undigits l.
Proof.
  revert a; induction l as [|d l IH]; intros a; cbn [fold_left length].
  - unfold undigits. cbn. lia.
  - unfold undigits. cbn [fold_left]. rewrite IH. rewrite (IH (0 * 16 + d)).
    rewrite Nat2N.inj_succ, N.pow_succ_r'. lia.
Qed.

Lemma undigits_app a b : undigits (a ++ b) = undigits a * 16 ^ N.of_nat (length b) + undigits b.
Proof. unfold undigits. rewrite fold_left_app. apply fold_undigits. Qed.

Lemma undigits_nil : undigits [] = 0.
Proof. reflexivity. Qed.

Lemma undigits_one d : undigits [d] = d.
Proof. unfold undigits. cbn. lia. Qed.

Lemma undigits_cons d l : undigits (d :: l) = d * 16 ^ N.of_nat (length l) + undigits l.
Proof. change (d :: l) with ([d] ++ l). rewrite undigits_app, undigits_one. reflexivity. Qed.

Lemma undigits_lt l : hexl l -> undigits l < 16 ^ N.of_nat (length l).
Proof.
  induction l as [|d l IH]; intros H.
  - cbn. lia.
  - inversion H; subst. rewrite undigits_cons. cbn [length]. rewrite Nat2N.inj_succ, N.pow_succ_r'.
    specialize (IH H3). nia.
Qed.

Lemma undigits_digits c p : p < 16 ^ N.of_nat c -> undigits (digits c p) = p.
Proof.
  revert p; induction c as [|c IH]; intros p Hp; cbn [digits].
  - cbn in Hp. unfold undigits. cbn. change (16 ^ 0) with 1 in Hp. lia.
  - rewrite Nat2N.inj_succ, N.pow_succ_r' in Hp. rewrite undigits_app. cbn [length].
    rewrite IH.
    + rewrite undigits_one. change (16 ^ N.of_nat 1) with 16. pose proof (N.div_mod p 16). lia.
    + apply N.div_lt_upper_bound; lia.
Qed.

Lemma digits_undigits l : hexl l -> digits (length l) (undigits l) = l.
Proof.
  induction l as [|d l IH] using rev_ind; intros H; [reflexivity|].
  apply Forall_app in H. destruct H as [H1 H2]. inversion H2; subst.
  rewrite app_length. cbn [length]. rewrite Nat.add_1_r. cbn [digits].
  rewrite undigits_app, undigits_one. cbn [length]. change (16 ^ N.of_nat 1) with 16.
  replace ((undigits l * 16 + d) / 16) with (undigits l) by lia.
  replace ((undigits l * 16 + d) mod 16) with d by lia.
  rewrite IH by assumption. reflexivity.
Qed.

Lemma hexl_app a b : hexl (a ++ b) <-> hexl a /\ hexl b.
Proof. apply Forall_app. Qed.

Lemma hexl_firstn k l : hexl l -> hexl (firstn k l).
Proof. intros H. rewrite <- (firstn_skipn k l) in H. apply hexl_app in H. tauto. Qed.

Lemma hexl_skipn k l : hexl l -> hexl (skipn k l).
Proof. intros H. rewrite <- (firstn_skipn k l) in H. apply hexl_app in H. tauto. Qed.

Lemma hexl_rev l : hexl l -> hexl (rev l).
Proof. apply Forall_rev. Qed.

(** ** [enc] and [nseq] *)
Lemma enc_nseq n : packed n < 16 ^ count n -> enc (nseq n) = n.
Proof.
  intros H. destruct n as [c p]. unfold enc, nseq. cbn [count packed] in *.
  rewrite digits_length, N2Nat.id. f_equal. apply undigits_digits. rewrite N2Nat.id. exact H.
Qed.

Lemma nseq_enc l : hexl l -> nseq (enc l) = l.
Proof. intros H. unfold nseq, enc. cbn [count packed]. rewrite Nat2N.id. apply digits_undigits, H. Qed.

Lemma nseq_hexl n : hexl (nseq n).
Proof. apply digits_hexl. Qed.

Lemma nseq_length n : length (nseq n) = N.to_nat (count n).
Proof. apply digits_length. Qed.

Lemma count_enc l : count (enc l) = N.of_nat (length l).
Proof. reflexivity. Qed.

Lemma enc_inj a b : hexl a -> hexl b -> enc a = enc b -> a = b.
Proof. intros Ha Hb H. rewrite <- (nseq_enc a Ha), <- (nseq_enc b Hb), H. reflexivity. Qed.

Lemma nwf_enc l : hexl l -> (length l <= 127)%nat -> nwf (enc l).
Proof. intros H L. split; cbn [enc count packed]; [apply undigits_lt, H|lia]. Qed.

Lemma undigits_div l k : (k <= length l)%nat -> hexl l ->
  undigits l / 16 ^ N.of_nat k = undigits (firstn (length l - k) l).
Proof.
  intros Hk H. rewrite <- (firstn_skipn (length l - k) l) at 1. rewrite undigits_app.
  rewrite skipn_length. replace (length l - (length l - k))%nat with k by lia.
  rewrite N.div_add_l by (apply N.pow_nonzero; lia).
  rewrite N.div_small; [lia|].
  pose proof (undigits_lt _ (hexl_skipn (length l - k) l H)) as U. rewrite skipn_length in U.
  replace (length l - (length l - k))%nat with k in U by lia. exact U.
Qed.

Lemma undigits_mod l k : (k <= length l)%nat -> hexl l ->
  undigits l mod 16 ^ N.of_nat k = undigits (skipn (length l - k) l).
Proof.
  intros Hk H. rewrite <- (firstn_skipn (length l - k) l) at 1. rewrite undigits_app.
  rewrite skipn_length. replace (length l - (length l - k))%nat with k by lia.
  rewrite N.add_comm, N.mod_add by (apply N.pow_nonzero; lia).
  apply N.mod_small.
  pose proof (undigits_lt _ (hexl_skipn (length l - k) l H)) as U. rewrite skipn_length in U.
  replace (length l - (length l - k))%nat with k in U by lia. exact U.
Qed.

Lemma undigits_u512 l : hexl l -> (length l <= 128)%nat -> undigits l < 2 ^ 512.
Proof.
  intros H L. eapply N.lt_le_trans; [apply undigits_lt, H|]. rewrite pow16_2. apply pow2_le. lia.
Qed.

Lemma shl_enc l s : hexl l -> (length l + s <= 128)%nat ->
  u512_shl (undigits l) (N.of_nat s * 4) = undigits l * 16 ^ N.of_nat s.
Proof.
  intros H L. rewrite (shl_small _ _ (4 * N.of_nat (length l))).
  - rewrite pow16_2. f_equal. f_equal. lia.
  - rewrite <- pow16_2. apply undigits_lt, H.
  - lia.
Qed.

(** ** [usize] arithmetic in range *)
Lemma usub_ok pr a b : b <= a -> usub pr a b = Ok (a - b).
Proof. intros. unfold usub. destruct (N.leb_spec b a); [reflexivity|lia]. Qed.
Lemma uadd_ok pr a b : a + b < 18446744073709551616 -> uadd pr a b = Ok (a + b).
Proof. intros. unfold uadd, usize_range. destruct (N.ltb_spec (a + b) 18446744073709551616); [reflexivity|lia]. Qed.
Lemma umul_ok pr a b : a * b < 18446744073709551616 -> umul pr a b = Ok (a * b).
Proof. intros. unfold umul, usize_range. destruct (N.ltb_spec (a * b) 18446744073709551616); [reflexivity|lia]. Qed.
Lemma usub_debug a b : a < b -> usub Debug a b = Panic.
Proof. intros. unfold usub. destruct (N.leb_spec b a); [lia|reflexivity]. Qed.
Lemma usub_release a b : a < b -> usub Release a b = Ok (a + usize_range - b).
Proof. intros. unfold usub. destruct (N.leb_spec b a); [lia|reflexivity]. Qed.

(** ** The operations on encoded sequences *)
Lemma get_nibble_range_enc pr l s e :
  hexl l -> (length l <= 128)%nat -> (s <= e <= length l)%nat -> (e - s <= 127)%nat ->
  get_nibble_range pr (enc l) (N.of_nat s) (N.of_nat e) = Ok (enc (firstn (e - s) (skipn s l))).
Proof.
  intros H L [Hs He] Hr. unfold get_nibble_range. cbn [enc count packed].
  rewrite usub_ok by lia. cbn [bind].
  rewrite usub_ok by lia. cbn [bind].
  rewrite umul_ok by lia. cbn [bind]. rewrite umul_ok by lia. cbn [bind].
  rewrite mask_ok by lia. cbn [bind].
  set (k := (N.of_nat e - N.of_nat s) * 4). set (sh := (N.of_nat (length l) - N.of_nat e) * 4).
  assert (Hk : k = 4 * N.of_nat (e - s)) by (unfold k; lia).
  assert (Hsh : sh = 4 * N.of_nat (length l - e)) by (unfold sh; lia).
  rewrite (shl_small _ _ k) by (try apply ones_lt; lia).
  rewrite shr_spec.
  2:{ eapply N.le_lt_trans; [apply land_le_l|]. apply undigits_u512; assumption. }
  rewrite land_shifted_ones. rewrite Hk, Hsh, <- !pow16_2.
  rewrite undigits_div by (assumption || lia).
  replace (length l - (length l - e))%nat with e by lia.
  assert (Hfl : length (firstn e l) = e) by (rewrite firstn_length; lia).
  rewrite undigits_mod; [|lia|apply hexl_firstn, H].
  rewrite Hfl. replace (e - (e - s))%nat with s by lia.
  rewrite skipn_firstn_comm. unfold enc. rewrite firstn_length, skipn_length.
  repeat f_equal. lia.
Qed.

Lemma truncate_front_enc pr l k :
  hexl l -> (length l <= 127)%nat ->
  truncate_n_nibbles_front pr (enc l) (N.of_nat k) = Ok (enc (skipn k l)).
Proof.
  intros H L. unfold truncate_n_nibbles_front.
  replace (min_truncate (enc l) (N.of_nat k)) with (N.of_nat (Nat.min k (length l))).
  2:{ unfold min_truncate. cbn [enc count]. destruct (N.leb_spec (N.of_nat k) (N.of_nat (length l))); lia. }
  replace (skipn k l) with (skipn (Nat.min k (length l)) l).
  2:{ destruct (Nat.le_ge_cases k (length l)) as [Hl|Hl].
      - rewrite Nat.min_l by lia; reflexivity.
      - rewrite Nat.min_r by lia. rewrite !skipn_all2 by lia. reflexivity. }
  set (m := Nat.min k (length l)). assert (Hm : (m <= length l)%nat) by lia. clearbody m.
  cbn [enc count packed].
  repeat (rewrite umul_ok by lia; cbn [bind]).
  rewrite mask_ok by lia. cbn [bind].
  rewrite (shl_small _ _ (N.of_nat m * 4)) by (try apply ones_lt; lia).
  rewrite land_not_high.
  - replace ((N.of_nat (length l) - N.of_nat m) * 4) with (4 * N.of_nat (length l - m)) by lia.
    rewrite <- pow16_2. rewrite undigits_mod by (assumption || lia).
    replace (length l - (length l - m))%nat with m by lia.
    unfold enc. rewrite skipn_length. repeat f_equal. lia.
  - lia.
  - eapply N.lt_le_trans; [apply undigits_lt, H|]. rewrite pow16_2. apply pow2_le. lia.
Qed.

Lemma truncate_back_enc pr l k :
  hexl l -> (length l <= 127)%nat ->
  truncate_n_nibbles_back pr (enc l) (N.of_nat k) = Ok (enc (firstn (length l - k) l)).
Proof.
  intros H L. unfold truncate_n_nibbles_back.
  replace (min_truncate (enc l) (N.of_nat k)) with (N.of_nat (Nat.min k (length l))).
  2:{ unfold min_truncate. cbn [enc count]. destruct (N.leb_spec (N.of_nat k) (N.of_nat (length l))); lia. }
  replace (length l - k)%nat with (length l - Nat.min k (length l))%nat by lia.
  set (m := Nat.min k (length l)). assert (Hm : (m <= length l)%nat) by lia. clearbody m.
  cbn [enc count packed].
  rewrite umul_ok by lia. cbn [bind].
  rewrite mask_ok by lia. cbn [bind].
  rewrite shr_spec.
  2:{ eapply N.le_lt_trans; [apply land_le_l|]. apply undigits_u512; [assumption|lia]. }
  rewrite land_not_low by (try apply undigits_u512; try assumption; lia).
  replace (N.of_nat m * 4) with (4 * N.of_nat m) by lia.
  rewrite <- pow16_2. rewrite undigits_div by (assumption || lia).
  unfold enc. rewrite firstn_length. repeat f_equal. lia.
Qed.

Lemma byte_nibble p i : u512_byte p (i / 2) = Panic \/
  exists b, u512_byte p (i / 2) = Ok b /\
  (if is_even i then N.land b 15 else N.shiftr (N.land b 240) 4) = (p / 16 ^ i) mod 16.
Proof.
  unfold u512_byte. destruct (N.ltb_spec (i / 2) 64); [right|left; reflexivity].
  eexists; split; [reflexivity|].
  rewrite N.shiftr_div_pow2. change 255 with (N.ones 8). change 15 with (N.ones 4).
  change 240 with (N.ones 4 * 2 ^ 4). unfold is_even.
  rewrite !N.land_ones. change 1 with (N.ones 1). rewrite N.land_ones. change (2 ^ 1) with 2.
  change (2 ^ 4) with 16. change (2 ^ 8) with 256.
  destruct (N.eqb_spec (i mod 2) 0) as [E|E].
  - replace (16 ^ i) with (2 ^ (8 * (i / 2))) by (rewrite pow16_2; f_equal; lia).
    set (q := p / 2 ^ (8 * (i / 2))). lia.
  - rewrite N.shiftr_div_pow2. change 16 with (2 ^ 4) at 1. rewrite land_shifted_ones.
    replace (16 ^ i) with (2 ^ (8 * (i / 2)) * 16).
    2:{ rewrite pow16_2. change 16 with (2 ^ 4). rewrite <- N.pow_add_r. f_equal. lia. }
    rewrite <- N.div_div by (try apply N.pow_nonzero; lia).
    set (q := p / 2 ^ (8 * (i / 2))). change (2 ^ 4) with 16. lia.
Qed.

Lemma nth_error_undigits l i : hexl l -> (i < length l)%nat ->
  nth_error l i = Some ((undigits l / 16 ^ N.of_nat (length l - i - 1)) mod 16).
Proof.
  intros H Hi. rewrite undigits_div by (assumption || lia).
  replace (length l - (length l - i - 1))%nat with (S i) by lia.
  assert (Hf : length (firstn (S i) l) = S i) by (rewrite firstn_length; lia).
  change 16 with (16 ^ N.of_nat 1). rewrite undigits_mod; [|lia|apply hexl_firstn, H].
  rewrite Hf. replace (S i - 1)%nat with i by lia.
  destruct (nth_error l i) as [d|] eqn:E.
  - f_equal. rewrite skipn_firstn_comm. replace (S i - i)%nat with 1%nat by lia.
    clear Hf Hi H. revert l E; induction i as [|i IH]; intros l E; destruct l as [|x l]; try discriminate.
    + inversion E; subst. cbn [skipn firstn]. rewrite undigits_one. reflexivity.
    + cbn in E. cbn [skipn]. auto.
  - apply nth_error_None in E. lia.
Qed.

Lemma get_nibble_enc pr l i d :
  hexl l -> (length l <= 128)%nat -> nth_error l i = Some d ->
  get_nibble pr (enc l) (N.of_nat i) = Ok d.
Proof.
  intros H L E. assert (Hi : (i < length l)%nat) by (apply nth_error_Some; congruence).
  unfold get_nibble. cbn [enc count packed]. rewrite usub_ok by lia. cbn [bind].
  rewrite usub_ok by lia. cbn [bind].
  rewrite nth_error_undigits in E by assumption. inversion E as [E']. clear E.
  replace (N.of_nat (length l) - N.of_nat i - 1) with (N.of_nat (length l - i - 1)) by lia.
  set (j := N.of_nat (length l - i - 1)) in *.
  destruct (byte_nibble (undigits l) j) as [Hp|[b [Hb Hv]]].
  - unfold u512_byte in Hp. destruct (N.ltb_spec (j / 2) 64); [discriminate|lia].
  - rewrite Hb. cbn [bind]. rewrite Hv. reflexivity.
Qed.

(** Out of range reads panic in Debug always, and in Release unless the index is within 128 of [usize::MAX]. *)
Lemma get_nibble_out pr l i :
  (length l <= 128)%nat -> N.of_nat (length l) <= i ->
  (pr = Debug \/ i < usize_range - 128) -> get_nibble pr (enc l) i = Panic.
Proof.
  intros L Hi Hpr. unfold get_nibble. cbn [enc count packed].
  destruct pr.
  - destruct (N.eq_dec i (N.of_nat (length l))) as [->|Hne].
    + rewrite usub_ok by lia. cbn [bind]. rewrite usub_debug by lia. reflexivity.
    + rewrite usub_debug by lia. reflexivity.
  - destruct Hpr as [?|Hi2]; [discriminate|].
    assert (exists j, (c1 <- usub Release (N.of_nat (length l)) i;; usub Release c1 1) = Ok j /\ 128 <= j) as [j [Hj Hj2]].
    { unfold usub, usize_range in *. destruct (N.leb_spec i (N.of_nat (length l))) as [H1|H1]; cbn [bind].
      - destruct (N.leb_spec 1 (N.of_nat (length l) - i)) as [H2|H2]; cbn [bind]; [lia|]. eexists; split; [reflexivity|]. lia.
      - destruct (N.leb_spec 1 (N.of_nat (length l) + 18446744073709551616 - i)) as [H2|H2]; [|lia].
        eexists; split; [reflexivity|]. lia. }
    destruct (usub Release (N.of_nat (length l)) i) as [c1|]; cbn [bind] in *; [|reflexivity].
    rewrite Hj. cbn [bind]. unfold u512_byte. destruct (N.ltb_spec (j / 2) 64); [lia|reflexivity].
Qed.

Lemma nth_error_skipn_cons {A} (l : list A) i d : nth_error l i = Some d -> skipn i l = d :: skipn (S i) l.
Proof. revert l; induction i; intros [|x l] H; cbn in *; try discriminate; [inversion H; reflexivity|auto]. Qed.

Lemma pop_front_enc pr d l :
  hexl (d :: l) -> (length (d :: l) <= 127)%nat ->
  pop_next_nibble_front pr (enc (d :: l)) = Ok (d, enc l).
Proof.
  intros H L. unfold pop_next_nibble_front.
  change (get_nibble pr (enc (d :: l)) 0) with (get_nibble pr (enc (d :: l)) (N.of_nat 0)).
  rewrite (get_nibble_enc pr (d :: l) 0 d) by (auto; lia). cbn [bind].
  change 1 with (N.of_nat 1). rewrite truncate_front_enc by auto. reflexivity.
Qed.

Lemma pop_back_enc pr l d :
  hexl (l ++ [d]) -> (length (l ++ [d]) <= 127)%nat ->
  pop_next_nibble_back pr (enc (l ++ [d])) = Ok (d, enc l).
Proof.
  intros H L. unfold pop_next_nibble_back. rewrite count_enc.
  rewrite app_length in *. cbn [length] in *.
  rewrite usub_ok by lia. cbn [bind].
  replace (N.of_nat (length l + 1) - 1) with (N.of_nat (length l)) by lia.
  rewrite (get_nibble_enc pr _ _ d); [|assumption|rewrite app_length; cbn [length]; lia|].
  2:{ rewrite nth_error_app2 by lia. rewrite Nat.sub_diag. reflexivity. }
  cbn [bind].
  change 1 with (N.of_nat 1). rewrite truncate_back_enc by (auto; rewrite app_length; cbn [length]; lia).
  rewrite app_length. cbn [length]. replace (length l + 1 - 1)%nat with (length l) by lia.
  rewrite firstn_app, Nat.sub_diag, firstn_all, firstn_O, app_nil_r. reflexivity.
Qed.

Lemma pop_nibbles_front_enc pr l k :
  hexl l -> (length l <= 127)%nat -> (k <= length l)%nat ->
  pop_nibbles_front pr (enc l) (N.of_nat k) = Ok (enc (firstn k l), enc (skipn k l)).
Proof.
  intros H L Hk. unfold pop_nibbles_front. change 0 with (N.of_nat 0).
  rewrite get_nibble_range_enc by (auto; lia). cbn [bind].
  rewrite truncate_front_enc by auto. cbn [bind]. rewrite Nat.sub_0_r. reflexivity.
Qed.

(** ** [reverse] *)
Lemma firstn_S_nth {A} (l : list A) m d : nth_error l m = Some d -> firstn (S m) l = firstn m l ++ [d].
Proof. revert l; induction m; intros [|x l] H; try discriminate; [inversion H; reflexivity|]. cbn in H. cbn [firstn app]. f_equal. change (match l with [] => [] | a :: l0 => a :: firstn m l0 end) with (firstn (S m) l). auto. Qed.

Lemma lor_shl_digit pk d k : pk < 16 ^ k -> d < 16 -> k < 128 -> N.lor (u512_shl pk 4) d = pk * 16 + d.
Proof.
  intros Hp Hd Hk. rewrite (shl_small _ _ (4 * k)) by (try (rewrite <- pow16_2; assumption); lia).
  rewrite N.lor_comm. rewrite lor_disjoint by (change (2 ^ 4) with 16; assumption).
  change (2 ^ 4) with 16. lia.
Qed.

Lemma land_digit p i : i < 128 -> p < 2 ^ 512 ->
  u512_shr (N.land p (15 * 2 ^ (4 * i))) (i * 4) = (p / 16 ^ i) mod 16.
Proof.
  intros Hi Hp. rewrite shr_spec.
  - change 15 with (N.ones 4). rewrite (N.mul_comm i 4). rewrite land_shifted_ones.
    rewrite <- pow16_2. reflexivity.
  - eapply N.le_lt_trans; [apply land_le_l|assumption].
Qed.

Lemma reverse_loop_spec l m acc :
  hexl l -> (length l <= 128)%nat -> (m <= length l)%nat -> hexl acc -> length acc = (length l - m)%nat ->
  reverse_loop m (N.of_nat (length l - m)) (u512_shl 15 (4 * N.of_nat (length l - m))) (undigits l) (undigits acc)
  = undigits (acc ++ rev (firstn m l)).
Proof.
  revert acc. induction m as [|m IH]; intros acc H L Hm Ha La.
  - cbn [reverse_loop firstn rev]. rewrite app_nil_r. reflexivity.
  - cbn [reverse_loop].
    rewrite (shl_small 15 (4 * N.of_nat (length l - S m)) 4) by (try reflexivity; lia).
    rewrite land_digit by (try apply undigits_u512; try assumption; lia).
    assert (Hn := nth_error_undigits l m H Hm).
    replace (length l - m - 1)%nat with (length l - S m)%nat in Hn by lia.
    set (d := (undigits l / 16 ^ N.of_nat (length l - S m)) mod 16) in *.
    assert (Hd : d < 16) by (unfold d; lia).
    rewrite (lor_shl_digit _ d (N.of_nat (length acc))) by (try apply undigits_lt; try assumption; lia).
    replace (undigits acc * 16 + d) with (undigits (acc ++ [d])).
    2:{ rewrite undigits_app, undigits_one. reflexivity. }
    replace (N.of_nat (length l - S m) + 1) with (N.of_nat (length l - m)) by lia.
    replace (u512_shl (15 * 2 ^ (4 * N.of_nat (length l - S m))) 4) with (u512_shl 15 (4 * N.of_nat (length l - m))).
    2:{ replace (4 * N.of_nat (length l - m)) with (4 * N.of_nat (length l - S m) + 4) by lia.
        set (s := 4 * N.of_nat (length l - S m)).
        assert (Hs : s <= 508) by lia.
        unfold u512_shl, u512_bits.
        destruct (N.leb_spec 512 4); [lia|].
        rewrite !N.land_ones, !N.shiftl_mul_pow2.
        destruct (N.leb_spec 512 (s + 4)).
        - assert (s = 508) by lia. rewrite H2. vm_compute. reflexivity.
        - rewrite N.pow_add_r. f_equal. lia. }
    rewrite IH; try assumption; try lia.
    + f_equal. rewrite (firstn_S_nth l m d Hn). rewrite rev_app_distr, <- app_assoc. reflexivity.
    + apply hexl_app; split; [assumption|repeat constructor; assumption].
    + rewrite app_length. cbn [length]. lia.
Qed.
