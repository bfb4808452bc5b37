(** More proofs about [Nibbles]: merging, splitting, comparing, text and hex-prefix. *)
From Verif Require Import Base Nibbles NibblesSpec NibblesFacts.
Open Scope N_scope.
Ltac Zify.zify_post_hook ::= Z.div_mod_to_equations.
Local Arguments N.mul : simpl never.
Local Arguments N.add : simpl never.
Local Arguments N.sub : simpl never.
Local Arguments N.pow : simpl never.
Local Arguments N.div : simpl never.
Local Arguments N.modulo : simpl never.

Lemma reverse_enc l : hexl l -> (length l <= 128)%nat -> reverse (enc l) = enc (rev l).
Proof.
  intros H L. unfold reverse, enc. cbn [count packed]. rewrite rev_length, Nat2N.id. f_equal.
  pose proof (reverse_loop_spec l (length l) [] H L) as R.
  rewrite Nat.sub_diag in R. rewrite firstn_all in R. apply R; try lia; constructor.
Qed.

Lemma pop_nibbles_back_enc pr l k :
  hexl l -> (length l <= 127)%nat -> (k <= length l)%nat ->
  pop_nibbles_back pr (enc l) (N.of_nat k) = Ok (enc (rev (skipn (length l - k) l)), enc (firstn (length l - k) l)).
Proof.
  intros H L Hk. unfold pop_nibbles_back. rewrite count_enc. rewrite usub_ok by lia. cbn [bind].
  replace (N.of_nat (length l) - N.of_nat k) with (N.of_nat (length l - k)) by lia.
  rewrite get_nibble_range_enc by (auto; lia). cbn [bind].
  rewrite truncate_back_enc by auto. cbn [bind].
  rewrite (firstn_all2 (skipn _ _)) by (rewrite skipn_length; lia).
  rewrite reverse_enc; [reflexivity|apply hexl_skipn, H|rewrite skipn_length; lia].
Qed.

(** ** Pushing and merging *)
Lemma append_asserts l d : (length l < 64)%nat -> d < 16 -> nibble_append_safety_asserts (enc l) d = Ok tt.
Proof.
  intros L Hd. unfold nibble_append_safety_asserts, assert. rewrite count_enc.
  destruct (N.ltb_spec (N.of_nat (length l)) 64); [|lia]. cbn [bind].
  destruct (N.ltb_spec d 16); [reflexivity|lia].
Qed.

Lemma append_asserts_panic l d : (64 <= length l)%nat \/ 16 <= d -> nibble_append_safety_asserts (enc l) d = Panic.
Proof.
  intros L. unfold nibble_append_safety_asserts, assert. rewrite count_enc.
  destruct (N.ltb_spec (N.of_nat (length l)) 64); [|reflexivity]. cbn [bind].
  destruct (N.ltb_spec d 16); [lia|reflexivity].
Qed.

Lemma push_front_enc l d :
  hexl l -> (length l < 64)%nat -> d < 16 -> push_nibble_front (enc l) d = Ok (enc (d :: l)).
Proof.
  intros H L Hd. unfold push_nibble_front. rewrite append_asserts by assumption. cbn [bind enc count packed].
  rewrite (shl_small d _ 4) by (assumption || lia).
  rewrite lor_disjoint by (rewrite <- pow16_2; apply undigits_lt, H).
  rewrite <- pow16_2. unfold enc. cbn [length]. rewrite undigits_cons. do 2 f_equal; lia.
Qed.

Lemma push_back_common l d : hexl l -> (length l < 64)%nat -> d < 16 ->
  Nib (count (enc l) + 1) (N.lor (u512_shl (packed (enc l)) 4) d) = enc (l ++ [d]).
Proof.
  intros H L Hd. cbn [enc count packed].
  rewrite (lor_shl_digit _ d (N.of_nat (length l))) by (try apply undigits_lt; try assumption; lia).
  unfold enc. rewrite app_length, undigits_app, undigits_one. cbn [length].
  change (16 ^ N.of_nat 1) with 16. f_equal; lia.
Qed.

Lemma push_back_enc l d :
  hexl l -> (length l < 64)%nat -> d < 16 -> push_nibble_back (enc l) d = Ok (enc (l ++ [d])).
Proof.
  intros H L Hd. unfold push_nibble_back. rewrite append_asserts by assumption. cbn [bind].
  rewrite push_back_common by assumption. reflexivity.
Qed.

Lemma merge_nibble_enc l d :
  hexl l -> (length l < 64)%nat -> d < 16 -> merge_nibble (enc l) d = Ok (enc (l ++ [d])).
Proof.
  intros H L Hd. unfold merge_nibble. rewrite append_asserts by assumption. cbn [bind].
  rewrite push_back_common by assumption. reflexivity.
Qed.

Lemma merge_nibbles_enc pr a b :
  hexl a -> hexl b -> (length a + length b <= 64)%nat -> merge_nibbles pr (enc a) (enc b) = Ok (enc (a ++ b)).
Proof.
  intros Ha Hb L. unfold merge_nibbles. cbn [enc count packed].
  rewrite uadd_ok by lia. cbn [bind]. unfold assert.
  destruct (N.leb_spec (N.of_nat (length a) + N.of_nat (length b)) 64); [|lia]. cbn [bind].
  rewrite umul_ok by lia. cbn [bind].
  rewrite shl_enc by (assumption || lia).
  rewrite N.lor_comm, pow16_2, lor_disjoint by (rewrite <- pow16_2; apply undigits_lt, Hb).
  rewrite <- pow16_2. unfold enc. rewrite app_length, undigits_app. do 2 f_equal; lia.
Qed.

Lemma merge_nibbles_panic pr a b :
  (length a <= 128)%nat -> (length b <= 128)%nat -> (64 < length a + length b)%nat ->
  merge_nibbles pr (enc a) (enc b) = Panic.
Proof.
  intros La Lb L. unfold merge_nibbles. cbn [enc count packed].
  rewrite uadd_ok by lia. cbn [bind]. unfold assert.
  destruct (N.leb_spec (N.of_nat (length a) + N.of_nat (length b)) 64); [lia|]. reflexivity.
Qed.

Lemma push_nibbles_front_enc pr l m :
  hexl l -> hexl m -> (length l + length m <= 64)%nat -> push_nibbles_front pr (enc l) (enc m) = Ok (enc (m ++ l)).
Proof.
  intros Ha Hb L. unfold push_nibbles_front. cbn [enc count packed].
  rewrite uadd_ok by lia. cbn [bind]. unfold assert.
  destruct (N.leb_spec (N.of_nat (length l) + N.of_nat (length m)) 64); [|lia]. cbn [bind].
  rewrite umul_ok by lia. cbn [bind]. rewrite (N.mul_comm 4).
  rewrite shl_enc by (assumption || lia).
  rewrite pow16_2, lor_disjoint by (rewrite <- pow16_2; apply undigits_lt, Ha).
  rewrite <- pow16_2. unfold enc. rewrite app_length, undigits_app. do 2 f_equal; lia.
Qed.

Lemma push_nibbles_front_panic pr l m :
  (length l <= 128)%nat -> (length m <= 128)%nat -> (64 < length l + length m)%nat ->
  push_nibbles_front pr (enc l) (enc m) = Panic.
Proof.
  intros La Lb L. unfold push_nibbles_front. cbn [enc count packed].
  rewrite uadd_ok by lia. cbn [bind]. unfold assert.
  destruct (N.leb_spec (N.of_nat (length l) + N.of_nat (length m)) 64); [lia|]. reflexivity.
Qed.

(** ** Splitting *)
Lemma split_at_idx_enc pr l i :
  hexl l -> (length l <= 127)%nat -> (i <= length l)%nat ->
  split_at_idx pr (enc l) (N.of_nat i) = Ok (enc (firstn i l), enc (skipn i l)).
Proof.
  intros H L Hi. unfold split_at_idx. cbn [enc count packed].
  rewrite usub_ok by lia. cbn [bind]. rewrite umul_ok by lia. cbn [bind].
  rewrite mask_ok by lia. cbn [bind].
  replace ((N.of_nat (length l) - N.of_nat i) * 4) with (4 * N.of_nat (length l - i)) by lia.
  rewrite shr_spec.
  2:{ eapply N.le_lt_trans; [apply land_le_l|]. apply undigits_u512; [assumption|lia]. }
  rewrite land_not_low by (try apply undigits_u512; try assumption; lia).
  rewrite N.land_ones, <- pow16_2.
  rewrite undigits_div, undigits_mod by (assumption || lia).
  replace (length l - (length l - i))%nat with i by lia.
  unfold enc. rewrite firstn_length, skipn_length. repeat f_equal; lia.
Qed.

Lemma split_at_idx_prefix_enc pr l i :
  hexl l -> (length l <= 127)%nat -> (i <= length l)%nat ->
  split_at_idx_prefix pr (enc l) (N.of_nat i) = Ok (enc (firstn i l)).
Proof.
  intros H L Hi. pose proof (get_nibble_range_enc pr l 0 i H) as G.
  unfold get_nibble_range in G. unfold split_at_idx_prefix. cbn [enc count packed] in *.
  rewrite (usub_ok pr (N.of_nat i)) in G by lia. cbn [bind] in G.
  rewrite usub_ok in * by lia. cbn [bind] in *. rewrite umul_ok in * by lia. cbn [bind] in *.
  rewrite N.sub_0_r in G. rewrite umul_ok in * by lia. cbn [bind] in *.
  rewrite mask_ok in * by lia. cbn [bind] in *. rewrite Nat.sub_0_r in G. cbn [skipn] in G.
  apply G; lia.
Qed.

Lemma split_at_idx_postfix_enc pr l i :
  hexl l -> (length l <= 127)%nat -> (i <= length l)%nat ->
  split_at_idx_postfix pr (enc l) (N.of_nat i) = Ok (enc (skipn i l)).
Proof.
  intros H L Hi. unfold split_at_idx_postfix. cbn [enc count packed].
  rewrite usub_ok by lia. cbn [bind]. rewrite umul_ok by lia. cbn [bind].
  rewrite mask_ok by lia. cbn [bind].
  replace ((N.of_nat (length l) - N.of_nat i) * 4) with (4 * N.of_nat (length l - i)) by lia.
  rewrite N.land_ones, <- pow16_2. rewrite undigits_mod by (assumption || lia).
  replace (length l - (length l - i))%nat with i by lia.
  unfold enc. rewrite skipn_length. repeat f_equal; lia.
Qed.

(** ** Common prefixes *)
Lemma lcp_le a b : (lcp a b <= length a)%nat /\ (lcp a b <= length b)%nat.
Proof.
  revert b; induction a as [|x a IH]; intros [|y b]; cbn [lcp length]; try lia.
  destruct (x =? y); [|lia]. specialize (IH b). lia.
Qed.

Lemma lcp_firstn a b : firstn (lcp a b) a = firstn (lcp a b) b.
Proof.
  revert b; induction a as [|x a IH]; intros [|y b]; cbn [lcp]; try reflexivity.
  destruct (N.eqb_spec x y); [|reflexivity]. subst. cbn [firstn]. rewrite IH. reflexivity.
Qed.

Lemma lcp_max a b k : (k <= length a)%nat -> (k <= length b)%nat -> firstn k a = firstn k b -> (k <= lcp a b)%nat.
Proof.
  revert b k; induction a as [|x a IH]; intros [|y b] k Ha Hb E; cbn [lcp length] in *; try lia.
  destruct k as [|k]; [lia|]. cbn [firstn] in E. injection E as E1 E2. subst.
  rewrite N.eqb_refl. assert (k <= lcp a b)%nat; [|lia]. apply IH; try lia. exact E2.
Qed.

Lemma lcp_comm a b : lcp a b = lcp b a.
Proof.
  revert b; induction a as [|x a IH]; intros [|y b]; cbn [lcp]; try reflexivity.
  rewrite N.eqb_sym. destruct (y =? x); [rewrite IH|]; reflexivity.
Qed.

Lemma lcp_refl a : lcp a a = length a.
Proof. induction a as [|x a IH]; cbn; [reflexivity|]. rewrite N.eqb_refl, IH. reflexivity. Qed.

Lemma lcp_app_l a b : lcp a (a ++ b) = length a.
Proof. induction a as [|x a IH]; cbn; [reflexivity|]. rewrite N.eqb_refl, IH. reflexivity. Qed.

Lemma lcp_app p a b : lcp (p ++ a) (p ++ b) = (length p + lcp a b)%nat.
Proof. induction p as [|x p IH]; cbn; [reflexivity|]. rewrite N.eqb_refl, IH. reflexivity. Qed.

Lemma lcp_full_prefix a b : lcp a b = length a -> is_prefix a b.
Proof.
  intros E. exists (skipn (length a) b). pose proof (lcp_firstn a b) as F. rewrite E in F.
  rewrite firstn_all in F. rewrite F at 1. symmetry. apply firstn_skipn.
Qed.

(** Two sequences split at their longest common prefix. *)
Lemma lcp_decomp a b : exists p a' b', a = p ++ a' /\ b = p ++ b' /\ length p = lcp a b /\
  match a', b' with x :: _, y :: _ => x <> y | _, _ => True end.
Proof.
  revert b; induction a as [|x a IH]; intros b.
  - exists [], [], b. repeat split; destruct b; reflexivity.
  - destruct b as [|y b].
    + exists [], (x :: a), []. repeat split.
    + cbn [lcp]. destruct (N.eqb_spec x y) as [->|Hn].
      * destruct (IH b) as (p & a' & b' & E1 & E2 & E3 & E4).
        exists (y :: p), a', b'. cbn. rewrite <- E1, <- E2, E3. auto.
      * exists [], (x :: a), (y :: b). auto.
Qed.

Lemma identical_loop_enc pr a b m i :
  hexl a -> hexl b -> (length a <= 128)%nat -> (length b <= 128)%nat ->
  (i + m <= length a)%nat -> (i + m <= length b)%nat ->
  identical_loop pr m (N.of_nat i) (enc a) (enc b) = Ok (Nat.leb m (lcp (skipn i a) (skipn i b))).
Proof.
  intros Ha Hb La Lb. revert i; induction m as [|m IH]; intros i H1 H2; [reflexivity|].
  cbn [identical_loop].
  destruct (nth_error a i) as [x|] eqn:Ex; [|apply nth_error_None in Ex; lia].
  destruct (nth_error b i) as [y|] eqn:Ey; [|apply nth_error_None in Ey; lia].
  rewrite (get_nibble_enc pr a i x), (get_nibble_enc pr b i y) by assumption. cbn [bind].
  rewrite (nth_error_skipn_cons _ _ _ Ex), (nth_error_skipn_cons _ _ _ Ey). cbn [lcp].
  destruct (x =? y); [|reflexivity].
  replace (N.of_nat i + 1) with (N.of_nat (S i)) by lia. rewrite IH by lia. reflexivity.
Qed.

Lemma identical_enc pr a b :
  hexl a -> hexl b -> (length a <= 128)%nat -> (length b <= 128)%nat ->
  identical_up_to_smallest pr (enc a) (enc b) = Ok (Nat.leb (Nat.min (length a) (length b)) (lcp a b)).
Proof.
  intros Ha Hb La Lb. unfold identical_up_to_smallest. rewrite !count_enc.
  replace (N.to_nat (N.min (N.of_nat (length a)) (N.of_nat (length b)))) with (Nat.min (length a) (length b)) by lia.
  change 0 with (N.of_nat 0). rewrite identical_loop_enc by (assumption || lia). reflexivity.
Qed.

Lemma land_mask p i : N.land p (15 * 2 ^ (4 * i)) = ((p / 16 ^ i) mod 16) * 16 ^ i.
Proof.
  rewrite pow16_2. set (s := 4 * i). change 16 with (2 ^ 4). change 15 with (N.ones 4).
  rewrite <- N.land_ones, <- !N.shiftl_mul_pow2, <- N.shiftr_div_pow2.
  apply N.bits_inj. intros j. rewrite N.land_spec. destruct (N.lt_ge_cases j s).
  - rewrite !N.shiftl_spec_low by lia. apply andb_false_r.
  - rewrite !N.shiftl_spec_high' by lia. rewrite N.land_spec, N.shiftr_spec'. repeat f_equal. lia.
Qed.

Lemma find_diff_loop_enc a b m :
  hexl a -> hexl b -> length a = length b -> (length a <= 128)%nat -> (m <= length a)%nat ->
  find_diff_loop m (N.of_nat (length a - m)) (if Nat.eqb m 0 then 0 else 15 * 2 ^ (4 * N.of_nat (m - 1)))
    (undigits a) (undigits b) =
  (let k := lcp (skipn (length a - m) a) (skipn (length a - m) b) in
   if Nat.eqb k m then None else Some (N.of_nat (length a - m + k))).
Proof.
  intros Ha Hb E L. induction m as [|m IH]; intros Hm.
  - rewrite Nat.sub_0_r. rewrite !skipn_all2 by lia. reflexivity.
  - cbn [find_diff_loop Nat.eqb]. rewrite !land_mask.
    assert (Hi : (length a - S m < length a)%nat) by lia.
    pose proof (nth_error_undigits a _ Ha Hi) as Na.
    assert (Hj : (length a - S m < length b)%nat) by lia.
    pose proof (nth_error_undigits b _ Hb Hj) as Nb.
    replace (length a - (length a - S m) - 1)%nat with (S m - 1)%nat in Na by lia.
    replace (length b - (length a - S m) - 1)%nat with (S m - 1)%nat in Nb by lia.
    set (x := (undigits a / 16 ^ N.of_nat (S m - 1)) mod 16) in *.
    set (y := (undigits b / 16 ^ N.of_nat (S m - 1)) mod 16) in *.
    rewrite (nth_error_skipn_cons _ _ _ Na), (nth_error_skipn_cons _ _ _ Nb).
    cbn [lcp]. replace (S (length a - S m)) with (length a - m)%nat by lia.
    destruct (N.eqb_spec x y) as [Exy|Exy].
    + rewrite Exy, N.eqb_refl. cbv zeta.
      replace (N.of_nat (length a - S m) + 1) with (N.of_nat (length a - m)) by lia.
      replace (u512_shr (15 * 2 ^ (4 * N.of_nat (S m - 1))) 4)
        with (if Nat.eqb m 0 then 0 else 15 * 2 ^ (4 * N.of_nat (m - 1))).
      * rewrite IH by lia. cbv zeta.
        set (k := lcp _ _). cbn [Nat.eqb]. destruct (Nat.eqb_spec k m); [reflexivity|]. do 2 f_equal. lia.
      * rewrite shr_spec.
        -- destruct m as [|m]; [reflexivity|]. cbn [Nat.eqb].
           replace (4 * N.of_nat (S (S m) - 1)) with (4 * N.of_nat (S m - 1) + 4) by lia.
           rewrite N.pow_add_r, N.mul_assoc. symmetry. apply N.div_mul. vm_compute. discriminate.
        -- apply N.lt_le_trans with (2 ^ 4 * 2 ^ (4 * N.of_nat (S m - 1))).
           ++ apply N.mul_lt_mono_pos_r; [apply pow2_pos|reflexivity].
           ++ rewrite <- N.pow_add_r. apply pow2_le. lia.
    + destruct (N.eqb_spec (x * 16 ^ N.of_nat (S m - 1)) (y * 16 ^ N.of_nat (S m - 1))) as [E2|E2].
      * exfalso. apply Exy. apply N.mul_cancel_r in E2; [assumption|]. apply N.pow_nonzero. lia.
      * cbn [Nat.eqb]. cbv zeta. f_equal. lia.
Qed.

Lemma find_diff_equal_enc pr a b :
  hexl a -> hexl b -> length a = length b -> (length a <= 128)%nat ->
  find_diff_equal pr (enc a) (enc b) = Ok (N.of_nat (lcp a b)).
Proof.
  intros Ha Hb E L. unfold find_diff_equal, assert. cbn [enc count packed]. rewrite <- E, N.eqb_refl. cbn [bind].
  destruct (N.eqb_spec (N.of_nat (length a)) 0) as [E0|E0].
  - destruct a; [reflexivity|cbn in E0; lia].
  - rewrite umul_ok by lia. cbn [bind].
    pose proof (find_diff_loop_enc a b (length a) Ha Hb E L) as F.
    rewrite Nat2N.id. rewrite (shl_small 15 _ 4) by (try reflexivity; lia).
    rewrite Nat.sub_diag in F. cbn [skipn] in F.
    destruct (Nat.eqb_spec (length a) 0) as [E1|E1]; [lia|].
    replace ((N.of_nat (length a) - 1) * 4) with (4 * N.of_nat (length a - 1)) by lia.
    change (N.of_nat 0) with 0 in F. rewrite F by lia. cbv zeta.
    destruct (Nat.eqb_spec (lcp a b) (length a)) as [E2|E2].
    + rewrite E2. reflexivity.
    + reflexivity.
Qed.

Lemma find_diff_equal_panic pr a b : length a <> length b -> find_diff_equal pr (enc a) (enc b) = Panic.
Proof.
  intros E. unfold find_diff_equal, assert. rewrite !count_enc.
  destruct (N.eqb_spec (N.of_nat (length a)) (N.of_nat (length b))); [lia|reflexivity].
Qed.

Lemma lcp_firstn_min a b :
  lcp (firstn (Nat.min (length a) (length b)) a) (firstn (Nat.min (length a) (length b)) b) = lcp a b.
Proof.
  revert b; induction a as [|x a IH]; intros [|y b]; cbn [length Nat.min firstn lcp]; try reflexivity.
  destruct (x =? y); [rewrite IH|]; reflexivity.
Qed.

Lemma find_diff_enc pr a b :
  hexl a -> hexl b -> (length a <= 127)%nat -> (length b <= 127)%nat ->
  find_diff pr (enc a) (enc b) = Ok (N.of_nat (lcp a b)).
Proof.
  intros Ha Hb La Lb. unfold find_diff. rewrite !count_enc.
  replace (N.min (N.of_nat (length a)) (N.of_nat (length b))) with (N.of_nat (Nat.min (length a) (length b))) by lia.
  change 0 with (N.of_nat 0).
  rewrite !get_nibble_range_enc by (assumption || lia). cbn [bind]. rewrite Nat.sub_0_r. cbn [skipn].
  rewrite find_diff_equal_enc; try (apply hexl_firstn; assumption); rewrite ?firstn_length; try lia.
  rewrite lcp_firstn_min. reflexivity.
Qed.

(** ** Out of range pops *)
Lemma range_short_release l k :
  (length l < k)%nat -> (k <= 127)%nat ->
  get_nibble_range Release (enc l) 0 (N.of_nat k) = Ok (Nib (N.of_nat k) 0).
Proof.
  intros H K. unfold get_nibble_range. cbn [enc count packed].
  rewrite usub_ok by lia. cbn [bind]. rewrite usub_release by lia. cbn [bind].
  unfold umul at 1. unfold usize_range.
  set (d := N.of_nat (length l) + 18446744073709551616 - N.of_nat k).
  destruct (N.ltb_spec (d * 4) 18446744073709551616) as [Hd|Hd]; [unfold d in Hd; lia|]. cbn [bind].
  rewrite umul_ok by lia. cbn [bind]. rewrite mask_ok by lia. cbn [bind].
  assert (Hs : 512 <= (d * 4) mod 18446744073709551616).
  { replace (d * 4) with (18446744073709551616 - 4 * (N.of_nat k - N.of_nat (length l)) + 3 * 18446744073709551616).
    - rewrite N.mod_add by lia. rewrite N.mod_small by lia. lia.
    - unfold d. lia. }
  unfold u512_shl, u512_shr, u512_bits.
  destruct (N.leb_spec 512 ((d * 4) mod 18446744073709551616)); [|lia].
  rewrite N.sub_0_r. reflexivity.
Qed.

Lemma pop_nibbles_front_short_release l k :
  hexl l -> (length l < k)%nat -> (k <= 127)%nat ->
  pop_nibbles_front Release (enc l) (N.of_nat k) = Ok (Nib (N.of_nat k) 0, enc []).
Proof.
  intros Hl H K. unfold pop_nibbles_front. rewrite range_short_release by lia. cbn [bind].
  rewrite truncate_front_enc by (assumption || lia). cbn [bind]. rewrite skipn_all2 by lia. reflexivity.
Qed.

Lemma pop_nibbles_front_short_debug l k :
  (length l < k)%nat -> pop_nibbles_front Debug (enc l) (N.of_nat k) = Panic.
Proof.
  intros H. unfold pop_nibbles_front, get_nibble_range. cbn [enc count packed].
  rewrite usub_ok by lia. cbn [bind]. rewrite usub_debug by lia. reflexivity.
Qed.

(** ** Bytes *)
Lemma be_bytes_length k p : length (be_bytes k p) = k.
Proof. revert p; induction k; intros p; cbn [be_bytes]; [reflexivity|]. rewrite app_length, IHk. cbn; lia. Qed.

Lemma be_bytes_app a b p : be_bytes (a + b) p = be_bytes a (p / 256 ^ N.of_nat b) ++ be_bytes b p.
Proof.
  revert p; induction b as [|b IH]; intros p.
  - rewrite Nat.add_0_r. cbn [be_bytes]. rewrite app_nil_r. change (256 ^ N.of_nat 0) with 1. rewrite N.div_1_r. reflexivity.
  - rewrite Nat.add_succ_r. cbn [be_bytes]. rewrite IH, app_assoc. do 3 f_equal.
    rewrite Nat2N.inj_succ, N.pow_succ_r'. rewrite N.div_div by (try apply N.pow_nonzero; lia). reflexivity.
Qed.

Lemma be_bytes_skipn a b p : skipn a (be_bytes (a + b) p) = be_bytes b p.
Proof.
  rewrite be_bytes_app. rewrite skipn_app, be_bytes_length, Nat.sub_diag.
  rewrite skipn_all2 by (rewrite be_bytes_length; lia). reflexivity.
Qed.

Lemma be_bytes_bytesl k p : bytesl (be_bytes k p).
Proof. revert p; induction k; intros p; cbn [be_bytes]; [constructor|]. apply Forall_app; split; [apply IHk|repeat constructor; lia]. Qed.

Lemma list_pair_ind {A} (P : list A -> Prop) :
  P [] -> (forall a, P [a]) -> (forall a b l, P l -> P (a :: b :: l)) -> forall l, P l.
Proof.
  intros H0 H1 H2. fix IH 1. intros [|a [|b l]]; [apply H0|apply H1|apply H2, IH].
Qed.

Lemma pair_up_length l : Nat.even (length l) = true -> length (pair_up l) = Nat.div2 (length l).
Proof. induction l using list_pair_ind; intros E; cbn in *; try reflexivity. rewrite IHl by exact E. reflexivity. Qed.

Lemma pair_up_snoc2 l a b : Nat.even (length l) = true -> pair_up (l ++ [a; b]) = pair_up l ++ [16 * a + b].
Proof.
  induction l using list_pair_ind; intros E.
  - reflexivity.
  - discriminate.
  - cbn [app pair_up]. rewrite IHl by exact E. reflexivity.
Qed.

Lemma list_rev_pair_ind {A} (P : list A -> Prop) :
  P [] -> (forall a, P [a]) -> (forall a b l, P l -> P (l ++ [a; b])) -> forall l, P l.
Proof.
  intros H0 H1 H2 l. rewrite <- (rev_involutive l). induction (rev l) as [|a|a b m IH] using list_pair_ind.
  - apply H0.
  - apply H1.
  - cbn [rev]. rewrite <- app_assoc. apply H2, IH.
Qed.

Lemma pow256 k : 256 ^ k = 16 ^ (2 * k).
Proof. rewrite N.pow_mul_r. reflexivity. Qed.

(** The low bytes of a sequence are its last digits in pairs. *)
Lemma be_bytes_undigits k h r : hexl (h ++ r) -> length r = (2 * k)%nat ->
  be_bytes k (undigits (h ++ r)) = pair_up r.
Proof.
  revert h r; induction k as [|k IH]; intros h r H L.
  - destruct r; [reflexivity|cbn in L; lia].
  - assert (exists r' a b, r = r' ++ [a; b]) as (r' & a & b & ->).
    { destruct (rev r) as [|b [|a m]] eqn:E.
      - apply (f_equal (@rev N)) in E. rewrite rev_involutive in E. subst. cbn in L. lia.
      - apply (f_equal (@rev N)) in E. rewrite rev_involutive in E. subst. cbn in L. lia.
      - apply (f_equal (@rev N)) in E. rewrite rev_involutive in E. subst. exists (rev m), a, b.
        cbn [rev]. rewrite <- app_assoc. reflexivity. }
    rewrite app_length in L. cbn [length] in L.
    rewrite pair_up_snoc2.
    2:{ rewrite Nat.even_spec. exists k. lia. }
    cbn [be_bytes]. rewrite app_assoc, (undigits_app (h ++ r')). cbn [length].
    change (16 ^ N.of_nat 2) with 256.
    assert (Hab : undigits [a; b] = 16 * a + b) by (unfold undigits; cbn [fold_left]; lia).
    rewrite Hab. rewrite app_assoc in H. apply hexl_app in H. destruct H as [H1 H2].
    inversion H2 as [|? ? Ha H3]; subst. inversion H3 as [|? ? Hb _]; subst.
    replace ((undigits (h ++ r') * 256 + (16 * a + b)) / 256) with (undigits (h ++ r')) by lia.
    replace ((undigits (h ++ r') * 256 + (16 * a + b)) mod 256) with (16 * a + b) by lia.
    rewrite IH by (assumption || lia). reflexivity.
Qed.

Lemma unpair_length l : length (unpair l) = (2 * length l)%nat.
Proof. induction l; cbn [unpair length]; lia. Qed.

Lemma unpair_hexl l : bytesl l -> hexl (unpair l).
Proof. induction 1; cbn [unpair]; repeat constructor; try lia; assumption. Qed.

Lemma unpair_app a b : unpair (a ++ b) = unpair a ++ unpair b.
Proof. induction a; cbn; [reflexivity|]. rewrite IHa. reflexivity. Qed.

Lemma unpair_pair_up l : hexl l -> Nat.even (length l) = true -> unpair (pair_up l) = l.
Proof.
  induction l as [| |a b l IH] using list_pair_ind; intros H E; [reflexivity|discriminate|].
  inversion H as [|? ? Ha H3]; subst. inversion H3 as [|? ? Hb H4]; subst.
  cbn [pair_up unpair]. rewrite IH by assumption. f_equal; [lia|f_equal; lia].
Qed.

Lemma pair_up_unpair l : bytesl l -> pair_up (unpair l) = l.
Proof. induction 1; cbn [pair_up unpair]; [reflexivity|]. rewrite IHForall. f_equal. lia. Qed.

Lemma pair_up_bytesl l : hexl l -> bytesl (pair_up l).
Proof.
  induction l as [| |a b l IH] using list_pair_ind; intros H; [constructor|constructor|].
  inversion H as [|? ? Ha H3]; subst. inversion H3 as [|? ? Hb H4]; subst.
  cbn [pair_up]. constructor; [lia|apply IH, H4].
Qed.

Lemma fold_from_be l a : fold_left (fun a b => a * 256 + b) l a = a * 256 ^ N.of_nat (length l) + from_be l.
Proof.
  revert a; induction l as [|d l IH]; intros a; cbn [fold_left length].
  - unfold from_be. cbn. lia.
  - unfold from_be. cbn [fold_left]. rewrite IH. rewrite (IH (0 * 256 + d)).
    rewrite Nat2N.inj_succ, N.pow_succ_r'. lia.
Qed.

Lemma from_be_app a b : from_be (a ++ b) = from_be a * 256 ^ N.of_nat (length b) + from_be b.
Proof. unfold from_be. rewrite fold_left_app. apply fold_from_be. Qed.

Lemma from_be_unpair l : bytesl l -> from_be l = undigits (unpair l).
Proof.
  induction 1 as [|b l Hb Hl IH]; [reflexivity|].
  change (b :: l) with ([b] ++ l). rewrite from_be_app, unpair_app, undigits_app, IH.
  rewrite unpair_length. f_equal. rewrite pow256. f_equal.
  - unfold from_be, undigits. cbn [fold_left unpair]. lia.
  - f_equal. lia.
Qed.

Lemma from_be_lt l : bytesl l -> from_be l < 256 ^ N.of_nat (length l).
Proof.
  intros H. rewrite from_be_unpair by assumption. pose proof (undigits_lt _ (unpair_hexl _ H)) as U.
  rewrite unpair_length in U. rewrite pow256. replace (2 * N.of_nat (length l)) with (N.of_nat (2 * length l)) by lia. exact U.
Qed.

Lemma bytesl_rev l : bytesl l -> bytesl (rev l).
Proof. apply Forall_rev. Qed.

Lemma from_bytes_be_enc l : bytesl l -> l <> [] -> (length l <= 33)%nat ->
  from_bytes_be l = ROk (enc (unpair l)).
Proof.
  intros H Hn L. unfold from_bytes_be, from_bytes. destruct l as [|b l]; [congruence|].
  destruct (N.ltb_spec 33 (N.of_nat (length (b :: l)))); [lia|].
  unfold enc. rewrite unpair_length, from_be_unpair by assumption. do 2 f_equal. lia.
Qed.

Lemma from_bytes_le_enc l : bytesl l -> l <> [] -> (length l <= 33)%nat ->
  from_bytes_le l = ROk (enc (unpair (rev l))).
Proof.
  intros H Hn L. unfold from_bytes_le, from_bytes. destruct l as [|b l]; [congruence|].
  destruct (N.ltb_spec 33 (N.of_nat (length (b :: l)))); [lia|].
  unfold enc, from_le. rewrite unpair_length, from_be_unpair by (apply bytesl_rev; assumption). do 2 f_equal.
  rewrite rev_length. lia.
Qed.

Lemma from_h256_be_enc h : bytesl h -> length h = 32%nat -> from_h256_be h = enc (unpair h).
Proof. intros H L. unfold from_h256_be, enc. rewrite unpair_length, L, from_be_unpair by assumption. reflexivity. Qed.

Lemma from_h256_le_enc h : bytesl h -> length h = 32%nat -> from_h256_le h = enc (unpair (rev h)).
Proof.
  intros H L. unfold from_h256_le, from_le, enc. rewrite unpair_length, rev_length, L.
  rewrite from_be_unpair by (apply bytesl_rev; assumption). reflexivity.
Qed.

Lemma min_bytes_enc pr l : (length l <= 1000)%nat -> min_bytes pr (enc l) = Ok (N.of_nat (Nat.div2 (S (length l)))).
Proof.
  intros L. unfold min_bytes. rewrite count_enc, uadd_ok by lia. cbn [bind]. f_equal. rewrite Nat.div2_div.
  replace (N.of_nat (length l) + 1) with (N.of_nat (S (length l))) by lia. symmetry. apply (Nat2N.inj_div _ 2).
Qed.

(** The whole-byte form of a sequence: an odd sequence gets a leading zero digit. *)
Definition pad_even (l : list N) : list N := if Nat.even (length l) then l else 0 :: l.

Lemma pad_even_length l : length (pad_even l) = (2 * Nat.div2 (S (length l)))%nat.
Proof.
  unfold pad_even. destruct (Nat.even (length l)) eqn:E.
  - apply Nat.even_spec in E. destruct E as [m E]. rewrite E.
    rewrite Nat.div2_succ_double. reflexivity.
  - assert (O : Nat.odd (length l) = true) by (rewrite <- Nat.negb_even, E; reflexivity).
    apply Nat.odd_spec in O. destruct O as [m O]. cbn [length]. rewrite O.
    replace (S (2 * m + 1)) with (2 * S m)%nat by lia. rewrite Nat.div2_double. lia.
Qed.

Lemma pad_even_undigits l : undigits (pad_even l) = undigits l.
Proof. unfold pad_even. destruct (Nat.even (length l)); [reflexivity|]. rewrite undigits_cons. lia. Qed.

Lemma pad_even_hexl l : hexl l -> hexl (pad_even l).
Proof. intros H. unfold pad_even. destruct (Nat.even (length l)); [assumption|constructor; [lia|assumption]]. Qed.

Lemma low_bytes_enc l : hexl l -> (length l <= 128)%nat ->
  skipn (64 - Nat.div2 (S (length l))) (be_bytes 64 (undigits l)) = pair_up (pad_even l).
Proof.
  intros H L. pose proof (pad_even_length l) as P.
  assert (Q : (Nat.div2 (S (length l)) <= 64)%nat).
  { destruct (Nat.even (length l)) eqn:E; unfold pad_even in P; rewrite E in P; cbn [length] in P; lia. }
  set (k := Nat.div2 (S (length l))) in *.
  replace 64%nat with ((64 - k) + k)%nat at 2 by lia. rewrite be_bytes_skipn.
  rewrite <- pad_even_undigits. change (pad_even l) with ([] ++ pad_even l) at 1.
  apply be_bytes_undigits; [apply pad_even_hexl, H|assumption].
Qed.

Lemma bytes_be_enc pr l : hexl l -> (length l <= 128)%nat -> bytes_be pr (enc l) = Ok (pair_up (pad_even l)).
Proof.
  intros H L. unfold bytes_be. rewrite min_bytes_enc by lia. cbn [bind].
  assert (Q : (Nat.div2 (S (length l)) <= 64)%nat).
  { rewrite Nat.div2_div. pose proof (Nat.div_mod (S (length l)) 2). lia. }
  destruct (N.ltb_spec 64 (N.of_nat (Nat.div2 (S (length l))))); [lia|].
  rewrite Nat2N.id. cbn [enc packed]. rewrite low_bytes_enc by assumption. reflexivity.
Qed.

Lemma is_even_nat k : is_even (N.of_nat k) = Nat.even k.
Proof.
  unfold is_even. change 1 with (N.ones 1). rewrite N.land_ones. change (2 ^ 1) with 2.
  destruct (Nat.even k) eqn:E.
  - apply Nat.even_spec in E. destruct E as [m ->]. apply N.eqb_eq. lia.
  - assert (O : Nat.odd k = true) by (rewrite <- Nat.negb_even, E; reflexivity).
    apply Nat.odd_spec in O. destruct O as [m ->]. apply N.eqb_neq. lia.
Qed.

(** ** Hex text *)
Lemma hex_encode_pair_up upper l : hexl l -> Nat.even (length l) = true ->
  hex_encode upper (pair_up l) = map (hex_char upper) l.
Proof.
  induction l as [| |a b l IH] using list_pair_ind; intros H E; [reflexivity|discriminate|].
  inversion H as [|? ? Ha H3]; subst. inversion H3 as [|? ? Hb H4]; subst.
  cbn [pair_up map hex_encode flat_map app]. 
  replace ((16 * a + b) / 16) with a by lia. replace ((16 * a + b) mod 16) with b by lia.
  do 2 f_equal. apply IH; assumption.
Qed.

Lemma as_hex_str_enc pr upper l : hexl l -> (length l <= 128)%nat ->
  as_hex_str pr upper (enc l) = Ok ([48; 120] ++ map (hex_char upper) l).
Proof.
  intros H L. unfold as_hex_str. rewrite min_bytes_enc by lia. cbn [bind].
  assert (Q : (Nat.div2 (S (length l)) <= 64)%nat).
  { rewrite Nat.div2_div. pose proof (Nat.div_mod (S (length l)) 2). lia. }
  destruct (N.ltb_spec 64 (N.of_nat (Nat.div2 (S (length l))))); [lia|].
  rewrite Nat2N.id. cbn [enc packed count]. rewrite low_bytes_enc by assumption.
  rewrite hex_encode_pair_up.
  - rewrite is_even_nat. unfold pad_even. destruct (Nat.even (length l)) eqn:E; reflexivity.
  - apply pad_even_hexl, H.
  - rewrite pad_even_length. apply Nat.even_spec. eexists; reflexivity.
Qed.

Lemma as_hex_str_panic pr upper l : (128 < length l <= 1000)%nat -> as_hex_str pr upper (enc l) = Panic.
Proof.
  intros L. unfold as_hex_str. rewrite min_bytes_enc by lia. cbn [bind].
  assert (Q : (64 < Nat.div2 (S (length l)))%nat).
  { rewrite Nat.div2_div. pose proof (Nat.div_mod (S (length l)) 2). lia. }
  destruct (N.ltb_spec 64 (N.of_nat (Nat.div2 (S (length l))))); [reflexivity|lia].
Qed.

Lemma hex_val_char upper d : d < 16 -> hex_val (hex_char upper d) = Some d.
Proof.
  intros H. assert (exists k, (k < 16)%nat /\ d = N.of_nat k) as [k [Hk ->]] by (exists (N.to_nat d); lia).
  do 16 (destruct k as [|k]; [destruct upper; reflexivity|]). lia.
Qed.

Lemma hex_vals_map upper l : hexl l -> hex_vals (map (hex_char upper) l) = Some l.
Proof. induction 1; cbn [map hex_vals]; [reflexivity|]. rewrite hex_val_char, IHForall by assumption. reflexivity. Qed.

Lemma hex_vals_hexl s ds : hex_vals s = Some ds -> hexl ds /\ length ds = length s.
Proof.
  revert ds; induction s as [|c s IH]; intros ds E; cbn [hex_vals] in E.
  - inversion E. split; [constructor|reflexivity].
  - destruct (hex_val c) as [d|] eqn:Ec; [|discriminate]. destruct (hex_vals s) as [ds'|]; [|discriminate].
    inversion E; subst. destruct (IH ds' eq_refl) as [H1 H2]. split; [|cbn; lia].
    constructor; [|assumption]. unfold hex_val in Ec.
    destruct ((48 <=? c) && (c <=? 57)) eqn:B1; [inversion Ec; lia|].
    destruct ((97 <=? c) && (c <=? 102)) eqn:B2; [inversion Ec; lia|].
    destruct ((65 <=? c) && (c <=? 70)) eqn:B3; [inversion Ec; lia|discriminate].
Qed.

Lemma hex_val_zero c : hex_val c = Some 0 <-> c = 48.
Proof.
  unfold hex_val. split.
  - destruct ((48 <=? c) && (c <=? 57)) eqn:B1; [intros E; inversion E; lia|].
    destruct ((97 <=? c) && (c <=? 102)) eqn:B2; [intros E; inversion E; lia|].
    destruct ((65 <=? c) && (c <=? 70)) eqn:B3; [intros E; inversion E; lia|discriminate].
  - intros ->. reflexivity.
Qed.

Fixpoint leading_zero_digits (l : list N) : nat :=
  match l with d :: l' => if d =? 0 then S (leading_zero_digits l') else O | [] => O end.

Lemma leading_zero_chars_digits s ds : hex_vals s = Some ds ->
  leading_zero_chars s = N.of_nat (leading_zero_digits ds).
Proof.
  revert ds; induction s as [|c s IH]; intros ds E; cbn [hex_vals] in E.
  - inversion E. reflexivity.
  - destruct (hex_val c) as [d|] eqn:Ec; [|discriminate]. destruct (hex_vals s) as [ds'|]; [|discriminate].
    inversion E; subst. cbn [leading_zero_chars leading_zero_digits].
    destruct (N.eqb_spec c 48) as [->|Hc].
    + assert (d = 0) by (cbv in Ec; congruence). subst d. cbn. rewrite (IH ds' eq_refl). lia.
    + destruct (N.eqb_spec d 0) as [->|Hd]; [|reflexivity]. apply hex_val_zero in Ec. congruence.
Qed.

Lemma size_bound v k : 0 < v -> 16 ^ k <= v < 16 ^ (k + 1) -> (N.size v + 3) / 4 = k + 1.
Proof.
  intros Hv [H1 H2]. rewrite N.size_log2 by lia. rewrite pow16_2 in H1, H2.
  apply N.log2_le_pow2 in H1; [|lia]. apply N.log2_lt_pow2 in H2; [|lia]. lia.
Qed.

Lemma leading_digits_count l : hexl l ->
  N.of_nat (leading_zero_digits l) + (N.size (undigits l) + 3) / 4 = N.of_nat (length l).
Proof.
  induction 1 as [|d l Hd Hl IH]; [reflexivity|].
  cbn [leading_zero_digits length]. rewrite undigits_cons.
  destruct (N.eqb_spec d 0) as [->|Hn].
  - rewrite N.mul_0_l, N.add_0_l. lia.
  - pose proof (undigits_lt l Hl) as U. pose proof (pow16_pos (N.of_nat (length l))) as P.
    rewrite (size_bound _ (N.of_nat (length l))); [lia|nia|].
    rewrite N.add_1_r, N.pow_succ_r'. nia.
Qed.

Lemma nib_from_str_ok s ds :
  hex_vals (strip_0x s) = Some ds -> (length ds <= 128)%nat -> nib_from_str s = ROk (enc ds).
Proof.
  intros E L. destruct (hex_vals_hexl _ _ E) as [H1 H2]. unfold nib_from_str, u512_from_str.
  rewrite E. destruct (N.ltb_spec 128 (N.of_nat (length (strip_0x s)))); [lia|].
  rewrite (leading_zero_chars_digits _ _ E).
  unfold get_num_nibbles_in_key, u512_size. fold (undigits ds).
  unfold enc. rewrite leading_digits_count by assumption. reflexivity.
Qed.

Lemma nib_from_str_err s :
  hex_vals (strip_0x s) = None \/ (128 < length (strip_0x s))%nat -> nib_from_str s = RErr tt.
Proof.
  intros E. unfold nib_from_str, u512_from_str.
  destruct (N.ltb_spec 128 (N.of_nat (length (strip_0x s)))); [reflexivity|].
  destruct E as [->|E]; [reflexivity|lia].
Qed.

(** ** Hex-prefix *)
Lemma be_bytes_65 p : p < 2 ^ 512 -> 0 :: be_bytes 64 p = be_bytes 65 p.
Proof.
  intros H. change 65%nat with (1 + 64)%nat. rewrite be_bytes_app.
  replace (p / 256 ^ N.of_nat 64) with 0; [reflexivity|].
  symmetry. apply N.div_small. change (256 ^ N.of_nat 64) with (2 ^ 512). exact H.
Qed.

Lemma lor_flags b f : b < 16 -> N.lor b (f * 16) = b + f * 16.
Proof. intros H. change 16 with (2 ^ 4). apply lor_disjoint. exact H. Qed.

Lemma to_hp_enc pr l t : hexl l -> (length l <= 128)%nat ->
  to_hex_prefix_encoding pr (enc l) t = Ok (yp_hp l t).
Proof.
  intros H L. unfold to_hex_prefix_encoding. rewrite count_enc. rewrite uadd_ok by lia. cbn [bind].
  rewrite uadd_ok by lia. cbn [bind].
  set (k := Nat.div2 (length l)).
  assert (Hk : ((length l = 2 * k /\ Nat.even (length l) = true) \/ (length l = 2 * k + 1 /\ Nat.even (length l) = false))%nat).
  { unfold k. destruct (Nat.even (length l)) eqn:E; [left|right]; split; try reflexivity.
    - apply Nat.even_spec in E. destruct E as [m ->]. rewrite Nat.div2_double. lia.
    - assert (O : Nat.odd (length l) = true) by (rewrite <- Nat.negb_even, E; reflexivity).
      apply Nat.odd_spec in O. destruct O as [m ->]. rewrite Nat.add_1_r, Nat.div2_succ_double. lia. }
  replace ((N.of_nat (length l) + 1 + 1) / 2) with (N.of_nat (S k)) by lia.
  destruct (N.ltb_spec 65 (N.of_nat (S k))); [lia|].
  destruct (N.eqb_spec (N.of_nat (S k)) 0); [lia|]. cbn [orb].
  rewrite Nat2N.id. cbn [enc packed].
  rewrite be_bytes_65 by (apply undigits_u512; assumption).
  replace (be_bytes 65 (undigits l)) with (be_bytes ((65 - S k) + S k) (undigits l)) by (f_equal; lia).
  rewrite be_bytes_skipn. change (S k) with (1 + k)%nat. rewrite be_bytes_app.
  rewrite pow256. replace (2 * N.of_nat k) with (N.of_nat (2 * k)) by lia.
  rewrite undigits_div by (assumption || lia).
  rewrite is_even_nat. unfold yp_hp. destruct Hk as [[E1 E2]|[E1 E2]]; rewrite E2.
  - replace (length l - 2 * k)%nat with O by lia. cbn [firstn].
    change (be_bytes 1 (undigits [])) with [0]. cbn [app].
    change (undigits l) with (undigits ([] ++ l)). rewrite (be_bytes_undigits k [] l) by (assumption || lia).
    destruct t; reflexivity.
  - replace (length l - 2 * k)%nat with 1%nat by lia.
    destruct l as [|x0 r]; [cbn [length] in E1; lia|]. cbn [firstn]. rewrite undigits_one.
    inversion H; subst. cbn [be_bytes app]. rewrite N.mod_small by lia.
    change (x0 :: r) with ([x0] ++ r). rewrite (be_bytes_undigits k [x0] r); [|exact H|cbn [length] in E1; lia].
    do 2 f_equal. destruct t.
    + change (N.shiftl (N.lor 1 (N.shiftl 1 1)) 4) with (3 * 16). rewrite lor_flags by assumption. lia.
    + change (N.shiftl (N.lor 1 (N.shiftl 0 1)) 4) with (1 * 16). rewrite lor_flags by assumption. lia.
Qed.

(** The digits the decoder produces for a byte string with first byte [b0]. *)
Definition hp_decoded (b0 : N) (rest : list N) : list N :=
  (if (b0 / 16) mod 2 =? 1 then [b0 mod 16] else []) ++ unpair rest ++
  (if 2 <=? b0 / 16 then [1; 0] else []).

Lemma firstn_exact {A} (l t : list A) : firstn (length l) (l ++ t) = l.
Proof. rewrite firstn_app, Nat.sub_diag, firstn_all. cbn [firstn]. apply app_nil_r. Qed.

Lemma from_hp_spec b0 rest :
  bytesl (b0 :: rest) -> (length rest <= 32)%nat ->
  from_hex_prefix_encoding (b0 :: rest) =
  Ok (if b0 / 16 <=? 3 then ROk (enc (hp_decoded b0 rest)) else RErr (InvalidFlags (b0 / 16))).
Proof.
  intros H L. inversion H as [|? ? Hb Hr]; subst. unfold from_hex_prefix_encoding.
  destruct (N.ltb_spec 33 (N.of_nat (length (b0 :: rest)))) as [HL|HL]; [cbn [length] in HL; lia|].
  replace (N.shiftr (N.land b0 240) 4) with (b0 / 16).
  2:{ rewrite N.shiftr_div_pow2. change 240 with (N.ones 4 * 2 ^ 4). rewrite land_shifted_ones.
      change (2 ^ 4) with 16. symmetry. apply N.mod_small. lia. }
  replace (N.land b0 15) with (b0 mod 16) by (change 15 with (N.ones 4); rewrite N.land_ones; reflexivity).
  rewrite (firstn_all2 rest) by lia.
  set (f := b0 / 16). unfold hp_decoded. fold f. set (x := b0 mod 16).
  assert (Hx : x < 16) by (unfold x; lia).
  assert (Hbytes : forall c w, bytesl w -> (length w <= 34)%nat -> N.to_nat ((c + 1) / 2) = length w ->
     forall tl, from_be (firstn (N.to_nat ((c + 1) / 2)) (w ++ tl)) = undigits (unpair w)).
  { intros c w Hw Lw E tl. rewrite E, firstn_app, Nat.sub_diag, firstn_all. cbn [firstn]. rewrite app_nil_r.
    apply from_be_unpair, Hw. }
  cbn [length].
  destruct (N.eqb_spec f 0) as [E|E0].
  { rewrite E. cbn [N.leb N.compare]. change (0 mod 2 =? 1) with false.
    change (2 <=? 0) with false. cbn [app]. rewrite app_nil_r.
    replace (N.land (N.of_nat (S (length rest)) * 2 - 2) 1 =? 1) with false.
    2:{ symmetry. apply N.eqb_neq. change 1 with (N.ones 1) at 1. rewrite N.land_ones. change (2 ^ 1) with 2. lia. }
    unfold write_bytes. cbn [firstn app]. change (0 <=? 3) with true. do 2 f_equal. unfold enc. rewrite unpair_length. f_equal; [lia|].
    apply Hbytes; try assumption; lia. }
  destruct (N.eqb_spec f 1) as [E|E1].
  { rewrite E. change (1 <=? 3) with true. change (1 mod 2 =? 1) with true. change (2 <=? 1) with false.
    rewrite app_nil_r.
    replace (N.land (N.of_nat (S (length rest)) * 2 - 1) 1 =? 1) with true.
    2:{ symmetry. apply N.eqb_eq. change 1 with (N.ones 1) at 2. rewrite N.land_ones. change (2 ^ 1) with 2. lia. }
    unfold write_bytes. cbn [firstn app length Nat.add]. cbv iota beta.
    do 2 f_equal. unfold enc. cbn [app length]. rewrite unpair_length. f_equal; [lia|].
    cbn [firstn repeat skipn app].
    change (x :: rest ++ ?t) with ((x :: rest) ++ t).
    rewrite Hbytes; cbn [length]; try lia.
    - cbn [unpair]. rewrite undigits_cons. rewrite N.div_small by assumption. rewrite N.mod_small by assumption. lia.
    - constructor; [lia|assumption]. }
  destruct (N.eqb_spec f 2) as [E|E2].
  { rewrite E. change (2 <=? 3) with true. change (2 mod 2 =? 1) with false. change (2 <=? 2) with true.
    cbn [app].
    replace (N.land (N.of_nat (S (length rest)) * 2) 1 =? 1) with false.
    2:{ symmetry. apply N.eqb_neq. change 1 with (N.ones 1) at 1. rewrite N.land_ones. change (2 ^ 1) with 2. lia. }
    unfold write_bytes. cbn [firstn app length Nat.add]. cbv iota beta.
    do 2 f_equal. unfold enc. cbn [app length]. rewrite app_length, unpair_length. cbn [length]. f_equal; [lia|].
    rewrite firstn_exact. change (16 :: ?t) with ([16] ++ t). rewrite app_assoc.
    rewrite Hbytes; rewrite ?app_length; cbn [length]; try lia.
    - rewrite unpair_app. cbn [unpair]. reflexivity.
    - apply Forall_app; split; [assumption|repeat constructor; lia]. }
  destruct (N.eqb_spec f 3) as [E|E3].
  { rewrite E. change (3 <=? 3) with true. change (3 mod 2 =? 1) with true. change (2 <=? 3) with true.
    replace (N.land (N.of_nat (S (length rest)) * 2 + 1) 1 =? 1) with true.
    2:{ symmetry. apply N.eqb_eq. change 1 with (N.ones 1) at 2. rewrite N.land_ones. change (2 ^ 1) with 2. lia. }
    unfold write_bytes. cbn [firstn app length Nat.add]. cbv iota beta.
    do 2 f_equal. unfold enc. cbn [app length]. rewrite app_length, unpair_length. cbn [length]. f_equal; [lia|].
    cbn [firstn repeat skipn app].
    rewrite firstn_exact. change (16 :: ?t) with ([16] ++ t).
    change (x :: rest ++ ?t) with ((x :: rest) ++ t). rewrite app_assoc.
    rewrite Hbytes; rewrite ?app_length; cbn [length]; try lia.
    - rewrite unpair_app. cbn [unpair app]. rewrite undigits_cons. rewrite N.div_small by assumption.
      rewrite N.mod_small by assumption. reflexivity.
    - apply Forall_app; split; [constructor; [lia|assumption]|repeat constructor; lia]. }
  destruct (N.leb_spec f 3); [lia|]. reflexivity.
Qed.

(** ** Integers *)
Lemma to_nibbles_spec width v : v < 2 ^ width ->
  count (to_nibbles width v) = (N.size v + 3) / 4 /\ packed (to_nibbles width v) = v.
Proof.
  intros H. unfold to_nibbles. cbn [count packed]. split; [|reflexivity]. f_equal. f_equal.
  assert (N.size v <= width); [|lia].
  destruct (N.eq_dec v 0) as [->|Hv]; [cbn; lia|].
  rewrite N.size_log2 by lia. apply N.log2_lt_pow2 in H; lia.
Qed.

Lemma min_digits v : v < 16 ^ ((N.size v + 3) / 4).
Proof.
  destruct (N.eq_dec v 0) as [->|Hv]; [cbv; reflexivity|].
  rewrite pow16_2. apply N.log2_lt_pow2; [lia|]. rewrite N.size_log2 by lia. lia.
Qed.
