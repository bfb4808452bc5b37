(** Properties C01-C09: the key type [Nibbles]. *)
From Verif Require Import Base Nibbles NibblesSpec NibblesFacts NibblesFacts2 NibblesFacts3.
Open Scope N_scope.

(** A concrete key used by the examples below: 0x0123a. *)
Definition k0123a : nibbles := Nib 5 0x123a.
Example k0123a_wf : nwf k0123a /\ nseq k0123a = [0; 1; 2; 3; 10].
Proof. split; [split|]; vm_compute; congruence || reflexivity. Qed.

(** * C01: operations on well-formed keys are operations on sequences *)
Theorem C01_get_nibble : forall pr n i d,
  nwf n -> nth_error (nseq n) i = Some d -> get_nibble pr n (N.of_nat i) = Ok d.
Proof.
  intros pr n i d W E. destruct (nwf_ex n W) as (l & -> & Hs & H & L & C). rewrite Hs in E.
  apply get_nibble_enc; auto; lia.
Qed.

Theorem C01_get_nibble_range : forall pr n s e,
  nwf n -> (s <= e)%nat -> (e <= length (nseq n))%nat ->
  yields (get_nibble_range pr n (N.of_nat s) (N.of_nat e)) (firstn (e - s) (skipn s (nseq n))).
Proof.
  intros pr n s e W H1 H2. destruct (nwf_ex n W) as (l & -> & Hs & H & L & C). rewrite Hs in *.
  apply yields_enc; [apply hexl_firstn, hexl_skipn, H|rewrite firstn_length, skipn_length; lia|].
  apply get_nibble_range_enc; auto; lia.
Qed.

Theorem C01_get_next_nibbles : forall pr n k,
  nwf n -> (k <= length (nseq n))%nat -> yields (get_next_nibbles pr n (N.of_nat k)) (firstn k (nseq n)).
Proof.
  intros pr n k W H. pose proof (C01_get_nibble_range pr n 0 k W (Nat.le_0_l _) H) as G.
  rewrite Nat.sub_0_r in G. exact G.
Qed.

Theorem C01_truncate_front : forall pr n k,
  nwf n -> yields (truncate_n_nibbles_front pr n (N.of_nat k)) (skipn k (nseq n)).
Proof.
  intros pr n k W. destruct (nwf_ex n W) as (l & -> & Hs & H & L & C). rewrite Hs in *.
  apply yields_enc; [apply hexl_skipn, H|rewrite skipn_length; lia|]. apply truncate_front_enc; auto.
Qed.

Theorem C01_truncate_back : forall pr n k,
  nwf n -> yields (truncate_n_nibbles_back pr n (N.of_nat k)) (firstn (length (nseq n) - k) (nseq n)).
Proof.
  intros pr n k W. destruct (nwf_ex n W) as (l & -> & Hs & H & L & C). rewrite Hs in *.
  apply yields_enc; [apply hexl_firstn, H|rewrite firstn_length; lia|]. apply truncate_back_enc; auto.
Qed.

Theorem C01_pop_next_nibble_front : forall pr n d l,
  nwf n -> nseq n = d :: l -> yields_pop (pop_next_nibble_front pr n) d l.
Proof.
  intros pr n d l W E. destruct (nwf_ex n W) as (l' & -> & Hs & H & L & C). rewrite Hs in E. subst l'.
  apply yields_pop_enc; [inversion H; assumption|cbn [length] in L; lia|]. apply pop_front_enc; auto.
Qed.

Theorem C01_pop_next_nibble_back : forall pr n d l,
  nwf n -> nseq n = l ++ [d] -> yields_pop (pop_next_nibble_back pr n) d l.
Proof.
  intros pr n d l W E. destruct (nwf_ex n W) as (l' & -> & Hs & H & L & C). rewrite Hs in E. subst l'.
  pose proof L as L'. rewrite app_length in L'. cbn [length] in L'.
  apply yields_pop_enc; [apply hexl_app in H; tauto|lia|]. apply pop_back_enc; auto.
Qed.

Theorem C01_pop_nibbles_front : forall pr n k,
  nwf n -> (k <= length (nseq n))%nat ->
  yields2 (pop_nibbles_front pr n (N.of_nat k)) (firstn k (nseq n)) (skipn k (nseq n)).
Proof.
  intros pr n k W Hk. destruct (nwf_ex n W) as (l & -> & Hs & H & L & C). rewrite Hs in *.
  apply yields2_enc; [apply hexl_firstn, H|apply hexl_skipn, H|rewrite firstn_length; lia|rewrite skipn_length; lia|].
  apply pop_nibbles_front_enc; auto.
Qed.

(** The nibbles popped from the back come in popping order (last nibble first). *)
Theorem C01_pop_nibbles_back : forall pr n k,
  nwf n -> (k <= length (nseq n))%nat ->
  yields2 (pop_nibbles_back pr n (N.of_nat k))
    (rev (skipn (length (nseq n) - k) (nseq n))) (firstn (length (nseq n) - k) (nseq n)).
Proof.
  intros pr n k W Hk. destruct (nwf_ex n W) as (l & -> & Hs & H & L & C). rewrite Hs in *.
  apply yields2_enc; [apply hexl_rev, hexl_skipn, H|apply hexl_firstn, H|rewrite rev_length, skipn_length; lia|rewrite firstn_length; lia|].
  apply pop_nibbles_back_enc; auto.
Qed.

Theorem C01_push_nibble_front : forall n d,
  nwf n -> count n < 64 -> d < 16 -> yields (push_nibble_front n d) (d :: nseq n).
Proof.
  intros n d W H1 H2. destruct (nwf_ex n W) as (l & -> & Hs & H & L & C). rewrite Hs in *.
  apply yields_enc; [constructor; assumption|cbn [length]; lia|]. apply push_front_enc; auto; lia.
Qed.

Theorem C01_push_nibble_back : forall n d,
  nwf n -> count n < 64 -> d < 16 -> yields (push_nibble_back n d) (nseq n ++ [d]).
Proof.
  intros n d W H1 H2. destruct (nwf_ex n W) as (l & -> & Hs & H & L & C). rewrite Hs in *.
  apply yields_enc; [apply hexl_app; split; [assumption|repeat constructor; assumption]|rewrite app_length; cbn [length]; lia|].
  apply push_back_enc; auto; lia.
Qed.

Theorem C01_push_nibbles_front : forall pr n m,
  nwf n -> nwf m -> count n + count m <= 64 -> yields (push_nibbles_front pr n m) (nseq m ++ nseq n).
Proof.
  intros pr n m W1 W2 H1. destruct (nwf_ex n W1) as (l & -> & Hs & H & L & C).
  destruct (nwf_ex m W2) as (l2 & -> & Hs2 & H2 & L2 & C2). rewrite Hs, Hs2 in *.
  apply yields_enc; [apply hexl_app; auto|rewrite app_length; lia|]. apply push_nibbles_front_enc; auto; lia.
Qed.

Theorem C01_merge_nibble : forall n d,
  nwf n -> count n < 64 -> d < 16 -> yields (merge_nibble n d) (nseq n ++ [d]).
Proof.
  intros n d W H1 H2. destruct (nwf_ex n W) as (l & -> & Hs & H & L & C). rewrite Hs in *.
  apply yields_enc; [apply hexl_app; split; [assumption|repeat constructor; assumption]|rewrite app_length; cbn [length]; lia|].
  apply merge_nibble_enc; auto; lia.
Qed.

Theorem C01_merge_nibbles : forall pr n m,
  nwf n -> nwf m -> count n + count m <= 64 -> yields (merge_nibbles pr n m) (nseq n ++ nseq m).
Proof.
  intros pr n m W1 W2 H1. destruct (nwf_ex n W1) as (l & -> & Hs & H & L & C).
  destruct (nwf_ex m W2) as (l2 & -> & Hs2 & H2 & L2 & C2). rewrite Hs, Hs2 in *.
  apply yields_enc; [apply hexl_app; auto|rewrite app_length; lia|]. apply merge_nibbles_enc; auto; lia.
Qed.

Theorem C01_split_at_idx : forall pr n i,
  nwf n -> (i <= length (nseq n))%nat ->
  yields2 (split_at_idx pr n (N.of_nat i)) (firstn i (nseq n)) (skipn i (nseq n)).
Proof.
  intros pr n k W Hk. destruct (nwf_ex n W) as (l & -> & Hs & H & L & C). rewrite Hs in *.
  apply yields2_enc; [apply hexl_firstn, H|apply hexl_skipn, H|rewrite firstn_length; lia|rewrite skipn_length; lia|].
  apply split_at_idx_enc; auto.
Qed.

Theorem C01_split_at_idx_prefix : forall pr n i,
  nwf n -> (i <= length (nseq n))%nat -> yields (split_at_idx_prefix pr n (N.of_nat i)) (firstn i (nseq n)).
Proof.
  intros pr n k W Hk. destruct (nwf_ex n W) as (l & -> & Hs & H & L & C). rewrite Hs in *.
  apply yields_enc; [apply hexl_firstn, H|rewrite firstn_length; lia|].
  apply split_at_idx_prefix_enc; auto.
Qed.

Theorem C01_split_at_idx_postfix : forall pr n i,
  nwf n -> (i <= length (nseq n))%nat -> yields (split_at_idx_postfix pr n (N.of_nat i)) (skipn i (nseq n)).
Proof.
  intros pr n k W Hk. destruct (nwf_ex n W) as (l & -> & Hs & H & L & C). rewrite Hs in *.
  apply yields_enc; [apply hexl_skipn, H|rewrite skipn_length; lia|].
  apply split_at_idx_postfix_enc; auto.
Qed.

Theorem C01_reverse : forall n, nwf n -> nwf (reverse n) /\ nseq (reverse n) = rev (nseq n).
Proof.
  intros n W. destruct (nwf_ex n W) as (l & -> & Hs & H & L & C). rewrite Hs.
  rewrite reverse_enc by (auto; lia). split; [apply nwf_enc; [apply hexl_rev, H|rewrite rev_length; lia]|].
  apply nseq_enc, hexl_rev, H.
Qed.

Theorem C01_from_nibble : forall d, d < 16 -> yields (from_nibble d) [d].
Proof.
  intros d H. apply yields_enc; [repeat constructor; assumption|cbn; lia|].
  unfold from_nibble, assert. destruct (N.leb_spec d 15); [|lia]. unfold enc. rewrite undigits_one. reflexivity.
Qed.

Theorem C01_is_empty : forall n, is_empty n = true <-> nseq n = [].
Proof.
  intros n. unfold is_empty. rewrite N.eqb_eq. rewrite <- length_zero_iff_nil, nseq_length. lia.
Qed.

(** The struct can hold 128 nibbles, but then full-width operations panic: the length limit 127 above is needed. *)
Theorem C01_full_width_refuted :
  let n := Nib 128 0 in
  packed n < 16 ^ count n /\ get_nibble_range Release n 0 128 = Panic /\ truncate_n_nibbles_front Release n 128 = Panic
  /\ split_at_idx Release n 0 = Panic.
Proof. vm_compute. auto. Qed.

Example C01_example :
  get_nibble_range Debug k0123a 1 4 = Ok (Nib 3 0x123) /\ pop_nibbles_back Debug k0123a 2 = Ok (Nib 2 0xa3, Nib 3 0x012)
  /\ merge_nibbles Debug k0123a k0123a = Ok (Nib 10 0x123a0123a).
Proof. vm_compute. auto. Qed.

(** * C02: documented panics *)
(** Out of range indices and counts, Debug builds: always a panic. *)
Theorem C02_debug_partial : forall n i, nwf n -> count n < i ->
  get_nibble Debug n i = Panic /\ get_next_nibbles Debug n i = Panic /\ pop_nibbles_front Debug n i = Panic /\
  pop_nibbles_back Debug n i = Panic /\ split_at_idx Debug n i = Panic /\ split_at_idx_prefix Debug n i = Panic /\
  split_at_idx_postfix Debug n i = Panic /\ (forall s, get_nibble_range Debug n s i = Panic).
Proof.
  intros n i W H. unfold get_nibble, get_next_nibbles, pop_nibbles_front, pop_nibbles_back, split_at_idx,
    split_at_idx_prefix, split_at_idx_postfix, get_nibble_range.
  rewrite (usub_debug (count n) i) by assumption. cbn [bind].
  repeat split; try (destruct (usub _ _ _); reflexivity).
  intros s. destruct (usub Debug i s); reflexivity.
Qed.

Theorem C02_get_nibble_partial : forall pr n i,
  nwf n -> count n <= i -> (pr = Debug \/ i < usize_range - 128) -> get_nibble pr n i = Panic.
Proof.
  intros pr n i W H1 H2. destruct (nwf_ex n W) as (l & -> & Hs & H & L & C).
  apply get_nibble_out; auto; lia.
Qed.

Theorem C02_pop_empty_partial : forall pr n, nwf n -> nseq n = [] -> pop_next_nibble_front pr n = Panic.
Proof.
  intros pr n W E. destruct (nwf_ex n W) as (l & -> & Hs & H & L & C). rewrite Hs in E. subst.
  destruct pr; vm_compute; reflexivity.
Qed.

Theorem C02_pop_back_empty_debug_partial : forall n, nwf n -> nseq n = [] -> pop_next_nibble_back Debug n = Panic.
Proof.
  intros n W E. destruct (nwf_ex n W) as (l & -> & Hs & H & L & C). rewrite Hs in E. subst. vm_compute; reflexivity.
Qed.

Theorem C02_split_release_partial : forall n i, nwf n -> count n < i -> i < 4611686018427387776 ->
  split_at_idx Release n i = Panic /\ split_at_idx_postfix Release n i = Panic.
Proof. exact split_release_panic. Qed.

(** Nibbles above 0xf, more than 64 nibbles, unequal lengths: a panic in both profiles. *)
Theorem C02_append_partial : forall n d, nwf n -> (64 <= count n \/ 16 <= d) ->
  push_nibble_front n d = Panic /\ push_nibble_back n d = Panic /\ merge_nibble n d = Panic.
Proof.
  intros n d W H0. destruct (nwf_ex n W) as (l & -> & Hs & H & L & C).
  unfold push_nibble_front, push_nibble_back, merge_nibble. rewrite append_asserts_panic by lia. auto.
Qed.

Theorem C02_merge_partial : forall pr n m, nwf n -> nwf m -> 64 < count n + count m ->
  merge_nibbles pr n m = Panic /\ push_nibbles_front pr n m = Panic.
Proof.
  intros pr n m W1 W2 H0. destruct (nwf_ex n W1) as (l & -> & Hs & H & L & C).
  destruct (nwf_ex m W2) as (l2 & -> & Hs2 & H2 & L2 & C2).
  rewrite merge_nibbles_panic, push_nibbles_front_panic by lia. auto.
Qed.

Theorem C02_from_nibble_partial : forall d, 15 < d -> from_nibble d = Panic.
Proof. intros d H. unfold from_nibble, assert. destruct (N.leb_spec d 15); [lia|reflexivity]. Qed.

Theorem C02_find_diff_equal_partial : forall pr n m, nwf n -> nwf m -> count n <> count m -> find_diff_equal pr n m = Panic.
Proof.
  intros pr n m W1 W2 H0. destruct (nwf_ex n W1) as (l & -> & Hs & H & L & C).
  destruct (nwf_ex m W2) as (l2 & -> & Hs2 & H2 & L2 & C2). apply find_diff_equal_panic. lia.
Qed.

(** In Release builds these documented panics do not happen: reading or popping past the end of a key returns a value,
    for every key and every excess (up to 127). *)
Theorem C02_release_refuted : forall n k, nwf n -> (length (nseq n) < k)%nat -> (k <= 127)%nat ->
  (exists r, get_next_nibbles Release n (N.of_nat k) = Ok r) /\
  (exists r, pop_nibbles_front Release n (N.of_nat k) = Ok r) /\
  (exists r, pop_nibbles_back Release n (N.of_nat k) = Ok r).
Proof.
  intros n k W H1 H2. destruct (nwf_ex n W) as (l & -> & Hs & H & L & C). rewrite Hs in *.
  repeat split.
  - unfold get_next_nibbles. rewrite range_short_release by lia. eauto.
  - rewrite pop_nibbles_front_short_release by (auto; lia). eauto.
  - destruct (pop_back_short_release l k H H1 H2) as (r & n' & E). eauto.
Qed.

Theorem C02_refuted :
  exists n, nwf n /\ pop_next_nibble_back Release nib_default = Ok (0, nib_default) /\
  get_nibble_range Release n 0 (count n + 1) = Ok (Nib 6 0) /\ split_at_idx_prefix Release n (count n + 1) = Ok (Nib 6 0) /\
  get_nibble Release n (usize_range - 1) = Ok 0.
Proof. exists k0123a. split; [apply k0123a_wf|]. vm_compute. auto. Qed.

(** * C03: common prefixes *)
Theorem C03_find_diff : forall pr n m, nwf n -> nwf m ->
  find_diff pr n m = Ok (N.of_nat (lcp (nseq n) (nseq m))).
Proof.
  intros pr n m W1 W2. destruct (nwf_ex n W1) as (l & -> & Hs & H & L & C).
  destruct (nwf_ex m W2) as (l2 & -> & Hs2 & H2 & L2 & C2). rewrite Hs, Hs2. apply find_diff_enc; auto.
Qed.

Theorem C03_find_diff_equal : forall pr n m, nwf n -> nwf m -> count n = count m ->
  find_diff_equal pr n m = Ok (N.of_nat (lcp (nseq n) (nseq m))).
Proof.
  intros pr n m W1 W2 E. destruct (nwf_ex n W1) as (l & -> & Hs & H & L & C).
  destruct (nwf_ex m W2) as (l2 & -> & Hs2 & H2 & L2 & C2). rewrite Hs, Hs2. apply find_diff_equal_enc; auto; lia.
Qed.

(** [lcp] is the length of the longest common prefix. *)
Theorem C03_lcp_spec : forall a b,
  firstn (lcp a b) a = firstn (lcp a b) b /\ (lcp a b <= length a)%nat /\ (lcp a b <= length b)%nat /\
  forall k, (k <= length a)%nat -> (k <= length b)%nat -> firstn k a = firstn k b -> (k <= lcp a b)%nat.
Proof.
  intros a b. pose proof (lcp_le a b). repeat split; try lia; [apply lcp_firstn|apply lcp_max].
Qed.

Theorem C03_identical : forall pr n m, nwf n -> nwf m ->
  exists b, identical_up_to_smallest pr n m = Ok b /\
  (b = true <-> is_prefix (nseq n) (nseq m) \/ is_prefix (nseq m) (nseq n)).
Proof.
  intros pr n m W1 W2. destruct (nwf_ex n W1) as (l & -> & Hs & H & L & C).
  destruct (nwf_ex m W2) as (l2 & -> & Hs2 & H2 & L2 & C2). rewrite Hs, Hs2.
  eexists; split; [apply identical_enc; auto; lia|]. apply identical_prefix.
Qed.

Example C03_example : find_diff Debug k0123a (Nib 4 0x0133) = Ok 2 /\ identical_up_to_smallest Debug k0123a (Nib 3 0x012) = Ok true.
Proof. vm_compute. auto. Qed.

(** * C04: hex-prefix encoding *)
Theorem C04_hex_prefix : forall pr n t, nwf n -> to_hex_prefix_encoding pr n t = Ok (yp_hp (nseq n) t).
Proof.
  intros pr n t W. destruct (nwf_ex n W) as (l & -> & Hs & H & L & C). rewrite Hs. apply to_hp_enc; auto; lia.
Qed.

Theorem C04_injective : forall pr n m t u, nwf n -> nwf m ->
  to_hex_prefix_encoding pr n t = to_hex_prefix_encoding pr m u -> n = m /\ t = u.
Proof.
  intros pr n m t u W1 W2. rewrite !C04_hex_prefix by assumption. intros E. injection E as E.
  destruct (hp_inj_aux (nseq n) (nseq m) t u) as [E1 E2]; auto using nseq_hexl. split; [|assumption].
  rewrite <- (enc_nseq n), <- (enc_nseq m), E1; [reflexivity| |]; [apply W2|apply W1].
Qed.

Example C04_example : to_hex_prefix_encoding Debug k0123a true = Ok [0x30; 0x12; 0x3a] /\
  to_hex_prefix_encoding Release (Nib 4 0x0123) false = Ok [0; 1; 0x23].
Proof. vm_compute. auto. Qed.

(** * C05: hex-prefix decoding *)
(** Extension keys round trip. *)
Theorem C05_roundtrip_partial : forall pr n, nwf n -> count n <= 65 ->
  exists b, to_hex_prefix_encoding pr n false = Ok b /\ from_hex_prefix_encoding b = Ok (ROk n).
Proof.
  intros pr n W L. destruct (hp_roundtrip pr n false W L) as (b & E1 & E2). exists b. split; [assumption|].
  rewrite app_nil_r in E2. rewrite enc_nseq in E2; [assumption|apply W].
Qed.

(** Leaf keys do not: the decoder returns two extra nibbles 1, 0 for every leaf key. *)
Theorem C05_leaf_refuted : forall pr n, nwf n -> count n <= 65 ->
  exists b m, to_hex_prefix_encoding pr n true = Ok b /\ from_hex_prefix_encoding b = Ok (ROk m) /\
  nseq m = nseq n ++ [1; 0].
Proof.
  intros pr n W L. destruct (hp_roundtrip pr n true W L) as (b & E1 & E2). exists b, (enc (nseq n ++ [1; 0])).
  repeat split; try assumption. apply nseq_enc, hexl_app. split; [apply nseq_hexl|repeat constructor].
Qed.

(** Exactly which inputs are rejected. *)
Theorem C05_rejects_partial : forall b0 rest, bytesl (b0 :: rest) ->
  from_hex_prefix_encoding (b0 :: rest) =
  Ok (if (33 <? length (b0 :: rest))%nat then RErr (TooLong (hex_encode false (b0 :: rest)) (N.of_nat (length (b0 :: rest))))
      else if b0 / 16 <=? 3 then ROk (enc (hp_decoded b0 rest)) else RErr (InvalidFlags (b0 / 16))).
Proof.
  intros b0 rest H. destruct (Nat.ltb_spec 33 (length (b0 :: rest))) as [L|L].
  - unfold from_hex_prefix_encoding. destruct (N.ltb_spec 33 (N.of_nat (length (b0 :: rest)))); [reflexivity|lia].
  - apply from_hp_spec; [assumption|cbn [length] in L; lia].
Qed.

(** The empty byte string is not rejected but panics. *)
Theorem C05_empty_refuted : from_hex_prefix_encoding [] = Panic.
Proof. reflexivity. Qed.

Example C05_example : from_hex_prefix_encoding [0x11; 0x23] = Ok (ROk (Nib 3 0x123)) /\
  from_hex_prefix_encoding [0x31; 0x23] = Ok (ROk (Nib 5 0x12310)).
Proof. vm_compute. auto. Qed.

(** * C06: integers *)
Theorem C06_to_nibbles : forall width v, v < 2 ^ width ->
  let n := to_nibbles width v in
  packed n < 16 ^ count n /\ undigits (nseq n) = v /\ (v = 0 -> nseq n = []) /\
  (forall d l, nseq n = d :: l -> d <> 0).
Proof.
  intros width v H n. destruct (to_nibbles_nseq width v H) as [E1 E2].
  split; [exact E2|]. split; [exact E1|]. split.
  - intros ->. unfold n, nseq. destruct (to_nibbles_spec width 0 H) as [-> _]. reflexivity.
  - intros d l E. exact (to_nibbles_hd width v d l H E).
Qed.

Theorem C06_byte_padded : forall width v, v < 2 ^ width ->
  let n := to_nibbles width v in let p := to_nibbles_byte_padded width v in
  undigits (nseq p) = v /\ Nat.even (length (nseq p)) = true /\
  nseq p = (if Nat.even (length (nseq n)) then [] else [0]) ++ nseq n.
Proof.
  intros width v H n p. destruct (to_nibbles_nseq width v H) as [E1 E2]. fold n in E1, E2.
  assert (P : p = enc (pad_even (nseq n))).
  { unfold p, to_nibbles_byte_padded. fold n. unfold enc. rewrite pad_even_length, pad_even_undigits, nseq_length.
    f_equal; [|rewrite E1; reflexivity]. rewrite Nat.div2_div. 
    replace (N.of_nat (2 * (S (N.to_nat (count n)) / 2))) with (2 * N.of_nat (S (N.to_nat (count n)) / 2)) by lia.
    rewrite (Nat2N.inj_div _ 2). rewrite Nat2N.inj_succ, N2Nat.id. change (N.of_nat 2) with 2. lia. }
  rewrite P. rewrite nseq_enc by (apply pad_even_hexl, nseq_hexl). rewrite pad_even_undigits, E1, pad_even_length.
  split; [reflexivity|]. split; [apply Nat.even_spec; eexists; reflexivity|].
  unfold pad_even. destruct (Nat.even (length (nseq n))); reflexivity.
Qed.

Theorem C06_injective : forall w1 w2 v1 v2, v1 < 2 ^ w1 -> v2 < 2 ^ w2 ->
  (to_nibbles w1 v1 = to_nibbles w2 v2 <-> v1 = v2).
Proof.
  intros w1 w2 v1 v2 H1 H2. destruct (to_nibbles_spec w1 v1 H1) as [A1 A2]. destruct (to_nibbles_spec w2 v2 H2) as [B1 B2].
  split; [congruence|]. intros ->. destruct (to_nibbles w1 v2), (to_nibbles w2 v2). cbn in *. congruence.
Qed.

Example C06_example : to_nibbles 64 0x123 = Nib 3 0x123 /\ to_nibbles_byte_padded 64 0x123 = Nib 4 0x123 /\ to_nibbles 64 0 = nib_default.
Proof. vm_compute. auto. Qed.

(** * C07: bytes *)
Theorem C07_from_bytes_be_partial : forall l, bytesl l -> l <> [] -> (length l <= 33)%nat ->
  exists n, from_bytes_be l = ROk n /\ nwf n /\ nseq n = unpair l /\ forall pr, bytes_be pr n = Ok l.
Proof.
  intros l H Hn L. exists (enc (unpair l)). split; [apply from_bytes_be_enc; assumption|].
  split; [apply nwf_enc; [apply unpair_hexl, H|rewrite unpair_length; lia]|].
  split; [apply nseq_enc, unpair_hexl, H|]. intros pr.
  rewrite bytes_be_enc; [|apply unpair_hexl, H|rewrite unpair_length; lia].
  unfold pad_even. rewrite unpair_length. replace (Nat.even (2 * length l)) with true.
  - rewrite pair_up_unpair by assumption. reflexivity.
  - symmetry. apply Nat.even_spec. eexists; reflexivity.
Qed.

Theorem C07_from_bytes_le_partial : forall l, bytesl l -> l <> [] -> (length l <= 33)%nat ->
  exists n, from_bytes_le l = ROk n /\ nwf n /\ nseq n = unpair (rev l).
Proof.
  intros l H Hn L. exists (enc (unpair (rev l))). split; [apply from_bytes_le_enc; assumption|].
  split; [apply nwf_enc; [apply unpair_hexl, bytesl_rev, H|rewrite unpair_length, rev_length; lia]|].
  apply nseq_enc, unpair_hexl, bytesl_rev, H.
Qed.

(** Rejected slices: empty or longer than 33 bytes (the documentation says 32). *)
Theorem C07_rejects_partial : forall l conv,
  (exists n, from_bytes l conv = ROk n) <-> l <> [] /\ (length l <= 33)%nat.
Proof.
  intros l conv. unfold from_bytes. destruct l as [|b l]; [split; [intros [n E]; discriminate|intros [E _]; congruence]|].
  destruct (N.ltb_spec 33 (N.of_nat (length (b :: l)))).
  - split; [intros [n E]; discriminate|lia].
  - split; [intros _; split; [discriminate|lia]|eauto].
Qed.

(** A 33 byte slice is accepted: the documented limit of 32 bytes is not enforced. *)
Theorem C07_limit_refuted : exists l n, bytesl l /\ length l = 33%nat /\ from_bytes_be l = ROk n /\ count n = 66.
Proof.
  exists (repeat 1 33), (Nib 66 (from_be (repeat 1 33))). split; [|vm_compute; auto].
  apply Forall_forall. intros x Hx. apply repeat_spec in Hx. subst. reflexivity.
Qed.

Theorem C07_h256_partial : forall h, bytesl h -> length h = 32%nat ->
  nwf (from_h256_be h) /\ nseq (from_h256_be h) = unpair h /\ nwf (from_h256_le h) /\ nseq (from_h256_le h) = unpair (rev h).
Proof.
  intros h H L. rewrite from_h256_be_enc, from_h256_le_enc by assumption.
  assert (H1 := unpair_hexl _ H). assert (H2 := unpair_hexl _ (bytesl_rev _ H)).
  repeat split; try (apply nseq_enc; assumption); try (apply undigits_lt; assumption); cbn [enc count];
    rewrite unpair_length, ?rev_length; lia.
Qed.

(** Bytes of any key: an odd key gets a leading zero nibble. *)
Theorem C07_bytes_be_partial : forall pr n, nwf n ->
  bytes_be pr n = Ok (pair_up (if Nat.even (length (nseq n)) then nseq n else 0 :: nseq n)).
Proof.
  intros pr n W. destruct (nwf_ex n W) as (l & -> & Hs & H & L & C). rewrite Hs. apply bytes_be_enc; auto; lia.
Qed.

Example C07_example : from_bytes_be [0x01; 0x23] = ROk (Nib 4 0x0123) /\ bytes_be Debug k0123a = Ok [0; 0x12; 0x3a].
Proof. vm_compute. auto. Qed.

(** * C08: text *)
Theorem C08_format : forall pr upper n, packed n < 16 ^ count n -> count n <= 128 ->
  as_hex_str pr upper n = Ok ([48; 120] ++ map (hex_char upper) (nseq n)).
Proof.
  intros pr upper n H L. rewrite <- (enc_nseq n H) at 1. apply as_hex_str_enc; [apply nseq_hexl|].
  rewrite nseq_length. lia.
Qed.

Theorem C08_roundtrip : forall pr upper n, packed n < 16 ^ count n -> count n <= 128 ->
  exists s, as_hex_str pr upper n = Ok ([48; 120] ++ s) /\
  nib_from_str ([48; 120] ++ s) = ROk n /\ nib_from_str s = ROk n.
Proof.
  intros pr upper n H L. exists (map (hex_char upper) (nseq n)). split; [apply C08_format; assumption|].
  rewrite !(nib_from_str_ok _ (nseq n)).
  - rewrite enc_nseq by assumption. auto.
  - rewrite strip_0x_hex by apply nseq_hexl. apply hex_vals_map, nseq_hexl.
  - rewrite nseq_length. lia.
  - apply hex_vals_map, nseq_hexl.
  - rewrite nseq_length. lia.
Qed.

(** Parsing accepts exactly the texts of at most 128 hex digits after an optional 0x, one nibble per digit. *)
Theorem C08_parse : forall s,
  nib_from_str s = match hex_vals (strip_0x s) with
                   | Some ds => if (length ds <=? 128)%nat then ROk (enc ds) else RErr tt
                   | None => RErr tt
                   end.
Proof.
  intros s. destruct (hex_vals (strip_0x s)) as [ds|] eqn:E.
  - destruct (Nat.leb_spec (length ds) 128).
    + apply nib_from_str_ok; assumption.
    + apply nib_from_str_err. right. destruct (hex_vals_hexl _ _ E). lia.
  - apply nib_from_str_err. auto.
Qed.

Example C08_example : as_hex_str Debug false k0123a = Ok [48; 120; 48; 49; 50; 51; 97] (* "0x0123a" *) /\
  nib_from_str [48; 120; 48; 49; 50; 51; 65] = ROk k0123a /\ nib_from_str [48; 120; 71] = RErr tt.
Proof. vm_compute. auto. Qed.

(** * C09: equality and order *)
Theorem C09_equality : forall n m, nwf n -> nwf m -> (nib_eqb n m = true <-> nseq n = nseq m).
Proof.
  intros n m W1 W2. unfold nib_eqb. rewrite andb_true_iff, !N.eqb_eq. split.
  - intros [E1 E2]. unfold nseq. rewrite E1, E2. reflexivity.
  - intros E. rewrite <- (enc_nseq n), <- (enc_nseq m), E; [auto|apply W2|apply W1].
Qed.

Theorem C09_order : forall n m, nwf n -> nwf m -> nib_compare n m = shortlex (nseq n) (nseq m).
Proof.
  intros n m W1 W2. destruct (nwf_ex n W1) as (l & -> & Hs & H & L & C).
  destruct (nwf_ex m W2) as (l2 & -> & Hs2 & H2 & L2 & C2). rewrite Hs, Hs2. apply nib_compare_enc; auto.
Qed.

(** It is a total order consistent with equality. *)
Theorem C09_total_order : forall a b c,
  (nib_compare a b = Eq <-> nib_eqb a b = true) /\ nib_compare b a = CompOpp (nib_compare a b) /\
  (nib_compare a b = Lt -> nib_compare b c = Lt -> nib_compare a c = Lt).
Proof.
  intros [c1 p1] [c2 p2] [c3 p3]. unfold nib_compare, nib_eqb. cbn [count packed].
  rewrite (N.compare_antisym c1 c2), (N.compare_antisym p1 p2).
  repeat split.
  - destruct (N.compare_spec c1 c2); try discriminate. subst. rewrite N.eqb_refl. cbn [andb].
    rewrite N.compare_eq_iff, N.eqb_eq. auto.
  - rewrite andb_true_iff, !N.eqb_eq. intros [-> ->]. rewrite !N.compare_refl. reflexivity.
  - destruct (N.compare_spec c1 c2); reflexivity.
  - destruct (N.compare_spec c1 c2), (N.compare_spec c2 c3), (N.compare_spec c1 c3); try discriminate; try lia; try reflexivity;
    rewrite ?N.compare_lt_iff; subst; try lia.
Qed.

Example C09_example : nib_compare (Nib 2 0xff) (Nib 3 0) = Lt /\ nib_compare k0123a (Nib 5 0x1239) = Gt /\ nib_eqb (Nib 3 1) (Nib 4 1) = false.
Proof. vm_compute. auto. Qed.

Print Assumptions C01_get_nibble.
Print Assumptions C01_get_nibble_range.
Print Assumptions C01_get_next_nibbles.
Print Assumptions C01_truncate_front.
Print Assumptions C01_truncate_back.
Print Assumptions C01_pop_next_nibble_front.
Print Assumptions C01_pop_next_nibble_back.
Print Assumptions C01_pop_nibbles_front.
Print Assumptions C01_pop_nibbles_back.
Print Assumptions C01_push_nibble_front.
Print Assumptions C01_push_nibble_back.
Print Assumptions C01_push_nibbles_front.
Print Assumptions C01_merge_nibble.
Print Assumptions C01_merge_nibbles.
Print Assumptions C01_split_at_idx.
Print Assumptions C01_split_at_idx_prefix.
Print Assumptions C01_split_at_idx_postfix.
Print Assumptions C01_reverse.
Print Assumptions C01_from_nibble.
Print Assumptions C01_is_empty.
Print Assumptions C01_full_width_refuted.
Print Assumptions C02_debug_partial.
Print Assumptions C02_get_nibble_partial.
Print Assumptions C02_pop_empty_partial.
Print Assumptions C02_pop_back_empty_debug_partial.
Print Assumptions C02_split_release_partial.
Print Assumptions C02_append_partial.
Print Assumptions C02_merge_partial.
Print Assumptions C02_from_nibble_partial.
Print Assumptions C02_find_diff_equal_partial.
Print Assumptions C02_release_refuted.
Print Assumptions C02_refuted.
Print Assumptions C03_find_diff.
Print Assumptions C03_find_diff_equal.
Print Assumptions C03_lcp_spec.
Print Assumptions C03_identical.
Print Assumptions C04_hex_prefix.
Print Assumptions C04_injective.
Print Assumptions C05_roundtrip_partial.
Print Assumptions C05_leaf_refuted.
Print Assumptions C05_rejects_partial.
Print Assumptions C05_empty_refuted.
Print Assumptions C06_to_nibbles.
Print Assumptions C06_byte_padded.
Print Assumptions C06_injective.
Print Assumptions C07_from_bytes_be_partial.
Print Assumptions C07_from_bytes_le_partial.
Print Assumptions C07_rejects_partial.
Print Assumptions C07_limit_refuted.
Print Assumptions C07_h256_partial.
Print Assumptions C07_bytes_be_partial.
Print Assumptions C08_format.
Print Assumptions C08_roundtrip.
Print Assumptions C08_parse.
Print Assumptions C09_equality.
Print Assumptions C09_order.
Print Assumptions C09_total_order.
