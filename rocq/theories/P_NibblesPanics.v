(** Property C02, exactly: for every key and every [usize] argument, which calls panic, in each build profile. *)
From Coq Require Import ZifyBool ZifyN ZifyNat.
From Verif Require Import Base Nibbles NibblesSpec NibblesFacts NibblesFacts2 NibblesFacts3 P_Nibbles.
Open Scope N_scope.

(** ** The wrap-around distance [a - b] of two [usize]s, modulo [2^62]: four times it is what the code shifts by. *)
Definition quarter : N := 4611686018427387904. (* 2^62 *)
Definition gap (a b : N) : N := (a + usize_range - b) mod quarter.

Lemma quarter_eq : usize_range = 4 * quarter.
Proof. reflexivity. Qed.

Lemma umul4_release d : umul Release d 4 = Ok ((4 * d) mod usize_range).
Proof.
  unfold umul. rewrite (N.mul_comm d 4). destruct (N.ltb_spec (4 * d) usize_range); [|reflexivity].
  rewrite N.mod_small by assumption. reflexivity.
Qed.

Lemma four_mod d : (4 * d) mod usize_range = 4 * (d mod quarter).
Proof. rewrite quarter_eq. apply N.mul_mod_distr_l; discriminate. Qed.

Lemma usub_release_gap a b : a < usize_range -> b < usize_range ->
  exists d, usub Release a b = Ok d /\ d mod quarter = gap a b.
Proof.
  intros Ha Hb. unfold usub, gap. destruct (N.leb_spec b a).
  - exists (a - b). split; [reflexivity|]. replace (a + usize_range - b) with (a - b + 4 * quarter) by (rewrite <- quarter_eq; lia).
    rewrite N.mod_add by discriminate. reflexivity.
  - exists (a + usize_range - b). auto.
Qed.

Lemma mask_iff k : create_mask_of_1s (4 * k) = Panic <-> 128 <= k.
Proof.
  destruct (N.lt_ge_cases (4 * k) 512).
  - rewrite mask_ok by assumption. split; [discriminate|lia].
  - rewrite mask_panic_ge by assumption. split; [lia|reflexivity].
Qed.

Lemma bind_panic {A B} (m : res A) (f : A -> B) : (x <- m ;; Ok (f x)) = Panic <-> m = Panic.
Proof. destruct m; cbn; split; congruence. Qed.

Lemma release_range n s e : nwf n -> s < usize_range -> e < usize_range ->
  get_nibble_range Release n s e = Panic <-> 128 <= gap e s.
Proof.
  intros [_ L] Hs He. unfold get_nibble_range.
  destruct (usub_release_gap e s He Hs) as (rc & -> & G). cbn [bind].
  destruct (usub_release_gap (count n) e) as (d & -> & _); [unfold usize_range; lia|assumption|]. cbn [bind].
  rewrite !umul4_release. cbn [bind]. rewrite !four_mod, G, bind_panic. apply mask_iff.
Qed.

Lemma truncate_front_ok pr n k : nwf n -> exists n', truncate_n_nibbles_front pr n k = Ok n'.
Proof.
  intros W. destruct (nwf_ex n W) as (l & -> & _ & H & L & C).
  pose proof (truncate_front_enc pr l (N.to_nat k)) as E. rewrite N2Nat.id in E. rewrite E; eauto.
Qed.

Lemma truncate_back_ok pr n k : nwf n -> exists n', truncate_n_nibbles_back pr n k = Ok n'.
Proof.
  intros W. destruct (nwf_ex n W) as (l & -> & _ & H & L & C).
  pose proof (truncate_back_enc pr l (N.to_nat k)) as E. rewrite N2Nat.id in E. rewrite E; eauto.
Qed.

Lemma gap_0 k : k < usize_range -> gap k 0 = k mod quarter.
Proof.
  intros H. unfold gap. rewrite N.sub_0_r, quarter_eq, N.mod_add by discriminate. reflexivity.
Qed.

Lemma mod_shift a b m : m <> 0 -> (a + m * b) mod m = a mod m.
Proof. intros H. rewrite N.mul_comm. apply N.mod_add, H. Qed.

(** ** The exact panics *)

(** Debug builds: a call panics exactly when its argument is out of range. *)
Theorem C02_debug_exact : forall n i, nwf n ->
  (get_nibble Debug n i = Panic <-> count n <= i) /\
  (get_next_nibbles Debug n i = Panic <-> count n < i) /\
  (pop_nibbles_front Debug n i = Panic <-> count n < i) /\
  (pop_nibbles_back Debug n i = Panic <-> count n < i) /\
  (split_at_idx Debug n i = Panic <-> count n < i) /\
  (split_at_idx_prefix Debug n i = Panic <-> count n < i) /\
  (split_at_idx_postfix Debug n i = Panic <-> count n < i) /\
  (pop_next_nibble_front Debug n = Panic <-> count n = 0) /\
  (pop_next_nibble_back Debug n = Panic <-> count n = 0) /\
  (forall s, get_nibble_range Debug n s i = Panic <-> i < s \/ count n < i) /\
  truncate_n_nibbles_front Debug n i <> Panic /\ truncate_n_nibbles_back Debug n i <> Panic.
Proof.
  intros n i W.
  assert (Ok_no : forall A (m : res A), (exists x, m = Ok x) -> m <> Panic) by (intros A m [x ->]; discriminate).
  assert (iff_by : forall (A : Type) (m : res A) (P : Prop), (P -> m = Panic) -> (~ P -> exists x, m = Ok x) -> (P \/ ~ P) -> (m = Panic <-> P)).
  { intros A m P H1 H2 [H|H]; (split; [|tauto]); [tauto|]. intros E. destruct (Ok_no A m (H2 H) E). }
  assert (Len : length (nseq n) = N.to_nat (count n)) by apply nseq_length.
  assert (LE : i <= count n -> (N.to_nat i <= length (nseq n))%nat) by lia.
  repeat match goal with |- _ /\ _ => split end.
  - apply iff_by; [|intros H|lia].
    + intros H. apply C02_get_nibble_partial; auto.
    + destruct (nth_error (nseq n) (N.to_nat i)) eqn:E.
      * exists n0. rewrite <- (N2Nat.id i). apply C01_get_nibble; auto.
      * apply nth_error_None in E. lia.
  - apply iff_by; [apply C02_debug_partial; assumption|intros H|lia].
    destruct (C01_get_next_nibbles Debug n (N.to_nat i) W) as (x & E & _); [lia|]. rewrite N2Nat.id in E. eauto.
  - apply iff_by; [apply C02_debug_partial; assumption|intros H|lia].
    destruct (C01_get_next_nibbles Debug n (N.to_nat i) W) as (x & E & _); [lia|]. rewrite N2Nat.id in E.
    unfold get_next_nibbles in E. unfold pop_nibbles_front. rewrite E. cbn [bind].
    destruct (truncate_front_ok Debug n i W) as [y ->]. cbn. eauto.
  - apply iff_by; [apply C02_debug_partial; assumption|intros H|lia].
    unfold pop_nibbles_back. rewrite usub_ok by lia. cbn [bind].
    destruct (C01_get_nibble_range Debug n (N.to_nat (count n - i)) (N.to_nat (count n)) W) as (x & E & _); [lia|lia|].
    rewrite !N2Nat.id in E. rewrite E. cbn [bind]. destruct (truncate_back_ok Debug n i W) as [y ->]. cbn. eauto.
  - apply iff_by; [apply C02_debug_partial; assumption|intros H|lia].
    destruct (C01_split_at_idx Debug n (N.to_nat i) W) as (x & y & E & _); [lia|]. rewrite N2Nat.id in E. eauto.
  - apply iff_by; [apply C02_debug_partial; assumption|intros H|lia].
    destruct (C01_split_at_idx_prefix Debug n (N.to_nat i) W) as (x & E & _); [lia|]. rewrite N2Nat.id in E. eauto.
  - apply iff_by; [apply C02_debug_partial; assumption|intros H|lia].
    destruct (C01_split_at_idx_postfix Debug n (N.to_nat i) W) as (x & E & _); [lia|]. rewrite N2Nat.id in E. eauto.
  - apply iff_by; [|intros H|lia].
    + intros H. apply C02_pop_empty_partial; auto. destruct (nseq n); [reflexivity|cbn in Len; lia].
    + destruct (nseq n) as [|d l] eqn:E; [cbn in Len; lia|].
      destruct (C01_pop_next_nibble_front Debug n d l W E) as (x & -> & _). eauto.
  - apply iff_by; [|intros H|lia].
    + intros H. apply C02_pop_back_empty_debug_partial; auto. destruct (nseq n); [reflexivity|cbn in Len; lia].
    + destruct (@exists_last _ (nseq n)) as (l & d & E); [intros E; rewrite E in Len; cbn in Len; lia|].
      destruct (C01_pop_next_nibble_back Debug n d l W E) as (x & -> & _). eauto.
  - intros s. apply iff_by; [|intros H|lia].
    + intros [H|H].
      * unfold get_nibble_range. rewrite usub_debug by assumption. reflexivity.
      * apply C02_debug_partial; assumption.
    + destruct (C01_get_nibble_range Debug n (N.to_nat s) (N.to_nat i) W) as (x & E & _); [lia|lia|].
      rewrite !N2Nat.id in E. eauto.
  - apply Ok_no, truncate_front_ok, W.
  - apply Ok_no, truncate_back_ok, W.
Qed.

(** Release builds: which calls panic, for every key and every [usize] argument. [gap a b] is [a - b] modulo [2^62]. *)
Theorem C02_release_exact : forall n i, nwf n -> i < usize_range ->
  (get_nibble Release n i = Panic <-> count n <= i /\ i < usize_range + count n - 128) /\
  (get_next_nibbles Release n i = Panic <-> 128 <= i mod quarter) /\
  (pop_nibbles_front Release n i = Panic <-> 128 <= i mod quarter) /\
  (pop_nibbles_back Release n i = Panic <-> 128 <= i mod quarter) /\
  (split_at_idx Release n i = Panic <-> 128 <= gap (count n) i) /\
  (split_at_idx_prefix Release n i = Panic <-> 128 <= i mod quarter) /\
  (split_at_idx_postfix Release n i = Panic <-> 128 <= gap (count n) i) /\
  (pop_next_nibble_front Release n = Panic <-> count n = 0) /\
  pop_next_nibble_back Release n <> Panic /\
  (forall s, s < usize_range -> (get_nibble_range Release n s i = Panic <-> 128 <= gap i s)) /\
  truncate_n_nibbles_front Release n i <> Panic /\ truncate_n_nibbles_back Release n i <> Panic.
Proof.
  intros n i W Hi. pose proof W as [_ L].
  assert (Hc : count n < usize_range) by (unfold usize_range; lia).
  assert (Ok_no : forall A (m : res A), (exists x, m = Ok x) -> m <> Panic) by (intros A m [x ->]; discriminate).
  assert (Len : length (nseq n) = N.to_nat (count n)) by apply nseq_length.
  repeat match goal with |- _ /\ _ => split end.
  - unfold get_nibble. destruct (N.lt_ge_cases i (count n)) as [H|H].
    + rewrite usub_ok by lia. cbn [bind]. rewrite usub_ok by lia. cbn [bind]. rewrite bind_panic. unfold u512_byte.
      destruct (N.ltb_spec ((count n - i - 1) / 2) 64) as [H1|H1]; [split; [discriminate|lia]|].
      exfalso. assert ((count n - i - 1) / 2 < 64) by (apply N.div_lt_upper_bound; lia). lia.
    + assert (E : exists c, usub Release (count n) i = Ok c /\
                  (c = 0 /\ count n = i \/ c = count n + usize_range - i /\ count n < i)).
      { unfold usub. destruct (N.leb_spec i (count n)); eexists; (split; [reflexivity|]); lia. }
      destruct E as (c & -> & E). cbn [bind].
      assert (E2 : usub Release c 1 = Ok (count n + usize_range - i - 1)).
      { unfold usub. destruct (N.leb_spec 1 c); destruct E as [[-> E]|[-> E]]; f_equal; unfold usize_range in *; lia. }
      rewrite E2. cbn [bind]. rewrite bind_panic. unfold u512_byte.
      set (x := count n + usize_range - i - 1).
      pose proof (N.div_mod x 2 ltac:(discriminate)). pose proof (N.mod_lt x 2 ltac:(discriminate)).
      destruct (N.ltb_spec (x / 2) 64); split; try discriminate; try reflexivity; intros; unfold x, usize_range in *; lia.
  - unfold get_next_nibbles. rewrite release_range, gap_0 by (assumption || reflexivity). reflexivity.
  - unfold pop_nibbles_front. destruct (truncate_front_ok Release n i W) as [y ->]. cbn [bind]. rewrite bind_panic.
    rewrite release_range, gap_0 by (assumption || reflexivity). reflexivity.
  - unfold pop_nibbles_back. destruct (truncate_back_ok Release n i W) as [y ->]. cbn [bind].
    unfold usub. destruct (N.leb_spec i (count n)) as [H|H]; cbn [bind]; rewrite bind_panic.
    + rewrite release_range by (try assumption; lia). unfold gap.
      replace (count n + usize_range - (count n - i)) with (i + quarter * 4) by (unfold usize_range, quarter; lia).
      rewrite mod_shift by discriminate. reflexivity.
    + rewrite release_range by (try assumption; lia). unfold gap.
      replace (count n + usize_range - (count n + usize_range - i)) with i by lia. reflexivity.
  - unfold split_at_idx. destruct (usub_release_gap (count n) i Hc Hi) as (d & -> & G). cbn [bind].
    rewrite umul4_release. cbn [bind]. rewrite four_mod, G.
    rewrite (bind_panic (create_mask_of_1s (4 * gap (count n) i))
      (fun m => (Nib i (u512_shr (N.land (packed n) (u512_not m)) (4 * gap (count n) i)), Nib d (N.land (packed n) m)))).
    apply mask_iff.
  - unfold split_at_idx_prefix. destruct (usub_release_gap (count n) i Hc Hi) as (d & -> & _). cbn [bind].
    rewrite !umul4_release. cbn [bind]. rewrite !four_mod, bind_panic. apply mask_iff.
  - unfold split_at_idx_postfix. destruct (usub_release_gap (count n) i Hc Hi) as (d & -> & G). cbn [bind].
    rewrite umul4_release. cbn [bind]. rewrite four_mod, G, bind_panic. apply mask_iff.
  - destruct (nseq n) as [|d l] eqn:E.
    + rewrite C02_pop_empty_partial by assumption. cbn in Len. split; [lia|reflexivity].
    + destruct (C01_pop_next_nibble_front Release n d l W E) as (x & -> & _). cbn in Len. split; [discriminate|lia].
  - destruct (N.eq_dec (count n) 0) as [E|E].
    + destruct (nwf_ex n W) as (l & -> & _ & _ & _ & C). rewrite C in E. destruct l; [|cbn in E; lia]. vm_compute. discriminate.
    + destruct (@exists_last _ (nseq n)) as (l & d & E1); [intros E1; rewrite E1 in Len; cbn in Len; lia|].
      destruct (C01_pop_next_nibble_back Release n d l W E1) as (x & -> & _). discriminate.
  - intros s Hs. apply release_range; assumption.
  - apply Ok_no, truncate_front_ok, W.
  - apply Ok_no, truncate_back_ok, W.
Qed.

(** What a Release build returns for a count past the end that it does not refuse: [i] nibbles, all zero, whatever the key;
    popping from the front also empties the key. *)
Theorem C02_release_value : forall n i, nwf n -> count n < i -> i <= 127 ->
  get_next_nibbles Release n i = Ok (Nib i 0) /\ split_at_idx_prefix Release n i = Ok (Nib i 0) /\
  pop_nibbles_front Release n i = Ok (Nib i 0, Nib 0 0) /\
  (forall s, s <= i -> get_nibble_range Release n s i = Ok (Nib (i - s) 0)).
Proof.
  intros n i W H1 H2. pose proof W as [_ L].
  assert (R : forall s, s <= i -> get_nibble_range Release n s i = Ok (Nib (i - s) 0)).
  { intros s Hs. unfold get_nibble_range. rewrite usub_ok by assumption. cbn [bind]. rewrite usub_release by assumption. cbn [bind].
    rewrite !umul4_release. cbn [bind].
    rewrite (N.mod_small (4 * (i - s))) by (unfold usize_range; lia). rewrite mask_ok by lia. cbn [bind].
    assert (Hs' : 512 <= (4 * (count n + usize_range - i)) mod usize_range).
    { rewrite four_mod. replace (count n + usize_range - i) with (quarter - (i - count n) + quarter * 3) by (unfold usize_range, quarter; lia).
      rewrite mod_shift by discriminate. rewrite N.mod_small by (unfold quarter; lia). unfold quarter; lia. }
    unfold u512_shr, u512_bits. destruct (N.leb_spec 512 ((4 * (count n + usize_range - i)) mod usize_range)); [reflexivity|lia]. }
  assert (R0 : get_nibble_range Release n 0 i = Ok (Nib i 0)) by (rewrite R by lia; rewrite N.sub_0_r; reflexivity).
  split; [exact R0|]. split; [|split; [|exact R]].
  - unfold get_nibble_range in R0. rewrite (usub_ok Release i 0) in R0 by lia. cbn [bind] in R0. rewrite N.sub_0_r in R0.
    exact R0.
  - unfold pop_nibbles_front. rewrite R0. cbn [bind]. destruct (nwf_ex n W) as (l & -> & _ & H & Hl & C).
    rewrite <- (N2Nat.id i). rewrite truncate_front_enc by (assumption || lia). cbn [bind].
    rewrite skipn_all2 by lia. reflexivity.
Qed.

(** Appending and comparing, either profile: a panic exactly for a nibble above 0xf, more than 64 nibbles in all, or
    different lengths. *)
Theorem C02_append_exact : forall pr n m d, nwf n -> nwf m ->
  (push_nibble_front n d = Panic <-> 64 <= count n \/ 16 <= d) /\
  (push_nibble_back n d = Panic <-> 64 <= count n \/ 16 <= d) /\
  (merge_nibble n d = Panic <-> 64 <= count n \/ 16 <= d) /\
  (merge_nibbles pr n m = Panic <-> 64 < count n + count m) /\
  (push_nibbles_front pr n m = Panic <-> 64 < count n + count m) /\
  (from_nibble d = Panic <-> 15 < d) /\
  (find_diff_equal pr n m = Panic <-> count n <> count m).
Proof.
  intros pr n m d W1 W2.
  assert (iff_by : forall (A : Type) (r : res A) (P : Prop), (P -> r = Panic) -> (~ P -> exists x, r = Ok x) -> (P \/ ~ P) -> (r = Panic <-> P)).
  { intros A r P H1 H2 [H|H]; (split; [|tauto]); [tauto|]. intros E. destruct (H2 H) as [x E2]. congruence. }
  repeat match goal with |- _ /\ _ => split end.
  - apply iff_by; [apply C02_append_partial; assumption|intros H|lia].
    destruct (C01_push_nibble_front n d W1) as (x & -> & _); [lia..|eauto].
  - apply iff_by; [apply C02_append_partial; assumption|intros H|lia].
    destruct (C01_push_nibble_back n d W1) as (x & -> & _); [lia..|eauto].
  - apply iff_by; [apply C02_append_partial; assumption|intros H|lia].
    destruct (C01_merge_nibble n d W1) as (x & -> & _); [lia..|eauto].
  - apply iff_by; [apply C02_merge_partial; assumption|intros H|lia].
    destruct (C01_merge_nibbles pr n m W1 W2) as (x & -> & _); [lia|eauto].
  - apply iff_by; [apply C02_merge_partial; assumption|intros H|lia].
    destruct (C01_push_nibbles_front pr n m W1 W2) as (x & -> & _); [lia|eauto].
  - apply iff_by; [apply C02_from_nibble_partial|intros H|lia].
    destruct (C01_from_nibble d) as (x & -> & _); [lia|eauto].
  - apply iff_by; [apply C02_find_diff_equal_partial; assumption|intros H|lia].
    rewrite C03_find_diff_equal by (assumption || lia). eauto.
Qed.

(** The views of a key as bytes, text, hex-prefix bytes and number, for every value of the two fields (a [Nibbles] that a
    caller or a saved text made up may have any count and any bits). *)
Theorem C02_views_exact : forall pr n leaf upper, count n < usize_range ->
  (bytes_be pr n = Panic <-> 128 < count n /\ (pr = Release -> count n <> usize_range - 1)) /\
  (as_hex_str pr upper n = Panic <-> 128 < count n /\ (pr = Release -> count n <> usize_range - 1)) /\
  (to_hex_prefix_encoding pr n leaf = Panic <-> 129 < count n) /\
  (try_into_u256 pr n = Panic <->
     count n <= 64 /\ 2 ^ 256 <= packed n \/ 128 < count n /\ (pr = Release -> count n <> usize_range - 1)).
Proof.
  intros pr [c p] leaf upper Hc. cbn [count packed] in *.
  assert (B : forall A (f : N -> A), (mb <- min_bytes pr (Nib c p) ;; if 64 <? mb then Panic else Ok (f mb)) = Panic <->
                128 < c /\ (pr = Release -> c <> usize_range - 1)).
  { intros A f. unfold min_bytes, uadd. cbn [count]. destruct (N.ltb_spec (c + 1) usize_range) as [H|H].
    - cbn [bind]. destruct (N.ltb_spec 64 ((c + 1) / 2)) as [H2|H2].
      + split; [|reflexivity]. intros _. split; [|intros _; lia]. destruct (N.le_gt_cases c 128) as [H3|H3]; [|exact H3].
        assert ((c + 1) / 2 < 65) by (apply N.div_lt_upper_bound; lia). lia.
      + split; [discriminate|]. intros [H3 _]. exfalso. assert (65 <= (c + 1) / 2) by (apply N.div_le_lower_bound; lia). lia.
    - assert (E : c = usize_range - 1) by lia. destruct pr.
      + cbn [bind]. split; [|reflexivity]. intros _. split; [rewrite E; reflexivity|discriminate].
      + replace (c + 1) with usize_range by lia. cbn [bind]. rewrite N.mod_same by discriminate.
        split; [discriminate|]. intros [_ H2]. destruct (H2 eq_refl E). }
  repeat match goal with |- _ /\ _ => split end.
  - apply B.
  - unfold as_hex_str. cbn [packed count]. exact (B _ (fun mb => [48; 120] ++ (if is_even c then hex_encode upper (skipn (64 - N.to_nat mb) (be_bytes 64 p)) else skipn 1 (hex_encode upper (skipn (64 - N.to_nat mb) (be_bytes 64 p)))))).
  - unfold to_hex_prefix_encoding, uadd. cbn [count packed].
    assert (Sk : forall k, (k < 65)%nat -> exists b r, skipn k (0 :: be_bytes 64 p) = b :: r).
    { intros k Hk. destruct (skipn k (0 :: be_bytes 64 p)) as [|b r] eqn:E; [|eauto].
      apply (f_equal (@length N)) in E. rewrite skipn_length in E. cbn [length] in E. rewrite be_bytes_length in E. lia. }
    destruct (N.ltb_spec (c + 1) usize_range) as [H|H]; cbn [bind].
    + destruct (N.ltb_spec (c + 1 + 1) usize_range) as [H2|H2]; cbn [bind].
      * destruct (N.ltb_spec 65 ((c + 1 + 1) / 2)) as [H3|H3]; cbn [orb].
        -- split; [|reflexivity]. intros _. destruct (N.le_gt_cases c 129) as [H4|H4]; [|exact H4].
           assert ((c + 1 + 1) / 2 < 66) by (apply N.div_lt_upper_bound; lia). lia.
        -- assert (1 <= (c + 1 + 1) / 2) by (apply N.div_le_lower_bound; lia).
           destruct (N.eqb_spec ((c + 1 + 1) / 2) 0); [lia|].
           destruct (Sk (65 - N.to_nat ((c + 1 + 1) / 2))%nat ltac:(lia)) as (b & r & ->). split; [discriminate|].
           intros H4. exfalso. assert (66 <= (c + 1 + 1) / 2) by (apply N.div_le_lower_bound; lia). lia.
      * assert (E : c + 1 + 1 = usize_range) by lia. destruct pr; cbn [bind].
        -- split; [|reflexivity]. intros _. unfold usize_range in *. lia.
        -- rewrite E, N.mod_same by discriminate. cbn. split; [|reflexivity]. intros _. unfold usize_range in *. lia.
    + assert (E : c + 1 = usize_range) by lia. destruct pr; cbn [bind].
      * split; [|reflexivity]. intros _. unfold usize_range in *. lia.
      * rewrite E, N.mod_same by discriminate. cbn. split; [|reflexivity]. intros _. unfold usize_range in *. lia.
  - unfold try_into_u256. cbn [count packed]. destruct (N.leb_spec c 64) as [H|H].
    + destruct (N.ltb_spec p (2 ^ 256)) as [H2|H2]; (split; [|lia || reflexivity]); [discriminate|]. intros _. left. auto.
    + rewrite bind_panic. unfold as_hex_str. cbn [packed count].
      rewrite (B _ (fun mb => [48; 120] ++ (if is_even c then hex_encode false (skipn (64 - N.to_nat mb) (be_bytes 64 p)) else skipn 1 (hex_encode false (skipn (64 - N.to_nat mb) (be_bytes 64 p)))))).
      split; [auto|]. intros [[Q _]|Q]; [lia|exact Q].
Qed.

(** The hypotheses hold of a five-nibble key; both sides of the criteria occur. *)
Example C02_exact_example :
  nwf k0123a /\ get_next_nibbles Release k0123a 127 = Ok (Nib 127 0) /\ get_next_nibbles Release k0123a 128 = Panic /\
  get_next_nibbles Release k0123a quarter = Ok (Nib quarter 0) /\
  split_at_idx_postfix Release k0123a 6 = Panic /\ get_nibble Release k0123a 5 = Panic /\
  get_nibble Release k0123a (usize_range - 1) = Ok 0 /\ get_nibble_range Release k0123a 4 2 = Panic /\
  get_nibble_range Debug k0123a 4 2 = Panic.
Proof. split; [apply k0123a_wf|]. vm_compute. repeat split. Qed.

Print Assumptions C02_debug_exact.
Print Assumptions C02_release_exact.
Print Assumptions C02_release_value.
Print Assumptions C02_append_exact.
Print Assumptions C02_views_exact.

Example C02_views_example :
  bytes_be Debug (Nib 128 7) <> Panic /\ bytes_be Debug (Nib 129 7) = Panic /\ as_hex_str Release false (Nib (usize_range - 1) 7) = Ok [48; 120] /\
  to_hex_prefix_encoding Debug (Nib 129 7) false <> Panic /\ to_hex_prefix_encoding Release (Nib 130 7) false = Panic /\
  try_into_u256 Debug (Nib 64 (2 ^ 256)) = Panic /\ try_into_u256 Debug (Nib 65 (2 ^ 256)) <> Panic.
Proof. repeat match goal with |- _ /\ _ => split end; vm_compute; (reflexivity || discriminate). Qed.
