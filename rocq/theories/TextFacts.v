(** The text output: the model computes the specified texts, and these can be read back. *)
From Coq Require Import String Ascii Decimal DecimalPos DecimalN.
From Verif Require Import Base Nibbles NibblesSpec NibblesFacts NibblesFacts2 NibblesFacts3 Trie TrieSpec Query Diff P_Query Text TextSpec.
Open Scope N_scope.
Open Scope list_scope.

(** ** Keys, bytes, numbers *)
Lemma key_text_ok pr n : kwf n -> key_text pr n = Ok (shown_key (nseq n)).
Proof.
  intros [H L]. unfold key_text. rewrite <- (enc_nseq n H) at 1. rewrite as_hex_str_enc; [reflexivity|apply nseq_hexl|].
  rewrite nseq_length. lia.
Qed.

Lemma hex_text_eq l : hex_text l = shown_bytes l.
Proof.
  unfold hex_text, shown_bytes. induction l as [|b l IH]; [reflexivity|]. cbn [hex_encode flat_map unpair map app].
  f_equal. f_equal. exact IH.
Qed.

Lemma type_text_eq ty : type_text ty = type_name ty.
Proof. destruct ty; reflexivity. Qed.

Lemma undec_acc u : forall p, fold_left (fun a c => 10 * a + (c - 48)) (uint_chars u) (N.pos p) = N.pos (Pos.of_uint_acc u p).
Proof.
  induction u; intros p; cbn [uint_chars fold_left Pos.of_uint_acc]; try reflexivity; rewrite <- IHu; f_equal; lia.
Qed.
Lemma undec_chars u : undec (uint_chars u) = Pos.of_uint u.
Proof.
  unfold undec. induction u; cbn [uint_chars fold_left Pos.of_uint]; try reflexivity; try (rewrite <- undec_acc; reflexivity).
  exact IHu.
Qed.
Lemma undec_dec n : undec (dec n) = n.
Proof. unfold dec. rewrite undec_chars. apply (DecimalN.Unsigned.of_to n). Qed.
Lemma dec_inj a b : dec a = dec b -> a = b.
Proof. intros E. rewrite <- (undec_dec a), <- (undec_dec b), E. reflexivity. Qed.

(** ** Characters *)
Definition word (c : N) : bool := (48 <=? c) && (c <=? 57) || (65 <=? c) && (c <=? 90) || (97 <=? c) && (c <=? 122).
Definition words (l : list N) : Prop := Forall (fun c => word c = true) l.
Definition stops (l : list N) : Prop := match l with [] => True | c :: _ => word c = false end.

Lemma peel a b r s : words a -> words b -> stops r -> stops s -> a ++ r = b ++ s -> a = b /\ r = s.
Proof.
  intros A. revert b. induction A as [|x a X A IH]; intros b B R S E.
  - destruct B as [|y b Y B]; [auto|]. cbn [app] in E. subst r. cbn in R. congruence.
  - destruct B as [|y b Y B]; cbn [app] in E.
    + subst s. cbn in S. congruence.
    + injection E as -> E. destruct (IH b B R S E). subst. auto.
Qed.

Lemma hex_char_word d : d < 16 -> word (hex_char false d) = true.
Proof. intros H. unfold word, hex_char. destruct (N.ltb_spec d 10); lia. Qed.
Lemma hex_char_inj a b : a < 16 -> b < 16 -> hex_char false a = hex_char false b -> a = b.
Proof. unfold hex_char. destruct (N.ltb_spec a 10), (N.ltb_spec b 10); lia. Qed.
Lemma hex_map_inj a : forall b, hexl a -> hexl b -> map (hex_char false) a = map (hex_char false) b -> a = b.
Proof.
  induction a as [|x a IH]; intros [|y b] A B E; try discriminate; [reflexivity|]. cbn [map] in E. injection E as E1 E2.
  inversion A; inversion B; subst. f_equal; [apply hex_char_inj; assumption|apply IH; assumption].
Qed.
Lemma words_hex l : hexl l -> words (map (hex_char false) l).
Proof. intros H. apply Forall_map. eapply Forall_impl; [|exact H]. exact hex_char_word. Qed.
Lemma words_key l : hexl l -> words (shown_key l).
Proof. intros H. apply Forall_app. split; [repeat constructor|apply words_hex, H]. Qed.
Lemma hexl_unpair l : bytesl l -> hexl (unpair l).
Proof.
  induction 1 as [|b l Hb H IH]; cbn [unpair]; [constructor|].
  constructor; [apply N.div_lt_upper_bound; lia|]. constructor; [apply N.mod_lt; lia|exact IH].
Qed.
Lemma words_bytes l : bytesl l -> words (shown_bytes l).
Proof. intros H. apply words_hex, hexl_unpair, H. Qed.
Lemma unpair_inj a : forall b, unpair a = unpair b -> a = b.
Proof.
  induction a as [|x a IH]; intros [|y b] E; try discriminate; [reflexivity|]. cbn [unpair] in E. injection E as E1 E2 E3.
  f_equal; [|apply IH, E3]. pose proof (N.div_mod x 16 ltac:(lia)). pose proof (N.div_mod y 16 ltac:(lia)). lia.
Qed.
Lemma shown_bytes_inj a b : bytesl a -> bytesl b -> shown_bytes a = shown_bytes b -> a = b.
Proof. intros A B E. apply unpair_inj. apply hex_map_inj; [apply hexl_unpair, A|apply hexl_unpair, B|exact E]. Qed.
Lemma shown_key_inj a b : hexl a -> hexl b -> shown_key a = shown_key b -> a = b.
Proof. intros A B E. apply app_inv_head in E. apply hex_map_inj; assumption. Qed.
Lemma nseq_inj n m : kwf n -> kwf m -> nseq n = nseq m -> n = m.
Proof. intros [A _] [B _] E. rewrite <- (enc_nseq n A), <- (enc_nseq m B), E. reflexivity. Qed.
Lemma words_uint u : words (uint_chars u).
Proof. induction u; cbn [uint_chars]; constructor; (reflexivity || assumption). Qed.
Lemma words_dec n : words (dec n).
Proof. apply words_uint. Qed.
Lemma words_type ty : words (type_name ty).
Proof. destruct ty; repeat constructor. Qed.
Lemma type_name_inj a b : type_name a = type_name b -> a = b.
Proof. destruct a, b; intros E; reflexivity || discriminate E. Qed.
Lemma bool_name_inj (a b : bool) : (if a then txt "true" else txt "false") = (if b then txt "true" else txt "false") -> a = b.
Proof. destruct a, b; intros E; reflexivity || discriminate E. Qed.

(** ** Joined texts *)
Definition free (c : N) (l : list N) : Prop := Forall (fun x => x <> c) l.

Lemma split_at c a b r s : free c a -> free c b -> a ++ c :: r = b ++ c :: s -> a = b /\ r = s.
Proof.
  intros A. revert b. induction A as [|x a X A IH]; intros b B E; destruct B as [|y b Y B]; cbn [app] in E.
  - injection E. auto.
  - injection E as E _. congruence.
  - injection E as E _. congruence.
  - injection E as -> E. destruct (IH b B E). subst. auto.
Qed.
Lemma not_split c a b r : free c a -> free c b -> a <> b ++ c :: r.
Proof. intros A B ->. apply Forall_app in A. destruct A as [_ A]. inversion A. congruence. Qed.

Lemma join_inj c sep l : forall m, l <> [] -> m <> [] -> Forall (free c) l -> Forall (free c) m -> join (c :: sep) l = join (c :: sep) m -> l = m.
Proof.
  induction l as [|x l IH]; intros m NL NM FL FM E; [congruence|]. destruct m as [|y m]; [congruence|].
  inversion FL as [|? ? Fx FL']; inversion FM as [|? ? Fy FM']; subst. destruct l as [|x' l], m as [|y' m].
  - cbn in E. congruence.
  - exfalso. cbn [join app] in E. exact (not_split c x y _ Fx Fy E).
  - exfalso. cbn [join app] in E. exact (not_split c y x _ Fy Fx (eq_sym E)).
  - change (join (c :: sep) (x :: x' :: l)) with (x ++ c :: sep ++ join (c :: sep) (x' :: l)) in E.
    change (join (c :: sep) (y :: y' :: m)) with (y ++ c :: sep ++ join (c :: sep) (y' :: m)) in E.
    destruct (split_at c _ _ _ _ Fx Fy E) as [-> E']. apply app_inv_head in E'. f_equal. apply IH; (discriminate || assumption).
Qed.

Lemma free_words c l : word c = false -> words l -> free c l.
Proof. intros C W. eapply Forall_impl; [|exact W]. cbn beta. intros a Ha ->. congruence. Qed.
Lemma free_app c a b : free c a -> free c b -> free c (a ++ b).
Proof. intros A B. apply Forall_app. auto. Qed.

(** ** Paths *)
Lemma segment_text_ok pr s : segment_ok s -> segment_text pr s = Ok (shown_segment s).
Proof. destruct s; intros H; cbn [segment_text]; try reflexivity; cbn in H; rewrite key_text_ok by exact H; reflexivity. Qed.

Lemma words_shown_key n : words (shown_key (nseq n)).
Proof. apply words_key, nseq_hexl. Qed.

Ltac free_tac :=
  repeat first
    [ apply free_words; [reflexivity|solve [apply words_dec | apply words_type | apply words_shown_key | apply words_bytes; assumption | apply words_key; assumption]]
    | match goal with |- free ?c (txt ?s) => solve [repeat (constructor; [discriminate|]); constructor] end
    | apply free_app ].

Lemma free_segment s : free 32 (shown_segment s) /\ free 44 (shown_segment s).
Proof. destruct s; cbn [shown_segment seg_type]; split; free_tac. Qed.

Lemma key_shown_inj n m : kwf n -> kwf m -> shown_key (nseq n) = shown_key (nseq m) -> n = m.
Proof. intros A B E. apply nseq_inj; try assumption. apply shown_key_inj; [apply nseq_hexl|apply nseq_hexl|exact E]. Qed.

Lemma shown_segment_inj s s' : segment_ok s -> segment_ok s' -> shown_segment s = shown_segment s' -> s = s'.
Proof.
  intros H H' E. assert (T : seg_type s = seg_type s').
  { apply type_name_inj. destruct s, s'; cbn [shown_segment seg_type] in *; try reflexivity; try discriminate E. }
  destruct s, s'; try discriminate T; cbn [shown_segment seg_type segment_ok] in *; try reflexivity;
    apply app_inv_head in E; apply app_inv_head in E; apply app_inv_tail in E; f_equal;
    [apply dec_inj, E|apply key_shown_inj; assumption|apply key_shown_inj; assumption].
Qed.

Lemma path_loop_ok pr l : Forall segment_ok l -> path_loop pr l = Ok (flat_map (fun s => shown_segment s ++ txt " --> ") l).
Proof.
  induction 1 as [|s l Hs H IH]; [reflexivity|]. cbn [path_loop flat_map]. rewrite segment_text_ok by exact Hs. cbn [bind]. rewrite IH. cbn [bind].
  rewrite app_assoc. reflexivity.
Qed.
Lemma join_snoc sep {A} (f : A -> list N) l x : join sep (map f (l ++ [x])) = flat_map (fun s => f s ++ sep) l ++ f x.
Proof.
  induction l as [|y l IH]; [reflexivity|]. cbn [app map flat_map]. rewrite <- app_assoc. rewrite <- app_assoc. rewrite <- IH. cbn [join].
  destruct (map f (l ++ [x])) eqn:E; [|reflexivity]. destruct l; discriminate.
Qed.
Lemma path_text_ok pr p : Forall segment_ok p -> path_text pr p = Ok (shown_path p).
Proof.
  intros H. unfold path_text, shown_path. destruct p as [|s p] using rev_ind; [reflexivity|]. clear IHp.
  apply Forall_app in H. destruct H as [H Hs]. inversion Hs; subst. rewrite app_length. cbn [length].
  replace (length p + 1 - 1)%nat with (length p) by lia. rewrite firstn_app, firstn_all, Nat.sub_diag, firstn_O, app_nil_r.
  rewrite path_loop_ok by exact H. cbn [bind]. rewrite rev_unit. rewrite segment_text_ok by assumption. cbn [bind]. rewrite join_snoc. reflexivity.
Qed.
Lemma map_inj_in {A B} (f : A -> B) (P : A -> Prop) (I : forall a b, P a -> P b -> f a = f b -> a = b) l :
  forall m, Forall P l -> Forall P m -> map f l = map f m -> l = m.
Proof.
  induction l as [|x l IH]; intros [|y m] L M E; try discriminate; [reflexivity|]. cbn [map] in E. injection E as E1 E2.
  inversion L; inversion M; subst. f_equal; [apply I; assumption|apply IH; assumption].
Qed.
Lemma shown_segment_nonempty s : shown_segment s <> [].
Proof. destruct s; discriminate. Qed.
Lemma join_nil c sep l : Forall (fun x => x <> []) l -> join (c :: sep) l = [] -> l = [].
Proof.
  intros H E. destruct H as [|x l X H]; [reflexivity|]. exfalso. destruct l; cbn [join] in E; [congruence|].
  apply app_eq_nil in E. destruct E. congruence.
Qed.
Lemma shown_path_inj p q : Forall segment_ok p -> Forall segment_ok q -> shown_path p = shown_path q -> p = q.
Proof.
  intros P Q E. unfold shown_path in E. change (txt " --> ") with (32 :: txt "--> ") in E.
  assert (NE : forall l, Forall (fun x => x <> []) (map shown_segment l)) by (intros l; apply Forall_map, Forall_forall; intros; apply shown_segment_nonempty).
  assert (FR : forall l, Forall (free 32) (map shown_segment l)) by (intros l; apply Forall_map, Forall_forall; intros; apply free_segment).
  destruct p as [|s p].
  - symmetry in E. apply join_nil in E; [|apply NE]. destruct q; [reflexivity|discriminate].
  - destruct q as [|s' q]; [apply join_nil in E; [discriminate|apply NE]|].
    apply join_inj in E; try discriminate; [|apply FR|apply FR].
    exact (map_inj_in shown_segment segment_ok shown_segment_inj _ _ P Q E).
Qed.
Lemma free_join c sep l : free c sep -> Forall (free c) l -> free c (join sep l).
Proof.
  intros S. induction 1 as [|x l X H IH]; [constructor|]. cbn [join]. destruct l; [exact X|]. apply free_app; [exact X|]. apply free_app; [exact S|exact IH].
Qed.
Lemma free_path p : free 44 (shown_path p).
Proof.
  apply free_join; [repeat (constructor; [discriminate|]); constructor|]. apply Forall_map, Forall_forall. intros s _. apply free_segment.
Qed.

(** ** Node specific values *)
Definition bits : list N := [15; 14; 13; 12; 11; 10; 9; 8; 7; 6; 5; 4; 3; 2; 1; 0].
Lemma bin_digits_bits k : forall m, bin_digits k m = map (fun i => if N.testbit m i then 49 else 48) (rev (map N.of_nat (seq 0 k))).
Proof.
  induction k as [|k IH]; intros m; [reflexivity|]. cbn [bin_digits]. rewrite IH.
  change (seq 0 (S k)) with (0%nat :: seq 1 k). cbn [map rev]. rewrite map_app. cbn [map]. f_equal.
  - rewrite <- seq_shift, !map_map. rewrite <- !map_rev. rewrite !map_map. apply map_ext. intros i. rewrite <- N.div2_div, N.div2_spec.
    rewrite N.shiftr_spec by lia. replace (N.of_nat (S i)) with (N.of_nat i + 1) by lia. reflexivity.
  - change (N.of_nat 0) with 0. rewrite <- N.bit0_mod. destruct (N.testbit m 0); reflexivity.
Qed.
Lemma count_loop_bits k : forall i m acc,
  count_mask_loop k i m acc = acc + N.of_nat (length (filter (N.testbit m) (map (fun j => i + N.of_nat j) (seq 0 k)))).
Proof.
  induction k as [|k IH]; intros i m acc; cbn [count_mask_loop]; [cbn; lia|]. rewrite IH, land_bit.
  change (seq 0 (S k)) with (0%nat :: seq 1 k). cbn [map filter]. change (N.of_nat 0) with 0. rewrite N.add_0_r.
  rewrite <- seq_shift, map_map. rewrite (map_ext (fun x => i + N.of_nat (S x)) (fun j => i + 1 + N.of_nat j)) by (intros; lia).
  destruct (N.testbit m i); cbn [length]; lia.
Qed.
Lemma filter_rev_len {A} (f : A -> bool) l : length (filter f (rev l)) = length (filter f l).
Proof.
  induction l as [|x l IH]; [reflexivity|]. cbn [rev]. rewrite filter_app, app_length, IH. cbn [filter]. destruct (f x); cbn; lia.
Qed.
Lemma extra_text_eq e : extra_text e = shown_extra e.
Proof.
  destruct e as [h|m|v]; cbn [extra_text shown_extra]; try (rewrite hex_text_eq; reflexivity).
  unfold bin16, count_children_from_mask. rewrite bin_digits_bits, count_loop_bits, N.add_0_l.
  rewrite <- (app_assoc (txt "0b")). rewrite (app_assoc (txt "mask: ")). f_equal. f_equal. f_equal. f_equal. f_equal. f_equal.
  change (map (fun j => 0 + N.of_nat j) (seq 0 16)) with (rev bits). rewrite filter_rev_len. reflexivity.
Qed.
Lemma words_bits m l : words (map (fun i => if N.testbit m i then 49 else 48) l).
Proof. apply Forall_map, Forall_forall. intros i _. destruct (N.testbit m i); reflexivity. Qed.
Lemma free_extra e : extra_ok e -> free 10 (shown_extra e).
Proof. destruct e; intros H; cbn [shown_extra extra_ok] in *; free_tac. apply free_words; [reflexivity|apply words_bits]. Qed.
Lemma bits_inj m m' : m < 2 ^ 16 -> m' < 2 ^ 16 ->
  map (fun i => if N.testbit m i then 49 else 48) bits = map (fun i => if N.testbit m' i then 49 else 48) bits -> m = m'.
Proof.
  intros H H' E. apply N.bits_inj. intros i. destruct (N.lt_ge_cases i 16) as [L|L].
  - assert (I : In i bits) by (cbn; lia). clear L. induction bits as [|b l IH]; [destruct I|]. cbn [map] in E. injection E as E1 E2.
    destruct I as [->|I]; [|apply IH; assumption]. destruct (N.testbit m i), (N.testbit m' i); congruence.
  - assert (X : forall x, x < 2 ^ 16 -> N.testbit x i = false).
    { intros x Hx. destruct (N.eq_dec x 0) as [->|Nx]; [apply N.bits_0|]. apply N.bits_above_log2. apply N.log2_lt_pow2 in Hx; lia. }
    rewrite (X m H), (X m' H'). reflexivity.
Qed.
Lemma shown_extra_inj e e' : extra_ok e -> extra_ok e' -> shown_extra e = shown_extra e' -> e = e'.
Proof.
  intros H H' E. destruct e as [h|m|v], e' as [h'|m'|v']; cbn [shown_extra extra_ok] in *; try discriminate E; apply app_inv_head in E; f_equal.
  - apply shown_bytes_inj; assumption.
  - apply peel in E; [|apply words_bits|apply words_bits|reflexivity|reflexivity]. apply bits_inj; [exact H|exact H'|apply E].
  - apply shown_bytes_inj; assumption.
Qed.

(** ** Query results *)
Definition pair_ok (se : segment * option extra_info) : Prop := segment_ok (fst se) /\ match snd se with Some e => extra_ok e | None => True end.

Lemma query_node_ok pr ps s e : segment_ok s -> query_node_text pr ps s e = Ok (shown_node ps (s, e)).
Proof.
  intros H. unfold query_node_text, shown_node. cbn [fst snd]. rewrite type_text_eq.
  assert (P : exists kp, seg_key_piece s = Ok kp /\
    (match kp with Some n => k <- key_text pr n ;; Ok (txt "key: " ++ k) | None => Ok [] end) = Ok (match piece s with Some l => txt "key: " ++ shown_key l | None => [] end)).
  { destruct s; cbn [seg_key_piece piece segment_ok] in *; try (eexists; split; [reflexivity|]; cbn beta iota; try reflexivity; rewrite key_text_ok by assumption; reflexivity).
    unfold from_nibble. destruct (N.leb_spec nib 15); [|lia]. cbn. eexists. split; [reflexivity|]. cbn beta iota. rewrite key_text_ok.
    - change (nseq (Nib 1 nib)) with [nib mod 16]. rewrite N.mod_small by lia. reflexivity.
    - split; cbn; lia. }
  destruct P as (kp & E1 & E2). destruct (include_key_piece ps).
  - rewrite E1. cbn [bind]. rewrite E2. cbn [bind]. destruct (piece s), e as [e|], (include_values ps); rewrite ?extra_text_eq; reflexivity.
  - cbn [bind]. destruct (piece s), e as [e|], (include_values ps); rewrite ?extra_text_eq; reflexivity.
Qed.

Lemma free_node ps se : pair_ok se -> free 10 (shown_node ps se).
Proof.
  intros [H1 H2]. destruct se as [s e]. cbn [fst snd] in *. unfold shown_node. cbn [fst snd].
  apply free_app; [destruct (include_node_type ps); [free_tac|constructor]|]. apply free_app; [free_tac|]. apply free_app.
  - assert (P : match piece s with Some l => hexl l | None => True end) by (destruct s; cbn [piece segment_ok] in *; try exact I; try apply nseq_hexl; repeat constructor; exact H1).
    destruct (piece s) as [l|]; [|constructor]. destruct (include_key_piece ps); [free_tac|constructor].
  - apply free_app; [|free_tac]. destruct e as [e|]; [|constructor]. destruct (include_values ps); [|constructor].
    apply free_app; [destruct (include_key_piece ps); [free_tac|constructor]|]. apply free_app; [free_tac|]. apply free_extra, H2.
Qed.

Lemma shown_node_inj ps se se' : include_key_piece ps = true -> include_node_type ps = true -> pair_ok se -> pair_ok se' ->
  shown_node ps se = shown_node ps se' -> fst se = fst se' /\ (include_values ps = true -> se = se').
Proof.
  intros PK PT [H1 H2] [H1' H2'] E. destruct se as [s e], se' as [s' e']. cbn [fst snd] in *. unfold shown_node in E. cbn [fst snd] in E.
  rewrite PK, PT in E. apply peel in E; [|apply words_type|apply words_type|reflexivity|reflexivity]. destruct E as [T E].
  apply type_name_inj in T. apply app_inv_head in E.
  set (X := match e with Some e => if include_values ps then txt ", " ++ txt "Extra Seg Info: " ++ shown_extra e else [] | None => [] end) in E.
  set (X' := match e' with Some e => if include_values ps then txt ", " ++ txt "Extra Seg Info: " ++ shown_extra e else [] | None => [] end) in E.
  assert (SX : stops (X ++ txt ")") /\ stops (X' ++ txt ")")).
  { split; [unfold X; destruct e, (include_values ps)|unfold X'; destruct e', (include_values ps)]; reflexivity. }
  destruct SX as [SX SX'].
  assert (P : s = s' /\ X = X').
  { destruct s, s'; try discriminate T; cbn [piece segment_ok] in *.
    - rewrite !app_nil_l in E. apply app_inv_tail in E. auto.
    - rewrite !app_nil_l in E. apply app_inv_tail in E. auto.
    - rewrite <- !app_assoc in E. apply app_inv_head in E. apply peel in E; try assumption; try (apply words_key; repeat constructor; assumption).
      destruct E as [E1 E2]. apply shown_key_inj in E1; try (repeat constructor; assumption). injection E1 as ->. apply app_inv_tail in E2. auto.
    - rewrite <- !app_assoc in E. apply app_inv_head in E. apply peel in E; try assumption; try apply words_shown_key.
      destruct E as [E1 E2]. apply key_shown_inj in E1; try assumption. subst. apply app_inv_tail in E2. auto.
    - rewrite <- !app_assoc in E. apply app_inv_head in E. apply peel in E; try assumption; try apply words_shown_key.
      destruct E as [E1 E2]. apply key_shown_inj in E1; try assumption. subst. apply app_inv_tail in E2. auto. }
  destruct P as [-> EX]. split; [reflexivity|]. intros PV. f_equal. unfold X, X' in EX. rewrite PV in EX.
  destruct e as [e|], e' as [e'|]; try discriminate EX; [|reflexivity]. f_equal. apply app_inv_head in EX. apply app_inv_head in EX.
  apply shown_extra_inj; assumption.
Qed.

(** What holds of every result of a query. *)
Definition out_ok (out : query_output) : Prop :=
  kwf (q_key out) /\ node_path out <> [] /\ length (extra_node_info out) = length (node_path out) /\ Forall segment_ok (node_path out).

Lemma query_loop_ok pr ps l : forall x i, Forall segment_ok l -> forall pre, length pre = i -> (length l <= length x)%nat ->
  query_loop pr ps (pre ++ x) i l = Ok (flat_map (fun se => shown_node ps se ++ (newline ++ txt "V" ++ newline)) (combine l x)).
Proof.
  induction l as [|s l IH]; intros x i H pre Hp L; [reflexivity|]. destruct x as [|e x]; [cbn in L; lia|]. inversion H; subst.
  cbn [query_loop combine flat_map]. unfold index_extra. rewrite nth_error_app2 by lia. rewrite Nat.sub_diag. cbn [nth_error bind].
  rewrite query_node_ok by assumption. cbn [bind]. change (e :: x) with ([e] ++ x). rewrite app_assoc.
  rewrite IH; [|assumption|rewrite app_length; cbn; lia|cbn in L; lia]. cbn [bind]. rewrite <- !app_assoc. reflexivity.
Qed.

Lemma query_text_ok pr ps out : out_ok out -> query_text pr ps out = Ok (shown_query ps out).
Proof.
  intros (Hk & NE & L & H). unfold query_text, header_text, shown_query. rewrite key_text_ok by exact Hk. cbn [bind].
  destruct (node_path out) as [|s p] using rev_ind; [congruence|]. clear IHp. destruct (extra_node_info out) as [|e x] using rev_ind; [rewrite app_length in L; cbn in L; lia|]. clear IHx.
  rewrite !app_length in L. cbn [length] in L. apply Forall_app in H. destruct H as [H Hs]. inversion Hs; subst.
  unfold usub. destruct (N.leb_spec 1 (N.of_nat (length (p ++ [s])))) as [_|B]; [|rewrite app_length in B; cbn in B; lia]. cbn [bind].
  replace (N.to_nat (N.of_nat (length (p ++ [s])) - 1)) with (length p) by (rewrite app_length; cbn [length]; lia).
  rewrite firstn_app, firstn_all, Nat.sub_diag, firstn_O, app_nil_r.
  change (x ++ [e]) with ([] ++ (x ++ [e])) at 1. rewrite query_loop_ok; [|exact H|reflexivity|rewrite app_length; lia]. cbn [bind].
  rewrite rev_unit. unfold index_extra. replace (length (p ++ [s]) - 1)%nat with (length x) by (rewrite app_length; cbn [length]; lia).
  rewrite nth_error_app2 by lia. rewrite Nat.sub_diag. cbn [nth_error bind]. rewrite query_node_ok by assumption. cbn [bind].
  assert (C : combine (p ++ [s]) (x ++ [e]) = combine p x ++ [(s, e)]).
  { assert (Lx : length x = length p) by lia. clear - Lx. revert x Lx. induction p as [|a p IH]; intros [|b x] Lx; try discriminate; [reflexivity|]. cbn [app combine]. f_equal. apply IH. cbn in Lx. lia. }
  rewrite C, join_snoc. assert (C2 : combine p (x ++ [e]) = combine p x).
  { assert (Lx : length x = length p) by lia. clear - Lx. revert x Lx. induction p as [|a p IH]; intros [|b x] Lx; try discriminate; [reflexivity|]. cbn [app combine]. f_equal. apply IH. cbn in Lx. lia. }
  rewrite C2. unfold newline, bool_text. rewrite <- !app_assoc. reflexivity.
Qed.

Definition extras_ok (out : query_output) : Prop := Forall (fun e => match e with Some e => extra_ok e | None => True end) (extra_node_info out).

Lemma shown_nodes_inj ps l : include_key_piece ps = true -> include_node_type ps = true -> forall m, Forall pair_ok l -> Forall pair_ok m ->
  map (shown_node ps) l = map (shown_node ps) m -> map fst l = map fst m /\ (include_values ps = true -> l = m).
Proof.
  intros PK PT. induction l as [|x l IH]; intros [|y m] L M E; try discriminate; [auto|]. cbn [map] in *. injection E as E1 E2.
  inversion L; inversion M; subst. destruct (shown_node_inj ps x y PK PT) as [A B]; try assumption.
  destruct (IH m) as [C D]; try assumption. split; [congruence|]. intros PV. f_equal; auto.
Qed.
Lemma combine_fst {A B} (l : list A) : forall (m : list B), length m = length l -> map fst (combine l m) = l.
Proof. induction l as [|x l IH]; intros [|y m] E; try discriminate; [reflexivity|]. cbn. f_equal. apply IH. cbn in E. lia. Qed.
Lemma combine_snd {A B} (l : list A) : forall (m : list B), length m = length l -> map snd (combine l m) = m.
Proof. induction l as [|x l IH]; intros [|y m] E; try discriminate; [reflexivity|]. cbn. f_equal. apply IH. cbn in E. lia. Qed.
Lemma out_pairs out : out_ok out -> extras_ok out -> Forall pair_ok (combine (node_path out) (extra_node_info out)).
Proof.
  intros (_ & _ & _ & H) X. apply Forall_forall. intros [s e] I. split.
  - apply in_combine_l in I. rewrite Forall_forall in H. exact (H _ I).
  - apply in_combine_r in I. unfold extras_ok in X. rewrite Forall_forall in X. exact (X _ I).
Qed.

Lemma shown_query_inj ps o o' : include_key_piece ps = true -> include_node_type ps = true -> out_ok o -> out_ok o' -> extras_ok o -> extras_ok o' ->
  shown_query ps o = shown_query ps o' ->
  q_key o = q_key o' /\ node_found o = node_found o' /\ node_path o = node_path o' /\ (include_values ps = true -> extra_node_info o = extra_node_info o').
Proof.
  intros PK PT O O' X X' E. pose proof (out_pairs o O X) as P. pose proof (out_pairs o' O' X') as P'.
  destruct O as (K & NE & L & _), O' as (K' & NE' & L' & _). unfold shown_query in E.
  apply app_inv_head in E. apply app_inv_head in E. apply app_inv_head in E.
  apply peel in E; [|apply words_shown_key|apply words_shown_key|reflexivity|reflexivity]. destruct E as [E1 E]. apply key_shown_inj in E1; [|exact K|exact K'].
  apply app_inv_head in E. apply app_inv_head in E.
  apply peel in E; [|destruct (node_found o); repeat constructor|destruct (node_found o'); repeat constructor|reflexivity|reflexivity].
  destruct E as [E2 E]. apply bool_name_inj in E2. do 5 apply app_inv_head in E.
  unfold newline at 1 3 in E. change ([10] ++ txt "V" ++ newline) with (10 :: (txt "V" ++ newline)) in E.
  assert (NC : forall a : query_output, node_path a <> [] -> length (extra_node_info a) = length (node_path a) -> map (shown_node ps) (combine (node_path a) (extra_node_info a)) <> []).
  { intros a Na La. destruct (node_path a), (extra_node_info a); try discriminate; congruence. }
  apply join_inj in E; [|apply NC; assumption|apply NC; assumption| |].
  - destruct (shown_nodes_inj ps _ PK PT _ P P' E) as [A B]. rewrite !combine_fst in A by assumption.
    split; [exact E1|]. split; [exact E2|]. split; [exact A|]. intros PV. specialize (B PV). apply (f_equal (map snd)) in B. rewrite !combine_snd in B by assumption. exact B.
  - apply Forall_map. eapply Forall_impl; [|exact P]. intros. apply free_node. assumption.
  - apply Forall_map. eapply Forall_impl; [|exact P']. intros. apply free_node. assumption.
Qed.

(** ** Differences *)
Definition info_ok (i : node_info) : Prop := kwf (i_key i) /\ bytesl (i_hash i) /\ match i_value i with Some v => bytesl v | None => True end.
Definition point_ok (p : diff_point) : Prop := Forall segment_ok (d_path p) /\ kwf (d_key p) /\ info_ok (a_info p) /\ info_ok (b_info p).

Lemma info_text_ok pr i : kwf (i_key i) -> info_text pr i = Ok (shown_info i).
Proof.
  intros H. unfold info_text, shown_info. rewrite key_text_ok by exact H. cbn [bind]. rewrite type_text_eq, !hex_text_eq.
  destruct (i_value i); rewrite ?hex_text_eq, <- ?app_assoc; reflexivity.
Qed.
Lemma point_text_ok pr p : point_ok p -> point_text pr p = Ok (shown_point p).
Proof.
  intros (H1 & H2 & (H3 & _) & H4 & _). unfold point_text, shown_point. rewrite path_text_ok by exact H1. cbn [bind].
  rewrite key_text_ok by exact H2. cbn [bind]. rewrite !info_text_ok by assumption. reflexivity.
Qed.

Lemma info_peel i j r s : info_ok i -> info_ok j -> shown_info i ++ r = shown_info j ++ s -> i = j /\ r = s.
Proof.
  intros (K & H & V) (K' & H' & V') E. destruct i as [k v ty h], j as [k' v' ty' h']. unfold shown_info in E. cbn [i_key i_value i_type i_hash] in *.
  rewrite <- !app_assoc in E. apply app_inv_head in E.
  apply peel in E; [|apply words_shown_key|apply words_shown_key|destruct v; reflexivity|destruct v'; reflexivity].
  destruct E as [E1 E]. apply key_shown_inj in E1; [|exact K|exact K']. subst k'.
  assert (EV : v = v' /\ txt ", Node type: " ++ type_name ty ++ txt " Trie hash: " ++ shown_bytes h ++ txt ")" ++ r =
                         txt ", Node type: " ++ type_name ty' ++ txt " Trie hash: " ++ shown_bytes h' ++ txt ")" ++ s).
  { destruct v as [v|], v' as [v'|]; rewrite <- ?app_assoc in E.
    - apply app_inv_head in E. apply peel in E; [|apply words_bytes; assumption|apply words_bytes; assumption|reflexivity|reflexivity].
      destruct E as [E1 E]. apply shown_bytes_inj in E1; try assumption. subst. auto.
    - discriminate E.
    - discriminate E.
    - apply app_inv_head in E. auto. }
  clear E. destruct EV as [-> E]. apply app_inv_head in E.
  apply peel in E; [|apply words_type|apply words_type|reflexivity|reflexivity]. destruct E as [E2 E]. apply type_name_inj in E2. subst ty'.
  apply app_inv_head in E. apply peel in E; [|apply words_bytes; assumption|apply words_bytes; assumption|reflexivity|reflexivity].
  destruct E as [E3 E]. apply shown_bytes_inj in E3; try assumption. subst h'. apply app_inv_head in E. auto.
Qed.

Lemma shown_point_inj p q : point_ok p -> point_ok q -> shown_point p = shown_point q -> p = q.
Proof.
  intros (P1 & P2 & P3 & P4) (Q1 & Q2 & Q3 & Q4) E. destruct p as [d path k a b], q as [d' path' k' a' b']. unfold shown_point in E.
  cbn [d_depth d_path d_key a_info b_info] in *. apply app_inv_head in E.
  apply peel in E; [|apply words_dec|apply words_dec|reflexivity|reflexivity]. destruct E as [E1 E]. apply dec_inj in E1. subst d'.
  apply app_inv_head in E. change (txt "), Key: ") with (txt ")" ++ 44 :: txt " Key: ") in E. rewrite <- !app_assoc in E.
  rewrite (app_assoc (shown_path path)), (app_assoc (shown_path path')) in E. rewrite <- !app_comm_cons in E.
  apply split_at in E; [|apply free_app; [apply free_path|free_tac]|apply free_app; [apply free_path|free_tac]].
  destruct E as [E2 E]. apply app_inv_tail in E2. apply shown_path_inj in E2; try assumption. subst path'.
  apply app_inv_head in E. apply peel in E; [|apply words_shown_key|apply words_shown_key|reflexivity|reflexivity].
  destruct E as [E3 E]. apply key_shown_inj in E3; try assumption. subst k'. apply app_inv_head in E.
  apply info_peel in E; try assumption. destruct E as [-> E]. apply app_inv_head in E. apply info_peel in E; try assumption. destruct E as [-> _]. reflexivity.
Qed.
