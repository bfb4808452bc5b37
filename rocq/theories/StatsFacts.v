(** Facts about the statistics. *)
From Coq Require Import SpecFloat.
From Verif Require Import Base Nibbles NibblesFacts Trie TrieSpec TrieFacts Stats StatsSpec.
Open Scope N_scope.

(** What one trie adds. *)
Definition cnt (p : N * node -> bool) (l : list (N * node)) : N := N.of_nat (length (filter p l)).
Definition dsum (p : N * node -> bool) (l : list (N * node)) : N := sum (map fst (filter p l)).
Definition is_end (x : N * node) : bool := is_hash_node x || is_leaf_node x.
Definition dmax (l : list (N * node)) : N := fold_right N.max 0 (map fst (filter is_end l)).

Lemma cnt_app p a b : cnt p (a ++ b) = cnt p a + cnt p b.
Proof. unfold cnt. rewrite filter_app, app_length. lia. Qed.
Lemma sum_app a b : sum (a ++ b) = sum a + sum b.
Proof. unfold sum. induction a as [|x a IH]; cbn [app fold_right]; [lia|]. lia. Qed.
Lemma dsum_app p a b : dsum p (a ++ b) = dsum p a + dsum p b.
Proof. unfold dsum. rewrite filter_app, map_app. apply sum_app. Qed.
Lemma dmax_app a b : dmax (a ++ b) = N.max (dmax a) (dmax b).
Proof.
  unfold dmax. rewrite filter_app, map_app. induction (map fst (filter is_end a)) as [|x l IH]; cbn [app fold_right]; [lia|]. lia.
Qed.

Definition adds (st : tracking) (l : list (N * node)) : tracking :=
  match st with
  | Tracking (Counts e h b x lf) ls hs low =>
      Tracking (Counts (e + cnt is_empty_node l) (h + cnt is_hash_node l) (b + cnt is_branch_node l)
                       (x + cnt is_extension_node l) (lf + cnt is_leaf_node l))
               (ls + dsum is_leaf_node l) (hs + dsum is_hash_node l) (N.max low (dmax l))
  end.
Definition small (st : tracking) : Prop :=
  match st with
  | Tracking (Counts e h b x lf) ls hs low =>
      e < usize_range /\ h < usize_range /\ b < usize_range /\ x < usize_range /\ lf < usize_range /\ ls < usize_range /\ hs < usize_range
  end.

Lemma adds_app st a b : adds (adds st a) b = adds st (a ++ b).
Proof. destruct st as [[e h br x lf] ls hs low]. cbn [adds]. rewrite !cnt_app, !dsum_app, !dmax_app. f_equal; [f_equal|..]; lia. Qed.
Lemma adds_nil st : adds st [] = st.
Proof. destruct st as [[e h br x lf] ls hs low]. cbn [adds]. unfold cnt, dsum, dmax. cbn [filter map length sum fold_right]. f_equal; [f_equal|..]; lia. Qed.
Lemma small_adds st l : small (adds st l) -> small st.
Proof. destruct st as [[e h br x lf] ls hs low]. cbn [adds small]. lia. Qed.
Lemma dmax_or low d : update_lowest_depth low d = N.max low d.
Proof. unfold update_lowest_depth. destruct (N.ltb_spec low d); lia. Qed.

Lemma uadd_fits pr a b : a + b < usize_range -> uadd pr a b = Ok (a + b).
Proof. intros H. apply uadd_ok. exact H. Qed.

Definition height_ok (d : N) (t : node) : Prop := forall x, In x (subnodes d t) -> fst x < usize_range.

Lemma stats_rec_ok pr t : forall st d, height_ok d t -> small (adds st (subnodes d t)) ->
  get_trie_stats_rec pr t st d = Ok (adds st (subnodes d t)).
Proof.
  induction t as [|h|ch v IH|n t IH|n v] using node_ind'; intros [[e hh b x lf] ls hs low] d HO S; cbn [get_trie_stats_rec].
  - cbn [adds subnodes small] in *. unfold cnt, dsum, dmax in *. cbn [filter is_empty_node is_hash_node is_branch_node is_extension_node is_leaf_node is_end snd length map fst sum fold_right orb] in *.
    rewrite uadd_fits by lia. cbn [bind]. f_equal. f_equal; [f_equal|..]; lia.
  - cbn [adds subnodes small] in *. unfold cnt, dsum, dmax in *. cbn [filter is_empty_node is_hash_node is_branch_node is_extension_node is_leaf_node is_end snd length map fst sum fold_right orb] in *.
    rewrite uadd_fits by lia. cbn [bind]. rewrite uadd_fits by lia. cbn [bind]. rewrite dmax_or. f_equal. f_equal; [f_equal|..]; lia.
  - assert (Sb : forall st, adds st (subnodes d (Branch ch v)) = adds (adds st [(d, Branch ch v)]) (flat_map (subnodes (d + 1)) ch)).
    { intros st. rewrite adds_app. reflexivity. }
    rewrite Sb in *. pose proof (small_adds _ _ S) as S0.
    assert (E0 : adds (Tracking (Counts e hh b x lf) ls hs low) [(d, Branch ch v)] = Tracking (Counts e hh (b + 1) x lf) ls hs low).
    { cbn [adds]. unfold cnt, dsum, dmax. cbn [filter is_empty_node is_hash_node is_branch_node is_extension_node is_leaf_node is_end snd length map fst sum fold_right orb].
      f_equal; [f_equal|..]; lia. }
    rewrite E0 in *. cbn [small] in S0. rewrite uadd_fits by lia. cbn [bind].
    assert (HOc : forall c, In c ch -> height_ok (d + 1) c).
    { intros c Hc y Hy. apply HO. cbn [subnodes]. right. apply in_flat_map. eauto. }
    clear HO Sb E0 S0. generalize dependent (Tracking (Counts e hh (b + 1) x lf) ls hs low). clear e hh b x lf ls hs low.
    induction ch as [|c ch IHch]; intros st S; cbn [flat_map] in *; [rewrite adds_nil; reflexivity|].
    inversion IH as [|? ? IHc IHcs]; subst. rewrite <- adds_app in S. pose proof (small_adds _ _ S) as Sc.
    assert (Hd : d + 1 < usize_range) by (apply (HOc c (or_introl eq_refl) (d + 1, c)); destruct c; left; reflexivity).
    rewrite (uadd_fits pr d 1 Hd) in *. cbn [bind] in *. rewrite IHc by (auto; apply HOc; left; reflexivity). cbn [bind].
    rewrite IHch; [rewrite adds_app; reflexivity|exact IHcs|intros; apply HOc; right; assumption|exact S].
  - assert (Sb : forall st, adds st (subnodes d (Extension n t)) = adds (adds st [(d, Extension n t)]) (subnodes (d + 1) t)).
    { intros st. rewrite adds_app. reflexivity. }
    rewrite Sb in *. pose proof (small_adds _ _ S) as S0.
    assert (E0 : adds (Tracking (Counts e hh b x lf) ls hs low) [(d, Extension n t)] = Tracking (Counts e hh b (x + 1) lf) ls hs low).
    { cbn [adds]. unfold cnt, dsum, dmax. cbn [filter is_empty_node is_hash_node is_branch_node is_extension_node is_leaf_node is_end snd length map fst sum fold_right orb].
      f_equal; [f_equal|..]; lia. }
    rewrite E0 in *. cbn [small] in S0. rewrite uadd_fits by lia. cbn [bind].
    assert (Hd : d + 1 < usize_range) by (apply (HO (d + 1, t)); cbn [subnodes]; right; destruct t; left; reflexivity).
    rewrite uadd_fits by exact Hd. cbn [bind]. apply IH; [|exact S]. intros y Hy. apply HO. cbn [subnodes]. right. exact Hy.
  - cbn [adds subnodes small] in *. unfold cnt, dsum, dmax in *. cbn [filter is_empty_node is_hash_node is_branch_node is_extension_node is_leaf_node is_end snd length map fst sum fold_right orb] in *.
    rewrite uadd_fits by lia. cbn [bind]. rewrite uadd_fits by lia. cbn [bind]. rewrite dmax_or. f_equal. f_equal; [f_equal|..]; lia.
Qed.

(** ** Sizes *)
Definition size (t : node) : N := N.of_nat (length (subnodes 0 t)).

Lemma subnodes_shift t : forall d, subnodes d t = map (fun x => (d + fst x, snd x)) (subnodes 0 t).
Proof.
  induction t as [|h|ch v IH|n t IH|n v] using node_ind'; intros d; cbn [subnodes map fst snd]; rewrite N.add_0_r; try reflexivity.
  - f_equal. induction ch as [|c ch IHch]; [reflexivity|]. inversion IH as [|? ? IHc IHcs]; subst. cbn [flat_map].
    rewrite map_app, <- IHch by exact IHcs. f_equal. rewrite (IHc (d + 1)), (IHc (0 + 1)), map_map. apply map_ext. intros y. cbn [fst snd]. f_equal. lia.
  - f_equal. rewrite (IH (d + 1)), (IH (0 + 1)), map_map. apply map_ext. intros y. cbn [fst snd]. f_equal. lia.
Qed.

(** A depth is smaller than the number of nodes. *)
Lemma depth_lt t : forall x, In x (subnodes 0 t) -> fst x < size t.
Proof.
  unfold size. induction t as [|h|ch v IH|n t IH|n v] using node_ind'; intros x Hx.
  - cbn [subnodes In length] in *. destruct Hx as [<-|[]]. reflexivity.
  - cbn [subnodes In length] in *. destruct Hx as [<-|[]]. reflexivity.
  - cbn [subnodes In length] in *. destruct Hx as [<-|Hx]; [cbn [fst]; lia|]. apply in_flat_map in Hx. destruct Hx as (c & Hc & Hx).
    rewrite subnodes_shift in Hx. apply in_map_iff in Hx. destruct Hx as (y & <- & Hy). cbn [fst].
    rewrite Forall_forall in IH. specialize (IH c Hc y Hy).
    assert (L : (length (subnodes 0 c) <= length (flat_map (subnodes (0 + 1)) ch))%nat).
    { clear - Hc. induction ch as [|c' ch IHch]; [destruct Hc|]. cbn [flat_map]. rewrite app_length. destruct Hc as [->|Hc].
      - rewrite (subnodes_shift c (0 + 1)), map_length. lia.
      - specialize (IHch Hc). lia. }
    lia.
  - cbn [subnodes In length] in *. destruct Hx as [<-|Hx]; [cbn [fst]; lia|].
    rewrite (subnodes_shift t (0 + 1)) in Hx. rewrite (subnodes_shift t (0 + 1)), map_length. apply in_map_iff in Hx. destruct Hx as (y & <- & Hy). cbn [fst]. specialize (IH y Hy). lia.
  - cbn [subnodes In length] in *. destruct Hx as [<-|[]]. reflexivity.
Qed.

Lemma filter_le {A} (p : A -> bool) l : (length (filter p l) <= length l)%nat.
Proof. induction l as [|x l IH]; cbn [filter length]; [lia|]. destruct (p x); cbn [length]; lia. Qed.
Lemma sum_bound l m : Forall (fun x => x <= m) l -> sum l <= N.of_nat (length l) * m.
Proof. intros F. induction F as [|x l H F IH]; cbn [sum fold_right length]; [lia|]. change (fold_right N.add 0 l) with (sum l). nia. Qed.

Lemma how_many_le p t : how_many p t <= size t.
Proof. unfold how_many, size. pose proof (filter_le p (subnodes 0 t)). lia. Qed.
Lemma depth_sum_le p t : depth_sum p t <= size t * size t.
Proof.
  unfold depth_sum. etransitivity; [apply (sum_bound _ (size t))|].
  - apply Forall_forall. intros x Hx. apply in_map_iff in Hx. destruct Hx as (y & <- & Hy). apply filter_In in Hy. apply N.lt_le_incl, depth_lt, Hy.
  - rewrite map_length. pose proof (filter_le p (subnodes 0 t)). unfold size. nia.
Qed.

(** ** Kinds and totals *)
Lemma count_kinds t : size t = how_many is_empty_node t + how_many is_hash_node t + how_many is_branch_node t + how_many is_extension_node t + how_many is_leaf_node t.
Proof.
  unfold size, how_many. induction (subnodes 0 t) as [|[d x] l IH]; [reflexivity|].
  cbn [filter length]. destruct x; cbn [is_empty_node is_hash_node is_branch_node is_extension_node is_leaf_node snd length]; lia.
Qed.

Definition nsub (t : node) : nat := length (subnodes 0 t).
Lemma nsub_shift d t : length (subnodes d t) = nsub t.
Proof. rewrite subnodes_shift, map_length. reflexivity. Qed.
Lemma filter_shift (p : N * node -> bool) d t : (forall a b x, p (a, x) = p (b, x)) -> length (filter p (subnodes d t)) = length (filter p (subnodes 0 t)).
Proof.
  intros H. rewrite subnodes_shift. induction (subnodes 0 t) as [|[a x] l IH]; [reflexivity|]. cbn [map filter fst snd].
  rewrite (H (d + a) a x). destruct (p (a, x)); cbn [length]; rewrite IH; reflexivity.
Qed.

Lemma total_shape L t : wf L t -> nsub t = (1 + 16 * length (filter is_branch_node (subnodes 0 t)) + length (filter is_extension_node (subnodes 0 t)))%nat.
Proof.
  revert L. induction t as [|h|ch v IH|n t IH|n v] using node_ind'; intros L W; inversion W; subst; unfold nsub; try reflexivity.
  - cbn [subnodes filter is_branch_node is_extension_node snd length].
    match goal with H : length ch = 16%nat |- _ => rename H into L16 end.
    match goal with H : Forall (wf _) ch |- _ => rename H into F end.
    assert (G : length (flat_map (subnodes (0 + 1)) ch) = (length ch + 16 * length (filter is_branch_node (flat_map (subnodes (0 + 1)) ch)) +
                  length (filter is_extension_node (flat_map (subnodes (0 + 1)) ch)))%nat).
    { clear L16 W. induction ch as [|c ch IHch]; [reflexivity|]. inversion IH as [|? ? IHc IHcs]; inversion F as [|? ? Fc Fcs]; subst. cbn [flat_map length].
      rewrite !filter_app, !app_length, IHch by assumption. rewrite nsub_shift, (IHc _ Fc).
      rewrite (filter_shift is_branch_node (0 + 1) c), (filter_shift is_extension_node (0 + 1) c) by reflexivity. lia. }
    rewrite G, L16. lia.
  - cbn [subnodes filter is_branch_node is_extension_node snd length].
    match goal with H : wf _ t |- _ => rename H into Wt end.
    rewrite nsub_shift, (IH _ Wt), (filter_shift is_branch_node (0 + 1) t), (filter_shift is_extension_node (0 + 1) t) by reflexivity. lia.
Qed.

(** Entries are leaves, hash nodes and branches with a value. *)
Lemma entries_count t : length (entries t) =
  (length (filter is_leaf_node (subnodes 0 t)) + length (filter is_hash_node (subnodes 0 t)) + length (filter is_valued_branch (subnodes 0 t)))%nat.
Proof.
  induction t as [|h|ch v IH|n t IH|n v] using node_ind'; try reflexivity.
  - cbn [subnodes filter is_leaf_node is_hash_node snd entries]. rewrite app_length.
    assert (G : forall i, length (concat_children entries ch i) = (length (filter is_leaf_node (flat_map (subnodes (0 + 1)) ch)) +
       length (filter is_hash_node (flat_map (subnodes (0 + 1)) ch)) + length (filter is_valued_branch (flat_map (subnodes (0 + 1)) ch)))%nat).
    { induction ch as [|c ch IHch]; intros i; [reflexivity|]. inversion IH as [|? ? IHc IHcs]; subst. cbn [flat_map concat_children].
      rewrite !filter_app, !app_length, map_length. fold (concat_children entries). rewrite IHch by exact IHcs. rewrite IHc.
      rewrite (filter_shift is_leaf_node (0 + 1) c), (filter_shift is_hash_node (0 + 1) c), (filter_shift is_valued_branch (0 + 1) c) by reflexivity. lia. }
    rewrite G. destruct v as [|b v]; cbn [is_valued_branch snd length]; lia.
  - cbn [subnodes filter is_leaf_node is_hash_node is_valued_branch snd entries]. rewrite map_length, IH.
    rewrite (filter_shift is_leaf_node (0 + 1) t), (filter_shift is_hash_node (0 + 1) t), (filter_shift is_valued_branch (0 + 1) t) by reflexivity. reflexivity.
Qed.

(** ** The deepest leaf or hash node *)
Lemma dmax_deepest t : deepest is_end t (dmax (subnodes 0 t)).
Proof.
  unfold deepest, dmax. generalize (subnodes 0 t). intros l. split.
  - intros x Hx Ex. assert (H : In (fst x) (map fst (filter is_end l))) by (apply in_map, filter_In; auto).
    induction (map fst (filter is_end l)) as [|y m IH]; [destruct H|]. cbn [fold_right]. destruct H as [->|H]; [lia|]. specialize (IH H). lia.
  - assert (G : forall m : list N, fold_right N.max 0 m = 0 \/ In (fold_right N.max 0 m) m).
    { induction m as [|y m IH]; [left; reflexivity|]. cbn [fold_right]. destruct (N.max_spec y (fold_right N.max 0 m)) as [[_ ->]|[_ ->]].
      - destruct IH as [IH|IH]; [left; exact IH|right; right; exact IH].
      - right. left. reflexivity. }
    destruct (G (map fst (filter is_end l))) as [E|H]; [left; exact E|]. right. apply in_map_iff in H. destruct H as (x & E & Hx).
    apply filter_In in Hx. exists x. tauto.
Qed.
