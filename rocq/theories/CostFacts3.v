(** Proofs about the cost of [hash()]: deleting, subsets, and whole histories. *)
From Verif Require Import Base Nibbles Trie Rlp Hashing Query Diff DiffCache Subset SubsetFacts Cache CacheSpec CacheFacts CacheFacts2 CacheFacts3 CostSpec CostFacts CostFacts2 CostReload.
Open Scope N_scope.

Section Ops.
Variable pr : profile.

(** ** Delete *)
Lemma runs_collapse b G s n m x (Q : registry -> store -> N -> hnode -> Prop) : glob G s n -> b <= n -> 1 <= count m <= 64 ->
  Forall (known G) (kids_of x) -> okw x -> (below x -> known G x) ->
  (forall s' y, grow b G s n G s' (n + 1) -> b <= cell y -> loose G s' (n + 1) y -> (okn x -> okn y) -> kidsum s' y <= kidsum s x + 1 -> Q G s' (n + 1) y) ->
  runs b G s n (hcollapse_ext_node_if_needed pr m x) Q.
Proof.
  intros Gl L M F O Kn H.
  assert (W : below x -> runs b G s n (hextension m x) Q).
  { intros B. specialize (Kn B). apply (runs_alloc b G s n (fun c => HExtension c m x)); auto; [repeat constructor; exact Kn|]. intros s1 A1 L1.
    apply H; auto; [intros _; split; auto|]. unfold kidsum at 1. cbn [kids_of map sumN fold_right].
    pose proof (grow_vis _ _ _ _ _ _ _ _ Gl A1 Kn). pose proof (vis_pos s x). lia. }
  destruct x as [c|c h|c ch v|c k t|c k v]; cbn [hcollapse_ext_node_if_needed].
  - exact I.
  - apply W. exact I.
  - apply W. exact I.
  - apply runs_lift. intros mm E. cbn [okw] in O. apply merge_count in E; [|lia|lia]. apply (runs_alloc b G s n (fun c => HExtension c mm t)); auto; [cbn; lia|]. intros s1 A1 L1.
    apply H; auto; [intros [_ B]; split; [lia|exact B]|]. pose proof (grow_sum _ _ _ _ _ _ _ _ Gl A1 F). unfold kidsum. cbn [kids_of] in *. lia.
  - apply runs_lift. intros mm E. cbn [okw] in O. apply merge_count in E; [|lia|lia]. apply (runs_alloc b G s n (fun c => HLeaf c mm v)); auto; [cbn; lia|]. intros s1 A1 L1.
    apply H; auto; [cbn; lia|]. unfold kidsum. cbn [kids_of map sumN fold_right]. lia.
Qed.

Lemma runs_try b G s n x (Q : registry -> store -> N -> hnode -> Prop) : glob G s n -> b <= n -> b <= cell x -> loose G s n x ->
  (forall s' n' y, grow b G s n G s' n' -> b <= cell y -> loose G s' n' y -> okn y -> kidsum s' y + 497 * n <= kidsum s x + 497 * n' -> n <= n' <= n + 1 -> Q G s' n' y) ->
  runs b G s n (htry_collapse_if_extension pr x) Q.
Proof.
  intros Gl L B Lo H. pose proof Lo as Lo'. destruct Lo as (_ & _ & _ & F & O).
  destruct x as [c|c h|c ch v|c k t|c k v]; cbn [htry_collapse_if_extension]; try (apply runs_ret; [exact Gl|]; apply H; auto using grow_refl; lia).
  cbn [okw kids_of] in *. inversion F as [|? ? Kt _]; subst. destruct (Gl _ _ Kt) as (_ & _ & F0 & O0 & _).
  apply runs_collapse; auto using okn_okw. intros s1 y A1 B1 L1 O1 S1. apply H; auto; [|lia]. pose proof (known_kidsum _ _ _ _ Gl Kt).
  unfold kidsum at 2. cbn [kids_of map sumN fold_right]. lia.
Qed.

Lemma other_in l : forall i j r, hget_other_non_empty_child i l j = Some r -> In (snd r) l.
Proof.
  induction l as [|x l IH]; intros i j r E; cbn [hget_other_non_empty_child] in E; [discriminate|].
  destruct (negb (Nat.eqb i j) && negb (hnode_is_empty x)); [injection E as <-; left; reflexivity|right; eapply IH, E].
Qed.
Lemma sum_shift b G s n G1 s1 n1 ch i c : glob G s n -> grow b G s n G1 s1 n1 -> Forall (known G) ch -> nth_error ch i = Some c ->
  sumN (map (vis s1) ch) + vis s c <= sumN (map (vis s) ch) + vis s1 c.
Proof.
  intros Gl A F Ec. assert (FV : Forall (fun u => vis s1 u <= vis s u) ch) by (eapply Forall_impl; [|exact F]; intros u; eapply grow_vis; eauto).
  clear - FV Ec. revert i Ec. induction FV as [|u l Hu FV IHl]; intros [|i] Ec; cbn [nth_error] in Ec; try discriminate; cbn [map sumN fold_right].
  - injection Ec as ->. pose proof (sum_le _ _ _ FV). unfold sumN in *. lia.
  - specialize (IHl i Ec). unfold sumN in *. lia.
Qed.

Lemma delete_runs t : forall b G s n k, glob G s n -> b <= n -> okn t -> Forall (known G) (kids_of t) ->
  runs b G s n (hdelete_intern pr t k) (fun G' s' n' r =>
    match r with
    | None => True
    | Some (x, _) => b <= cell x /\ loose G' s' n' x /\ kidsum s' x + 497 * n <= kidsum s t + 497 * n' /\ n' <= n + 2 * count k + 2 /\ (count k = 0 -> below t -> n' <= n + 1)
    end).
Proof.
  induction t as [c|c h|c ch v0 IH|c m t IH|c m v0] using hnode_ind'; intros b G s n k Gl L O F; cbn [hdelete_intern kids_of] in *.
  - apply runs_ret; auto.
  - exact I.
  - unfold is_empty. destruct (N.eqb_spec (count k) 0) as [Z|NZ].
    + apply runs_bind. apply (runs_alloc b G s n (fun c => HBranch c ch [])); auto. intros s1 A1 L1. apply runs_ret; [apply (g_glob _ _ _ _ _ _ _ A1)|].
      pose proof (grow_sum _ _ _ _ _ _ _ _ Gl A1 F) as V1. split; [cbn; lia|]. split; [exact L1|]. unfold kidsum. cbn [kids_of]. split; [lia|]. split; lia.
    + apply runs_lift. intros [nib k'] Ep. apply pop_count in Ep. apply runs_bind. apply runs_hchild. intros c0 Ec.
      pose proof (nth_error_In _ _ Ec) as Ic. assert (K0 : known G c0) by (rewrite Forall_forall in F; auto). destruct (Gl _ _ K0) as (_ & _ & F0 & O0 & _).
      rewrite Forall_forall in IH. eapply runs_mono; [apply (IH c0 Ic b G s n k'); auto|]. intros G1 s1 n1 r A1 R. pose proof (g_glob _ _ _ _ _ _ _ A1) as Gl1.
      pose proof (g_n _ _ _ _ _ _ _ A1) as NN. destruct r as [[x d]|]; [|apply runs_ret; auto]. destruct R as (B1 & L1 & K1 & N1 & _).
      pose proof (known_kidsum _ _ _ _ Gl K0) as KK. pose proof (grow_sum _ _ _ _ _ _ _ _ Gl A1 F) as V1.
      destruct (hnode_is_empty x && (hget_num_non_empty_children ch <=? 2)%nat).
      * destruct (hget_other_non_empty_child 0 ch (N.to_nat nib)) as [[i c1]|] eqn:Eo; [|exact I]. apply other_in in Eo. cbn [snd] in Eo.
        apply runs_lift. intros m Em. apply runs_bind. assert (Cm : count m = 1).
        { unfold from_nibble, assert in Em. destruct (_ <=? 15); [|discriminate]. cbn [bind] in Em. injection Em as <-. reflexivity. }
        assert (K1' : known G c1) by (rewrite Forall_forall in F; auto).
        apply (runs_alloc b G1 s1 n1 (fun c => HExtension c m c1)); auto; [lia|repeat constructor; eapply grow_known; eauto|cbn; lia|]. intros s2 A2 L2.
        apply runs_ret; [apply (g_glob _ _ _ _ _ _ _ A2)|]. split; [cbn; lia|]. split; [exact L2|]. unfold kidsum. cbn [kids_of map sumN fold_right].
        pose proof (grow_vis _ _ _ _ _ _ _ _ Gl1 A2 (grow_known _ _ _ _ _ _ _ _ A1 K1')) as V2. pose proof (grow_vis _ _ _ _ _ _ _ _ Gl A1 K1') as V3.
        pose proof (sum_in (vis s) ch c1 Eo). unfold sumN in *. split; [lia|]. split; [lia|]. lia.
      * apply runs_bind. apply runs_try; auto; [lia|]. intros s2 n2 y A2 B2 L2 O2 K2 N2. pose proof (g_glob _ _ _ _ _ _ _ A2) as Gl2.
        apply runs_bind. eapply (runs_reg b G1 s2 n2 y); auto. intros G3 A3 K3. pose proof (g_glob _ _ _ _ _ _ _ A3) as Gl3.
        assert (A12 : grow b G s n G1 s2 n2) by (eapply grow_trans; eauto).
        assert (F3 : Forall (known G3) (set_hchild ch (N.to_nat nib) y)).
        { apply set_hchild_all; [|exact K3]. eapply grow_knowns; [exact A3|]. eapply grow_knowns; eauto. }
        apply (runs_alloc b G3 s2 n2 (fun c => HBranch c (set_hchild ch (N.to_nat nib) y) v0)); auto; [lia|cbn; rewrite set_hchild_len; exact O|]. intros s4 A4 L4.
        apply runs_ret; [apply (g_glob _ _ _ _ _ _ _ A4)|]. split; [cbn; lia|]. split; [exact L4|].
        pose proof (grow_sum _ _ _ _ _ _ _ _ Gl3 A4 F3) as V2. pose proof (set_hchild_sum_eq (vis s2) ch _ y _ Ec) as SE.
        destruct L2 as (_ & _ & C2 & _). pose proof (vis_fresh s2 y C2) as VX. pose proof (sum_shift _ _ _ _ _ _ _ _ _ _ Gl A12 F Ec) as SC.
        unfold kidsum at 1 2. cbn [kids_of] in *. split; [lia|]. split; [lia|]. lia.
  - destruct O as [Om Ot]. inversion F as [|? ? Kt _]; subst. destruct (Gl _ _ Kt) as (_ & _ & F0 & O0 & _). apply runs_lift. intros [] _; [|apply runs_ret; auto].
    apply runs_lift. intros k' Ek. apply truncate_count in Ek. apply runs_bind. eapply runs_mono; [apply (IH b G s n k'); auto|].
    intros G1 s1 n1 r A1 R. pose proof (g_glob _ _ _ _ _ _ _ A1) as Gl1. pose proof (g_n _ _ _ _ _ _ _ A1) as NN. destruct r as [[x d]|]; [|apply runs_ret; auto].
    destruct R as (B1 & L1 & K1 & N1 & N2). apply runs_bind.
    assert (E : forall G2, grow b G1 s1 n1 G2 s1 n1 -> Forall (known G2) (kids_of x) -> (below x -> known G2 x) ->
      runs b G2 s1 n1 (hcollapse_ext_node_if_needed pr m x) (fun G' s' n' y => runs b G' s' n' (Ret (Some (y, d))) (fun G'0 s'0 n'0 r => match r with
        | Some (x0, _) => b <= cell x0 /\ loose G'0 s'0 n'0 x0 /\ kidsum s'0 x0 + 497 * n <= kidsum s (HExtension c m t) + 497 * n'0 /\ n'0 <= n + 2 * count k + 2 /\ (count k = 0 -> below (HExtension c m t) -> n'0 <= n + 1)
        | None => True end))).
    { intros G2 A2 F2 K2. pose proof (g_glob _ _ _ _ _ _ _ A2) as Gl2. apply runs_collapse; auto; [lia|apply L1|]. intros s3 y A3 B3 L3 _ S3.
      apply runs_ret; [apply (g_glob _ _ _ _ _ _ _ A3)|]. split; [exact B3|]. split; [exact L3|]. pose proof (known_kidsum _ _ _ _ Gl Kt) as KK.
      unfold kidsum at 2. cbn [kids_of map sumN fold_right]. split; [lia|]. assert (count k = 0 -> n1 <= n + 1) by (intros; apply N2; [lia|exact Ot]). split; [lia|]. intros _ []. }
    destruct L1 as (C1 & C2 & C3 & F1 & O1).
    destruct x as [cx|cx hx|cx chx vx|cx kx tx|cx kx vx]; try (apply E; [apply grow_refl, Gl1|exact F1|intros BB; contradiction BB]).
    + eapply runs_reg; [exact Gl1|exact B1|exact (conj C1 (conj C2 (conj C3 (conj F1 O1))))|exact I|]. intros G2 A2 K2. apply E; auto. constructor.
    + eapply runs_reg; [exact Gl1|exact B1|exact (conj C1 (conj C2 (conj C3 (conj F1 O1))))|exact O1|]. intros G2 A2 K2. apply E; auto. eapply grow_knowns; eauto.
  - destruct (nib_eqb m k); [|apply runs_ret; auto]. apply runs_bind. apply (runs_alloc b G s n HEmpty); auto; [exact I|]. intros s1 A1 L1. apply runs_ret; [apply (g_glob _ _ _ _ _ _ _ A1)|].
    split; [cbn; lia|]. split; [exact L1|]. unfold kidsum. cbn [kids_of map sumN fold_right]. split; [lia|]. split; [lia|]. intros _ [].
Qed.

(** ** Handles *)
Definition held (G : registry) (s : store) (n : N) (t : hnode) : Prop := loose G s n t /\ okn t.
Lemma held_grow G s n G' s' n' t : grow n G s n G' s' n' -> held G s n t -> held G' s' n' t.
Proof.
  intros A [(C1 & C2 & C3 & F & O) O']. split; [|exact O']. unfold loose. pose proof (g_n _ _ _ _ _ _ _ A). split; [lia|]. rewrite (g_base _ _ _ _ _ _ _ A) by exact C1.
  rewrite (g_free _ _ _ _ _ _ _ A) by auto. repeat split; auto. eapply grow_knowns; eauto.
Qed.
Lemma held_kidsum b G s n G' s' n' t : glob G s n -> grow b G s n G' s' n' -> held G s n t -> kidsum s' t <= kidsum s t.
Proof. intros Gl A [(_ & _ & _ & F & _) _]. eapply grow_sum; eauto. Qed.
Lemma held_with_cell G s n t x : held G s n t -> loose G s n x -> okn x -> held G s n (with_cell (cell t) x) /\ kidsum s (with_cell (cell t) x) = kidsum s x /\ cell (with_cell (cell t) x) = cell t.
Proof.
  intros [(C1 & C2 & C3 & _ & _) _] (_ & _ & _ & F & O) O'. assert (Cx : cell (with_cell (cell t) x) = cell t) by (destruct x; reflexivity).
  assert (Kx : kids_of (with_cell (cell t) x) = kids_of x) by (destruct x; reflexivity). split; [|split; [unfold kidsum; rewrite Kx; reflexivity|exact Cx]].
  split; [|destruct x; exact O']. unfold loose. rewrite Cx, Kx. repeat split; auto. destruct x; exact O.
Qed.
Lemma vis_same s s' : (forall c, cached s' c = cached s c) -> forall t, vis s' t = vis s t.
Proof. intros E t. apply N.le_antisymm; apply vis_anti; intros c H; [rewrite E|rewrite <- E]; exact H. Qed.
Lemma kidsum_same s s' : (forall c, cached s' c = cached s c) -> forall t, kidsum s' t = kidsum s t.
Proof. intros E t. unfold kidsum. f_equal. apply map_ext. apply vis_same, E. Qed.
Lemma runs_write {A} b G s n c (x : A) (Q : registry -> store -> N -> A -> Prop) : glob G s n -> cached s c = false ->
  (forall s', grow b G s n G s' n -> (forall t, kidsum s' t = kidsum s t) -> Q G s' n x) -> runs b G s n (Write c None (Ret x)) Q.
Proof.
  intros Gl C H. unfold runs. cbn [exec]. assert (E : forall c0, cached (update s c None) c0 = cached s c0).
  { intros c0. unfold cached, update in *. destruct (N.eqb_spec c0 c) as [->|]; [symmetry; exact C|reflexivity]. }
  assert (A1 : grow b G s n G (update s c None) n).
  { split; auto; [lia|intros c0 _; rewrite E; auto|]. intros c0 u E0. destruct (Gl _ _ E0) as (Y1 & Y2 & Y3 & Y4 & Y5). repeat split; auto. rewrite E, (kidsum_same s (update s c None) E). exact Y5. }
  exists G. split; [exact A1|]. apply H; [exact A1|]. apply kidsum_same, E.
Qed.

Definition per_change : N := 497 * 131.

Lemma trie_insert_runs G s n t k v (Q : registry -> store -> N -> hnode -> Prop) : glob G s n -> held G s n t -> short k ->
  (forall G' s' n' t', grow n G s n G' s' n' -> held G' s' n' t' -> cell t' = cell t -> kidsum s' t' <= kidsum s t + per_change -> Q G' s' n' t') ->
  runs n G s n (htrie_insert pr t k v) Q.
Proof.
  intros Gl H S Hq. unfold htrie_insert, short in *. apply runs_bind. destruct H as [Lo O]. eapply runs_mono; [apply insert_runs; auto; [lia|apply Lo]|].
  intros G1 s1 n1 x A1 (B1 & L1 & O1 & _ & K1 & N1 & _). apply runs_ret; [apply (g_glob _ _ _ _ _ _ _ A1)|].
  destruct (held_with_cell G1 s1 n1 t x) as (W1 & W2 & W3); auto; [eapply held_grow; [exact A1|split; auto]|]. apply Hq; auto. rewrite W2. unfold per_change. lia.
Qed.
Lemma trie_delete_runs G s n t k (Q : registry -> store -> N -> hnode * option (list N) -> Prop) : glob G s n -> held G s n t -> short k ->
  (forall G' s' n' t' d, grow n G s n G' s' n' -> held G' s' n' t' -> cell t' = cell t -> kidsum s' t' <= kidsum s t + per_change -> Q G' s' n' (t', d)) ->
  runs n G s n (htrie_delete pr t k) Q.
Proof.
  intros Gl H S Hq. unfold htrie_delete, short in *. apply runs_bind. pose proof H as H0. destruct H as [Lo O]. eapply runs_mono; [apply delete_runs; auto; [lia|apply Lo]|].
  intros G1 s1 n1 r A1 R. pose proof (g_glob _ _ _ _ _ _ _ A1) as Gl1. pose proof (g_n _ _ _ _ _ _ _ A1) as NN. destruct r as [[x d]|].
  - destruct R as (B1 & L1 & K1 & N1 & _). apply runs_bind. apply runs_try; auto. intros s2 n2 y A2 B2 L2 O2 K2 N2. apply runs_ret; [apply (g_glob _ _ _ _ _ _ _ A2)|].
    assert (A12 : grow n G s n G1 s2 n2) by (eapply grow_trans; eauto).
    destruct (held_with_cell G1 s2 n2 t y) as (W1 & W2 & W3); auto; [eapply held_grow; eauto|]. apply Hq; auto. rewrite W2. unfold per_change. lia.
  - apply runs_ret; [exact Gl1|]. apply Hq; auto; [eapply held_grow; eauto|]. pose proof (held_kidsum _ _ _ _ _ _ _ _ Gl A1 H0). lia.
Qed.
Lemma runs_shift {A} b b' G s n (p : prog A) Q : b <= b' -> runs b' G s n p Q -> runs b G s n p Q.
Proof. intros L. unfold runs. destruct (exec p s n) as [[[x s1] n1]|]; auto. intros (G1 & A1 & H). exists G1. split; [eapply grow_less; eauto|exact H]. Qed.

Lemma trie_extend_runs l : forall G s n t (Q : registry -> store -> N -> hnode -> Prop), glob G s n -> held G s n t -> Forall (fun e => short (fst e)) l ->
  (forall G' s' n' t', grow n G s n G' s' n' -> held G' s' n' t' -> cell t' = cell t -> kidsum s' t' <= kidsum s t + per_change * N.of_nat (length l) -> Q G' s' n' t') ->
  runs n G s n (htrie_extend pr t l) Q.
Proof.
  induction l as [|[k v] l IH]; intros G s n t Q Gl H S Hq; cbn [htrie_extend].
  - apply runs_ret; [exact Gl|]. apply Hq; auto; [apply grow_refl, Gl|lia].
  - inversion S as [|? ? S1 S2]; subst. apply runs_bind. apply trie_insert_runs; auto. intros G1 s1 n1 t1 A1 H1 C1 K1. pose proof (g_glob _ _ _ _ _ _ _ A1) as Gl1. pose proof (g_n _ _ _ _ _ _ _ A1) as NN.
    apply (runs_shift n n1); [exact NN|]. apply IH; auto. intros G2 s2 n2 t2 A2 H2 C2 K2. apply Hq; auto; [eapply grow_trans; [exact A1|eapply grow_less; eauto]|congruence|].
    cbn [length]. lia.
Qed.

Lemma clear_runs {A} b G s n G1 s1 n1 t (x : A) (Q : registry -> store -> N -> A -> Prop) : grow b G s n G1 s1 n1 -> held G1 s1 n1 t ->
  (forall s', grow b G s n G1 s' n1 -> grow b G1 s1 n1 G1 s' n1 -> grow n1 G1 s1 n1 G1 s' n1 -> (forall t, kidsum s' t = kidsum s1 t) -> Q G1 s' n1 x) -> runs b G1 s1 n1 (Write (cell t) None (Ret x)) Q.
Proof.
  intros A1 H Hq. pose proof (g_glob _ _ _ _ _ _ _ A1) as Gl1. assert (C : cached s1 (cell t) = false) by apply H.
  unfold runs. cbn [exec].
  assert (W : forall b, exists G', grow b G1 s1 n1 G' (update s1 (cell t) None) n1 /\ (G' = G1 /\ forall t0, kidsum (update s1 (cell t) None) t0 = kidsum s1 t0)).
  { intros b0. pose proof (runs_write b0 G1 s1 n1 (cell t) x (fun G' s' _ _ => G' = G1 /\ forall t0, kidsum s' t0 = kidsum s1 t0) Gl1 C) as R. apply R. auto. }
  destruct (W b) as (G2 & A2 & -> & KS). destruct (W n1) as (G3 & A3 & -> & _). exists G1. split; [exact A2|]. apply Hq; auto. eapply grow_trans; eauto.
Qed.
End Ops.

Section Run.
Variable keccak : list N -> list N.
Variable pr : profile.

Lemma insert_op G s n t k v (Q : registry -> store -> N -> hnode -> Prop) : glob G s n -> held G s n t -> short k ->
  (forall G' s' n' t', grow n G s n G' s' n' -> held G' s' n' t' -> kidsum s' t' <= kidsum s t + per_change -> Q G' s' n' t') ->
  runs n G s n (hinsert pr t k v) Q.
Proof.
  intros Gl H S Hq. unfold hinsert. apply runs_bind. apply trie_insert_runs; auto. intros G1 s1 n1 t1 A1 H1 C1 K1. rewrite <- C1.
  eapply clear_runs; eauto. intros s2 A2 A3 A4 KS. apply Hq; auto; [eapply held_grow; eauto|rewrite KS; exact K1].
Qed.
Lemma extend_op G s n t l (Q : registry -> store -> N -> hnode -> Prop) : glob G s n -> held G s n t -> Forall (fun e => short (fst e)) l ->
  (forall G' s' n' t', grow n G s n G' s' n' -> held G' s' n' t' -> kidsum s' t' <= kidsum s t + per_change * N.of_nat (length l) -> Q G' s' n' t') ->
  runs n G s n (hextend pr t l) Q.
Proof.
  intros Gl H S Hq. unfold hextend. apply runs_bind. apply trie_extend_runs; auto. intros G1 s1 n1 t1 A1 H1 C1 K1. rewrite <- C1.
  eapply clear_runs; eauto. intros s2 A2 A3 A4 KS. apply Hq; auto; [eapply held_grow; eauto|rewrite KS; exact K1].
Qed.
Lemma delete_op G s n t k (Q : registry -> store -> N -> hnode * option (list N) -> Prop) : glob G s n -> held G s n t -> short k ->
  (forall G' s' n' t' d, grow n G s n G' s' n' -> held G' s' n' t' -> kidsum s' t' <= kidsum s t + per_change -> Q G' s' n' (t', d)) ->
  runs n G s n (hdelete pr t k) Q.
Proof.
  intros Gl H S Hq. unfold hdelete. apply runs_bind. apply trie_delete_runs; auto. intros G1 s1 n1 t1 d A1 H1 C1 K1. rewrite <- C1.
  eapply clear_runs; eauto. intros s2 A2 A3 A4 KS. apply Hq; auto; [eapply held_grow; eauto|rewrite KS; exact K1].
Qed.
Lemma new_op G s n l (Q : registry -> store -> N -> hnode -> Prop) : glob G s n -> Forall (fun e => short (fst e)) l ->
  (forall G' s' n' t', grow n G s n G' s' n' -> held G' s' n' t' -> Q G' s' n' t') -> runs n G s n (hfrom_iter pr l) Q.
Proof.
  intros Gl S Hq. unfold hfrom_iter. apply runs_bind. apply (runs_alloc n G s n HEmpty); auto; [lia|constructor|exact I|]. intros s1 A1 L1.
  pose proof (g_glob _ _ _ _ _ _ _ A1) as Gl1. apply (runs_shift n (n + 1)); [lia|]. apply extend_op; auto; [split; [exact L1|exact I]|].
  intros G2 s2 n2 t2 A2 H2 _. apply Hq; auto. eapply grow_trans; [exact A1|eapply grow_less; [|exact A2]; lia].
Qed.
Lemma upd_grow b G s s' n : upd G s s' -> glob G s' n -> grow b G s n G s' n.
Proof. intros [A B] Gl. split; auto; [lia|]. intros c _ E. unfold cached. rewrite B by exact E. reflexivity. Qed.
Lemma held_costs G s n t : held G s n t -> Forall (costs keccak pr G) (kids_of t).
Proof. intros [(_ & _ & _ & F & _) _]. eapply Forall_impl; [|exact F]. intros u. apply known_costs. Qed.
Lemma hash_reads G s n t : glob G s n -> held G s n t -> reads (hhash_of keccak pr t) s n <= 1 + kidsum s t.
Proof.
  intros Gl H. unfold hhash_of. cbn [reads]. assert (C : cached s (cell t) = false) by apply H. unfold cached in C. destruct (s (cell t)); [discriminate|].
  rewrite reads_pbind. destruct (encode_cost keccak pr G t s n (held_costs _ _ _ _ H) (proj2 H) Gl) as [R _].
  destruct (exec (encode_node keccak pr t) s n) as [[[e s1] n1]|]; cbn [reads]; lia.
Qed.
Lemma hash_op G s n t (Q : registry -> store -> N -> list N -> Prop) : glob G s n -> held G s n t ->
  (forall s' h, grow n G s n G s' n -> kidsum s' t <= 496 -> Q G s' n h) -> runs n G s n (hhash_of keccak pr t) Q.
Proof.
  intros Gl H Hq. unfold runs, hhash_of. cbn [exec]. assert (C : cached s (cell t) = false) by apply H. unfold cached in C. destruct (s (cell t)); [discriminate|].
  rewrite exec_pbind. destruct (encode_cost keccak pr G t s n (held_costs _ _ _ _ H) (proj2 H) Gl) as [_ E].
  destruct (exec (encode_node keccak pr t) s n) as [[[e s1] n1]|]; [|exact I]. destruct E as (-> & U & Gl1 & _ & K & _). cbn [exec]. exists G. pose proof (upd_grow n _ _ _ _ U Gl1) as A.
  split; [exact A|]. apply Hq; auto.
Qed.

(** Subsets. *)
Lemma hash_intern_runs b G s n t (Q : registry -> store -> N -> encoded_node -> Prop) : glob G s n -> known G t ->
  (forall s' e, grow b G s n G s' n -> Q G s' n e) -> runs b G s n (hash_intern keccak pr t) Q.
Proof.
  intros Gl Kn Hq. unfold runs. destruct (known_costs keccak pr G t Kn s n Gl) as [_ E]. destruct (exec (hash_intern keccak pr t) s n) as [[[e s1] n1]|]; [|exact I].
  destruct E as (-> & U & Gl1 & _ & _). exists G. pose proof (upd_grow b _ _ _ _ U Gl1) as A. split; [exact A|]. apply Hq, A.
Qed.
Lemma create_runs t : forall b G s n tr, glob G s n -> b <= n -> okn t -> Forall (known G) (kids_of t) -> (touched tr = false -> known G t) ->
  runs b G s n (hcreate_from_tracked keccak pr t tr) (fun G' s' n' x => b <= cell x /\ loose G' s' n' x /\ okn x /\ (below t -> below x)).
Proof.
  induction t as [c|c h|c ch v0 IH|c m t IH|c m v0] using hnode_ind'; intros b G s n tr Gl L O F Tc; rewrite hcreate_eq;
    match goal with |- runs _ _ _ _ (if _ then hkeep_of _ _ ?t _ else _) ?Q =>
      assert (KP : forall s', glob G s' n -> runs b G s' n (hkeep_of keccak pr t tr) Q)
    end;
    try (destruct (touched tr); [apply KP, Gl|]; apply runs_bind; apply hash_intern_runs; auto; intros s1 e A1; pose proof (g_glob _ _ _ _ _ _ _ A1) as Gl1;
         destruct e as [r|h']; [apply KP, Gl1|]; apply (runs_alloc b G s1 n (fun c => HHash c h')); [exact Gl1|exact L|reflexivity|constructor|exact I|]; intros s2 A2 L2;
         split; [exact L|]; split; [exact L2|]; split; [exact I|intros _; exact I]);
    clear s Gl Tc; intros s Gl; cbn [hkeep_of kids_of] in *.
  - apply (runs_alloc b G s n HEmpty); [exact Gl|exact L|reflexivity|constructor|exact I|]. intros s2 A2 L2. split; [cbn; lia|]. split; [exact L2|]. split; [exact I|intros []].
  - apply (runs_alloc b G s n (fun c => HHash c h)); [exact Gl|exact L|reflexivity|constructor|exact I|]. intros s2 A2 L2. split; [cbn; lia|]. split; [exact L2|]. split; [exact I|intros _; exact I].
  - destruct tr as [| |trs u bb| |]; try exact I. apply runs_bind.
    assert (S : forall l G s n trs, Forall (fun t => forall b G s n tr, glob G s n -> b <= n -> okn t -> Forall (known G) (kids_of t) -> (touched tr = false -> known G t) ->
        runs b G s n (hcreate_from_tracked keccak pr t tr) (fun G' s' n' x => b <= cell x /\ loose G' s' n' x /\ okn x /\ (below t -> below x))) l ->
      glob G s n -> b <= n -> Forall (known G) l -> runs b G s n (hcreate_all keccak pr l trs) (fun G' s' n' r => Forall (known G') r /\ lenN r = lenN l)).
    { clear. induction l as [|x l IHl]; intros G s n trs FI Gl L F; cbn [hcreate_all].
      - apply runs_ret; auto.
      - destruct trs as [|tr trs]; [exact I|]. inversion FI; subst. inversion F as [|? ? Kx F']; subst. destruct (Gl _ _ Kx) as (_ & _ & F0 & O0 & _).
        apply runs_bind. eapply runs_mono; [apply H1; auto|]. intros G1 s1 n1 y A1 (B1 & L1 & O1 & _). pose proof (g_glob _ _ _ _ _ _ _ A1) as Gl1. pose proof (g_n _ _ _ _ _ _ _ A1).
        eapply (runs_reg b G1 s1 n1 y); auto. intros G2 A2 K2. pose proof (g_glob _ _ _ _ _ _ _ A2) as Gl2. apply runs_bind.
        eapply runs_mono; [apply IHl; auto; [lia|]|].
        + eapply grow_knowns; [exact A2|]. eapply grow_knowns; eauto.
        + intros G3 s3 n3 r A3 [F3 L3]. apply runs_ret; [apply (g_glob _ _ _ _ _ _ _ A3)|]. split; [constructor; [eapply grow_known; eauto|exact F3]|rewrite !lenN_cons; lia]. }
    eapply runs_mono; [apply S; auto|]. intros G1 s1 n1 r A1 [F1 L1]. pose proof (g_glob _ _ _ _ _ _ _ A1) as Gl1. pose proof (g_n _ _ _ _ _ _ _ A1). cbn [okn] in O.
    apply (runs_alloc b G1 s1 n1 (fun c => HBranch c r v0)); auto; [lia|cbn; lia|]. intros s2 A2 L2. split; [cbn; lia|]. split; [exact L2|]. split; [cbn; lia|intros _; exact I].
  - destruct tr as [| | |tr u bb|]; try exact I. destruct O as [Om Ot]. inversion F as [|? ? Kt _]; subst. destruct (Gl _ _ Kt) as (_ & _ & F0 & O0 & _).
    apply runs_bind. eapply runs_mono; [apply IH; auto|]. intros G1 s1 n1 y A1 (B1 & L1 & O1 & I1). pose proof (g_glob _ _ _ _ _ _ _ A1) as Gl1. pose proof (g_n _ _ _ _ _ _ _ A1).
    eapply (runs_reg b G1 s1 n1 y); auto. intros G2 A2 K2. pose proof (g_glob _ _ _ _ _ _ _ A2) as Gl2.
    apply (runs_alloc b G2 s1 n1 (fun c => HExtension c m y)); [exact Gl2|lia|reflexivity|repeat constructor; exact K2|exact Om|]. intros s3 A3 L3. split; [cbn; lia|]. split; [exact L3|]. split; [split; [exact Om|apply I1, Ot]|intros []].
  - apply (runs_alloc b G s n (fun c => HLeaf c m v0)); [exact Gl|exact L|reflexivity|constructor|exact O|]. intros s2 A2 L2. split; [cbn; lia|]. split; [exact L2|]. split; [exact O|intros []].
Qed.
Lemma subset_op G s n t ks (Q : registry -> store -> N -> result hnode subset_error -> Prop) : glob G s n -> held G s n t -> ks <> [] ->
  (forall G' s' n' x, grow n G s n G' s' n' -> held G' s' n' x -> Q G' s' n' (ROk x)) -> (forall e, Q G s n (RErr e)) ->
  runs n G s n (hcreate_trie_subset keccak pr t ks) Q.
Proof.
  intros Gl [Lo O] NE H1 H2. unfold hcreate_trie_subset. apply runs_lift. intros [tr|e] Em; [|apply runs_ret; auto].
  apply runs_bind. eapply runs_mono; [apply create_runs; auto; [lia|apply Lo|]|].
  - erewrite mark_all_touched; [discriminate|exact Em|exact NE].
  - intros G1 s1 n1 x A1 (B1 & L1 & O1 & _). apply runs_ret; [apply (g_glob _ _ _ _ _ _ _ A1)|]. apply H1; auto. split; auto.
Qed.
Lemma subsets_op t kss : forall tr b G s n, b <= n -> glob G s n -> held G s n t -> ~ In [] kss ->
  runs b G s n (hcreate_subsets_from keccak pr t tr kss) (fun G' s' n' r => match r with ROk l => Forall (held G' s' n') l | RErr _ => True end).
Proof.
  induction kss as [|ks kss IH]; intros tr b G s n L Gl H NI; cbn [hcreate_subsets_from].
  - apply runs_ret; auto.
  - apply runs_lift. intros [tr'|e] Em; [|apply runs_ret; auto]. apply runs_bind. apply (runs_shift b n); [exact L|].
    eapply runs_mono; [apply create_runs; auto; [lia|apply H|apply H|]|].
    + erewrite mark_all_touched; [discriminate|exact Em|]. intros ->. apply NI. left. reflexivity.
    + intros G1 s1 n1 x A1 (B1 & L1 & O1 & _). pose proof (g_glob _ _ _ _ _ _ _ A1) as Gl1. pose proof (g_n _ _ _ _ _ _ _ A1) as NN.
      apply runs_bind. apply (runs_shift b n1); [lia|].
      eapply runs_mono; [apply IH; auto; [lia|eapply held_grow; eauto|intros I; apply NI; right; exact I]|].
      intros G2 s2 n2 r A2 R. apply runs_ret; [apply (g_glob _ _ _ _ _ _ _ A2)|]. destruct r as [l|]; [|exact I]. constructor; [|exact R].
      eapply held_grow; [exact A2|split; auto].
Qed.

(** Comparing. *)
Definition mine (G : registry) (s : store) (n : N) (t : hnode) : Prop := known G t \/ held G s n t.
Lemma mine_grow G s n s' t : grow n G s n G s' n -> mine G s n t -> mine G s' n t.
Proof. intros A [K|H]; [left; exact K|right; eapply held_grow; eauto]. Qed.
Lemma mine_kids G s n t : glob G s n -> mine G s n t -> Forall (mine G s n) (kids_of t).
Proof.
  intros Gl M. assert (F : Forall (known G) (kids_of t)) by (destruct M as [K|[L _]]; [apply (Gl _ _ K)|apply L]). eapply Forall_impl; [|exact F]. intros u K. left. exact K.
Qed.
Lemma runs_quiet_bind {A B} G s n (p : prog A) (f : A -> prog B) :
  runs n G s n p (fun G' s' n' _ => G' = G /\ n' = n) ->
  (forall x s', grow n G s n G s' n -> runs n G s' n (f x) (fun G' s'' n' _ => G' = G /\ n' = n)) ->
  runs n G s n (pbind p f) (fun G' s' n' _ => G' = G /\ n' = n).
Proof. intros H1 H2. apply runs_bind. eapply runs_mono; [exact H1|]. intros G1 s1 n1 x A1 [-> ->]. apply H2, A1. Qed.
Lemma runs_quiet_ret {A} G s n (x : A) : glob G s n -> runs n G s n (Ret x) (fun G' s' n' _ => G' = G /\ n' = n).
Proof. intros Gl. apply runs_ret; auto. Qed.
Lemma hash_quiet G s n t : glob G s n -> mine G s n t -> runs n G s n (hhash_of keccak pr t) (fun G' s' n' _ => G' = G /\ n' = n).
Proof.
  intros Gl [K|H]; [|apply hash_op; auto]. unfold runs, hhash_of. cbn [exec]. destruct (s (cell t)) as [h|].
  - cbn [exec]. exists G. split; [apply grow_refl, Gl|auto].
  - rewrite exec_pbind. destruct (Gl _ _ K) as (_ & _ & F & O & _). assert (FC : Forall (costs keccak pr G) (kids_of t)) by (eapply Forall_impl; [|exact F]; intros u; apply known_costs).
    destruct (encode_cost keccak pr G t s n FC O Gl) as [_ E]. destruct (exec (encode_node keccak pr t) s n) as [[[e s1] n1]|]; [|exact I]. destruct E as (-> & U & Gl1 & _).
    cbn [exec]. exists G. split; [eapply upd_grow; eauto|auto].
Qed.
Local Ltac quiet := apply runs_quiet_bind; [apply hash_quiet; assumption|];
  let x := fresh "x" in let s' := fresh "s" in let A := fresh "A" in let Gl := fresh "Gl" in
  intros x s' A; pose proof (g_glob _ _ _ _ _ _ _ A) as Gl;
  repeat match goal with M : mine _ ?s0 _ _ |- _ => lazymatch type of A with grow _ _ s0 _ _ _ _ => apply (mine_grow _ _ _ _ _ A) in M end end; clear A.
Lemma longest_quiet G s n field a b st : glob G s n -> mine G s n a -> mine G s n b -> runs n G s n (hreplace_longest keccak pr field a b st) (fun G' s' n' _ => G' = G /\ n' = n).
Proof.
  intros Gl Ma Mb. unfold hreplace_longest. destruct (match field with None => _ | Some p => _ end); [|apply runs_quiet_ret, Gl].
  apply runs_quiet_bind; [|intros x s1 A1; apply runs_quiet_ret, (g_glob _ _ _ _ _ _ _ A1)]. unfold hdiff_point_new. apply runs_lift. intros ak _. apply runs_lift. intros bk _.
  apply runs_quiet_bind.
  - unfold hnode_info_new. quiet. apply runs_quiet_ret. assumption.
  - intros x s1 A1. pose proof (g_glob _ _ _ _ _ _ _ A1) as Gl1. pose proof (mine_grow _ _ _ _ _ A1 Mb). apply runs_quiet_bind.
    + unfold hnode_info_new. quiet. apply runs_quiet_ret. assumption.
    + intros y s2 A2. apply runs_quiet_ret, (g_glob _ _ _ _ _ _ _ A2).
Qed.
Lemma from_hashes_quiet G s n ha hb a b st ds : glob G s n -> mine G s n a -> mine G s n b -> runs n G s n (hfrom_hashes keccak pr ha hb a b st ds) (fun G' s' n' _ => G' = G /\ n' = n).
Proof.
  intros Gl Ma Mb. unfold hfrom_hashes. destruct (bytes_eqb ha hb); [apply runs_quiet_ret, Gl|]. apply runs_quiet_bind; [|intros x s1 A1; apply runs_quiet_ret, (g_glob _ _ _ _ _ _ _ A1)].
  unfold hupdate_hash. apply runs_quiet_bind; [apply longest_quiet; auto|]. intros x s1 A1. apply runs_quiet_ret, (g_glob _ _ _ _ _ _ _ A1).
Qed.
Lemma gen_hashes_quiet G s n a b st ds : glob G s n -> mine G s n a -> mine G s n b -> runs n G s n (hfrom_gen_hashes keccak pr a b st ds) (fun G' s' n' _ => G' = G /\ n' = n).
Proof. intros Gl Ma Mb. unfold hfrom_gen_hashes. quiet. quiet. apply from_hashes_quiet; assumption. Qed.
Lemma find_quiet a : forall b st ds G s n, glob G s n -> mine G s n a -> mine G s n b -> runs n G s n (hfind_latest_rec keccak pr a b st ds) (fun G' s' n' _ => G' = G /\ n' = n).
Proof.
  induction a as [c|c h|c ach av IH|c an ac IH|c an av] using hnode_ind'; intros b st ds G s n Gl Ma Mb; cbn [hfind_latest_rec]; quiet; quiet;
    (destruct (bytes_eqb _ _); [apply runs_quiet_ret; assumption|]);
    (destruct (_ && _);
     [apply runs_quiet_bind; [|intros ? ? AA; apply runs_quiet_ret, (g_glob _ _ _ _ _ _ _ AA)]; unfold hupdate_node; apply runs_quiet_bind; [apply longest_quiet; assumption|];
      intros ? ? AA; apply runs_quiet_ret, (g_glob _ _ _ _ _ _ _ AA)|]).
  all: destruct b as [c1|c1 h1|c1 bch bv|c1 bn bc|c1 bn bv]; try exact I.
  - apply runs_quiet_ret. assumption.
  - apply runs_lift. intros st1 _. apply from_hashes_quiet; assumption.
  - rename s1 into s2. apply runs_quiet_bind.
    + assert (Fa : Forall (mine G s2 n) ach) by (eapply (mine_kids _ _ _ (HBranch c ach av)); eassumption).
      assert (Fb : Forall (mine G s2 n) bch) by (eapply (mine_kids _ _ _ (HBranch c1 bch bv)); eassumption).
      generalize (erase (HBranch c ach av)) as whole. intros whole. generalize NoDiffDetected as fd. generalize 0 as i.
      clear Ma Mb Gl Gl0 s s0. revert s2 bch Gl1 Fa Fb ds. induction IH as [|t ach Ht F IHF]; intros s2 bch Gl2 Fa Fb ds i fd; [apply runs_quiet_ret, Gl2|].
      destruct bch as [|u bch]; [apply runs_quiet_ret, Gl2|]. inversion Fa; subst. inversion Fb; subst.
      apply runs_lift. intros n0 _. apply runs_lift. intros st1 _. apply runs_quiet_bind; [apply Ht; assumption|]. intros [r d] s3 A3.
      apply IHF; [apply (g_glob _ _ _ _ _ _ _ A3)| |]; (eapply Forall_impl; [|eassumption]); intros w; apply mine_grow, A3.
    + intros [[] d] s3 A3; try (apply runs_quiet_ret, (g_glob _ _ _ _ _ _ _ A3));
        (apply gen_hashes_quiet; [apply (g_glob _ _ _ _ _ _ _ A3)|eapply mine_grow; eassumption|eapply mine_grow; eassumption]).
  - apply runs_lift. intros st1 _. pose proof (mine_kids _ _ _ _ Gl1 Ma) as Fa. pose proof (mine_kids _ _ _ _ Gl1 Mb) as Fb. cbn [kids_of] in *. inversion Fa; subst. inversion Fb; subst.
    apply IH; assumption.
  - apply gen_hashes_quiet; assumption.
Qed.

(** ** Histories *)
Definition inv (G : registry) (s : store) (n : N) (hs : list hnode) : Prop := glob G s n /\ Forall (held G s n) hs.
Definition stays (s : store) (hs : list hnode) (f : nat -> N) (s' : store) (hs' : list hnode) : Prop :=
  forall i t, nth_error hs i = Some t -> exists t', nth_error hs' i = Some t' /\ kidsum s' t' <= kidsum s t + per_change * f i.

Lemma the_nth {A} (l : list A) i x : the l i = Ok x -> nth_error l i = Some x.
Proof. unfold the. destruct (nth_error l i); intros E; [injection E as ->; reflexivity|discriminate]. Qed.
Lemma held_all G s n G' s' n' hs : grow n G s n G' s' n' -> Forall (held G s n) hs -> Forall (held G' s' n') hs.
Proof. intros A. apply Forall_impl. intros t. apply held_grow, A. Qed.
Lemma stays_same G s n G' s' n' hs f : glob G s n -> grow n G s n G' s' n' -> Forall (held G s n) hs -> stays s hs f s' hs.
Proof.
  intros Gl A F i t E. exists t. split; [exact E|]. rewrite Forall_forall in F. pose proof (held_kidsum _ _ _ _ _ _ _ _ Gl A (F t (nth_error_In _ _ E))). lia.
Qed.
Lemma stays_app s hs f s' hs' l : stays s hs f s' hs' -> stays s hs f s' (hs' ++ l).
Proof. intros S i t E. destruct (S i t E) as (t' & E' & K). exists t'. split; [|exact K]. rewrite nth_error_app1; [exact E'|]. apply nth_error_Some. congruence. Qed.
Lemma stays_replace G s n G' s' n' hs f i t t' : glob G s n -> grow n G s n G' s' n' -> Forall (held G s n) hs -> nth_error hs i = Some t ->
  kidsum s' t' <= kidsum s t + per_change * f i -> stays s hs f s' (replace hs i t').
Proof.
  intros Gl A F Ei K j u Ej. destruct (Nat.eq_dec i j) as [->|NE].
  - exists t'. split; [apply nth_replace_eq, nth_error_Some; congruence|]. assert (u = t) by congruence. subst u. exact K.
  - exists u. rewrite nth_replace_ne by exact NE. split; [exact Ej|]. destruct (stays_same _ _ _ _ _ _ _ f Gl A F j u Ej) as (u' & E' & K'). congruence.
Qed.
Lemma replace_all (P : hnode -> Prop) hs : forall i t, Forall P hs -> P t -> Forall P (replace hs i t).
Proof. induction hs as [|x hs IH]; intros [|i] t F Pt; cbn [replace]; inversion F; subst; constructor; auto. Qed.

Lemma step_runs G s n hs o : inv G s n hs -> regular o ->
  runs n G s n (hstep keccak pr hs o) (fun G' s' n' r =>
    inv G' s' n' (fst r) /\ stays s hs (fun i => changes1 i o) s' (fst r) /\
    match o with
    | HashOf i => exists t, nth_error (fst r) i = Some t /\ kidsum s' t <= 496
    | Clone i | Reload i => exists t u, nth_error hs i = Some t /\ nth_error (fst r) (length hs) = Some u /\ kidsum s' u <= kidsum s t
    | _ => True
    end).
Proof.
  intros [Gl F] R. assert (HD : forall i t, nth_error hs i = Some t -> held G s n t) by (intros i t E; rewrite Forall_forall in F; eapply F, nth_error_In, E).
  destruct o as [l|i k v|i l|i k|i k|i|i j|i|i path|i j|i ks|i kss|i|i j|p]; cbn [hstep regular] in *; try contradiction;
    try (apply runs_lift; intros t Et; apply the_nth in Et).
  - apply runs_bind. apply new_op; auto. intros G1 s1 n1 t A1 H1. apply runs_ret; [apply (g_glob _ _ _ _ _ _ _ A1)|]. cbn [fst].
    split; [split; [apply (g_glob _ _ _ _ _ _ _ A1)|apply Forall_app; split; [eapply held_all; eauto|constructor; auto]]|]. split; [apply stays_app; eapply stays_same; eauto|exact I].
  - apply runs_bind. apply insert_op; eauto. intros G1 s1 n1 t1 A1 H1 K1. apply runs_ret; [apply (g_glob _ _ _ _ _ _ _ A1)|]. cbn [fst].
    split; [split; [apply (g_glob _ _ _ _ _ _ _ A1)|apply replace_all; [eapply held_all; eauto|auto]]|]. split; [|exact I].
    eapply stays_replace; eauto. cbn [changes1]. rewrite Nat.eqb_refl. lia.
  - apply runs_bind. apply extend_op; eauto. intros G1 s1 n1 t1 A1 H1 K1. apply runs_ret; [apply (g_glob _ _ _ _ _ _ _ A1)|]. cbn [fst].
    split; [split; [apply (g_glob _ _ _ _ _ _ _ A1)|apply replace_all; [eapply held_all; eauto|auto]]|]. split; [|exact I].
    eapply stays_replace; eauto. cbn [changes1]. rewrite Nat.eqb_refl. exact K1.
  - apply runs_bind. apply delete_op; eauto. intros G1 s1 n1 t1 d A1 H1 K1. apply runs_ret; [apply (g_glob _ _ _ _ _ _ _ A1)|]. cbn [fst].
    split; [split; [apply (g_glob _ _ _ _ _ _ _ A1)|apply replace_all; [eapply held_all; eauto|auto]]|]. split; [|exact I].
    eapply stays_replace; eauto. cbn [changes1]. rewrite Nat.eqb_refl. lia.
  - apply runs_lift. intros r _. apply runs_ret; [exact Gl|]. cbn [fst]. split; [split; auto|]. split; [eapply stays_same; eauto; apply grow_refl, Gl|exact I].
  - apply runs_bind. apply hash_op; eauto. intros s1 h A1 K1. apply runs_ret; [apply (g_glob _ _ _ _ _ _ _ A1)|]. cbn [fst].
    split; [split; [apply (g_glob _ _ _ _ _ _ _ A1)|eapply held_all; eauto]|]. split; [eapply stays_same; eauto|]. exists t. auto.
  - apply runs_lift. intros b _. apply runs_ret; [exact Gl|]. cbn [fst]. split; [split; auto|]. split; [eapply stays_same; eauto; apply grow_refl, Gl|exact I].
  - apply runs_ret; [exact Gl|]. cbn [fst]. split; [split; [exact Gl|apply Forall_app; split; [exact F|constructor; eauto]]|].
    split; [apply stays_app; eapply stays_same; eauto; apply grow_refl, Gl|]. exists t, t. split; [exact Et|]. split; [rewrite nth_error_app2, Nat.sub_diag by lia; reflexivity|lia].
  - apply runs_bind. apply subset_op; eauto.
    + intros G1 s1 n1 x A1 H1. apply runs_ret; [apply (g_glob _ _ _ _ _ _ _ A1)|]. cbn [fst].
      split; [split; [apply (g_glob _ _ _ _ _ _ _ A1)|apply Forall_app; split; [eapply held_all; eauto|constructor; auto]]|]. split; [apply stays_app; eapply stays_same; eauto|exact I].
    + intros e. apply runs_ret; [exact Gl|]. cbn [fst]. split; [split; auto|]. split; [eapply stays_same; eauto; apply grow_refl, Gl|exact I].
  - apply runs_bind. eapply runs_mono; [apply subsets_op; eauto; lia|]. intros G1 s1 n1 r A1 H1. apply runs_ret; [apply (g_glob _ _ _ _ _ _ _ A1)|].
    destruct r as [l|e]; cbn [fst].
    + split; [split; [apply (g_glob _ _ _ _ _ _ _ A1)|apply Forall_app; split; [eapply held_all; eauto|exact H1]]|]. split; [apply stays_app; eapply stays_same; eauto|exact I].
    + split; [split; [apply (g_glob _ _ _ _ _ _ _ A1)|eapply held_all; eauto]|]. split; [eapply stays_same; eauto|exact I].
  - apply runs_bind. destruct (HD _ _ Et) as [Lo O]. apply reload_runs; auto. intros G1 s1 n1 u A1 L1 O1 K1. apply runs_ret; [apply (g_glob _ _ _ _ _ _ _ A1)|]. cbn [fst].
    split; [split; [apply (g_glob _ _ _ _ _ _ _ A1)|apply Forall_app; split; [eapply held_all; eauto|constructor; [split; auto|constructor]]]|].
    split; [apply stays_app; eapply stays_same; eauto|]. exists t, u. split; [exact Et|]. split; [rewrite nth_error_app2, Nat.sub_diag by lia; reflexivity|exact K1].
  - apply runs_lift. intros u Eu. apply the_nth in Eu. apply runs_bind. unfold hcreate_diff. eapply runs_mono.
    + apply runs_quiet_bind; [apply find_quiet; [exact Gl|right; eauto|right; eauto]|]. intros [r ds] s1 A1. apply runs_quiet_ret, (g_glob _ _ _ _ _ _ _ A1).
    + intros G1 s1 n1 d A1 _. apply runs_ret; [apply (g_glob _ _ _ _ _ _ _ A1)|]. cbn [fst].
      split; [split; [apply (g_glob _ _ _ _ _ _ _ A1)|eapply held_all; eauto]|]. split; [eapply stays_same; eauto|exact I].
Qed.

Lemma run_inv os : forall G s n hs hs' xs s' n', inv G s n hs -> Forall regular os -> exec (hrun keccak pr hs os) s n = Ok (hs', xs, s', n') ->
  exists G', inv G' s' n' hs' /\ stays s hs (fun i => changes i os) s' hs'.
Proof.
  induction os as [|o os IH]; intros G s n hs hs' xs s' n' I R E; cbn [hrun] in E.
  - injection E as <- <- <- <-. exists G. split; [exact I|]. intros i t Ei. exists t. split; [exact Ei|lia].
  - inversion R as [|? ? R1 R2]; subst. rewrite exec_pbind in E. pose proof (step_runs G s n hs o I R1) as S. unfold runs in S.
    destruct (exec (hstep keccak pr hs o) s n) as [[[[hs1 x] s1] n1]|]; [|discriminate]. destruct S as (G1 & A1 & I1 & S1 & _). cbn [fst] in *.
    rewrite exec_pbind in E. destruct (exec (hrun keccak pr hs1 os) s1 n1) as [[[[hs2 xs2] s2] n2]|] eqn:E2; [|discriminate]. cbn [exec] in E. injection E as <- <- <- <-.
    destruct (IH _ _ _ _ _ _ _ _ I1 R2 E2) as (G2 & I2 & S2). exists G2. split; [exact I2|]. intros i t Ei. destruct (S1 i t Ei) as (t1 & E1 & K1). destruct (S2 i t1 E1) as (t2 & E3 & K2).
    exists t2. split; [exact E3|]. cbn [changes]. lia.
Qed.
Lemma run_app os1 : forall os2 s n hs, exec (hrun keccak pr hs (os1 ++ os2)) s n =
  match exec (hrun keccak pr hs os1) s n with
  | Ok (hs1, xs1, s1, n1) => match exec (hrun keccak pr hs1 os2) s1 n1 with Ok (hs2, xs2, s2, n2) => Ok (hs2, xs1 ++ xs2, s2, n2) | Panic => Panic end
  | Panic => Panic
  end.
Proof.
  induction os1 as [|o os1 IH]; intros os2 s n hs; cbn [hrun app].
  - cbn [exec]. destruct (exec (hrun keccak pr hs os2) s n) as [[[[a b] c] d]|]; reflexivity.
  - rewrite !exec_pbind. destruct (exec (hstep keccak pr hs o) s n) as [[[[hs1 x] s1] n1]|]; [|reflexivity]. rewrite !exec_pbind, IH.
    destruct (exec (hrun keccak pr hs1 os1) s1 n1) as [[[[hs2 xs2] s2] n2]|]; [|reflexivity]. cbn [exec].
    destruct (exec (hrun keccak pr hs2 os2) s2 n2) as [[[[a b] c] d]|]; reflexivity.
Qed.
Lemma start_inv : inv (fun _ => None) (fun _ => None) 0 [].
Proof. split; [intros c u E; discriminate|constructor]. Qed.

Theorem cost_after_changes os1 os2 i c : Forall regular (os1 ++ HashOf i :: os2) -> hash_cost keccak pr (os1 ++ HashOf i :: os2) i = Some c ->
  c <= 497 * (1 + 131 * changes i os2).
Proof.
  intros R H. unfold hash_cost in H. rewrite run_app in H. apply Forall_app in R. destruct R as [R1 R2]. inversion R2 as [|? ? RH R3]; subst.
  destruct (exec (hrun keccak pr [] os1) (fun _ => None) 0) as [[[[hs1 xs1] s1] n1]|] eqn:E1; [|discriminate].
  destruct (run_inv os1 _ _ _ _ _ _ _ _ start_inv R1 E1) as (G1 & I1 & _). cbn [hrun] in H. rewrite exec_pbind in H.
  pose proof (step_runs _ _ _ _ _ I1 RH) as S. unfold runs in S. destruct (exec (hstep keccak pr hs1 (HashOf i)) s1 n1) as [[[[hs2 x] s2] n2]|]; [|discriminate].
  destruct S as (G2 & _ & I2 & _ & K2). cbn [fst] in *. rewrite exec_pbind in H. destruct (exec (hrun keccak pr hs2 os2) s2 n2) as [[[[hs3 xs3] s3] n3]|] eqn:E3; [|discriminate].
  cbn [exec] in H. destruct (run_inv os2 _ _ _ _ _ _ _ _ I2 R3 E3) as (G3 & [Gl3 F3] & S3).
  destruct (nth_error hs3 i) as [t|] eqn:Et; [|discriminate]. assert (c = reads (hhash_of keccak pr t) s3 n3) by congruence. subst c. clear H.
  destruct K2 as (u & Eu & K2). destruct (S3 i u Eu) as (t' & Et' & K3). assert (t' = t) by congruence. subst t'. cbn beta in K3.
  rewrite Forall_forall in F3. pose proof (hash_reads _ _ _ _ Gl3 (F3 t (nth_error_In _ _ Et))). unfold per_change in K3. lia.
Qed.

Lemma run_start os hs xs : start keccak pr os = Ok (hs, xs) -> exists s n, exec (hrun keccak pr [] os) (fun _ => None) 0 = Ok (hs, xs, s, n).
Proof.
  unfold start. destruct (exec (hrun keccak pr [] os) (fun _ => None) 0) as [[[[a b] s] n]|]; cbn [rmap fst]; intros E; [|discriminate]. injection E as -> ->. eauto.
Qed.
Theorem cost_of_copies os1 os2 os3 o i hs xs c : o = Clone i \/ o = Reload i -> Forall regular (os1 ++ HashOf i :: os2 ++ o :: os3) ->
  start keccak pr (os1 ++ HashOf i :: os2) = Ok (hs, xs) -> hash_cost keccak pr (os1 ++ HashOf i :: os2 ++ o :: os3) (length hs) = Some c ->
  c <= 497 * (1 + 131 * (changes i os2 + changes (length hs) os3)).
Proof.
  intros Ho R St H. apply run_start in St. destruct St as (s3 & n3 & St). unfold hash_cost in H.
  change (os1 ++ HashOf i :: os2 ++ o :: os3) with (os1 ++ (HashOf i :: os2) ++ o :: os3) in *. rewrite app_assoc in *. rewrite run_app, St in H.
  apply Forall_app in R. destruct R as [R R3]. apply Forall_app in R. destruct R as [R1 R2]. inversion R2 as [|? ? RH R2']; subst. inversion R3 as [|? ? RO R3']; subst.
  rewrite run_app in St. destruct (exec (hrun keccak pr [] os1) (fun _ => None) 0) as [[[[hs1 xs1] s1] n1]|] eqn:E1; [|discriminate].
  destruct (run_inv os1 _ _ _ _ _ _ _ _ start_inv R1 E1) as (G1 & I1 & _). cbn [hrun] in St. rewrite exec_pbind in St.
  pose proof (step_runs _ _ _ _ _ I1 RH) as S. unfold runs in S. destruct (exec (hstep keccak pr hs1 (HashOf i)) s1 n1) as [[[[hs2 x] s2] n2]|]; [|discriminate].
  destruct S as (G2 & _ & I2 & _ & K2). cbn [fst] in *. rewrite exec_pbind in St. destruct (exec (hrun keccak pr hs2 os2) s2 n2) as [[[[hs3' xs3] s3'] n3']|] eqn:E3; [|discriminate].
  cbn [exec] in St. assert (hs3' = hs /\ s3' = s3 /\ n3' = n3) as (-> & -> & ->) by (injection St; auto). clear St.
  destruct (run_inv os2 _ _ _ _ _ _ _ _ I2 R2' E3) as (G3 & I3 & S3). destruct K2 as (u & Eu & K2). destruct (S3 i u Eu) as (t & Et & K3). cbn beta in K3.
  cbn [hrun] in H. rewrite exec_pbind in H. pose proof (step_runs _ _ _ _ _ I3 RO) as S. unfold runs in S.
  destruct (exec (hstep keccak pr hs o) s3 n3) as [[[[hs4 x4] s4] n4]|]; [|discriminate]. destruct S as (G4 & _ & I4 & _ & K4). cbn [fst] in *.
  assert (K5 : exists v, nth_error hs4 (length hs) = Some v /\ kidsum s4 v <= kidsum s3 t).
  { destruct Ho; subst o; destruct K4 as (t' & v & Et' & Ev & K4); assert (t' = t) by congruence; subst t'; eauto. }
  destruct K5 as (v & Ev & K5). rewrite exec_pbind in H. destruct (exec (hrun keccak pr hs4 os3) s4 n4) as [[[[hs5 xs5] s5] n5]|] eqn:E5; [|discriminate]. cbn [exec] in H.
  destruct (run_inv os3 _ _ _ _ _ _ _ _ I4 R3' E5) as (G5 & [Gl5 F5] & S5). destruct (S5 _ v Ev) as (w & Ew & K6). cbn beta in K6. rewrite Ew in H.
  assert (c = reads (hhash_of keccak pr w) s5 n5) by congruence. subst c. clear H.
  rewrite Forall_forall in F5. pose proof (hash_reads _ _ _ _ Gl5 (F5 w (nth_error_In _ _ Ew))). unfold per_change in *. lia.
Qed.
End Run.
