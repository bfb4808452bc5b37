(** Proofs about the order of iteration, single calls of the iterator, and rebuilding a trie from its items. *)
From Verif Require Import Base Nibbles NibblesSpec NibblesFacts NibblesFacts2 NibblesFacts3 Trie TrieSpec TrieHistSpec TrieFacts TrieInsert TrieGet TrieDelete TrieUnique TrieIter TrieHist TrieObs HashSpec ReplayFacts OrderSpec OrderFacts ItemsSpec.
From Coq Require Import Permutation Sorted.
Open Scope N_scope.

(** ** Order *)
Definition ebefore (a b : list N * val_or_hash) : Prop := before (fst a) (fst b).

Lemma before_app p a b : before a b -> before (p ++ a) (p ++ b).
Proof.
  intros [(q & x & y & r & s & -> & -> & L)|(x & c & ->)].
  - left. exists (p ++ q), x, y, r, s. rewrite <- !app_assoc. auto.
  - right. exists x, c. rewrite <- app_assoc. reflexivity.
Qed.
Lemma sorted_map_app p l : StronglySorted ebefore l -> StronglySorted ebefore (map (fun e => (p ++ fst e, snd e)) l).
Proof.
  induction 1 as [|e l S IH F]; cbn [map]; constructor; auto. apply Forall_map. eapply Forall_impl; [|exact F].
  intros f B. unfold ebefore in *. cbn [fst]. apply before_app, B.
Qed.
Lemma sorted_app (a b : list (list N * val_or_hash)) : StronglySorted ebefore a -> StronglySorted ebefore b ->
  (forall x y, In x a -> In y b -> ebefore x y) -> StronglySorted ebefore (a ++ b).
Proof.
  induction 1 as [|e l S IH F]; intros B H; [exact B|]. cbn [app]. constructor.
  - apply IH; [exact B|]. intros; apply H; [right|]; assumption.
  - apply Forall_app. split; [exact F|]. apply Forall_forall. intros y I. apply H; [left; reflexivity|exact I].
Qed.
Lemma children_head f l : forall i e, In e (concat_children f l i) -> exists d r, fst e = d :: r /\ i <= d.
Proof.
  induction l as [|c l IH]; intros i e I; cbn [concat_children] in I; [destruct I|].
  apply in_app_or in I. destruct I as [I|I].
  - apply in_map_iff in I. destruct I as (e0 & <- & _). cbn [fst]. exists i, (fst e0). split; [reflexivity|lia].
  - destruct (IH _ _ I) as (d & r & E & L). exists d, r. split; [exact E|lia].
Qed.

Lemma entries_sorted t : StronglySorted ebefore (entries t).
Proof.
  induction t as [|h|ch v IH|n c IH|n v] using node_ind'; cbn [entries].
  - constructor.
  - constructor; constructor.
  - apply sorted_app.
    + generalize 0 as i. induction IH as [|c ch Hc F IHF]; intros i; cbn [concat_children]; [constructor|].
      apply sorted_app; [exact (sorted_map_app [i] _ Hc)|apply IHF|].
      intros x y Ix Iy. apply in_map_iff in Ix. destruct Ix as (e & <- & _). destruct (children_head _ _ _ _ Iy) as (d & r & E & L).
      unfold ebefore. cbn [fst]. rewrite E. left. exists [], i, d, (fst e), r. repeat split; lia.
    + destruct v; constructor; constructor.
    + intros x y Ix Iy. destruct v as [|b v]; [destruct Iy|]. destruct Iy as [<-|[]]. destruct (children_head _ _ _ _ Ix) as (d & r & E & L).
      unfold ebefore. cbn [fst]. rewrite E. right. exists d, r. reflexivity.
  - apply sorted_map_app, IH.
  - constructor; constructor.
Qed.

(** ** Single calls *)
Lemma next_ends fuel pr : forall st st', next fuel pr st = Some (Ok (st', None)) -> trie_stack st' = [].
Proof.
  induction fuel as [|fuel IH]; intros st st' E; [discriminate|]. cbn [next] in E.
  destruct (next_step pr st) as [[[st1 [it|]]|]|] eqn:S; try discriminate; [apply (IH _ _ E)|].
  injection E as <-. unfold next_step in S. destruct (trie_stack st) as [|e rest]; [reflexivity|]. exfalso.
  destruct e; cbn -[advance with_child merge_nibble truncate_n_nibbles_back N.leb N.eqb] in S;
    repeat match type of S with
    | context [match ?m with Ok _ => _ | Panic => _ end] => destruct m; cbn [bind] in S
    | context [if ?b then _ else _] => destruct b
    | context [bind ?m _] => destruct m; cbn [bind] in S
    end; discriminate.
Qed.
Lemma answers_end n fuel pr st : (0 < fuel)%nat -> trie_stack st = [] -> answers n fuel pr st = Some (Ok (repeat None n)).
Proof.
  intros F E. induction n as [|n IH]; [reflexivity|]. cbn [answers]. destruct fuel as [|fuel]; [lia|].
  cbn [next]. unfold next_step. rewrite E. rewrite IH. reflexivity.
Qed.
Lemma firstn_repeat2 {A} (x : A) m : forall a b, (m <= a)%nat -> (m <= b)%nat -> firstn m (repeat x a) = firstn m (repeat x b).
Proof. induction m as [|m IH]; intros [|a] [|b] La Lb; try lia; try reflexivity. cbn [repeat firstn]. f_equal. apply IH; lia. Qed.
Lemma answers_spec pr fuel : forall n c stk, hexl c -> (length c <= 64)%nat -> stack_ok c stk -> (measure stk < fuel)%nat ->
  answers n fuel pr (Iter (enc c) stk) = Some (Ok (firstn n (map Some (map item_of (stack_items c stk)) ++ repeat None n))).
Proof.
  induction n as [|n IH]; intros c stk Hc Lc SO M; [reflexivity|]. cbn [answers].
  pose proof (next_spec pr fuel c stk Hc Lc SO M) as H. destruct (stack_items c stk) as [|it l].
  - destruct H as [st E]. rewrite E. rewrite (answers_end n fuel pr st) by (lia || exact (next_ends _ _ _ _ E)).
    cbn [map app repeat firstn]. rewrite firstn_all2 by (rewrite repeat_length; lia). reflexivity.
  - destruct H as (c' & stk' & -> & A & B & C & D & <-). rewrite IH by (auto; lia). cbn [map app firstn repeat].
    do 3 f_equal. rewrite !firstn_app. f_equal.
    change (None :: repeat None n) with (repeat (@None Trie.item) (S n)). apply firstn_repeat2; lia.
Qed.

(** ** Rebuilding *)
Definition ctrie (t : node) : Prop := wf 64 t /\ canon t.
Definition pentry (e : nibbles * val_or_hash) : Prop := kwf (fst e) /\ proper (snd e).
Definition ikeys (l : list (nibbles * val_or_hash)) : list (list N) := map (fun e => nseq (fst e)) l.

Lemma ctrie_empty : ctrie Empty.
Proof. split; constructor. Qed.

Lemma extend_snoc pr l k v : forall t, trie_extend pr t (l ++ [(k, v)]) = (t' <- trie_extend pr t l ;; trie_insert pr t' k v).
Proof.
  induction l as [|[j w] l IH]; intros t; cbn [app trie_extend bind]; [destruct (trie_insert pr t k v); reflexivity|].
  destruct (trie_insert pr t j w); cbn [bind]; [apply IH|reflexivity].
Qed.

Lemma cstep pr t k v t' : ctrie t -> kwf k -> proper v -> trie_insert pr t k v = Ok t' ->
  ctrie t' /\ (forall j, lk t' j = if key_eqb (eff t (nseq k)) j then Some v else lk t j) /\
  (Permutation (map fst (entries t')) (map fst (entries t)) \/ Permutation (map fst (entries t')) (eff t (nseq k) :: map fst (entries t))).
Proof.
  intros [W C] Hk Hv E. destruct (tinsert pr t k v W (canon_shape _ C) Hk Hv) as [(t1 & E1 & (P1 & _ & _ & P4 & P5) & _)|[E1 _]]; [|congruence].
  assert (t1 = t') by congruence. subst t1. split; [split; auto|]. split; [exact P5|]. set (q := eff t (nseq k)) in *.
  assert (S : forall j, stored t' j <-> q = j \/ stored t j).
  { intros j. unfold stored. rewrite P5. destruct (key_eqb_spec q j) as [->|D]; [split; [auto|discriminate]|tauto]. }
  destruct (in_dec (list_eq_dec N.eq_dec) q (map fst (entries t))) as [I|I].
  - left. apply NoDup_Permutation; try apply entries_nodup. intros j. rewrite !in_keys, S. apply in_keys in I. intuition congruence.
  - right. apply NoDup_Permutation; [apply entries_nodup|constructor; [exact I|apply entries_nodup]|].
    intros j. cbn [In]. rewrite !in_keys, S. reflexivity.
Qed.

Lemma crun_count pr l : forall t t', ctrie t -> Forall pentry l -> trie_extend pr t l = Ok t' ->
  ctrie t' /\
  (length (entries t') <= length (entries t) + length l)%nat /\
  (length (entries t') = (length (entries t) + length l)%nat ->
   (total (map fst (entries t)) + total (ikeys l) <= total (map fst (entries t')))%nat /\
   (total (map fst (entries t')) = (total (map fst (entries t)) + total (ikeys l))%nat ->
    forall a k v b, l = a ++ (k, v) :: b -> exists t1, trie_extend pr t a = Ok t1 /\ ctrie t1 /\ eff t1 (nseq k) = nseq k)).
Proof.
  induction l as [|[k v] l IH]; intros t t' V F E.
  - cbn in E. assert (t = t') by congruence. subst. split; [exact V|]. cbn [length ikeys map total fold_right].
    split; [lia|]. intros _. split; [lia|]. intros _ a k v b Q. destruct a; discriminate.
  - inversion F as [|? ? [Hk Hv] F']; subst. cbn [fst snd trie_extend] in *.
    destruct (trie_insert pr t k v) as [t1|] eqn:E1; cbn [bind] in E; [|discriminate].
    destruct (cstep pr t k v t1 V Hk Hv E1) as (V1 & P1 & Pm). destruct (IH t1 t' V1 F' E) as (V' & Le & Eq).
    split; [exact V'|]. cbn [length]. rewrite <- !(map_length fst) in *.
    destruct (eff_prefix t (nseq k)) as [r Er].
    assert (Lq : length (eff t (nseq k)) = (length (nseq k) + length r)%nat) by (rewrite Er; apply app_length).
    destruct Pm as [Pm|Pm]; pose proof (Permutation_length Pm) as Lm; pose proof (total_perm _ _ Pm) as Tm; cbn [length total fold_right] in Lm, Tm; fold (total (map fst (entries t))) in Tm.
    { split; [lia|]. intros Q. lia. }
    split; [lia|]. intros Q. destruct Eq as [Eq1 Eq2]; [lia|]. cbn [ikeys map total fold_right fst]. fold (ikeys l). fold (total (ikeys l)).
    split; [lia|]. intros T. assert (r = []) by (destruct r; [reflexivity|cbn [length] in Lq; lia]). subst r. rewrite app_nil_r in Er.
    intros [|[k0 v0] a] k' v' b Q'; cbn [app] in Q'.
    + injection Q' as <- <- <-. exists t. split; [reflexivity|]. auto.
    + injection Q' as <- <- ->. destruct (Eq2 ltac:(lia) a k' v' b eq_refl) as (t2 & E2 & V2 & Ee). exists t2.
      cbn [trie_extend]. rewrite E1. cbn [bind]. auto.
Qed.

Lemma before_not_ext k x r : ~ before k (k ++ x :: r).
Proof.
  intros [(p & a & b & r1 & s1 & E1 & E2 & L)|(y & c & E)].
  - rewrite E1 in E2. rewrite <- app_assoc in E2. apply app_inv_head in E2. cbn [app] in E2. injection E2 as E2 _. lia.
  - apply (f_equal (@length N)) in E. repeat (rewrite !app_length in E; cbn [length] in E). lia.
Qed.

(** In the items every longer key comes before the shorter one. *)
Lemma split_ext t a k v b x r e : entries t = a ++ (k, v) :: b -> lk t (k ++ x :: r) = Some e -> In (k ++ x :: r, e) a.
Proof.
  intros E L. apply entries_lk in L. rewrite E in L. apply in_app_or in L. destruct L as [L|[L|L]]; [exact L| |].
  - injection L as L _. apply (f_equal (@length N)) in L. rewrite app_length in L. cbn [length] in L. lia.
  - exfalso. pose proof (entries_sorted t) as S. rewrite E in S. clear - S L. induction a as [|e0 a IH]; cbn [app] in S; inversion S as [|? ? S' F]; subst; [|auto].
    rewrite Forall_forall in F. specialize (F _ L). exact (before_not_ext _ _ _ F).
Qed.
Lemma split_new t a k v b : entries t = a ++ (k, v) :: b -> ~ In k (map fst a).
Proof. intros E. pose proof (entries_nodup t) as ND. rewrite E, map_app in ND. cbn [map fst] in ND. apply NoDup_remove_2 in ND. intros I. apply ND, in_or_app. auto. Qed.

Lemma wide_insertable t t1 k : (forall j, stored t1 j -> stored t j) -> (forall x r, stored t (k ++ x :: r) -> lk t1 (k ++ x :: r) = lk t (k ++ x :: r)) ->
  stored t k -> ~ stored t1 k -> ~ narrow t -> insertable t1 k.
Proof.
  intros Sub Ext Sk Nk NN.
  assert (IN : forall f, existsb f (entries t) = false -> forall j, stored t j -> forall e, lk t j = Some e -> f (j, e) = false).
  { intros f E j S e L. destruct (f (j, e)) eqn:Fe; [|reflexivity]. apply entries_lk in L.
    assert (existsb f (entries t) = true) by (apply existsb_exists; eauto). congruence. }
  assert (GET : forall j, stored t j -> exists e, lk t j = Some e) by (intros j S; unfold stored in S; destruct (lk t j); [eauto|congruence]).
  destruct (existsb (fun e => match strip k (fst e) with Some (_ :: _) => true | _ => false end) (entries t)) eqn:E1.
  - apply existsb_exists in E1. destruct E1 as ((j & e) & I & E). cbn [fst] in E. destruct (strip k j) as [[|x r]|] eqn:Es; try discriminate.
    apply strip_some in Es. subst j. apply entries_lk in I. assert (Sx : stored t (k ++ x :: r)) by (unfold stored; congruence).
    destruct (existsb (fun e => match strip k (fst e) with Some (y :: _) => negb (N.eqb x y) | _ => false end) (entries t)) eqn:E2.
    + right. right. left. apply existsb_exists in E2. destruct E2 as ((j & e') & I' & E'). cbn [fst] in E'.
      destruct (strip k j) as [[|y s]|] eqn:Es; try discriminate. apply strip_some in Es. subst j. apply entries_lk in I'.
      assert (Sy : stored t (k ++ y :: s)) by (unfold stored; congruence).
      exists x, y, r, s. split; [intros ->; rewrite N.eqb_refl in E'; discriminate|]. unfold stored. rewrite !Ext by assumption. split; congruence.
    + assert (X : forall y s, stored t (k ++ y :: s) -> y = x).
      { intros y s S. destruct (GET _ S) as [e' L]. pose proof (IN _ E2 _ S _ L) as Q. cbn [fst] in Q. rewrite strip_app in Q.
        destruct (N.eqb_spec x y); [congruence|discriminate]. }
      destruct (existsb (fun e => match strip k (fst e) with Some (y :: s) => negb (key_eqb r s) | _ => false end) (entries t)) eqn:E3.
      * exfalso. apply NN. exists k, x, r. repeat (split; [assumption|]). intros (r' & v' & L' & U).
        apply existsb_exists in E3. destruct E3 as ((j & e') & I' & E'). cbn [fst] in E'.
        destruct (strip k j) as [[|y s]|] eqn:Es; try discriminate. apply strip_some in Es. subst j. apply entries_lk in I'.
        assert (Sy : stored t (k ++ y :: s)) by (unfold stored; congruence). pose proof (X _ _ Sy). subst y.
        pose proof (U _ Sx). pose proof (U _ Sy). subst r s. rewrite key_eqb_refl in E'. discriminate.
      * assert (Y : forall s, stored t (k ++ x :: s) -> s = r).
        { intros s S. destruct (GET _ S) as [e' L]. pose proof (IN _ E3 _ S _ L) as Q. cbn [fst] in Q. rewrite strip_app in Q.
          destruct (key_eqb_spec r s); [congruence|discriminate]. }
        destruct e as [v|h].
        -- right. right. right. exists (k ++ x :: r), v. split; [exists x, r; reflexivity|]. split; [rewrite Ext by exact Sx; exact I|].
           intros j Sj [s ->]. destruct s as [|y s]; [rewrite app_nil_r in Sj; contradiction|]. apply Sub in Sj. pose proof (X _ _ Sj). subst y. rewrite (Y _ Sj). reflexivity.
        -- exfalso. apply NN. exists k, x, r. repeat (split; [assumption|]). intros (r' & v' & L' & U). pose proof (U _ Sx). subst r'. congruence.
  - right. left. intros j Sj (y & s & ->). apply Sub in Sj. destruct (GET _ Sj) as [e L]. pose proof (IN _ E1 _ Sj _ L) as Q. cbn [fst] in Q. rewrite strip_app in Q. discriminate.
Qed.

Lemma stored_nonempty t : forall k, shape t -> lk t k <> Some (Val []).
Proof.
  induction t as [|h0|ch w IH|n c IH|n w] using node_ind'; intros k C; inversion C; subst; cbn [lk].
  - discriminate.
  - destruct k; discriminate.
  - destruct k as [|d k]; [destruct w; discriminate|]. rewrite at_child_nth. destruct (nth_error ch (N.to_nat d)) as [c|] eqn:E; [|discriminate].
    apply nth_error_In in E. rewrite Forall_forall in *. apply IH; auto.
  - destruct (strip (nseq n) k); [apply IH; assumption|discriminate].
  - destruct (key_eqb (nseq n) k); [|discriminate]. intros Q. injection Q as Q. contradiction.
Qed.

Lemma entries_pentry t : wf 64 t -> shape t -> Forall pentry (map item_of (entries t)).
Proof.
  intros W C. apply Forall_map, Forall_forall. intros [k e] I. apply entries_lk in I. destruct (stored_wf t 64 k W ltac:(unfold stored; congruence)) as [A B].
  unfold pentry, item_of. cbn [fst snd]. split; [apply kwf_enc; assumption|]. destruct e as [v|h]; [|exact Logic.I]. cbn.
  intros ->. exact (stored_nonempty t k C I).
Qed.

Lemma hexl_item t k e : wf 64 t -> lk t k = Some e -> nseq (fst (item_of (k, e))) = k.
Proof. intros W L. destruct (stored_wf t 64 k W ltac:(unfold stored; congruence)) as [A B]. cbn [item_of fst]. apply nseq_enc; assumption. Qed.

Lemma from_iter_snoc pr a e t1 : from_iter pr (map item_of a) = Ok t1 ->
  from_iter pr (map item_of (a ++ [e])) = trie_insert pr t1 (fst (item_of e)) (snd e).
Proof.
  intros E1. rewrite map_app. cbn [map]. unfold from_iter in *. destruct e as [k v]. unfold item_of at 2 3. cbn [fst snd].
  pose proof (extend_snoc pr (map item_of a) (enc k) v Empty) as Z. rewrite E1 in Z. exact Z.
Qed.

(** What inserting the first items of [t] into an empty trie builds, if each of them can be inserted. *)
Lemma rebuild_prefix pr t : wf 64 t -> shape t -> ~ narrow t -> forall a b, entries t = a ++ b ->
  exists t1, from_iter pr (map item_of a) = Ok t1 /\ ctrie t1 /\ forall j e, lk t1 j = Some e <-> In (j, e) a.
Proof.
  intros W C NN. induction a as [|[k v] a IH] using rev_ind; intros b E.
  - exists Empty. split; [reflexivity|]. split; [apply ctrie_empty|]. intros j e. split; [discriminate|intros []].
  - rewrite <- app_assoc in E. cbn [app] in E. destruct (IH _ E) as (t1 & E1 & [W1 C1] & P1).
    assert (Lk : lk t k = Some v) by (apply entries_lk; rewrite E; apply in_or_app; right; left; reflexivity).
    assert (Sub : forall j e, lk t1 j = Some e -> lk t j = Some e).
    { intros j e L. apply P1 in L. apply entries_lk. rewrite E. apply in_or_app. auto. }
    assert (Nk : lk t1 k = None).
    { destruct (lk t1 k) as [e|] eqn:Q; [|reflexivity]. apply P1 in Q. exfalso. apply (split_new _ _ _ _ _ E). apply in_map_iff. exists (k, e). auto. }
    assert (In1 : insertable t1 k).
    { apply (wide_insertable t); auto.
      - intros j S. unfold stored in *. destruct (lk t1 j) as [e|] eqn:Q; [rewrite (Sub _ _ Q); discriminate|congruence].
      - intros x r S. unfold stored in S. destruct (lk t (k ++ x :: r)) as [e|] eqn:Q; [|congruence]. apply P1. exact (split_ext _ _ _ _ _ _ _ _ E Q).
      - unfold stored. congruence. }
    apply (eff_insertable t1 64 k W1 C1) in In1.
    pose proof (entries_pentry t W C) as F. rewrite E, map_app in F. apply Forall_app in F. destruct F as [_ F]. cbn [map] in F. apply Forall_inv in F.
    destruct F as [Fk Fv]. pose proof (hexl_item t k v W Lk) as Hk.
    destruct (tinsert pr t1 (fst (item_of (k, v))) v W1 (canon_shape _ C1) Fk Fv) as [(t2 & E2 & (Q1 & _ & _ & Q4 & Q5) & _)|[_ B]]; rewrite Hk in *.
    + exists t2. split; [exact (eq_trans (from_iter_snoc pr a (k, v) t1 E1) E2)|].
      split; [split; auto|]. intros j e. rewrite Q5, In1, in_app_iff. cbn [In]. destruct (key_eqb_spec k j) as [<-|D].
      * split; [intros H; injection H as <-; auto|]. intros [H|[H|[]]]; [apply P1 in H; congruence|congruence].
      * rewrite P1. split; [auto|]. intros [H|[H|[]]]; [exact H|congruence].
    + exfalso. destruct B as [(p & h & Lp & [s Es])|[Hh (j & Sj & [s Es])]].
      * rewrite In1 in Es. destruct s as [|x s]; [rewrite app_nil_r in Es; congruence|].
        apply Sub in Lp. rewrite Es, (below_hash t 64 p h (x :: s) W Lp) in Lk by discriminate. discriminate.
      * destruct v as [v|h]; [destruct Hh|]. destruct s as [|x s]; [rewrite app_nil_r in Es; unfold stored in Sj; congruence|].
        unfold stored in Sj. destruct (lk t1 j) as [e|] eqn:Q; [|congruence]. apply Sub in Q. rewrite Es, (below_hash t 64 k h (x :: s) W Lk) in Q by discriminate. discriminate.
Qed.

Lemma keys_items t : wf 64 t -> ikeys (map item_of (entries t)) = map fst (entries t).
Proof.
  intros W. unfold ikeys. rewrite map_map. apply map_ext_in. intros [k e] I. apply entries_lk in I. exact (hexl_item t k e W I).
Qed.

Lemma rebuilt_wide pr t t' : wf 64 t -> shape t -> from_iter pr (map item_of (entries t)) = Ok t' ->
  (forall j, lk t' j = lk t j) -> ~ narrow t.
Proof.
  intros W C E Same (k & x & r0 & Sk & Sx & X & NU). pose proof (entries_pentry t W C) as F.
  destruct (crun_count pr _ Empty t' ctrie_empty F E) as ([W' C'] & _ & H).
  assert (Pm : Permutation (map fst (entries t')) (map fst (entries t))).
  { apply NoDup_Permutation; try apply entries_nodup. intros j. rewrite !in_keys. unfold stored. rewrite Same. reflexivity. }
  pose proof (Permutation_length Pm) as Lm. rewrite !map_length in Lm.
  rewrite map_length in H. specialize (H Lm). rewrite (keys_items t W) in H. destruct H as [_ H]. specialize (H (total_perm _ _ Pm)).
  assert (Pre : forall a b, entries t = a ++ b -> exists t1, from_iter pr (map item_of a) = Ok t1 /\ ctrie t1 /\ forall j e, lk t1 j = Some e <-> In (j, e) a).
  { induction a as [|[k0 v0] a IH] using rev_ind; intros b Q.
    - exists Empty. split; [reflexivity|]. split; [apply ctrie_empty|]. intros j e. split; [discriminate|intros []].
    - rewrite <- app_assoc in Q. cbn [app] in Q. destruct (IH _ Q) as (t1 & E1 & V1 & P1).
      assert (Lk : lk t k0 = Some v0) by (apply entries_lk; rewrite Q; apply in_or_app; right; left; reflexivity).
      destruct (H (map item_of a) (fst (item_of (k0, v0))) v0 (map item_of b)) as (t1' & E1' & _ & Ee); [rewrite Q, map_app; reflexivity|].
      assert (t1' = t1) by (unfold from_iter in E1; congruence). subst t1'. rewrite (hexl_item t k0 v0 W Lk) in Ee.
      rewrite Q, map_app in F. apply Forall_app in F. destruct F as [_ F]. cbn [map] in F. apply Forall_inv in F. destruct F as [Fk Fv].
      destruct (trie_insert pr t1 (fst (item_of (k0, v0))) v0) as [t2|] eqn:E2.
      + destruct (cstep pr t1 _ v0 t2 V1 Fk Fv E2) as (V2 & P2 & _). rewrite (hexl_item t k0 v0 W Lk) in P2. exists t2.
        split; [exact (eq_trans (from_iter_snoc pr a (k0, v0) t1 E1) E2)|].
        split; [exact V2|]. intros j e. rewrite P2, Ee, in_app_iff. cbn [In]. destruct (key_eqb_spec k0 j) as [<-|D].
        * split; [intros Z; injection Z as <-; auto|]. intros [Z|[Z|[]]]; [|congruence]. exfalso. apply (split_new _ _ _ _ _ Q). apply in_map_iff. exists (k0, e). auto.
        * rewrite P1. split; [auto|]. intros [Z|[Z|[]]]; [exact Z|congruence].
      + exfalso. assert (G : forall m l t0, trie_extend pr t0 (m ++ l) = (t9 <- trie_extend pr t0 m ;; trie_extend pr t9 l)).
        { intros m l. induction m as [|[j w] m IHm]; intros t0; cbn [app trie_extend bind]; [reflexivity|].
          destruct (trie_insert pr t0 j w); cbn [bind]; [apply IHm|reflexivity]. }
        pose proof (from_iter_snoc pr a (k0, v0) t1 E1) as Z. cbn [snd] in Z. rewrite E2 in Z. unfold from_iter in *.
        change ((k0, v0) :: b) with ([(k0, v0)] ++ b) in Q. rewrite Q, app_assoc, map_app, G in E. fold ent in *. unfold ent, item in *. rewrite Z in E. discriminate. }
  unfold stored in Sk. destruct (lk t k) as [v|] eqn:Lk; [|congruence]. pose proof Lk as I. apply entries_lk, in_split in I. destruct I as (a & b & Q).
  destruct (Pre a _ Q) as (t1 & E1 & [W1 C1] & P1).
  destruct (H (map item_of a) (fst (item_of (k, v))) v (map item_of b)) as (t1' & E1' & _ & Ee); [rewrite Q, map_app; reflexivity|].
  assert (t1' = t1) by (unfold from_iter in E1; congruence). subst t1'. rewrite (hexl_item t k v W Lk) in Ee.
  apply (eff_insertable t1 64 k W1 C1) in Ee.
  assert (Ext : forall y s, stored t (k ++ y :: s) -> stored t1 (k ++ y :: s)).
  { intros y s S. unfold stored in *. destruct (lk t (k ++ y :: s)) as [e|] eqn:L; [|congruence]. apply (split_ext _ _ _ _ _ _ _ _ Q) in L. apply P1 in L. congruence. }
  assert (Sub : forall j e, lk t1 j = Some e -> lk t j = Some e).
  { intros j e L. apply P1 in L. apply entries_lk. rewrite Q. apply in_or_app. auto. }
  assert (SubS : forall j, stored t1 j -> stored t j).
  { intros j S. unfold stored in *. destruct (lk t1 j) as [e|] eqn:L; [rewrite (Sub _ _ L); discriminate|congruence]. }
  destruct Ee as [S|[S|[(y & z & r & s & D & S1 & S2)|(k1 & w & (y & r & ->) & L & U)]]].
  - unfold stored in S. destruct (lk t1 k) as [e|] eqn:L; [|congruence]. apply P1 in L. apply (split_new _ _ _ _ _ Q). apply in_map_iff. exists (k, e). auto.
  - apply (S (k ++ x :: r0)); [apply Ext, Sx|exists x, r0; reflexivity].
  - apply SubS, X in S1. apply SubS, X in S2. congruence.
  - pose proof (Sub _ _ L) as L'. assert (y = x) by (apply (X y r); unfold stored; congruence). subst y.
    apply NU. exists r, w. split; [exact L'|]. intros s S. apply Ext in S. specialize (U _ S ltac:(exists (x :: s); reflexivity)).
    apply app_inv_head in U. congruence.
Qed.

Lemma rebuild pr t : wf 64 t -> shape t ->
  ((exists t', from_iter pr (map item_of (entries t)) = Ok t' /\ forall j, lk t' j = lk t j) <-> ~ narrow t).
Proof.
  intros W Sh. split; [intros (t' & E & Same); exact (rebuilt_wide pr t t' W Sh E Same)|]. intros NN.
  destruct (rebuild_prefix pr t W Sh NN (entries t) [] ltac:(rewrite app_nil_r; reflexivity)) as (t1 & E1 & _ & P1).
  exists t1. split; [exact E1|]. intros j. destruct (lk t1 j) as [e|] eqn:L.
  - apply P1, entries_lk in L. auto.
  - destruct (lk t j) as [e|] eqn:L'; [|reflexivity]. apply entries_lk, P1 in L'. congruence.
Qed.

Lemma rebuild_same pr t : wf 64 t -> shape t -> (from_iter pr (map item_of (entries t)) = Ok t <-> canon t /\ ~ narrow t).
Proof.
  intros W Sh. split.
  - intros E. destruct (crun_count pr _ Empty t ctrie_empty (entries_pentry t W Sh) E) as ([_ C] & _). split; [exact C|].
    apply (rebuilt_wide pr t t W Sh E). reflexivity.
  - intros [C NN]. apply (rebuild pr t W Sh) in NN. destruct NN as (t' & E & Same). rewrite E. f_equal.
    destruct (crun_count pr _ Empty t' ctrie_empty (entries_pentry t W Sh) E) as ([W' C'] & _). apply (canon_unique t' 64); auto.
Qed.

(** ** With any fuel *)
Lemma items_are pr t fuel l : wf 64 t -> shape t -> trie_items fuel pr t = Some (Ok l) -> l = map item_of (entries t).
Proof.
  intros W Sh E. pose proof (items_spec pr t W Sh (S (S (nsize t)) + fuel) ltac:(lia)) as G.
  unfold trie_items in *. clear - E G. revert E G. generalize (items_iter t) as st.
  assert (M : forall pr f st r, next f pr st = Some r -> forall f', (f <= f')%nat -> next f' pr st = Some r).
  { intros p f. induction f as [|f IH]; intros st r Q f' Hf; [discriminate|]. destruct f' as [|f']; [lia|]. cbn [next] in *.
    destruct (next_step p st) as [[[st' [it|]]|]|]; auto. apply (IH st' r Q). lia. }
  assert (MC : forall c f st r, collect c f pr st = Some r -> forall c' f', (c <= c')%nat -> (f <= f')%nat -> collect c' f' pr st = Some r).
  { induction c as [|c IH]; intros f st r Q c' f' Hc Hf; [discriminate|]. destruct c' as [|c']; [lia|]. cbn [collect] in *.
    destruct (next f pr st) as [r0|] eqn:En; [|discriminate]. rewrite (M _ _ _ _ En f' Hf).
    destruct r0 as [[st' [it|]]|]; auto.
    destruct (collect c f pr st') as [r1|] eqn:Ec; [|discriminate]. rewrite (IH _ _ _ Ec c' f') by lia. exact Q. }
  intros st E G. rewrite (MC _ _ _ _ E _ (S (S (nsize t)) + fuel)%nat) in G; [|lia|lia]. congruence.
Qed.

(** ** [before] is a strict order *)
Lemma before_cons x a b : before (x :: a) (x :: b) <-> before a b.
Proof.
  split; [|apply (before_app [x])]. intros [(q & y & z & r & s & E1 & E2 & L)|(y & c & E)].
  - destruct q as [|q0 q]; cbn [app] in E1, E2; injection E1 as ? ?; injection E2 as ? ?; subst; [lia|].
    left. exists q, y, z, r, s. auto.
  - cbn [app] in E. injection E as ->. right. exists y, c. reflexivity.
Qed.
Lemma before_heads x y a b : x <> y -> before (x :: a) (y :: b) <-> x < y.
Proof.
  intros D. split.
  - intros [(q & u & v & r & s & E1 & E2 & L)|(u & c & E)].
    + destruct q as [|q0 q]; cbn [app] in E1, E2; injection E1 as ? ?; injection E2 as ? ?; subst; [assumption|congruence].
    + cbn [app] in E. congruence.
  - intros L. left. exists [], x, y, a, b. auto.
Qed.
Lemma before_irrefl a : ~ before a a.
Proof.
  intros [(q & x & y & r & s & E1 & E2 & L)|(x & c & E)].
  - rewrite E1 in E2. apply app_inv_head in E2. injection E2 as -> ->. lia.
  - apply (f_equal (@length N)) in E. rewrite app_length in E. cbn [length] in E. lia.
Qed.
Lemma before_nil_l b : ~ before [] b.
Proof. intros [(q & x & y & r & s & E1 & _)|(x & c & E)]; [destruct q; discriminate|destruct b; discriminate]. Qed.
Lemma before_nil_r a : before a [] <-> a <> [].
Proof.
  split; [intros B ->; exact (before_irrefl [] B)|]. destruct a as [|x a]; [congruence|]. intros _. right. exists x, a. reflexivity.
Qed.
Lemma before_asym a : forall b, before a b -> before b a -> False.
Proof.
  induction a as [|x a IH]; intros b B1 B2; [exact (before_nil_l _ B1)|]. destruct b as [|y b]; [exact (before_nil_l _ B2)|].
  destruct (N.eq_dec x y) as [->|D]; [rewrite before_cons in B1, B2; eauto|].
  rewrite before_heads in B1 by exact D. rewrite before_heads in B2 by congruence. lia.
Qed.
Lemma before_trans a : forall b c, before a b -> before b c -> before a c.
Proof.
  induction a as [|x a IH]; intros b c B1 B2; [destruct (before_nil_l _ B1)|]. destruct c as [|z c]; [apply before_nil_r; discriminate|].
  destruct b as [|y b]; [destruct (before_nil_l _ B2)|].
  destruct (N.eq_dec x y) as [->|D1]; destruct (N.eq_dec y z) as [->|D2].
  - rewrite before_cons in *. eauto.
  - rewrite before_heads in * by exact D2. exact B2.
  - rewrite before_heads in * by exact D1. exact B1.
  - rewrite before_heads in B1 by exact D1. rewrite before_heads in B2 by exact D2. apply before_heads; lia.
Qed.
Lemma before_total a : forall b, a = b \/ before a b \/ before b a.
Proof.
  induction a as [|x a IH]; intros [|y b]; [auto| | |].
  - right. right. apply before_nil_r. discriminate.
  - right. left. apply before_nil_r. discriminate.
  - destruct (N.eq_dec x y) as [->|D].
    + rewrite !before_cons. destruct (IH b) as [->|B]; auto.
    + right. destruct (N.lt_total x y) as [L|[L|L]]; [left|contradiction|right]; apply before_heads; auto.
Qed.
Lemma before_lex a : forall b, length a = length b -> before a b -> lex_compare a b = Lt.
Proof.
  induction a as [|x a IH]; intros b L B; [destruct (before_nil_l _ B)|]. destruct b as [|y b]; [discriminate|]. cbn [lex_compare].
  destruct (N.eq_dec x y) as [->|D].
  - rewrite N.compare_refl. apply IH; [injection L as L; exact L|apply before_cons in B; exact B].
  - apply before_heads in B; [|exact D]. apply N.compare_lt_iff in B. rewrite B. reflexivity.
Qed.

Lemma sorted_unique l : forall m, StronglySorted ebefore l -> StronglySorted ebefore m -> (forall e, In e l <-> In e m) -> l = m.
Proof.
  induction l as [|e l IH]; intros m Sl Sm H.
  - destruct m as [|f m]; [reflexivity|]. destruct (proj2 (H f)); left; reflexivity.
  - destruct m as [|f m]; [destruct (proj1 (H e)); left; reflexivity|].
    inversion Sl as [|? ? Sl' Fl]; inversion Sm as [|? ? Sm' Fm]; subst. rewrite Forall_forall in Fl, Fm.
    assert (e = f).
    { destruct (proj1 (H e)) as [E|E]; [left; reflexivity|auto|]. destruct (proj2 (H f)) as [E'|E']; [left; reflexivity|auto|].
      destruct (before_asym _ _ (Fl _ E') (Fm _ E)). }
    subst f. f_equal. apply IH; auto. intros g. specialize (H g). cbn [In] in H. split; intros I.
    + destruct (proj1 H (or_intror I)) as [<-|J]; [|exact J]. destruct (before_irrefl _ (Fl _ I)).
    + destruct (proj2 H (or_intror I)) as [<-|J]; [|exact J]. destruct (before_irrefl _ (Fm _ I)).
Qed.
Lemma same_entries t t' : (forall k, lk t k = lk t' k) -> entries t = entries t'.
Proof. intros H. apply sorted_unique; try apply entries_sorted. intros [k e]. rewrite !entries_lk, H. reflexivity. Qed.

Lemma sorted_items t : wf 64 t -> StronglySorted (fun a b => before (nseq (fst a)) (nseq (fst b))) (map item_of (entries t)).
Proof.
  intros W. assert (F : Forall (fun e => nseq (fst (item_of e)) = fst e) (entries t)).
  { apply Forall_forall. intros [k e] I. apply entries_lk in I. exact (hexl_item t k e W I). }
  pose proof (entries_sorted t) as S. induction S as [|e l S IH B]; cbn [map]; [constructor|]. inversion F as [|? ? F1 F2]; subst.
  constructor; [auto|]. apply Forall_map. rewrite Forall_forall in *. intros f I. rewrite F1, (F2 _ I). exact (B _ I).
Qed.
