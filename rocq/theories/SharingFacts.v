(** Proofs about sharing: what [insert] and [delete] create. *)
From Verif Require Import Base Nibbles Trie TrieSpec TrieFacts Rlp Hashing Query Diff DiffCache Subset StatsSpec Cache CacheSpec CacheFacts CacheFacts2 CostSpec CostFacts SharingSpec.
Open Scope N_scope.

Lemma inner_kids t : inner t = flat_map parts (kids_of t).
Proof. destruct t; cbn [inner kids_of flat_map]; rewrite ?app_nil_r; reflexivity. Qed.
Lemma parts_eq t : parts t = t :: inner t.
Proof. destruct t; reflexivity. Qed.
Lemma inner_with_cell c t : inner (with_cell c t) = inner t.
Proof. destruct t; reflexivity. Qed.

(** The length of the longest path. *)
Definition most (l : list N) : N := fold_right N.max 0 l.
Fixpoint tall (t : hnode) : N :=
  match t with
  | HBranch _ ch _ => most (map (fun c => 1 + tall c) ch)
  | HExtension _ _ c => 1 + tall c
  | _ => 0
  end.
Lemma most_in (f : hnode -> N) l c : In c l -> f c <= most (map f l).
Proof. induction l as [|x l IH]; [contradiction|]. cbn [map most fold_right]. intros [->|I]; [lia|]. specialize (IH I). unfold most in IH. lia. Qed.
Lemma tall_kid t c : In c (kids_of t) -> 1 + tall c <= tall t.
Proof.
  destruct t as [?|? ?|? ch ?|? ? u|? ? ?]; cbn [kids_of tall]; try contradiction.
  - apply (most_in (fun c => 1 + tall c)).
  - intros [->|[]]. lia.
Qed.
Lemma tall_subnodes t : forall d m, (forall x, In x (subnodes d (erase t)) -> fst x <= m) -> d + tall t <= m.
Proof.
  induction t as [c|c h|c ch v IH|c k t IH|c k v] using hnode_ind'; intros d m H; cbn [erase subnodes tall] in *;
    pose proof (H _ (or_introl eq_refl)) as Hd; cbn [fst] in Hd; try lia.
  - assert (L : forall x, In x (flat_map (subnodes (d + 1)) (map erase ch)) -> fst x <= m) by (intros x I; apply H; right; exact I). clear H.
    induction IH as [|t ch Ht F IHF]; cbn [map most fold_right]; [lia|]. cbn [map flat_map] in L.
    assert (L1 : d + 1 + tall t <= m) by (apply Ht; intros x I; apply L, in_or_app; auto).
    assert (L2 : d + most (map (fun c => 1 + tall c) ch) <= m) by (apply IHF; intros x I; apply L, in_or_app; auto). unfold most in L2. lia.
  - assert (L : d + 1 + tall t <= m) by (apply IH; intros x I; apply H; right; exact I). lia.
Qed.

(** ** Programs that create at most [m] nodes *)
Definition al {A} (m : N) (p : prog A) (s : store) (n : N) (Q : N -> A -> Prop) : Prop :=
  match exec p s n with Ok (x, _, n') => n <= n' <= n + m /\ Q n' x | Panic => True end.
Lemma al_ret {A} m (x : A) s n (Q : N -> A -> Prop) : Q n x -> al m (Ret x) s n Q.
Proof. intros H. unfold al. cbn [exec]. split; [lia|exact H]. Qed.
Lemma al_fail {A} m s n (Q : N -> A -> Prop) : al m Fail s n Q.
Proof. exact I. Qed.
Lemma al_bind {A B} m m1 m2 (p : prog A) (f : A -> prog B) s n Q : m1 + m2 <= m ->
  al m1 p s n (fun n' x => n <= n' -> forall s', al m2 (f x) s' n' Q) -> al m (pbind p f) s n Q.
Proof.
  intros L. unfold al. rewrite exec_pbind. destruct (exec p s n) as [[[x s1] n1]|]; [|auto]. intros [L1 H]. specialize (H (proj1 L1) s1).
  destruct (exec (f x) s1 n1) as [[[y s2] n2]|]; [|auto]. destruct H as [L2 H]. split; [lia|exact H].
Qed.
Lemma al_lift {A B} m (r : res A) (f : A -> prog B) s n Q : (forall x, r = Ok x -> al m (f x) s n Q) -> al m (pbind (lift r) f) s n Q.
Proof. intros H. destruct r as [x|]; [apply H; reflexivity|exact I]. Qed.
Lemma al_mono {A} m m' (p : prog A) s n (Q Q' : N -> A -> Prop) : m' <= m -> al m' p s n Q' -> (forall n' x, n <= n' -> Q' n' x -> Q n' x) -> al m p s n Q.
Proof. unfold al. destruct (exec p s n) as [[[x s1] n1]|]; [|auto]. intros L [L1 H] M. split; [lia|]. apply M; [lia|exact H]. Qed.

Section Kept.
Variable b : N.
Variable P : hnode -> Prop.
(** All old nodes in [x] are nodes of [P]. *)
Definition kept (x : hnode) : Prop := forall u, In u (parts x) -> cell u < b -> P u.
Definition made (x : hnode) : Prop := b <= cell x /\ Forall kept (kids_of x).
Lemma kids_kept t : (forall u, In u (inner t) -> cell u < b -> P u) <-> Forall kept (kids_of t).
Proof.
  rewrite inner_kids, Forall_forall. unfold kept. split.
  - intros H x I u J. apply H. apply in_flat_map. eauto.
  - intros H u I. apply in_flat_map in I. destruct I as (x & I & J). eauto.
Qed.
Lemma made_kept x : made x -> kept x.
Proof. intros [L F] u. rewrite parts_eq. intros [<-|I] C; [lia|]. revert u I C. apply kids_kept, F. Qed.
Lemma kept_kids x : kept x -> Forall kept (kids_of x).
Proof. intros K. apply kids_kept. intros u I. apply K. rewrite parts_eq. right. exact I. Qed.

Lemma al_alloc m (mk : N -> hnode) s n (Q : N -> hnode -> Prop) : 1 <= m -> b <= n -> (forall c, cell (mk c) = c) -> Forall kept (kids_of (mk n)) ->
  (forall x, made x -> Q (n + 1) x) -> al m (Alloc (fun c => Ret (mk c))) s n Q.
Proof. intros L L' C F H. unfold al. cbn [exec]. split; [lia|]. apply H. split; [rewrite C; exact L'|exact F]. Qed.
Lemma al_empties m s n (Q : N -> list hnode -> Prop) : b <= n -> (forall l, Forall kept l -> Q (n + N.of_nat m) l) -> al (N.of_nat m) (hempties m) s n Q.
Proof.
  revert s n Q. induction m as [|m IH]; intros s n Q L H; cbn [hempties]; [apply al_ret; replace n with (n + N.of_nat 0) by lia; apply H; constructor|].
  apply (al_bind _ 1 (N.of_nat m)); [lia|]. apply (al_alloc 1 HEmpty); [lia|exact L|reflexivity|constructor|]. intros x Mx _ s1.
  rewrite <- (N.add_0_r (N.of_nat m)). apply (al_bind _ (N.of_nat m) 0); [lia|]. apply IH; [lia|]. intros l F _ s2. apply al_ret.
  replace (n + 1 + N.of_nat m) with (n + N.of_nat (S m)) by lia. apply H. constructor; [apply made_kept, Mx|exact F].
Qed.
Lemma kept_set l : forall i c, Forall kept l -> kept c -> Forall kept (set_hchild l i c).
Proof. induction l as [|x l IH]; intros [|i] c F K; cbn [set_hchild]; inversion F; subst; constructor; auto. Qed.
Lemma al_hchild {A} m (f : hnode -> prog A) s n Q l : forall i,
  (forall c, In c l -> al m (f c) s n Q) -> al m (with_hchild f l i) s n Q.
Proof. induction l as [|x l IH]; intros [|i] H; cbn [with_hchild]; try exact I; [apply H; left; reflexivity|apply IH; intros c Ic; apply H; right; exact Ic]. Qed.

(** ** Insert *)
Lemma al_create k v s n (Q : N -> hnode -> Prop) : b <= n -> (forall n' x, made x -> Q n' x) -> al 2 (hcreate_node_from_insert_val k v) s n Q.
Proof.
  intros L H. unfold hcreate_node_from_insert_val. destruct v as [v|h].
  - apply (al_alloc 2 (fun c => HLeaf c k v)); [lia|exact L|reflexivity|constructor|]. intros x M. apply H, M.
  - destruct (is_empty k); [apply (al_alloc 2 (fun c => HHash c h)); [lia|exact L|reflexivity|constructor|]; intros x M; apply H, M|].
    apply (al_bind _ 1 1); [lia|]. apply (al_alloc 1 (fun c => HHash c h)); [lia|exact L|reflexivity|constructor|]. intros x M _ s1.
    apply (al_alloc 1 (fun c => HExtension c k x)); [lia|lia|reflexivity|repeat constructor; apply made_kept, M|]. intros y My. apply H, My.
Qed.
Variable pr : profile.
Definition entry_kept (p : hplacement) : Prop :=
  match p with HBranchValue _ (_, x) => kept x | HBothBranchChildren (_, x) (_, y) => kept x /\ kept y end.
Lemma al_entry info k v s n (Q : N -> N * hnode -> Prop) : b <= n -> (forall n' i x, made x -> Q n' (i, x)) -> al 2 (hins_entry_into_leaf_and_nibble pr info k v) s n Q.
Proof.
  intros L H. unfold hins_entry_into_leaf_and_nibble. apply al_lift. intros f _. apply al_lift. intros n1 _. apply al_lift. intros k' _.
  apply (al_bind _ 2 0); [lia|]. apply al_create; [exact L|]. intros n' x M _ s1. apply al_ret. apply H, M.
Qed.
Lemma al_placement info e k v s n (Q : N -> hplacement -> Prop) : b <= n -> kept e -> (forall n' p, entry_kept p -> Q n' p) -> al 2 (hcheck_placement pr info e k v) s n Q.
Proof.
  intros L K H. unfold hcheck_placement.
  assert (O : al 2 (if count (new_postfix info) =? 0 then
      bv <~ lift (expect_val v) ;;
      e0 <~ lift (get_nibble pr (existing_postfix info) 0) ;;
      Ret (HBranchValue bv (e0, e))
    else
      e0 <~ lift (get_nibble pr (existing_postfix info) 0) ;;
      c2 <~ hins_entry_into_leaf_and_nibble pr info k v ;;
      Ret (HBothBranchChildren (e0, e) c2)) s n Q).
  { destruct (count (new_postfix info) =? 0).
    - apply al_lift. intros bv _. apply al_lift. intros e0 _. apply al_ret, H. exact K.
    - apply al_lift. intros e0 _. apply (al_bind _ 2 0); [lia|]. apply al_entry; [exact L|]. intros n' i x M _ s1. apply al_ret, H. split; [exact K|apply made_kept, M]. }
  destruct (count (existing_postfix info) =? 0); [|exact O]. destruct e; try exact O.
  apply (al_bind _ 2 0); [lia|]. apply al_entry; [exact L|]. intros n' i x M _ s1. apply al_ret, H. apply made_kept, M.
Qed.
Lemma al_place info e k v s n : b <= n -> kept e -> al 20 (hplace_branch pr info e k v) s n (fun _ => made).
Proof.
  intros L K. unfold hplace_branch, hnew_branch_child_arr. apply (al_bind _ 16 4); [lia|]. apply (al_empties 16 s n); [exact L|]. intros ch F _ s1.
  apply (al_bind _ 2 2); [lia|]. apply al_placement; [lia|exact K|]. intros n2 p Kp L2 s2. apply (al_bind _ 1 1); [lia|].
  assert (E : forall n3 x, made x -> n2 <= n3 -> forall s', al 1 (if count (common_prefix info) =? 0 then Ret x else hextension (common_prefix info) x) s' n3 (fun _ => made)).
  { intros n3 x M L3 s'. destruct (count (common_prefix info) =? 0); [apply al_ret, M|]. 
    apply (al_alloc 1 (fun c => HExtension c (common_prefix info) x)); [lia|lia|reflexivity|repeat constructor; apply made_kept, M|auto]. }
  destruct p as [bv [i x]|[i x] [j y]]; cbn [entry_kept] in Kp.
  - apply (al_alloc 1 (fun c => HBranch c (set_hchild ch (N.to_nat i) x) bv)); [lia|lia|reflexivity|apply kept_set; assumption|]. intros y M. apply E, M.
  - apply (al_alloc 1 (fun c => HBranch c (set_hchild (set_hchild ch (N.to_nat i) x) (N.to_nat j) y) [])); [lia|lia|reflexivity| |].
    + apply kept_set; [apply kept_set; tauto|tauto].
    + intros z M. apply E, M.
Qed.
Lemma al_insert t : forall k v s n, b <= n -> Forall kept (kids_of t) -> al (tall t + 21) (hinsert_rec pr t k v) s n (fun _ => made).
Proof.
  induction t as [c|c h|c ch val IH|c m t IH|c m val] using hnode_ind'; intros k v s n L F; cbn [hinsert_rec].
  - apply (al_mono _ 2 _ _ _ _ (fun _ => made)); [lia| |auto]. apply al_create; auto.
  - exact I.
  - destruct (count k =? 0).
    + unfold hcreate_node_if_ins_val_not_hash. destruct v as [v|h]; [|exact I]. apply (al_alloc _ (fun c => HBranch c ch v)); [lia|exact L|reflexivity|exact F|auto].
    + apply al_lift. intros [nib k'] _. cbn [kids_of] in F. destruct ch as [|c0 ch0] eqn:Ech; [exact I|]. rewrite <- Ech in *. 
      assert (T1 : 1 <= tall (HBranch c ch val)) by (assert (In c0 ch) by (rewrite Ech; left; reflexivity); pose proof (tall_kid (HBranch c ch val) c0 H); lia).
      apply (al_bind _ (tall (HBranch c ch val) - 1 + 21) 1); [lia|]. apply al_hchild. intros w Iw. rewrite Forall_forall in IH, F. pose proof (tall_kid (HBranch c ch val) w Iw).
      eapply al_mono; [|apply IH; [exact Iw|exact L|apply kept_kids, F, Iw]|]; [lia|]. intros n1 x L1 M _ s1.
      apply (al_alloc _ (fun c => HBranch c (set_hchild ch (N.to_nat nib) x) val)); [lia|lia|reflexivity|apply kept_set; [apply Forall_forall, F|apply made_kept, M]|auto].
  - apply al_lift. intros info _. apply al_lift. intros same _. cbn [kids_of] in F. inversion F as [|? ? Kt _]; subst. cbn [tall]. destruct same.
    + apply al_lift. intros k' _. apply (al_bind _ (tall t + 21) 1); [lia|]. eapply al_mono; [|apply IH; [exact L|apply kept_kids, Kt]|]; [lia|]. intros n1 x L1 M _ s1.
      apply (al_alloc _ (fun c => HExtension c m x)); [lia|lia|reflexivity|repeat constructor; apply made_kept, M|auto].
    + apply al_lift. intros adj _. apply (al_bind _ 1 20); [lia|]. destruct (count adj =? 0).
      * apply al_ret. intros _ s1. apply al_place; assumption.
      * apply (al_alloc _ (fun c => HExtension c adj t)); [lia|exact L|reflexivity|repeat constructor; exact Kt|]. intros x M _ s1. apply al_place; [lia|apply made_kept, M].
  - destruct (nib_eqb m k).
    + unfold hcreate_node_if_ins_val_not_hash. destruct v as [v|h]; [|exact I]. apply (al_alloc _ (fun c => HLeaf c m v)); [lia|exact L|reflexivity|constructor|auto].
    + apply al_lift. intros info _. apply al_lift. intros n1 _. apply al_lift. intros l' _. apply (al_bind _ 1 20); [lia|].
      apply (al_alloc _ (fun c => HLeaf c l' val)); [lia|exact L|reflexivity|constructor|]. intros x M _ s1. apply al_place; [lia|apply made_kept, M].
Qed.

(** ** Delete *)
Lemma al_collapse m x s n : b <= n -> kept x -> al 1 (hcollapse_ext_node_if_needed pr m x) s n (fun _ => made).
Proof.
  intros L K. pose proof (kept_kids x K) as F. destruct x as [c|c h|c ch v|c k t|c k v]; cbn [hcollapse_ext_node_if_needed]; [exact I| | | |].
  - apply (al_alloc _ (fun c' => HExtension c' m (HHash c h))); [lia|exact L|reflexivity|repeat constructor; exact K|auto].
  - apply (al_alloc _ (fun c' => HExtension c' m (HBranch c ch v))); [lia|exact L|reflexivity|repeat constructor; exact K|auto].
  - apply al_lift. intros m' _. apply (al_alloc _ (fun c' => HExtension c' m' t)); [lia|exact L|reflexivity|exact F|auto].
  - apply al_lift. intros m' _. apply (al_alloc _ (fun c' => HLeaf c' m' v)); [lia|exact L|reflexivity|constructor|auto].
Qed.
Lemma al_try x s n : b <= n -> made x -> al 1 (htry_collapse_if_extension pr x) s n (fun _ => made).
Proof.
  intros L M. destruct x as [c|c h|c ch v|c k t|c k v]; cbn [htry_collapse_if_extension]; try (apply al_ret, M).
  apply al_collapse; [exact L|]. destruct M as [_ F]. cbn [kids_of] in F. inversion F; assumption.
Qed.
Lemma other_in l : forall i j r, hget_other_non_empty_child i l j = Some r -> In (snd r) l.
Proof.
  induction l as [|x l IH]; intros i j r E; cbn [hget_other_non_empty_child] in E; [discriminate|].
  destruct (_ && _); [injection E as <-; left; reflexivity|right; eapply IH, E].
Qed.
Lemma al_delete t : forall k s n, b <= n -> Forall kept (kids_of t) ->
  al (2 * tall t + 1) (hdelete_intern pr t k) s n (fun _ r => match r with Some (x, _) => made x | None => True end).
Proof.
  induction t as [c|c h|c ch val IH|c m t IH|c m val] using hnode_ind'; intros k s n L F; cbn [hdelete_intern].
  - apply al_ret. exact I.
  - exact I.
  - destruct (is_empty k).
    + apply (al_bind _ 1 0); [lia|]. apply (al_alloc _ (fun c => HBranch c ch [])); [lia|exact L|reflexivity|exact F|]. intros x M _ s1. apply al_ret, M.
    + apply al_lift. intros [nib k'] _. cbn [kids_of] in F. destruct ch as [|c0 ch0] eqn:Ech; [exact I|]. rewrite <- Ech in *. 
      assert (T1 : 1 <= tall (HBranch c ch val)) by (assert (In c0 ch) by (rewrite Ech; left; reflexivity); pose proof (tall_kid (HBranch c ch val) c0 H); lia).
      apply (al_bind _ (2 * (tall (HBranch c ch val) - 1) + 1) 2); [lia|]. apply al_hchild. intros w Iw. rewrite Forall_forall in IH, F. pose proof (tall_kid (HBranch c ch val) w Iw).
      eapply al_mono; [|apply IH; [exact Iw|exact L|apply kept_kids, F, Iw]|]; [lia|]. intros n1 [[x d]|] L1 M _ s1; [|apply al_ret; exact I].
      destruct (_ && _).
      * destruct (hget_other_non_empty_child 0 ch (N.to_nat nib)) as [[i u]|] eqn:E; [|exact I]. apply other_in in E. cbn [snd] in E.
        apply al_lift. intros n' _. apply (al_bind _ 1 0); [lia|]. apply (al_alloc _ (fun c => HExtension c n' u)); [lia|lia|reflexivity|repeat constructor; apply F, E|].
        intros y My _ s2. apply al_ret, My.
      * apply (al_bind _ 1 1); [lia|]. eapply al_mono; [|apply al_try; [|exact M]|]; [lia|lia|]. intros n2 y L2 My _ s2. apply (al_bind _ 1 0); [lia|].
        apply (al_alloc _ (fun c => HBranch c (set_hchild ch (N.to_nat nib) y) val)); [lia|lia|reflexivity|apply kept_set; [apply Forall_forall, F|apply made_kept, My]|].
        intros z Mz _ s3. apply al_ret, Mz.
  - apply al_lift. intros same _. cbn [kids_of] in F. inversion F as [|? ? Kt _]; subst. cbn [tall]. destruct same; [|apply al_ret; exact I].
    apply al_lift. intros k' _. apply (al_bind _ (2 * tall t + 1) 2); [lia|]. eapply al_mono; [|apply IH; [exact L|apply kept_kids, Kt]|]; [lia|].
    intros n1 [[x d]|] L1 M _ s1; [|apply al_ret; exact I]. apply (al_bind _ 1 1); [lia|]. eapply al_mono; [|apply al_collapse; [|apply made_kept, M]|]; [lia|lia|].
    intros n2 y L2 My _ s2. apply al_ret, My.
  - destruct (nib_eqb m k); [|apply al_ret; exact I]. apply (al_bind _ 1 0); [lia|]. apply (al_alloc _ HEmpty); [lia|exact L|reflexivity|constructor|].
    intros x M _ s1. apply al_ret, M.
Qed.
End Kept.

Lemma shares_made n t x : Forall (kept n (fun u => In u (inner t))) (kids_of x) -> shares n t (with_cell (cell t) x).
Proof. intros F u I. rewrite inner_with_cell in I. revert u I. apply kids_kept, F. Qed.
Lemma kids_self n t : Forall (kept n (fun u => In u (inner t))) (kids_of t).
Proof. apply kids_kept. auto. Qed.

Theorem insert_shares pr t k v s n t' s' n' : exec (hinsert pr t k v) s n = Ok (t', s', n') -> n <= n' <= n + tall t + 21 /\ shares n t t' /\ cell t' = cell t.
Proof.
  intros E. unfold hinsert, htrie_insert in E. rewrite !exec_pbind in E. pose proof (al_insert n (fun u => In u (inner t)) pr t k v s n (N.le_refl n) (kids_self n t)) as A.
  unfold al in A. destruct (exec (hinsert_rec pr t k v) s n) as [[[x s1] n1]|]; [|discriminate]. cbn [exec] in E. injection E as <- <- <-. destruct A as [L [_ F]].
  split; [lia|]. split; [apply shares_made, F|]. destruct x; reflexivity.
Qed.
Theorem delete_shares pr t k s n t' d s' n' : exec (hdelete pr t k) s n = Ok ((t', d), s', n') -> n <= n' <= n + 2 * tall t + 2 /\ shares n t t' /\ cell t' = cell t.
Proof.
  intros E. unfold hdelete, htrie_delete in E. rewrite !exec_pbind in E. pose proof (al_delete n (fun u => In u (inner t)) pr t k s n (N.le_refl n) (kids_self n t)) as A.
  unfold al in A. destruct (exec (hdelete_intern pr t k) s n) as [[[[[x w]|] s1] n1]|]; [| |discriminate]; cbn [exec] in E.
  - rewrite exec_pbind in E. destruct A as [L M]. assert (L' : n <= n1) by lia. pose proof (al_try n (fun u => In u (inner t)) pr x s1 n1 L' M) as B. unfold al in B.
    destruct (exec (htry_collapse_if_extension pr x) s1 n1) as [[[y s2] n2]|]; [|discriminate]. cbn [exec] in E. injection E as <- <- <- <-. destruct B as [L2 [_ F]].
    split; [lia|]. split; [apply shares_made, F|]. destruct y; reflexivity.
  - injection E as <- <- <- <-. split; [lia|]. split; [intros u I _; exact I|reflexivity].
Qed.

(** ** Extend *)
Lemma extend_shares pr l : forall t s n t' s' n', exec (htrie_extend pr t l) s n = Ok (t', s', n') -> n <= n' /\ shares n t t' /\ cell t' = cell t.
Proof.
  induction l as [|[k v] l IH]; intros t s n t' s' n' E; cbn [htrie_extend] in E.
  - injection E as <- <- <-. split; [lia|]. split; [intros u I _; exact I|reflexivity].
  - rewrite exec_pbind in E. destruct (exec (htrie_insert pr t k v) s n) as [[[t1 s1] n1]|] eqn:E1; [|discriminate].
    assert (E2 : exec (hinsert pr t k v) s n = Ok (t1, update s1 (cell t) None, n1)) by (unfold hinsert; rewrite exec_pbind, E1; reflexivity).
    destruct (insert_shares _ _ _ _ _ _ _ _ _ E2) as (L1 & S1 & C1). destruct (IH _ _ _ _ _ _ E) as (L2 & S2 & C2). split; [lia|]. split; [|congruence].
    intros u I C. apply S1; [|exact C]. apply S2; [exact I|lia].
Qed.

(** ** Reading creates nothing *)
Fixpoint makes_none {A} (p : prog A) : Prop :=
  match p with
  | Ret _ | Fail => True
  | Read _ k => forall o, makes_none (k o)
  | Write _ _ p' => makes_none p'
  | Alloc _ => False
  end.
Lemma makes_none_exec {A} (p : prog A) : forall s n x s' n', makes_none p -> exec p s n = Ok (x, s', n') -> n' = n.
Proof.
  induction p as [x| |c k IH|c o p IH|k IH]; intros s n y s' n' M E; cbn [exec makes_none] in *; try discriminate; try contradiction.
  - congruence.
  - eapply IH; eauto.
  - eapply IH; eauto.
Qed.
Lemma makes_none_bind {A B} (p : prog A) (f : A -> prog B) : makes_none p -> (forall x, makes_none (f x)) -> makes_none (pbind p f).
Proof. induction p as [x| |c k IH|c o p IH|k IH]; intros M H; cbn [pbind makes_none] in *; auto. Qed.
Lemma makes_none_lift {A B} (r : res A) (f : A -> prog B) : (forall x, makes_none (f x)) -> makes_none (pbind (lift r) f).
Proof. intros H. destruct r; [apply H|exact I]. Qed.
Section Reading.
Variable keccak : list N -> list N.
Variable pr : profile.
Lemma intern_none t : makes_none (encode_node keccak pr t) -> makes_none (hash_intern keccak pr t).
Proof. intros H. rewrite hash_intern_eq. cbn [makes_none]. intros [h|]; [exact I|]. apply makes_none_bind; [exact H|]. intros [x|x]; exact I. Qed.
Lemma encode_none t : makes_none (encode_node keccak pr t).
Proof.
  induction t as [c|c h|c ch v IH|c k t IH|c k v] using hnode_ind'; cbn [encode_node]; try exact I.
  - apply makes_none_bind.
    + generalize new_list as st. induction IH as [|t ch Ht F IHF]; intros st; cbn [hash_children]; [exact I|]. apply makes_none_bind; [apply intern_none, Ht|]. intros e. apply IHF.
    + intros st. apply makes_none_lift. intros x. exact I.
  - apply makes_none_lift. intros hp. apply makes_none_bind; [apply intern_none, IH|]. intros e. apply makes_none_lift. intros x. exact I.
  - apply makes_none_lift. intros hp. apply makes_none_lift. intros x. exact I.
Qed.
Lemma hash_none t : makes_none (hhash_of keccak pr t).
Proof. unfold hhash_of. cbn [makes_none]. intros [h|]; [exact I|]. apply makes_none_bind; [apply encode_none|]. intros e. exact I. Qed.
Lemma longest_none field a b st : makes_none (hreplace_longest keccak pr field a b st).
Proof.
  unfold hreplace_longest. destruct (match field with Some _ => _ | None => _ end); [|exact I]. apply makes_none_bind; [|intros x; exact I].
  unfold hdiff_point_new. apply makes_none_lift. intros ak. apply makes_none_lift. intros bk.
  apply makes_none_bind; [unfold hnode_info_new; apply makes_none_bind; [apply hash_none|intros x; exact I]|]. intros ai.
  apply makes_none_bind; [unfold hnode_info_new; apply makes_none_bind; [apply hash_none|intros x; exact I]|]. intros bi. exact I.
Qed.
Lemma from_hashes_none ha hb a b st ds : makes_none (hfrom_hashes keccak pr ha hb a b st ds).
Proof.
  unfold hfrom_hashes. destruct (bytes_eqb ha hb); [exact I|]. apply makes_none_bind; [|intros x; exact I]. unfold hupdate_hash. apply makes_none_bind; [apply longest_none|]. intros x. exact I.
Qed.
Lemma gen_hashes_none a b st ds : makes_none (hfrom_gen_hashes keccak pr a b st ds).
Proof. unfold hfrom_gen_hashes. apply makes_none_bind; [apply hash_none|]. intros x. apply makes_none_bind; [apply hash_none|]. intros y. apply from_hashes_none. Qed.
Lemma find_none a : forall b st ds, makes_none (hfind_latest_rec keccak pr a b st ds).
Proof.
  induction a as [c|c h|c ach av IH|c an ac IH|c an av] using hnode_ind'; intros b st ds; cbn [hfind_latest_rec];
    (apply makes_none_bind; [apply hash_none|]; intros ha; apply makes_none_bind; [apply hash_none|]; intros hb;
     destruct (bytes_eqb ha hb); [exact I|]; destruct (_ && _);
     [apply makes_none_bind; [unfold hupdate_node; apply makes_none_bind; [apply longest_none|intros x; exact I]|intros x; exact I]|]).
  all: destruct b as [c1|c1 h1|c1 bch bv|c1 bn bc|c1 bn bv]; try exact I.
  - apply makes_none_lift. intros st1. apply from_hashes_none.
  - apply makes_none_bind.
    + generalize (erase (HBranch c ach av)) as whole. intros whole. generalize NoDiffDetected as fd. generalize 0 as i.
      revert bch ds. induction IH as [|t ach Ht F IHF]; intros bch ds i fd; [exact I|]. destruct bch as [|u bch]; [exact I|].
      apply makes_none_lift. intros n0. apply makes_none_lift. intros st1. apply makes_none_bind; [apply Ht|]. intros [r d]. apply IHF.
    + intros [[] d]; try exact I; apply gen_hashes_none.
  - apply makes_none_lift. intros st1. apply IH.
  - apply gen_hashes_none.
Qed.
Lemma differ_none a b : makes_none (hcreate_diff keccak pr a b).
Proof. unfold hcreate_diff. apply makes_none_bind; [apply find_none|]. intros [r ds]. exact I. Qed.
End Reading.
