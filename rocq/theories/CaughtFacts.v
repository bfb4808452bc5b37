(** Facts about caught panics. *)
From Verif Require Import Base Nibbles Trie TrieFacts Rlp Hashing Query Diff Serde DiffCache Subset SubsetFacts Cache CacheSpec CacheFacts FailFacts ReloadFacts DiffCacheFacts CacheFacts2 CacheFacts3 Caught.
Open Scope N_scope.

Lemma with_child_panic {A} (f : node -> res A) ch i :
  with_child f (map erase ch) i = Panic ->
  (forall B (g : hnode -> prog B), with_hchild g ch i = Fail) \/
  exists c, In c ch /\ f (erase c) = Panic /\ forall B (g : hnode -> prog B), with_hchild g ch i = g c.
Proof.
  revert i. induction ch as [|c ch IH]; intros [|i] E; cbn [map with_child] in E.
  - left. reflexivity.
  - left. reflexivity.
  - right. exists c. split; [left; reflexivity|]. split; [exact E|reflexivity].
  - destruct (IH i E) as [G|(c' & I1 & E1 & G)]; [left; exact G|right].
    exists c'. split; [right; exact I1|]. split; [exact E1|exact G].
Qed.

Section Fails.
Variable pr : profile.
Variable hv : node -> option (list N) * bool -> Prop.
Hypothesis hv_ex : forall t, exists o, hv t o.
Notation coh := (coh hv).
Notation kids := (kids hv).

(** ** Insert *)
Lemma fails_ins_entry info k v b V :
  ins_entry_into_leaf_and_nibble pr info k v = Panic -> fails (hins_entry_into_leaf_and_nibble pr info k v) b V.
Proof.
  unfold ins_entry_into_leaf_and_nibble, hins_entry_into_leaf_and_nibble. intros E.
  pbindE E. pbindE E. pbindE E. discriminate.
Qed.

Lemma fails_place info existing k v b V :
  coh b V existing -> place_branch pr info (erase existing) k v = Panic -> fails (hplace_branch pr info existing k v) b V.
Proof.
  unfold place_branch, hplace_branch. intros C E.
  destruct (check_placement pr info (erase existing) k v) as [a|] eqn:E0; cbn [bind] in E; [discriminate|]. clear E.
  eapply fails_r; [apply (wp_hempties hv hv_ex) with (Q := fun _ b' V' => ext b V b' V'); auto|].
  intros ch b1 V1 _ X1. apply fails_l.
  assert (O : (if count (new_postfix info) =? 0 then
                 bv <- expect_val v ;; e0 <- get_nibble pr (existing_postfix info) 0 ;; Ok (BranchValue bv (e0, erase existing))
               else e0 <- get_nibble pr (existing_postfix info) 0 ;;
                    c2 <- ins_entry_into_leaf_and_nibble pr info k v ;; Ok (BothBranchChildren (e0, erase existing) c2)) = Panic ->
     fails (if count (new_postfix info) =? 0 then
                 bv <~ lift (expect_val v) ;; e0 <~ lift (get_nibble pr (existing_postfix info) 0) ;;
                 Ret (HBranchValue bv (e0, existing))
               else e0 <~ lift (get_nibble pr (existing_postfix info) 0) ;;
                    c2 <~ hins_entry_into_leaf_and_nibble pr info k v ;; Ret (HBothBranchChildren (e0, existing) c2)) b1 V1).
  { intros EO. destruct (count (new_postfix info) =? 0).
    - pbindE EO. pbindE EO. discriminate.
    - pbindE EO. pbindE EO; [discriminate|]. apply fails_l, fails_ins_entry. assumption. }
  unfold check_placement, hcheck_placement in *. destruct (count (existing_postfix info) =? 0); [|apply O; assumption].
  destruct existing as [c|c h|c ch' v'|c n t'|c n v']; cbn [erase] in *; try (apply O; assumption).
  pbindE E0; [discriminate|]. apply fails_l, fails_ins_entry. assumption.
Qed.

Lemma fails_hinsert_rec t : forall k v b V,
  kids b V t -> insert_rec pr (erase t) k v = Panic -> fails (hinsert_rec pr t k v) b V.
Proof.
  induction t as [c|c h|c ch val IH|c n t IH|c n val] using hnode_ind'; intros k v b V K E;
    cbn [hinsert_rec erase insert_rec] in *.
  - discriminate.
  - apply fails_fail.
  - apply kids_branch in K. destruct (count k =? 0).
    + destruct v as [v|h]; cbn in E; [discriminate|]. apply (fails_fail b V).
    + pbindE E. destruct a as [nib k']. pbindE E; [discriminate|].
      destruct (with_child_panic _ _ _ Ea0) as [G|(u & I & Eu & G)]; rewrite G; [apply fails_fail|].
      apply fails_l. eapply (proj1 (Forall_forall _ _) IH u I); [|exact Eu].
      apply coh_kids. rewrite Forall_forall in K. auto.
  - apply kids_extension in K. pbindE E. pbindE E. destruct a0.
    + pbindE E. pbindE E; [discriminate|]. apply fails_l. apply IH; [apply coh_kids, K|assumption].
    + pbindE E. destruct (count a0 =? 0).
      * apply fails_place; assumption.
      * eapply fails_r; [apply (wp_hextension hv hv_ex) with (Q := fun u b' V' => ext b V b' V' /\ coh b' V' u /\ erase u = Extension a0 (erase t)); [exact K|]|].
        { intros u b1 V1 X1 C1 R1. auto. }
        intros u b1 V1 _ (X1 & C1 & R1). apply fails_place; [exact C1|]. rewrite R1. exact E.
  - destruct (nib_eqb n k).
    + destruct v as [v|h]; cbn in E; [discriminate|]. apply (fails_fail b V).
    + pbindE E. pbindE E. pbindE E.
      eapply fails_r; [apply (wp_hleaf hv hv_ex) with (Q := fun u b' V' => ext b V b' V' /\ coh b' V' u /\ erase u = Leaf a1 val)|].
      { intros u b1 V1 X1 C1 R1. auto. }
      intros u b1 V1 _ (X1 & C1 & R1). apply fails_place; [exact C1|]. rewrite R1. exact E.
Qed.

Lemma fails_htrie_insert t k v b V :
  kids b V t -> trie_insert pr (erase t) k v = Panic -> fails (htrie_insert pr t k v) b V.
Proof. intros K E. apply fails_l, fails_hinsert_rec; assumption. Qed.
Lemma fails_hinsert t k v b V :
  kids b V t -> trie_insert pr (erase t) k v = Panic -> fails (hinsert pr t k v) b V.
Proof. intros K E. apply fails_l, fails_htrie_insert; assumption. Qed.

Lemma fails_htrie_extend l : forall t b V,
  kids b V t -> trie_extend pr (erase t) l = Panic -> fails (htrie_extend pr t l) b V.
Proof.
  induction l as [|[k v] l IH]; intros t b V K E; cbn [htrie_extend trie_extend] in *; [discriminate|].
  pbindE E.
  - eapply fails_r; [eapply (wp_htrie_insert pr hv hv_ex) with (Q := fun u b' V' => kids b' V' u /\ erase u = a);
      [exact K|eassumption|]|]. { intros u b1 V1 X1 K1 C1 R1. auto. }
    intros u b1 V1 X1 (K1 & R1). apply IH; [exact K1|]. rewrite R1. exact E.
  - apply fails_l, fails_htrie_insert; assumption.
Qed.
Lemma fails_hextend t l b V :
  kids b V t -> trie_extend pr (erase t) l = Panic -> fails (hextend pr t l) b V.
Proof. intros K E. apply fails_l, fails_htrie_extend; assumption. Qed.

(** ** Delete *)
Lemma fails_collapse n t b V :
  collapse_ext_node_if_needed pr n (erase t) = Panic -> fails (hcollapse_ext_node_if_needed pr n t) b V.
Proof.
  intros E. destruct t as [c|c h|c ch v|c m u|c m v]; cbn [hcollapse_ext_node_if_needed erase collapse_ext_node_if_needed] in *;
    try discriminate.
  - apply fails_fail.
  - pbindE E. discriminate.
  - pbindE E. discriminate.
Qed.
Lemma fails_try_collapse t b V :
  try_collapse_if_extension pr (erase t) = Panic -> fails (htry_collapse_if_extension pr t) b V.
Proof.
  intros E. destruct t as [c|c h|c ch v|c m u|c m v]; cbn [htry_collapse_if_extension erase try_collapse_if_extension] in *; try discriminate.
  apply fails_collapse, E.
Qed.

Lemma fails_hdelete_intern t : forall k b V,
  kids b V t -> delete_intern pr (erase t) k = Panic -> fails (hdelete_intern pr t k) b V.
Proof.
  induction t as [c|c h|c ch val IH|c n t IH|c n val] using hnode_ind'; intros k b V K E;
    cbn [hdelete_intern erase delete_intern] in *.
  - discriminate.
  - apply fails_fail.
  - apply kids_branch in K. destruct (is_empty k); [discriminate|].
    pbindE E. destruct a as [nib k']. pbindE E.
    + destruct (with_child_map _ _ _ _ Ea0) as (u & I & Eu & G). rewrite G.
      assert (Ku : kids b V u) by (apply coh_kids; rewrite Forall_forall in K; auto).
      destruct a as [[x d]|]; [|discriminate].
      eapply fails_r; [eapply (wp_hdelete_intern pr hv hv_ex) with
        (Q := fun r b' V' => exists t', r = Some (t', d) /\ erase t' = x); [exact Ku|exact Eu|]|].
      { intros t' b1 V1 X1 C1 R1. eauto. }
      intros r b1 V1 X1 (t' & -> & R1). rewrite hnode_is_empty_erase, num_children_erase, R1.
      destruct (node_is_empty x && (get_num_non_empty_children (map erase ch) <=? 2)%nat).
      * rewrite other_child_erase in E.
        destruct (hget_other_non_empty_child 0 ch (N.to_nat nib)) as [[i c']|]; cbn [option_map fst snd] in E; [|apply fails_fail].
        pbindE E. discriminate.
      * pbindE E; [discriminate|]. apply fails_l, fails_try_collapse. rewrite R1. assumption.
    + destruct (with_child_panic _ _ _ Ea0) as [G|(u & I & Eu & G)]; rewrite G; [apply fails_fail|].
      apply fails_l. eapply (proj1 (Forall_forall _ _) IH u I); [|exact Eu].
      apply coh_kids. rewrite Forall_forall in K. auto.
  - apply kids_extension in K. pbindE E. destruct a; [|discriminate].
    pbindE E. pbindE E.
    + destruct a0 as [[x d]|]; [|discriminate].
      eapply fails_r; [eapply (wp_hdelete_intern pr hv hv_ex) with
        (Q := fun r b' V' => exists t', r = Some (t', d) /\ erase t' = x); [apply coh_kids, K|eassumption|]|].
      { intros t' b1 V1 X1 C1 R1. eauto. }
      intros r b1 V1 X1 (t' & -> & R1). pbindE E; [discriminate|]. apply fails_l, fails_collapse. rewrite R1. assumption.
    + apply fails_l, IH; [apply coh_kids, K|assumption].
  - destruct (nib_eqb n k); discriminate.
Qed.

Lemma fails_hdelete t k b V :
  kids b V t -> trie_delete pr (erase t) k = Panic -> fails (hdelete pr t k) b V.
Proof.
  intros K E. unfold hdelete, htrie_delete. unfold trie_delete in E. apply fails_l. pbindE E.
  - destruct a as [[x d]|]; [|discriminate].
    eapply fails_r; [eapply (wp_hdelete_intern pr hv hv_ex) with
      (Q := fun r b' V' => exists t', r = Some (t', d) /\ erase t' = x); [exact K|eassumption|]|].
    { intros t' b1 V1 X1 C1 R1. eauto. }
    intros r b1 V1 X1 (t' & -> & R1). pbindE E; [discriminate|]. apply fails_l, fails_try_collapse. rewrite R1. assumption.
  - apply fails_l, fails_hdelete_intern; assumption.
Qed.
End Fails.

(** ** Hashing *)
Section FailsHash.
Variable keccak : list N -> list N.
Variable pr : profile.
Notation hashed_of := (hashed_of keccak pr).
Notation rh := (right_hash keccak pr).
Notation rh_ex := (right_hash_ex keccak pr).

(** ** Subsets *)
Definition create_fails (t : hnode) : Prop := forall tr b V,
  tracks tr (erase t) -> kids rh b V t -> (touched tr = false -> good keccak pr b V t) ->
  create_from_tracked keccak pr tr = Panic -> fails (hcreate_from_tracked keccak pr t tr) b V.

Lemma fails_hcreate t : create_fails t.
Proof.
  induction t as [c|c h|c ch val IH|c n t IH|c n val] using hnode_ind'; intros tr b V T K Gd E;
    rewrite hcreate_eq; rewrite create_eq' in E;
    match goal with |- fails (if _ then hkeep_of _ _ ?t _ else _) _ _ =>
      assert (KP : keep_of keccak pr tr = Panic -> fails (hkeep_of keccak pr t tr) b V)
    end;
    try match goal with |- fails (if _ then _ else _) _ _ =>
      destruct (touched tr) eqn:Tc; [apply KP, E|];
      rewrite (tracks_underlying _ _ T) in E; pbindE E;
      [ eapply fails_r; [eapply (proj2 (wp_hash keccak pr _ _ b V (fun e b' V' => e = a /\ b' = b /\ V' = V) Ea));
          [apply Gd; reflexivity|exact K|auto]|];
        intros e b1 V1 _ (-> & -> & ->); destruct a as [r|h']; [apply KP, E|discriminate]
      | apply fails_l; apply (fails_hash keccak pr _ b V Ea); [apply Gd; reflexivity|exact K] ]
    end;
    intros E'; clear E Gd; inversion T; subst; cbn [keep_of hkeep_of] in *.
  - discriminate.
  - discriminate.
  - apply kids_branch in K. cbn [get_branch_value_expected bind] in E'. pbindE E'; [discriminate|].
    apply fails_l.
    match goal with H : Forall2 tracks ?l _ |- _ => rename H into F2; rename l into trs end. clear - K IH F2 Ea.
    revert trs b V K F2 Ea. induction IH as [|t chs Ht IH IHc]; intros trs b V K F2 E; cbn [map] in F2.
    + inversion F2; subst. discriminate.
    + inversion F2 as [|tr ? trs' ? T F2']; subst. inversion K; subst. cbn [create_all] in E. cbn [hcreate_all]. pbindE E.
      * pbindE E; [discriminate|].
        eapply fails_r; [eapply (create_wp_coh keccak pr t tr a b V) with (Q := fun u b' V' => ext b V b' V');
          [apply wp_hcreate|exact T|assumption|exact Ea|]|].
        { intros u b1 V1 X1 _ _. exact X1. }
        intros u b1 V1 _ X1. apply fails_l. apply IHc; [eapply cohs_ext; [exact X1|assumption]|exact F2'|assumption].
      * apply fails_l. apply Ht; [exact T|apply coh_kids; assumption|intros _; apply coh_good; assumption|assumption].
  - apply kids_extension in K. cbn [get_nibbles_expected bind] in E'. pbindE E'; [discriminate|].
    apply fails_l. apply IH; [assumption|apply coh_kids, K|intros _; apply coh_good, K|assumption].
  - discriminate.
Qed.

Lemma fails_hsubset t ks b V :
  kids rh b V t -> (ks = [] -> good keccak pr b V t) -> create_trie_subset keccak pr (erase t) ks = Panic ->
  fails (hcreate_trie_subset keccak pr t ks) b V.
Proof.
  intros K Gd E. unfold create_trie_subset, create_trie_subset_intern, hcreate_trie_subset in *.
  destruct (mark_all pr (track (erase t)) ks) as [[tr|e]|] eqn:Em; cbn [bind lift pbind] in *.
  - destruct (create_from_tracked keccak pr tr) as [x|] eqn:Ec; cbn [bind] in *; [discriminate|].
    apply fails_l, fails_hcreate; [eapply mark_all_tracks; [eassumption|apply track_tracks]|exact K| |exact Ec].
    intros F. apply Gd. destruct ks; [reflexivity|]. erewrite mark_all_touched in F; [discriminate|eassumption|discriminate].
  - discriminate.
  - apply fails_fail.
Qed.

Lemma fails_hsubsets t kss : forall tr b V,
  tracks tr (erase t) -> kids rh b V t -> (In [] kss -> good keccak pr b V t) ->
  create_subsets_from keccak pr tr kss = Panic -> fails (hcreate_subsets_from keccak pr t tr kss) b V.
Proof.
  induction kss as [|ks kss IH]; intros tr b V T K Gd E; cbn [create_subsets_from hcreate_subsets_from] in *; [discriminate|].
  unfold create_trie_subset_intern in E.
  destruct (mark_all pr tr ks) as [[tr'|e]|] eqn:Em; cbn [bind lift pbind] in *; [|discriminate|apply fails_fail].
  assert (T' : tracks tr' (erase t)) by (eapply mark_all_tracks; eauto).
  assert (G' : touched tr' = false -> good keccak pr b V t).
  { intros F. apply Gd. left. destruct ks; [reflexivity|]. erewrite mark_all_touched in F; [discriminate|eassumption|discriminate]. }
  destruct (create_from_tracked keccak pr tr') as [x|] eqn:Ec; cbn [bind] in *.
  - eapply fails_r; [eapply (wp_hcreate keccak pr t (None, true)) with (Q := fun u b' V' => ext b V b' V'); [exact T'|exact K|exact G'|exact Ec|]|].
    { intros u b1 V1 X1 _ _ _ _. exact X1. }
    intros u b1 V1 _ X1. pbindE E; [discriminate|]. apply fails_l, IH; [apply reset_tracks, T'|eapply kids_ext; [exact X1|exact K]| |assumption].
    intros I. eapply good_ext; [exact X1|]. apply Gd. right. exact I.
  - apply fails_l, fails_hcreate; assumption.
Qed.

(** ** Steps *)
Lemma the_panic hs i : the (map erase hs) i = Panic -> the hs i = Panic.
Proof. unfold the. rewrite nth_error_map. destruct (nth_error hs i); [discriminate|reflexivity]. Qed.
Lemma pick_panic hs is : pick (map erase hs) is = Panic -> pick hs is = Panic.
Proof.
  induction is as [|i is IH]; cbn [pick]; [discriminate|]. intros E. destruct (the (map erase hs) i) as [x|] eqn:Ei.
  - destruct (the_map _ _ _ Ei) as (t & _ & -> & _). cbn [bind] in *. destruct (pick (map erase hs) is) as [xs|]; [discriminate|].
    rewrite (IH eq_refl). reflexivity.
  - rewrite (the_panic _ _ Ei). reflexivity.
Qed.
Lemma hsubtrie_panic path : forall t, subtrie (erase t) path = Panic -> hsubtrie t path = Panic.
Proof.
  induction path as [|d path IH]; intros t E; [discriminate|].
  destruct t as [c|c h|c ch v|c n t|c n v]; cbn [subtrie erase hsubtrie] in *; try reflexivity.
  - destruct (the (map erase ch) d) as [x|] eqn:Ed.
    + destruct (the_map _ _ _ Ed) as (u & _ & -> & <-). cbn [bind] in *. auto.
    + rewrite (the_panic _ _ Ed). reflexivity.
  - auto.
Qed.

Lemma fails_hstep K hs o b V :
  inv keccak pr K None b V hs -> legal K (length hs) o -> vstep keccak pr (map erase hs) o = Panic ->
  fails (hstep keccak pr hs o) b V.
Proof.
  intros I L E.
  assert (TH : forall A i (f : node -> res A) B (g : hnode -> prog B), (x <- the (map erase hs) i ;; f x) = Panic ->
    (forall t, nth_error hs i = Some t -> f (erase t) = Panic -> fails (g t) b V) -> fails (x <~ lift (the hs i) ;; g x) b V).
  { intros A i f B g Ef H. destruct (the (map erase hs) i) as [x|] eqn:Ei.
    - destruct (the_map _ _ _ Ei) as (t & Et & -> & <-). cbn [lift pbind bind] in *. apply H; assumption.
    - rewrite (the_panic _ _ Ei). apply fails_fail. }
  destruct o as [l|i k v|i l|i k|i k|i|i j|i|i path|i j|i ks|i kss|i|i j|p]; cbn [vstep hstep legal] in *.
  - pbindE E; [discriminate|]. apply fails_l. unfold hfrom_iter.
    eapply fails_r; [apply (wpg_hempty rh (None, true)) with (Q := fun t b' V' => kids rh b' V' t /\ erase t = Empty)|].
    { intros t b1 V1 X1 K1 _ _ R1. auto. }
    intros t b1 V1 X1 (K1 & R1). eapply (fails_hextend pr rh rh_ex); [exact K1|]. rewrite R1. exact Ea.
  - eapply TH; [exact E|]. intros t Et Ep; cbn beta in *. pbindE Ep; [discriminate|]. apply fails_l. eapply (fails_hinsert pr rh rh_ex); [|exact Ea].
    apply (inv_slot _ _ _ _ _ _ _ I i t Et).
  - eapply TH; [exact E|]. intros t Et Ep; cbn beta in *. pbindE Ep; [discriminate|]. apply fails_l. eapply (fails_hextend pr rh rh_ex); [|exact Ea].
    apply (inv_slot _ _ _ _ _ _ _ I i t Et).
  - eapply TH; [exact E|]. intros t Et Ep; cbn beta in *. pbindE Ep; [destruct a; discriminate|]. apply fails_l. eapply (fails_hdelete pr rh rh_ex); [|exact Ea].
    apply (inv_slot _ _ _ _ _ _ _ I i t Et).
  - eapply TH; [exact E|]. intros t Et Ep; cbn beta in *. pbindE Ep; [discriminate|]. apply fails_l. unfold hget. rewrite Ea. apply fails_fail.
  - eapply TH; [exact E|]. intros t Et Ep; cbn beta in *. pbindE Ep; [discriminate|]. apply fails_l.
    destruct (inv_slot _ _ _ _ _ _ _ I i t Et) as (Kt & Bt & S). apply slot_mark in S.
    apply fails_hhash_of; [exact Kt|exact Bt| |exact Ea].
    rewrite S. unfold mark_of. intros h'. destruct (K i); cbn [fst]; [discriminate|auto|auto].
  - eapply TH; [exact E|]. intros t Et Ep; cbn beta in *. eapply TH; [exact Ep|]. intros u Eu Eq. discriminate.
  - eapply TH; [exact E|]. intros t Et Ep; cbn beta in *. discriminate.
  - eapply TH; [exact E|]. intros t Et Ep; cbn beta in *. pbindE Ep; [discriminate|]. rewrite (hsubtrie_panic _ _ Ea). apply fails_fail.
  - eapply TH; [exact E|]. intros t Et Ep; cbn beta in *. eapply TH; [exact Ep|]. intros u Eu Eq. discriminate.
  - eapply TH; [exact E|]. intros t Et Ep; cbn beta in *. pbindE Ep; [discriminate|]. apply fails_l.
    apply fails_hsubset; [apply (inv_slot _ _ _ _ _ _ _ I i t Et)| |exact Ea].
    intros Ek. eapply (good_root keccak pr K b V hs i t I Et). tauto.
  - eapply TH; [exact E|]. intros t Et Ep; cbn beta in *. pbindE Ep; [discriminate|]. apply fails_l.
    apply fails_hsubsets; [apply track_tracks|apply (inv_slot _ _ _ _ _ _ _ I i t Et)| |exact Ea].
    intros Ik. eapply (good_root keccak pr K b V hs i t I Et). tauto.
  - eapply TH; [exact E|]. intros t Et Ep; cbn beta in *. pbindE Ep; [discriminate|]. apply fails_l.
    destruct (inv_slot _ _ _ _ _ _ _ I i t Et) as (Kt & Bt & _). apply (fails_hreload rh); assumption.
  - eapply TH; [exact E|]. intros t Et Ep; cbn beta in *. eapply TH; [exact Ep|]. intros u Eu Eq; cbn beta in *. pbindE Eq; [discriminate|].
    apply fails_l. eapply does_fails; [apply does_diff; [eapply inv_handle; [exact I|exact Et]|eapply inv_handle; [exact I|exact Eu]]|exact Ea].
  - pbindE E; [discriminate|]. apply fails_l. destruct p as [|h|k v|k i|is v]; cbn [vmake hmake] in *; try discriminate.
    + eapply TH; [exact Ea|]. intros t Et Ep. discriminate.
    + destruct (Nat.eqb (length is) 16); [|apply fails_fail]. pbindE Ea; [discriminate|]. rewrite (pick_panic _ _ Ea0). apply fails_fail.
Qed.
End FailsHash.

(** ** Runs *)
Lemma exec_catch {A} (p : prog A) : forall s n a s' n', exec p s n = Ok (a, s', n') -> exec (catch p) s n = Ok (Some a, s', n').
Proof.
  induction p as [x| |c k IH|c o p IH|k IH]; intros s n a s' n' E; cbn [exec catch] in *; try discriminate; auto.
  injection E as <- <- <-. reflexivity.
Qed.

Section Runs.
Variable keccak : list N -> list N.
Variable pr : profile.
Notation rh := (right_hash keccak pr).
Notation rh_ex := (right_hash_ex keccak pr).

Lemma exec_extend_ok l : forall t s n t' s' n', exec (htrie_extend pr t l) s n = Ok (t', s', n') ->
  exec (hextend_until_panic pr t l) s n = Ok ((t', true), s', n').
Proof.
  induction l as [|[k v] l IH]; intros t s n t' s' n' E; cbn [htrie_extend hextend_until_panic] in *.
  - cbn [exec] in *. injection E as <- <- <-. reflexivity.
  - rewrite exec_bind in E. rewrite exec_bind. destruct (exec (htrie_insert pr t k v) s n) as [[[u s1] n1]|] eqn:Eu; [|discriminate].
    rewrite (exec_catch _ _ _ _ _ _ Eu). apply IH, E.
Qed.

Lemma extend_until_panic_ok l : forall t t', trie_extend pr t l = Ok t' -> extend_until_panic pr t l = t'.
Proof.
  induction l as [|[k v] l IH]; intros t t' E; cbn [trie_extend extend_until_panic] in *; [congruence|].
  destruct (trie_insert pr t k v) as [u|]; [apply IH, E|discriminate].
Qed.

Lemma wp_until_panic l : forall t b V, kids rh b V t ->
  wp (hextend_until_panic pr t l) b V (fun r b' V' => ext b V b' V' /\ kids rh b' V' (fst r) /\ cell (fst r) = cell t /\
    erase (fst r) = extend_until_panic pr (erase t) l /\
    snd r = match trie_extend pr (erase t) l with Ok _ => true | Panic => false end).
Proof.
  induction l as [|[k v] l IH]; intros t b V K; cbn [hextend_until_panic extend_until_panic trie_extend].
  - cbn [wp fst snd]. repeat split; auto. lia.
  - apply wp_bind. destruct (trie_insert pr (erase t) k v) as [x|] eqn:Ei; cbn [bind].
    + eapply wp_conseq; [apply wp_catch; eapply (wp_htrie_insert pr rh rh_ex) with
        (Q := fun u b' V' => ext b V b' V' /\ kids rh b' V' u /\ cell u = cell t /\ erase u = x); [exact K|exact Ei|]|].
      { intros u b1 V1 X1 K1 C1 R1. auto. }
      intros [u|] b1 V1 _ H; [|destruct H]. destruct H as (X1 & K1 & C1 & R1).
      eapply wp_conseq; [apply IH, K1|]. cbn beta. rewrite C1, R1. intros r b2 V2 _ (X2 & H2). split; [eapply ext_trans; eauto|exact H2].
    + eapply wp_conseq; [apply (fails_htrie_insert pr rh rh_ex); [exact K|exact Ei]|]. cbn beta.
      intros o b1 V1 X1 ->. cbn [wp fst snd]. repeat split; auto; try apply X1. eapply kids_ext; [exact X1|exact K].
Qed.

(** The handle [i] has new contents, but its cell was not cleared. *)
Lemma inv_kept K b V b' V' hs i t t' :
  inv keccak pr K None b V hs -> nth_error hs i = Some t -> ext b V b' V' -> kids rh b' V' t' -> cell t' = cell t ->
  K i <> View -> (K i = Single -> erase t' = erase t) -> inv keccak pr K None b' V' (replace hs i t').
Proof.
  intros I Et X K' C NV Sg. pose proof (inv_replace keccak pr K b V b' V' hs i t t' I Et X K' C) as [J1 J2].
  split; [|exact J2]. intros j u Eu. destruct (J1 j u Eu) as (A & B & S). repeat split; auto. unfold slot in *.
  destruct (Nat.eqb_spec j i) as [->|]; [|exact S]. destruct S as [y S].
  destruct (nth_replace _ _ _ _ _ Eu) as [[_ ->]|[Ne _]]; [|contradiction].
  pose proof (inv_slot _ _ _ _ _ _ _ (inv_ext keccak pr _ _ _ _ _ _ _ X I) i t Et) as (_ & _ & S0). apply slot_mark in S0.
  rewrite C, S0. unfold mark_of in *. destruct (K i); [reflexivity| |contradiction]. rewrite Sg by reflexivity. reflexivity.
Qed.

Lemma hxstep_ok K hs o b V s :
  inv keccak pr K None b V hs -> keeps b V s -> xlegal keccak pr K (map erase hs) o ->
  exists hs' s' b' V', exec (hxstep keccak pr hs o) s b = Ok ((hs', snd (vxstep keccak pr (map erase hs) o)), s', b') /\
    map erase hs' = fst (vxstep keccak pr (map erase hs) o) /\ inv keccak pr K None b' V' hs' /\ keeps b' V' s'.
Proof.
  intros I Kp [L Sg]. rewrite map_length in L.
  (* an extend that panics *)
  assert (PX : forall i l whole, legal K (length hs) (Extend i l) ->
     (forall t, nth_error hs i = Some t -> trie_extend pr (erase t) l = Panic \/ whole = false) ->
     (forall t, nth_error hs i = Some t -> K i = Single -> extend_until_panic pr (erase t) l = erase t) ->
     exists hs' s' b' V',
      exec match nth_error hs i with
           | Some t => '(t', done) <~ hextend_caught pr whole t l ;; Ret (replace hs i t', if done then Some Done else None)
           | None => Ret (hs, None)
           end s b = Ok ((hs', None), s', b') /\
      map erase hs' = (match nth_error (map erase hs) i with
                       | Some t => replace (map erase hs) i (extend_until_panic pr t l) | None => map erase hs end) /\
      inv keccak pr K None b' V' hs' /\ keeps b' V' s').
  { intros i l whole Li Hp Hs. rewrite nth_error_map. destruct (nth_error hs i) as [t|] eqn:Et; cbn [option_map].
    2:{ exists hs, s, b, V. cbn [exec]. auto. }
    destruct (inv_slot _ _ _ _ _ _ _ I i t Et) as (Kt & Bt & _).
    destruct (exec_wp _ _ _ _ _ (wp_until_panic l t b V Kt) Kp) as ([t' done] & s' & b' & V' & Ex & _ & Kp' & (X & K' & C & R & D)).
    cbn [fst snd] in *. assert (DW : done && whole = false).
    { destruct (Hp t eq_refl) as [P| ->]; [rewrite P in D; rewrite D; reflexivity|apply andb_false_r]. }
    exists (replace hs i t'), s', b', V'. unfold hextend_caught. rewrite !exec_bind, Ex, DW. cbn [exec].
    split; [reflexivity|]. split; [rewrite map_replace, R; reflexivity|]. split; [|exact Kp'].
    eapply inv_kept; [exact I|exact Et|exact X|exact K'|exact C|exact Li|]. intros Ki. rewrite R. apply Hs; auto. }
  assert (Hs : forall i l, match nth_error (map erase hs) i with
                       | Some t => replace (map erase hs) i (extend_until_panic pr t l) | None => map erase hs end = map erase hs ->
               forall t, nth_error hs i = Some t -> extend_until_panic pr (erase t) l = erase t).
  { intros i l E t Et. assert (En : nth_error (map erase hs) i = Some (erase t)) by (rewrite nth_error_map, Et; reflexivity).
    rewrite En in E. assert (Q : nth_error (replace (map erase hs) i (extend_until_panic pr (erase t) l)) i = Some (extend_until_panic pr (erase t) l)).
    { apply nth_replace_eq. apply nth_error_Some. congruence. }
    rewrite E, En in Q. congruence. }
  destruct o as [o|i l]; cbn [use vxstep hxstep] in *.
  - destruct (vstep keccak pr (map erase hs) o) as [[ts' x]|] eqn:E.
    + destruct (hstep_ok keccak pr K hs o ts' x b V s I Kp L E) as (hs' & s' & b' & V' & Ex & R & I' & Kp').
      exists hs', s', b', V'. cbn [fst snd]. split; [|auto].
      destruct o; try (rewrite exec_bind, (exec_catch _ _ _ _ _ _ Ex); reflexivity).
      cbn [hstep] in Ex. unfold the in Ex. destruct (nth_error hs i) as [t|]; [|discriminate]. cbn [lift pbind] in Ex.
      unfold hextend, hextend_caught in *. rewrite !exec_bind in *.
      destruct (exec (htrie_extend pr t l) s b) as [[[u s1] n1]|] eqn:Eu; [|discriminate].
      rewrite (exec_extend_ok _ _ _ _ _ _ _ Eu). cbn [andb exec] in *. injection Ex as <- <- <- <-. reflexivity.
    + cbn [fst snd].
      destruct o as [l|i k v|i l|i k|i k|i|i j|i|i path|i j|i ks|i kss|i|i j|p];
        try (pose proof (fails_hstep keccak pr K hs _ b V I L E) as F;
             destruct (exec_wp _ _ _ _ _ F Kp) as (r & s' & b' & V' & Ex & X & Kp' & ->);
             exists hs, s', b', V'; rewrite exec_bind, Ex; split; [reflexivity|]; split; [reflexivity|];
             split; [eapply inv_ext; [exact X|exact I]|exact Kp']).
      apply PX; [exact L| |].
      * intros t Et. left. cbn [vstep] in E. unfold the in E. rewrite nth_error_map, Et in E. cbn [option_map bind] in E.
        destruct (trie_extend pr (erase t) l); [discriminate|reflexivity].
      * intros t Et Ki. cbn [vxstep] in Sg. cbn [fst snd] in Sg.
        destruct (Sg Ki) as [D|D]; [discriminate|]. eapply Hs; eauto.
  - cbn [fst snd]. apply PX; [exact L|auto|].
    intros t Et Ki. cbn [vxstep fst snd] in Sg. destruct (Sg Ki) as [D|D]; [discriminate|]. eapply Hs; eauto.
Qed.

Lemma hxrun_ok K os : forall hs b V s,
  inv keccak pr K None b V hs -> keeps b V s -> xrespects keccak pr K (map erase hs) os ->
  exists hs' s' b' V', exec (hxrun keccak pr hs os) s b = Ok ((hs', snd (vxrun keccak pr (map erase hs) os)), s', b') /\
    map erase hs' = fst (vxrun keccak pr (map erase hs) os) /\ inv keccak pr K None b' V' hs' /\ keeps b' V' s'.
Proof.
  induction os as [|o os IH]; intros hs b V s I Kp R; cbn [vxrun hxrun xrespects] in *.
  - exists hs, s, b, V. auto.
  - destruct R as [L R].
    destruct (hxstep_ok K hs o b V s I Kp L) as (hs1 & s1 & b1 & V1 & Ex & R1 & I1 & Kp1).
    rewrite <- R1 in R. destruct (IH hs1 b1 V1 s1 I1 Kp1 R) as (hs2 & s2 & b2 & V2 & Ex2 & R2 & I2 & Kp2).
    destruct (vxstep keccak pr (map erase hs) o) as [ts1 x]. cbn [fst snd] in *. subst ts1.
    destruct (vxrun keccak pr (map erase hs1) os) as [ts2 xs]. cbn [fst snd] in *.
    exists hs2, s2, b2, V2. split; [|auto]. rewrite exec_bind, Ex, exec_bind, Ex2. reflexivity.
Qed.

Lemma xstart_ok K os : xrespects keccak pr K [] os ->
  exists hs, xstart keccak pr os = Ok (hs, snd (vxrun keccak pr [] os)) /\ map erase hs = fst (vxrun keccak pr [] os).
Proof.
  intros R. destruct (hxrun_ok K os [] 0 no_ghost (fun _ => None) (inv_nil keccak pr K) keeps_nil R) as (hs & s & b & V & Ex & M & _).
  exists hs. unfold xstart. rewrite Ex. auto.
Qed.
End Runs.

(** ** Threads *)
Section Threads.
Variable keccak : list N -> list N.
Variable pr : profile.
Notation rh := (right_hash keccak pr).
Notation plain := (fun _ : nat => Plain).

Lemma inv_plain ex b V hs : inv keccak pr plain ex b V hs -> inv keccak pr plain None b V hs.
Proof.
  intros [J1 J2]. split; [|exact J2]. intros i t Et. destruct (J1 i t Et) as (A & B & S). repeat split; auto.
  unfold slot in *. destruct (match ex with Some j => Nat.eqb i j | None => false end); [|exact S]. destruct S as [y S]. exact S.
Qed.

Lemma wp_hxstep hs o b V :
  inv keccak pr plain None b V hs -> tame (use o) ->
  wp (hxstep keccak pr hs o) b V (fun r b' V' =>
    map erase (fst r) = fst (vxstep keccak pr (map erase hs) o) /\ snd r = snd (vxstep keccak pr (map erase hs) o) /\
    inv keccak pr plain None b' V' (fst r)).
Proof.
  intros I T. pose proof (tame_legal (length hs) _ T) as L.
  assert (PX : forall i l whole,
     wp match nth_error hs i with
        | Some t => '(t', done) <~ hextend_caught pr whole t l ;; Ret (replace hs i t', if done then Some Done else None)
        | None => Ret (hs, None)
        end b V (fun r b' V' =>
      map erase (fst r) = (match nth_error (map erase hs) i with
                       | Some t => replace (map erase hs) i (extend_until_panic pr t l) | None => map erase hs end) /\
      snd r = (match nth_error (map erase hs) i with
               | Some t => match trie_extend pr t l with Ok _ => if whole then Some Done else None | Panic => None end
               | None => None end) /\
      inv keccak pr plain None b' V' (fst r))).
  { intros i l whole. rewrite nth_error_map. destruct (nth_error hs i) as [t|] eqn:Et; cbn [option_map].
    2:{ cbn [wp fst snd]. auto. }
    destruct (inv_slot _ _ _ _ _ _ _ I i t Et) as (Kt & Bt & _). unfold hextend_caught. apply wp_bind, wp_bind.
    eapply wp_conseq; [apply wp_until_panic, Kt|]. cbn beta. intros [t' done] b1 V1 _ (X & K' & C & R & D). cbn [fst snd] in *.
    assert (In' : inv keccak pr plain None b1 V1 (replace hs i t')).
    { eapply inv_kept; [exact I|exact Et|exact X|exact K'|exact C|discriminate|discriminate]. }
    destruct (done && whole) eqn:DW; cbn [wp fst snd].
    - apply andb_prop in DW. destruct DW as [-> ->]. split; [destruct X; lia|]. split; [left; reflexivity|].
      split; [rewrite map_replace, R; reflexivity|]. split; [|exact In']. destruct (trie_extend pr (erase t) l); [reflexivity|discriminate].
    - split; [rewrite map_replace, R; reflexivity|]. split; [|exact In']. destruct (trie_extend pr (erase t) l); [|reflexivity].
      subst done. cbn [andb] in DW. rewrite DW. reflexivity. }
  destruct o as [o|i l]; cbn [use vxstep hxstep] in *.
  - assert (G : (forall i l, o <> Extend i l) ->
      wp (r <~ catch (hstep keccak pr hs o) ;; Ret (match r with Some (ts', x) => (ts', Some x) | None => (hs, None) end)) b V
        (fun r b' V' =>
          map erase (fst r) = fst (match vstep keccak pr (map erase hs) o with Ok (ts', x) => (ts', Some x) | Panic => (map erase hs, None) end) /\
          snd r = snd (match vstep keccak pr (map erase hs) o with Ok (ts', x) => (ts', Some x) | Panic => (map erase hs, None) end) /\
          inv keccak pr plain None b' V' (fst r))).
    { intros NE. apply wp_bind. destruct (vstep keccak pr (map erase hs) o) as [[ts' x]|] eqn:E.
      - eapply wp_conseq; [apply wp_catch, (wp_hstep keccak pr plain _ _ _ _ _ _ I L E)|]. cbn beta.
        intros [[hs' x']|] b1 V1 _ H; [|destruct H]. destruct H as (R & Rx & I' & _). cbn [wp fst snd] in *. subst x'.
        split; [exact R|]. split; [reflexivity|]. eapply inv_plain, I'.
      - eapply wp_conseq; [apply (fails_hstep keccak pr plain _ _ _ _ I L E)|]. cbn beta. intros r b1 V1 X ->. cbn [wp fst snd].
        split; [reflexivity|]. split; [reflexivity|]. eapply inv_ext; [exact X|exact I]. }
    destruct o as [l|i k v|i l|i k|i k|i|i j|i|i path|i j|i ks|i kss|i|i j|p]; try (apply G; discriminate).
    eapply wp_conseq; [apply (PX i l true)|]. cbn beta. intros r b1 V1 _ (R & Rx & I'). rewrite R, Rx. cbn [vstep]. unfold the.
    rewrite nth_error_map in *. destruct (nth_error hs i) as [t|]; cbn [option_map bind] in *; [|auto].
    destruct (trie_extend pr (erase t) l) as [x|] eqn:Ex; cbn [bind fst snd]; [|auto].
    rewrite (extend_until_panic_ok _ _ _ _ Ex). auto.
  - eapply wp_conseq; [apply (PX i l false)|]. cbn beta. intros r b1 V1 _ (R & Rx & I'). rewrite R, Rx. cbn [fst snd].
    split; [reflexivity|]. split; [|exact I']. destruct (nth_error (map erase hs) i); [|reflexivity]. destruct (trie_extend pr _ l); reflexivity.
Qed.

Lemma wp_hxrun os : forall hs b V, inv keccak pr plain None b V hs -> Forall (fun o => tame (use o)) os ->
  wp (hxrun keccak pr hs os) b V (fun r _ _ =>
    map erase (fst r) = fst (vxrun keccak pr (map erase hs) os) /\ snd r = snd (vxrun keccak pr (map erase hs) os)).
Proof.
  induction os as [|o os IH]; intros hs b V I T; cbn [vxrun hxrun].
  - cbn [wp fst snd]. auto.
  - inversion T; subst. apply wp_bind. eapply wp_conseq; [apply wp_hxstep; [exact I|assumption]|]. cbn beta.
    intros [hs1 x1] b1 V1 _ (R1 & Rx & I1). cbn [fst snd] in *. apply wp_bind.
    eapply wp_conseq; [apply IH; [exact I1|assumption]|]. cbn beta. intros [hs2 xs2] b2 V2 _ [R2 Rx2]. cbn [fst snd wp] in *.
    rewrite R1 in R2, Rx2. destruct (vxstep keccak pr (map erase hs) o) as [ts1 x]. cbn [fst snd] in *. subst x1.
    destruct (vxrun keccak pr ts1 os) as [ts2 xs]. cbn [fst snd] in *. subst. auto.
Qed.

Lemma xtame_legal ts o : tame (use o) -> xlegal keccak pr plain ts o.
Proof. intros T. split; [apply tame_legal, T|]. destruct (use o); auto. discriminate. Qed.
Lemma xtame_respects os : Forall (fun o => tame (use o)) os -> forall ts, xrespects keccak pr plain ts os.
Proof. induction 1; intros ts; cbn [xrespects]; [exact I|]. split; [apply xtame_legal; assumption|auto]. Qed.
End Threads.
