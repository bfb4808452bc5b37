(** Deleting a key that is not stored. *)
From Verif Require Import Base Nibbles NibblesSpec NibblesFacts NibblesFacts2 NibblesFacts3 Trie TrieSpec TrieFacts TrieInsert TrieGet TrieDelete TrieUnique TrieHistSpec TrieHist TrieObs.
Open Scope N_scope.

Definition two (t : node) (k : list N) : Prop := exists x y r s, x <> y /\ stored t (k ++ x :: r) /\ stored t (k ++ y :: s).

Lemma set_child_nth ch i : set_child ch i (nth i ch Empty) = ch.
Proof. revert i. induction ch as [|c ch IH]; intros [|i]; cbn [set_child nth]; try reflexivity. rewrite IH. reflexivity. Qed.

Lemma try_collapse_canon pr t : canon t -> try_collapse_if_extension pr t = Ok t.
Proof. intros C. destruct C as [| | |n c _ B _|]; try reflexivity. cbn [try_collapse_if_extension]. destruct c; cbn in B; try contradiction; reflexivity. Qed.

Lemma del_absent pr t : forall L k, wf L t -> (L <= 64)%nat -> canon t -> hexl k -> (length k <= 127)%nat ->
  eff t k = k -> lk t k = None -> ~ hash_on_path t k ->
  delete_intern pr t (enc k) = Ok (Some (t, [])) /\ two t k \/ delete_intern pr t (enc k) = Ok None /\ ~ two t k.
Proof.
  induction t as [|h|ch w IH|n c IH|n w] using node_ind'; intros L k W HL C Hk Lk Ee E NH.
  - right. split; [reflexivity|]. intros (x & y & r & s & _ & S & _). exact (not_stored_empty _ S).
  - exfalso. apply NH. exists [], h. split; [reflexivity|apply prefix_nil].
  - inversion W as [| |L0 ? ? Hl F| |]; subst. inversion C as [| |? ? FC O| |]; subst.
    assert (FS : Forall shape ch) by (eapply Forall_impl; [|exact FC]; intros; apply canon_shape; assumption).
    destruct k as [|d k].
    + left. cbn [lk] in E. destruct w as [|b w]; [|discriminate]. split; [rewrite delete_branch_nil; reflexivity|].
      rewrite occupied_occ in O. destruct (occ_two_ex ch Hl ltac:(lia)) as (d & e & _ & _ & D & NEd & NEe).
      assert (St : forall d, child ch d <> Empty -> exists r, stored (Branch ch []) (d :: r)).
      { intros x NE. destruct (shape_stored (child ch x)) as (r & Sr); [apply Forall_child; [constructor|exact FS]|exact NE|].
        exists r. apply stored_branch. exact Sr. }
      destruct (St d NEd) as (r & Sr). destruct (St e NEe) as (s & Ss). exists d, e, r, s. auto.
    + cbn [length] in Lk. rewrite delete_branch_cons by (auto; cbn [length]; lia).
      rewrite eff_branch in Ee. assert (Ee' : eff (child ch d) k = k) by congruence. rewrite lk_branch in E. rewrite hop_branch in NH.
      assert (Tw : two (Branch ch w) (d :: k) <-> two (child ch d) k).
      { unfold two. split; intros (x & y & r & s & D & A & B); exists x, y, r, s; cbn [app] in *; rewrite !stored_branch in *; auto. }
      destruct (child_in ch d) as [E0|I0].
      { right. rewrite Tw, E0. split; [reflexivity|]. intros (x & y & r & s & _ & S & _). exact (not_stored_empty _ S). }
      rewrite Forall_forall in IH, F, FC. 
      destruct (IH _ I0 L0 k (F _ I0) ltac:(lia) (FC _ I0) ltac:(inversion Hk; assumption) ltac:(lia) Ee' E NH) as [[A B]|[A B]]; rewrite A, Tw; cbn [bind].
      * left. split; [|exact B]. assert (NE : node_is_empty (child ch d) = false).
        { destruct (child ch d); try reflexivity. cbn in A. discriminate. }
        rewrite NE. cbn [andb]. rewrite try_collapse_canon by auto. cbn [bind]. unfold child. rewrite set_child_nth. reflexivity.
      * right. auto.
  - inversion W as [| | |L0 p c0 Hp Wc|]; subst. inversion C as [| | |? ? Hn B Cc|]; subst.
    assert (Long : forall k0, hexl (p ++ k0) -> (length (p ++ k0) <= 127)%nat -> eff (Extension (enc p) c) (p ++ k0) = p ++ k0 -> lk (Extension (enc p) c) (p ++ k0) = None ->
      ~ hash_on_path (Extension (enc p) c) (p ++ k0) ->
      delete_intern pr (Extension (enc p) c) (enc (p ++ k0)) = Ok (Some (Extension (enc p) c, [])) /\ two (Extension (enc p) c) (p ++ k0) \/
      delete_intern pr (Extension (enc p) c) (enc (p ++ k0)) = Ok None /\ ~ two (Extension (enc p) c) (p ++ k0)).
    { clear k Hk Lk Ee E NH. intros k Hk Lk Ee E NH. rewrite eff_ext_long in Ee by assumption. apply app_inv_head in Ee. rewrite lk_in_ext in E by assumption. rewrite hop_ext in NH by assumption.
      assert (Tw : two (Extension (enc p) c) (p ++ k) <-> two c k).
      { unfold two. split; intros (x & y & r & s & D & A & B'); exists x, y, r, s; rewrite <- !app_assoc in *; rewrite !stored_in_ext in * by assumption; auto. }
      rewrite delete_ext_long by assumption. rewrite app_length in Lk. apply hexl_app in Hk.
      destruct (IH L0 k Wc ltac:(lia) Cc ltac:(tauto) ltac:(lia) Ee E NH) as [[A B']|[A B']]; rewrite A, Tw; cbn [bind]; [left|right; auto].
      split; [|exact B']. destruct c as [|h|ch w|? ?|? ?]; cbn in B; try contradiction; reflexivity. }
    destruct (compare_keys p k) as [->|y k' ->|x p' ->|q x p' y k' -> -> D].
    + specialize (Long []). rewrite app_nil_r in Long. apply Long; assumption.
    + apply Long; assumption.
    + exfalso. rewrite eff_ext_short in Ee by assumption. apply (f_equal (@length N)) in Ee. rewrite app_length in Ee. cbn in Ee. lia.
    + right. split; [apply delete_ext_div; auto; lia|]. intros (u & z & r & s & _ & S & _).
      destruct (stored_ext_inv _ _ _ Hp S) as (k1 & Ek & _). rewrite <- !app_assoc in Ek. apply app_inv_head in Ek. cbn in Ek. congruence.
  - inversion W as [| | | |L0 p w0 Hp Lp]; subst. right. rewrite lk_leaf_nseq in E by assumption. rewrite delete_leaf by assumption.
    destruct (key_eqb_spec p k) as [->|N]; [discriminate|]. split; [reflexivity|].
    intros (x & y & r & s & D & S1 & S2). unfold stored in S1, S2. rewrite lk_leaf_nseq in S1, S2 by assumption.
    destruct (key_eqb_spec p (k ++ x :: r)) as [E1|]; [|congruence]. destruct (key_eqb_spec p (k ++ y :: s)) as [E2|]; [|congruence].
    rewrite E1 in E2. apply app_inv_head in E2. congruence.
Qed.
