(** Lookup. *)
From Verif Require Import Base Nibbles NibblesSpec NibblesFacts NibblesFacts2 NibblesFacts3 Trie TrieSpec TrieFacts.
Open Scope N_scope.

Lemma lk_ext_nseq l c k : hexl l -> lk (Extension (enc l) c) k = match strip l k with Some k' => lk c k' | None => None end.
Proof. intros H. cbn [lk]. rewrite nseq_enc by exact H. reflexivity. Qed.

Lemma lk_leaf_nseq l v k : hexl l -> lk (Leaf (enc l) v) k = if key_eqb l k then Some (Val v) else None.
Proof. intros H. cbn [lk]. rewrite nseq_enc by exact H. reflexivity. Qed.

Lemma child_in ch d : child ch d = Empty \/ In (child ch d) ch.
Proof.
  destruct (child ch d) eqn:E; [left; reflexivity|right; rewrite <- E; apply in_child; rewrite E; congruence..].
Qed.

Lemma get_found pr t : forall L k v,
  wf L t -> (L <= 127)%nat -> lk t k = Some (Val v) -> trie_get pr t (enc k) = Ok (Some v).
Proof.
  induction t as [|h|ch w IH|n c IH|n w] using node_ind'; intros L k v W HL E;
    (assert (St : stored _ k) by (unfold stored; rewrite E; congruence); destruct (stored_wf _ _ _ W St) as [Lk Hk]);
    inversion W; subst.
  - discriminate.
  - cbn in E. destruct k; discriminate.
  - destruct k as [|d k].
    + rewrite get_branch_nil. cbn in E. destruct w; [discriminate|congruence].
    + rewrite get_branch_cons by (auto; lia). rewrite lk_branch in E.
      destruct (child_in ch d) as [Ec|I]; [rewrite Ec in E; discriminate|].
      rewrite Forall_forall in *. eapply IH; eauto. lia.
  - rewrite lk_ext_nseq in E by assumption. destruct (strip l k) as [k'|] eqn:Es; [|discriminate].
    apply strip_some in Es. subst k. rewrite get_ext_long by (auto; lia). eapply IH; eauto. lia.
  - rewrite lk_leaf_nseq in E by assumption. destruct (key_eqb_spec l k); [|discriminate]. subst.
    rewrite get_leaf by (assumption || lia). rewrite lcp_refl, Nat.min_id, Nat.leb_refl. congruence.
Qed.

(** Exact lookup when no stored key is longer and no stored value key is a strict prefix. *)
Lemma get_long pr t : forall L k,
  wf L t -> shape t -> hexl k -> (length k <= 127)%nat -> (L <= 127)%nat ->
  (forall j, stored t j -> (length j <= length k)%nat) ->
  (forall j v, lk t j = Some (Val v) -> ~ strict_prefix j k) ->
  trie_get pr t (enc k) = Ok (match lk t k with Some (Val v) => Some v | _ => None end).
Proof.
  induction t as [|h|ch w IH|n c IH|n w] using node_ind'; intros L k W Sh Hk Lk HL H1 H2;
    inversion W; subst.
  - reflexivity.
  - cbn. destruct k; reflexivity.
  - destruct k as [|d k].
    + rewrite get_branch_nil. cbn. destruct w; reflexivity.
    + rewrite get_branch_cons by (auto; lia). rewrite lk_branch. inversion Sh; subst.
      destruct (child_in ch d) as [Ec|I]; [rewrite Ec; reflexivity|].
      rewrite Forall_forall in *. eapply IH; eauto; try lia.
      * inversion Hk; assumption.
      * cbn [length] in Lk. lia.
      * intros j Sj. specialize (H1 (d :: j)). unfold stored in H1. rewrite lk_branch in H1. specialize (H1 Sj). cbn [length] in H1. lia.
      * intros j v Ej (x & r & ->). apply (H2 (d :: j) v); [rewrite lk_branch; exact Ej|exists x, r; reflexivity].
  - inversion Sh as [| | |? ? Hn B Sc|]; subst.
    assert (Lp : (length l <= length k)%nat).
    { destruct (shape_stored c Sc) as (j & Hj); [intros ->; exact B|].
      specialize (H1 (l ++ j)). unfold stored in H1. rewrite lk_ext_nseq, strip_app in H1 by assumption. specialize (H1 Hj).
      rewrite app_length in H1. lia. }
    rewrite lk_ext_nseq by assumption.
    destruct (strip l k) as [k'|] eqn:Es.
    + apply strip_some in Es. subst k. rewrite get_ext_long by (auto; lia). rewrite app_length in *.
      apply hexl_app in Hk. eapply IH; eauto; try tauto; try lia.
      * intros j Sj. specialize (H1 (l ++ j)). unfold stored in H1. rewrite lk_ext_nseq, strip_app in H1 by assumption. specialize (H1 Sj). rewrite app_length in H1. lia.
      * intros j v Ej (x & r & ->). apply (H2 (l ++ j) v); [rewrite lk_ext_nseq, strip_app by assumption; exact Ej|exists x, r; apply app_assoc].
    + apply strip_none in Es. destruct (compare_keys l k) as [->|y k' ->|x p' ->|q x p' y k' -> -> D].
      * exfalso. apply Es. exists []. rewrite app_nil_r. reflexivity.
      * exfalso. apply Es. exists (y :: k'). reflexivity.
      * rewrite app_length in Lp. cbn [length] in Lp. lia.
      * apply get_ext_div; auto.
  - rewrite get_leaf by (assumption || lia). rewrite lk_leaf_nseq by assumption.
    assert (Sl : lk (Leaf (enc l) w) l = Some (Val w)) by (rewrite lk_leaf_nseq, key_eqb_refl by assumption; reflexivity).
    destruct (key_eqb_spec l k) as [->|Hn].
    + rewrite lcp_refl, Nat.min_id, Nat.leb_refl. reflexivity.
    + destruct (Nat.leb_spec (Nat.min (length l) (length k)) (lcp l k)) as [Hm|]; [|reflexivity]. exfalso.
      apply Nat.leb_le in Hm. apply identical_prefix in Hm.
      assert (P : is_prefix l k).
      { destruct Hm as [P|[r ->]]; [exact P|]. specialize (H1 (k ++ r)). unfold stored in H1. rewrite Sl in H1.
        specialize (H1 ltac:(congruence)). rewrite app_length in H1. destruct r; [|cbn [length] in H1; lia]. rewrite app_nil_r. exists []. rewrite app_nil_r. reflexivity. }
      destruct P as [[|x r] ->]; [rewrite app_nil_r in Hn; congruence|].
      apply (H2 _ _ Sl). exists x, r. reflexivity.
Qed.

(** Whatever is returned is the value of some stored key. *)
Lemma get_stored pr t : forall L k v,
  wf L t -> hexl k -> (length k <= 127)%nat -> (L <= 127)%nat -> trie_get pr t (enc k) = Ok (Some v) ->
  exists j, lk t j = Some (Val v) /\ (pr = Debug -> is_prefix j k \/ is_prefix k j).
Proof.
  induction t as [|h|ch w IH|n c IH|n w] using node_ind'; intros L k v W Hk Lk HL E;
    inversion W; subst.
  - discriminate.
  - discriminate.
  - destruct k as [|d k].
    + rewrite get_branch_nil in E. exists []. split; [|intros _; left; exists []; reflexivity].
      cbn. destruct w; [discriminate|congruence].
    + rewrite get_branch_cons in E by (auto; lia).
      destruct (child_in ch d) as [Ec|I]; [rewrite Ec in E; discriminate|].
      rewrite Forall_forall in *. cbn [length] in Lk.
      destruct (IH _ I L0 k v (H3 _ I) ltac:(inversion Hk; assumption) ltac:(lia) ltac:(lia) E) as (j & Ej & Pj).
      exists (d :: j). rewrite lk_branch. split; [exact Ej|].
      intros Hp. destruct (Pj Hp) as [[r ->]|[r ->]]; [left|right]; exists r; reflexivity.
  - assert (Short : (length k < length l)%nat -> exists j, lk (Extension (enc l) c) j = Some (Val v) /\ (pr = Debug -> is_prefix j k \/ is_prefix k j)).
    { intros Lt. destruct pr.
      - rewrite get_ext_short_debug in E by exact Lt. discriminate.
      - rewrite get_ext_short_release in E by (assumption || lia).
        destruct (key_eqb _ _); [|discriminate].
        destruct (IH L0 [] v H3 ltac:(constructor) ltac:(cbn; lia) ltac:(lia) E) as (j & Ej & _).
        exists (l ++ j). rewrite lk_ext_nseq, strip_app by assumption. split; [exact Ej|discriminate]. }
    destruct (le_lt_dec (length l) (length k)) as [Le|Lt]; [|apply Short, Lt].
    destruct (strip l k) as [k'|] eqn:Es.
    + apply strip_some in Es. subst k. rewrite get_ext_long in E by (auto; lia). rewrite app_length in *. apply hexl_app in Hk.
      destruct (IH L0 k' v H3 ltac:(tauto) ltac:(lia) ltac:(lia) E) as (j & Ej & Pj).
      exists (l ++ j). rewrite lk_ext_nseq, strip_app by assumption. split; [exact Ej|].
      intros Hp. destruct (Pj Hp) as [[r ->]|[r ->]]; [left|right]; exists r; symmetry; rewrite app_assoc; reflexivity.
    + apply strip_none in Es. destruct (compare_keys l k) as [->|y k' ->|x p' ->|q x p' y k' -> -> D].
      * exfalso. apply Es. exists []. rewrite app_nil_r. reflexivity.
      * exfalso. apply Es. exists (y :: k'). reflexivity.
      * rewrite app_length in Le. cbn [length] in Le. lia.
      * rewrite get_ext_div in E by auto. discriminate.
  - rewrite get_leaf in E by (assumption || lia).
    destruct (Nat.leb _ _) eqn:Hm; [|discriminate]. injection E as <-. apply identical_prefix in Hm.
    exists l. rewrite lk_leaf_nseq, key_eqb_refl by assumption. auto.
Qed.

(** Lookup never panics in Release, and in Debug only if a longer key is stored. *)
Lemma get_panic pr t : forall L k,
  wf L t -> shape t -> hexl k -> (length k <= 127)%nat -> (L <= 127)%nat -> trie_get pr t (enc k) = Panic ->
  pr = Debug /\ exists j, stored t j /\ (length k < length j)%nat.
Proof.
  induction t as [|h|ch w IH|n c IH|n w] using node_ind'; intros L k W Sh Hk Lk HL E;
    inversion W; subst.
  - discriminate.
  - discriminate.
  - destruct k as [|d k]; [discriminate|]. inversion Sh; subst.
    rewrite get_branch_cons in E by (auto; lia).
    destruct (child_in ch d) as [Ec|I]; [rewrite Ec in E; discriminate|].
    rewrite Forall_forall in *. cbn [length] in Lk.
    destruct (IH _ I L0 k (H3 _ I) ltac:(auto) ltac:(inversion Hk; assumption) ltac:(lia) ltac:(lia) E) as (Hp & j & Sj & Lj).
    split; [exact Hp|]. exists (d :: j). unfold stored in *. rewrite lk_branch. split; [exact Sj|]. cbn [length]. lia.
  - inversion Sh as [| | |? ? Hn B Sc|]; subst.
    destruct (le_lt_dec (length l) (length k)) as [Le|Lt].
    + destruct (strip l k) as [k'|] eqn:Es.
      * apply strip_some in Es. subst k. rewrite get_ext_long in E by (auto; lia). rewrite app_length in *. apply hexl_app in Hk.
        destruct (IH L0 k' H3 Sc ltac:(tauto) ltac:(lia) ltac:(lia) E) as (Hp & j & Sj & Lj).
        split; [exact Hp|]. exists (l ++ j). unfold stored in *. rewrite lk_ext_nseq, strip_app by assumption.
        split; [exact Sj|]. rewrite app_length. lia.
      * apply strip_none in Es. destruct (compare_keys l k) as [->|y k' ->|x p' ->|q x p' y k' -> -> D].
        -- exfalso. apply Es. exists []. rewrite app_nil_r. reflexivity.
        -- exfalso. apply Es. exists (y :: k'). reflexivity.
        -- rewrite app_length in Le. cbn [length] in Le. lia.
        -- rewrite get_ext_div in E by auto. discriminate.
    + destruct pr.
      * split; [reflexivity|]. destruct (shape_stored c Sc) as (j & Hj); [intros ->; exact B|].
        exists (l ++ j). unfold stored. rewrite lk_ext_nseq, strip_app by assumption. split; [exact Hj|]. rewrite app_length. lia.
      * rewrite get_ext_short_release in E by (assumption || lia). destruct (key_eqb _ _); [|discriminate].
        destruct (IH L0 [] H3 Sc ltac:(constructor) ltac:(cbn; lia) ltac:(lia) E) as (Hp & _). discriminate.
  - rewrite get_leaf in E by (assumption || lia). discriminate.
Qed.
