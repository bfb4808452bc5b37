(** Canonical tries are determined by their contents; structural conditions in terms of the stored keys. *)
From Verif Require Import Base Nibbles NibblesSpec NibblesFacts NibblesFacts2 NibblesFacts3 Trie TrieSpec TrieFacts TrieInsert TrieGet TrieDelete.
Open Scope N_scope.

Lemma occ_two_ex ch : length ch = 16%nat -> (2 <= occ ch)%nat ->
  exists d e, d < 16 /\ e < 16 /\ d <> e /\ child ch d <> Empty /\ child ch e <> Empty.
Proof.
  intros L O. destruct (occ_ex ch ltac:(lia)) as (c & Ic & NEc). destruct (in_child_ex _ _ Ic) as (d & Hd & Ed). rewrite L in Hd.
  assert (Hd' : d < 16) by lia. assert (NEd : child ch d <> Empty) by congruence.
  pose proof (occ_set_empty ch (N.to_nat d) ltac:(lia) NEd) as O1.
  destruct (occ_ex (set_child ch (N.to_nat d) Empty) ltac:(lia)) as (c2 & Ic2 & NEc2).
  destruct (in_child_ex _ _ Ic2) as (e & He & Ee). rewrite set_child_length, L in He.
  rewrite child_set in Ee by assumption. destruct (N.eqb_spec e d); [congruence|].
  exists d, e. repeat split; congruence || lia.
Qed.

Lemma occ_three ch d e f : length ch = 16%nat -> d < 16 -> e < 16 -> f < 16 -> d <> e -> d <> f -> e <> f ->
  child ch d <> Empty -> child ch e <> Empty -> child ch f <> Empty -> (3 <= occ ch)%nat.
Proof.
  intros L Hd He Hf D1 D2 D3 Ed Ee Ef. destruct (occ_two ch d e L Hd He D1 Ed Ee) as [O1 O2].
  destruct (Nat.eq_dec (occ ch) 2) as [E|]; [|lia]. specialize (O2 E f ltac:(congruence) ltac:(congruence)). congruence.
Qed.

(** The stored keys of a canonical branch have no common first nibble. *)
Lemma branch_div L ch w : wf L (Branch ch w) -> canon (Branch ch w) ->
  exists k1 k2, stored (Branch ch w) k1 /\ stored (Branch ch w) k2 /\ k1 <> k2 /\ lcp k1 k2 = 0%nat.
Proof.
  intros W C. inversion W; subst. inversion C as [| |? ? FC O| |]; subst. rewrite occupied_occ in O.
  assert (St : forall d, child ch d <> Empty -> exists k, stored (Branch ch w) (d :: k)).
  { intros d NE. destruct (shape_stored (child ch d)) as (k & Hk); [apply canon_shape; apply Forall_child; [constructor|exact FC]|exact NE|].
    exists k. unfold stored in *. rewrite lk_branch. exact Hk. }
  destruct (le_lt_dec 2 (occ ch)) as [O2|O2].
  - destruct (occ_two_ex ch ltac:(assumption) O2) as (d & e & _ & _ & D & NEd & NEe).
    destruct (St d NEd) as (k1 & H1). destruct (St e NEe) as (k2 & H2').
    exists (d :: k1), (e :: k2). repeat split; auto; [congruence|]. cbn [lcp]. destruct (N.eqb_spec d e); congruence.
  - destruct w as [|b w]; [lia|]. destruct (occ_ex ch ltac:(lia)) as (c & Ic & NEc). destruct (in_child_ex _ _ Ic) as (d & Hd & Ed).
    destruct (St d ltac:(congruence)) as (k1 & H1'). exists [], (d :: k1). repeat split; auto; [|discriminate].
    unfold stored. cbn. congruence.
Qed.

Lemma stored_ext_inv p c k : hexl p -> stored (Extension (enc p) c) k -> exists k', k = p ++ k' /\ stored c k'.
Proof.
  intros H S. unfold stored in S. rewrite lk_ext_nseq in S by exact H. destruct (strip p k) as [k'|] eqn:E; [|congruence].
  apply strip_some in E. exists k'. auto.
Qed.

Lemma stored_leaf_inv p w k : hexl p -> stored (Leaf (enc p) w) k -> k = p.
Proof. intros H S. unfold stored in S. rewrite lk_leaf_nseq in S by exact H. destruct (key_eqb_spec p k); congruence. Qed.

Lemma stored_hash_inv h k : stored (Hash h) k -> k = [].
Proof. unfold stored. cbn. destruct k; congruence. Qed.

Lemma stored_ext p c k : hexl p -> stored c k -> stored (Extension (enc p) c) (p ++ k).
Proof. intros H S. unfold stored. rewrite lk_ext_nseq, strip_app by exact H. exact S. Qed.

Lemma not_stored_empty k : ~ stored Empty k.
Proof. intros H. apply H. reflexivity. Qed.

Lemma lcp_app_pos p a b : p <> [] -> lcp (p ++ a) (p ++ b) <> 0%nat.
Proof. intros H. rewrite lcp_app. destruct p; [congruence|]. cbn [length]. lia. Qed.

Lemma canon_unique t : forall L t',
  wf L t -> wf L t' -> canon t -> canon t' -> (forall k, lk t k = lk t' k) -> t = t'.
Proof.
  assert (Two : forall L ch w t', wf L (Branch ch w) -> canon (Branch ch w) -> (forall k, lk (Branch ch w) k = lk t' k) ->
     exists k1 k2, stored t' k1 /\ stored t' k2 /\ k1 <> k2 /\ lcp k1 k2 = 0%nat).
  { intros L ch w t' W C E. destruct (branch_div L ch w W C) as (k1 & k2 & S1 & S2 & H). exists k1, k2.
    unfold stored in *. rewrite <- !E. auto. }
  assert (NotBr : forall L ch w t', wf L (Branch ch w) -> canon (Branch ch w) -> wf L t' -> canon t' ->
     (forall k, lk (Branch ch w) k = lk t' k) -> is_branch t').
  { intros L ch w t' W C W' C' E. destruct (Two L ch w t' W C E) as (k1 & k2 & S1 & S2 & N12 & Z).
    destruct t' as [|h|ch' w'|n c|n w'].
    - exfalso. apply (not_stored_empty _ S1).
    - apply stored_hash_inv in S1. apply stored_hash_inv in S2. congruence.
    - exact I.
    - inversion W'; subst. inversion C' as [| | |? ? Hn _ _|]; subst. rewrite nseq_enc in Hn by assumption.
      destruct (stored_ext_inv _ _ _ ltac:(eassumption) S1) as (k1' & -> & _).
      destruct (stored_ext_inv _ _ _ ltac:(eassumption) S2) as (k2' & -> & _).
      exfalso. revert Z. apply lcp_app_pos. exact Hn.
    - inversion W'; subst. apply stored_leaf_inv in S1; [|assumption]. apply stored_leaf_inv in S2; [|assumption]. congruence. }
  induction t as [|h|ch w IH|n c IH|n w] using node_ind'; intros L t' W W' C C' E.
  - destruct t'; [reflexivity|..];
      (destruct (shape_stored _ (canon_shape _ C')) as (k & Hk); [congruence|]; exfalso; apply Hk; rewrite <- E; reflexivity).
  - destruct t' as [|h'|ch' w'|n' c'|n' w'].
    + specialize (E []). discriminate.
    + specialize (E []). cbn in E. congruence.
    + destruct (NotBr L ch' w' (Hash h) W' C' W C (fun k => eq_sym (E k))).
    + inversion W'; subst. inversion C' as [| | |? ? Hn _ _|]; subst. rewrite nseq_enc in Hn by assumption.
      specialize (E []). rewrite lk_ext_nseq in E by assumption. destruct l; [congruence|discriminate].
    + specialize (E []). cbn in E. destruct (key_eqb _ _); discriminate.
  - pose proof (NotBr L ch w t' W C W' C' E) as B. destruct t' as [| |ch' w'| |]; try contradiction.
    inversion W; subst. inversion W'; subst. inversion C; subst. inversion C'; subst. f_equal.
    + apply children_ext; [assumption..|]. intros d Hd.
      assert (Ed : forall k, lk (child ch d) k = lk (child ch' d) k) by (intros k; rewrite <- !(lk_branch _ w), E, !lk_branch; reflexivity).
      assert (Cc : canon (child ch d)) by (apply Forall_child; [constructor|assumption]).
      assert (Cc' : canon (child ch' d)) by (apply Forall_child; [constructor|assumption]).
      destruct (child_in ch d) as [E0|I0].
      * rewrite E0 in *. destruct (child ch' d) eqn:Ec; [reflexivity|..];
          (destruct (shape_stored _ (canon_shape _ Cc')) as (k & Hk); [congruence|]; exfalso; apply Hk; rewrite <- Ed; reflexivity).
      * rewrite Forall_forall in IH. apply (IH _ I0 L0); auto; apply Forall_child; constructor || assumption.
    + specialize (E []). cbn in E. destruct w, w'; congruence.
  - inversion W as [| | |L0 p c0 Hp Wc|]; subst. inversion C as [| | |? ? Hn B Cc|]; subst. rewrite nseq_enc in Hn by assumption.
    assert (NEc : c <> Empty) by (intros ->; exact B).
    destruct (shape_stored _ (canon_shape _ Cc) NEc) as (k0 & Hk0).
    destruct t' as [|h'|ch' w'|n' c'|n' w'].
    + exfalso. apply (stored_ext p _ _ Hp) in Hk0. apply Hk0. rewrite E. reflexivity.
    + specialize (E []). rewrite lk_ext_nseq in E by assumption. destruct p; [congruence|discriminate].
    + destruct (NotBr _ ch' w' _ W' C' W C (fun k => eq_sym (E k))).
    + inversion W' as [| | |L1 q c1 Hq Wc'|]; subst. inversion C' as [| | |? ? Hn' B' Cc'|]; subst. rewrite nseq_enc in Hn' by assumption.
      (* the two extensions have the same nibbles *)
      assert (Aux : forall a b La Lb ca cb, hexl a -> hexl b -> wf La ca -> wf Lb cb -> canon ca -> canon cb -> branch_or_hash ca -> branch_or_hash cb ->
                (forall k, lk (Extension (enc a) ca) k = lk (Extension (enc b) cb) k) -> forall x r, b <> a ++ x :: r).
      { intros a b La Lb ca cb Ha Hb Wa Wb Ca Cb Ba Bb Eab x r ->.
        destruct ca as [|ha|cha wa| |]; try contradiction.
        - specialize (Eab (a ++ [])). rewrite lk_ext_nseq, strip_app in Eab by assumption.
          rewrite lk_ext_nseq, app_nil_r, strip_strict in Eab by assumption. discriminate.
        - destruct (branch_div _ _ _ Wa Ca) as (k1 & k2 & S1 & S2 & N12 & Z).
          assert (T : forall k, stored (Branch cha wa) k -> exists k', k = x :: k').
          { intros k Sk. apply (stored_ext a) in Sk; [|assumption]. unfold stored in Sk. rewrite Eab in Sk.
            destruct (stored_ext_inv _ _ _ Hb Sk) as (k' & Ek & _). rewrite <- app_assoc in Ek. apply app_inv_head in Ek.
            exists (r ++ k'). exact Ek. }
          destruct (T k1 S1) as (k1' & ->). destruct (T k2 S2) as (k2' & ->). cbn [lcp] in Z. rewrite N.eqb_refl in Z. discriminate. }
      assert (Epq : p = q).
      { destruct (compare_keys p q) as [Q|x r Q|x r Q|m x r y s Q1 Q2 D]; [exact Q|exfalso..].
        - revert Q. apply (Aux p q L0 L1 c c'); assumption.
        - revert Q. apply (Aux q p L1 L0 c' c); auto.
        - apply (stored_ext p _ _ Hp) in Hk0. unfold stored in Hk0. rewrite E in Hk0.
          destruct (stored_ext_inv _ _ _ Hq Hk0) as (k' & Ek & _). subst p q. rewrite <- !app_assoc in Ek.
          apply app_inv_head in Ek. cbn [app] in Ek. congruence. }
      subst q. f_equal. apply (IH L0 c'); auto.
      * replace L0 with L1 by lia. assumption.
      * intros k. specialize (E (p ++ k)). rewrite !lk_ext_nseq, strip_app in E by assumption. exact E.
    + inversion W' as [| | | |L1 q v1 Hq Lq]; subst.
      destruct c as [|hc|chc wc| |]; try contradiction.
      * specialize (E (p ++ [])). rewrite lk_ext_nseq, strip_app in E by assumption. cbn in E. destruct (key_eqb _ _); discriminate.
      * destruct (branch_div _ _ _ Wc Cc) as (k1 & k2 & S1 & S2 & N12 & Z). exfalso.
        apply (stored_ext p _ _ Hp) in S1. apply (stored_ext p _ _ Hp) in S2. unfold stored in S1, S2. rewrite E in S1, S2.
        apply (stored_leaf_inv _ _ _ Hq) in S1. apply (stored_leaf_inv _ _ _ Hq) in S2. apply N12. apply (app_inv_head p). congruence.
  - inversion W as [| | | |L0 p v0 Hp Lp]; subst.
    destruct t' as [|h'|ch' w'|n' c'|n' w'].
    + specialize (E p). rewrite lk_leaf_nseq, key_eqb_refl in E by assumption. discriminate.
    + specialize (E []). cbn in E. destruct (key_eqb _ _); discriminate.
    + destruct (NotBr _ ch' w' _ W' C' W C (fun k => eq_sym (E k))).
    + inversion W' as [| | |L1 q c1 Hq Wc'|]; subst. inversion C' as [| | |? ? Hn' B' Cc'|]; subst.
      destruct c' as [|hc|chc wc| |]; try contradiction.
      * specialize (E (q ++ [])). rewrite lk_ext_nseq, strip_app in E by assumption. cbn in E. destruct (key_eqb _ _); discriminate.
      * destruct (branch_div _ _ _ Wc' Cc') as (k1 & k2 & S1 & S2 & N12 & Z). exfalso.
        apply (stored_ext q _ _ Hq) in S1. apply (stored_ext q _ _ Hq) in S2. unfold stored in S1, S2. rewrite <- E in S1, S2.
        apply (stored_leaf_inv _ _ _ Hp) in S1. apply (stored_leaf_inv _ _ _ Hp) in S2. apply N12. apply (app_inv_head q). congruence.
    + inversion W' as [| | | |L1 q v1 Hq Lq]; subst. specialize (E p).
      rewrite !lk_leaf_nseq, key_eqb_refl in E by assumption. destruct (key_eqb_spec q p); [|discriminate]. congruence.
Qed.

(** ** The effective key in terms of the stored keys *)
Lemma eff_self_aux t : forall L k, wf L t -> shape t ->
  stored t k \/ (forall j, stored t j -> ~ strict_prefix k j) \/
  (exists x y r s, x <> y /\ stored t (k ++ x :: r) /\ stored t (k ++ y :: s)) \/
  (canon t /\ exists k1 v, is_prefix k k1 /\ lk t k1 = Some (Val v) /\ forall j, stored t j -> is_prefix k j -> j = k1) ->
  eff t k = k.
Proof.
  induction t as [|h|ch w IH|n c IH|n w] using node_ind'; intros L k W Sh H; try reflexivity.
  - destruct k as [|d k]; [reflexivity|]. rewrite eff_branch. f_equal.
    inversion W as [| |L0 ? ? Hl F| |]; subst. inversion Sh as [| |? ? FS X| |]; subst.
    destruct (child_in ch d) as [E0|I0]; [rewrite E0; reflexivity|].
    rewrite Forall_forall in IH, F, FS. apply (IH _ I0 L0); auto.
    destruct H as [H|[H|[(x & y & r & s & D & H1 & H2)|(C & k1 & v & [r ->] & H1 & H2)]]].
    + left. unfold stored in *. rewrite lk_branch in H. exact H.
    + right. left. intros j Sj (x & r & ->). apply (H (d :: k ++ x :: r)); [|exists x, r; reflexivity].
      unfold stored. rewrite lk_branch. exact Sj.
    + right. right. left. exists x, y, r, s. unfold stored in *. cbn [app] in *. rewrite lk_branch in H1, H2. auto.
    + right. right. right. split; [inversion C; subst; apply Forall_child; [constructor|assumption]|].
      cbn [app] in H1. rewrite lk_branch in H1. exists (k ++ r), v. split; [exists r; reflexivity|]. split; [exact H1|].
      intros j Sj [r' ->]. assert (d :: k ++ r' = (d :: k) ++ r); [|cbn [app] in *; congruence].
      apply H2; [unfold stored; rewrite lk_branch; exact Sj|exists r'; reflexivity].
  - inversion W as [| | |L0 p c0 Hp Wc|]; subst. inversion Sh as [| | |? ? Hn B Sc|]; subst.
    assert (NEc : c <> Empty) by (intros ->; exact B).
    destruct (shape_stored c Sc NEc) as (k0 & Hk0). pose proof (stored_ext p c k0 Hp Hk0) as Sk0.
    cbn [eff]. rewrite nseq_enc by exact Hp.
    destruct (strip p k) as [k'|] eqn:Es.
    + apply strip_some in Es. subst k. f_equal. apply (IH L0); auto.
      assert (Tr : forall j, stored (Extension (enc p) c) (p ++ j) <-> stored c j).
      { intros j. unfold stored. rewrite lk_ext_nseq, strip_app by exact Hp. reflexivity. }
      destruct H as [H|[H|[(x & y & r & s & D & H1 & H2)|(C & k1 & v & [r ->] & H1 & H2)]]].
      * left. apply Tr, H.
      * right. left. intros j Sj (x & r & ->). apply (H (p ++ k' ++ x :: r)); [apply Tr; exact Sj|exists x, r; apply app_assoc].
      * right. right. left. exists x, y, r, s. rewrite <- app_assoc in H1, H2. rewrite Tr in H1, H2. auto.
      * right. right. right. split; [inversion C; subst; assumption|].
        rewrite <- app_assoc, lk_ext_nseq, strip_app in H1 by exact Hp.
        exists (k' ++ r), v. split; [exists r; reflexivity|]. split; [exact H1|].
        intros j Sj [r' ->]. assert (p ++ k' ++ r' = (p ++ k') ++ r); [|rewrite <- app_assoc in *; apply (app_inv_head p); assumption].
        apply H2; [apply Tr; exact Sj|exists r'; apply app_assoc].
    + destruct (strip k p) as [r0|] eqn:Es'; [|reflexivity]. exfalso.
      apply strip_some in Es'. subst p.
      destruct r0 as [|x0 r0]; [rewrite app_nil_r in Es; rewrite <- (app_nil_r k) in Es at 2; rewrite strip_app in Es; discriminate|].
      destruct H as [H|[H|[(x & y & r & s & D & H1 & H2)|(C & k1 & v & [r ->] & H1 & H2)]]].
      * destruct (stored_ext_inv _ _ _ Hp H) as (j & Ej & _). apply (f_equal (@length N)) in Ej.
        rewrite !app_length in Ej. cbn [length] in Ej. lia.
      * apply (H _ Sk0). exists x0, (r0 ++ k0). rewrite <- app_assoc. reflexivity.
      * destruct (stored_ext_inv _ _ _ Hp H1) as (j1 & E1 & _). destruct (stored_ext_inv _ _ _ Hp H2) as (j2 & E2 & _).
        rewrite <- app_assoc in E1, E2. apply app_inv_head in E1. apply app_inv_head in E2. cbn [app] in E1, E2. congruence.
      * destruct c as [|hc|chc wc| |]; try contradiction.
        -- rewrite lk_ext_nseq in H1 by exact Hp. destruct (strip (k ++ x0 :: r0) (k ++ r)) as [[|? ?]|]; discriminate.
        -- inversion C as [| | |? ? _ _ Cc|]; subst.
           destruct (branch_div _ _ _ Wc Cc) as (k1 & k2 & S1 & S2 & N12 & _).
           apply (stored_ext _ _ _ Hp) in S1. apply (stored_ext _ _ _ Hp) in S2.
           apply N12. apply (app_inv_head (k ++ x0 :: r0)). rewrite (H2 _ S1), (H2 _ S2); [reflexivity|..].
           ++ exists ((x0 :: r0) ++ k2). rewrite <- app_assoc. reflexivity.
           ++ exists ((x0 :: r0) ++ k1). rewrite <- app_assoc. reflexivity.
Qed.

(** If the effective key differs then the key ends inside an extension. *)
Lemma eff_prefix t k : is_prefix k (eff t k).
Proof.
  revert k. induction t as [|h|ch w IH|n c IH|n w] using node_ind'; intros k; try (exists []; rewrite app_nil_r; reflexivity).
  - destruct k as [|d k]; [exists []; reflexivity|]. rewrite eff_branch.
    destruct (child_in ch d) as [E0|I0]; [rewrite E0; exists []; cbn; rewrite app_nil_r; reflexivity|].
    rewrite Forall_forall in IH. destruct (IH _ I0 k) as [r E]. exists r. rewrite E. reflexivity.
  - cbn [eff]. destruct (strip (nseq n) k) as [k'|] eqn:Es.
    + apply strip_some in Es. subst k. destruct (IH k') as [r E]. exists r. rewrite E. apply app_assoc.
    + destruct (strip k (nseq n)) as [r|] eqn:Es'; [|exists []; rewrite app_nil_r; reflexivity].
      apply strip_some in Es'. exists r. exact Es'.
Qed.

(** ** Safe deletions in terms of the stored keys *)
Lemma safe_delete_obs t : forall L k v, wf L t -> canon t -> lk t k = Some (Val v) ->
  (forall p d s, k = p ++ d :: s -> stored t p ->
     (exists k', k' <> k /\ stored t k' /\ is_prefix (p ++ [d]) k') \/
     (exists d1 d2 r1 r2, d1 <> d2 /\ d1 <> d /\ d2 <> d /\ stored t (p ++ d1 :: r1) /\ stored t (p ++ d2 :: r2))) ->
  safe_delete t k.
Proof.
  induction t as [|h|ch w IH|n c IH|n w] using node_ind'; intros L k v W C E H; try exact I.
  - destruct k as [|d k]; [exact I|]. inversion W as [| |L0 ? ? Hl F| |]; subst. inversion C as [| |? ? FC O| |]; subst.
    assert (Hd : d < 16) by (destruct (stored_wf _ _ (d :: k) W ltac:(unfold stored; congruence)) as [_ Hx]; inversion Hx; assumption).
    assert (Tr : forall e j, stored (Branch ch w) (e :: j) <-> stored (child ch e) j) by (intros e j; unfold stored; rewrite lk_branch; reflexivity).
    rewrite lk_branch in E.
    assert (Rec : safe_delete (child ch d) k).
    { destruct (child_in ch d) as [E0|I0]; [rewrite E0; exact I|].
      rewrite Forall_forall in IH, F, FC. apply (IH _ I0 L0 k v); auto.
      intros p e s -> Sp. destruct (H (d :: p) e s eq_refl) as [(k' & N' & S' & [r ->])|(d1 & d2 & r1 & r2 & D1 & D2 & D3 & S1 & S2)].
      - rewrite Tr. exact Sp.
      - left. exists ((p ++ [e]) ++ r). split; [|split; [|exists r; reflexivity]].
        + intros Q. apply N'. cbn [app] in *. rewrite Q. reflexivity.
        + cbn [app] in S'. rewrite Tr in S'. exact S'.
      - right. exists d1, d2, r1, r2. cbn [app] in S1, S2. rewrite Tr in S1, S2. auto. }
    rewrite safe_branch. destruct (child ch d) as [| | | |n u] eqn:Ec; try exact Rec. intros En.
    rewrite occupied_occ in O. destruct w as [|b w]; [destruct (le_lt_dec 3 (occ ch)); [left; assumption|right; split; [lia|reflexivity]]|].
    left. destruct (H [] d k eq_refl) as [(k' & N' & S' & [r ->])|(d1 & d2 & r1 & r2 & D1 & D2 & D3 & S1 & S2)].
    + unfold stored. cbn. congruence.
    + exfalso. cbn [app] in S', N'. rewrite Tr, Ec in S'. unfold stored in S'. cbn [lk] in S'.
      destruct (key_eqb_spec (nseq n) r); congruence.
    + cbn [app] in S1, S2.
      assert (L1 : d1 < 16) by (destruct (stored_wf _ _ _ W S1) as [_ Hx]; inversion Hx; assumption).
      assert (L2 : d2 < 16) by (destruct (stored_wf _ _ _ W S2) as [_ Hx]; inversion Hx; assumption).
      rewrite Tr in S1, S2.
      apply (occ_three ch d d1 d2); auto; try congruence; intros Q; rewrite Q in *; eapply not_stored_empty; eassumption.
  - inversion W as [| | |L0 p c0 Hp Wc|]; subst. inversion C as [| | |? ? Hn B Cc|]; subst.
    cbn [safe_delete]. rewrite lk_ext_nseq in E by exact Hp. rewrite nseq_enc by exact Hp.
    destruct (strip p k) as [k'|] eqn:Es; [|exact I]. apply strip_some in Es. subst k.
    assert (Tr : forall j, stored (Extension (enc p) c) (p ++ j) <-> stored c j).
    { intros j. unfold stored. rewrite lk_ext_nseq, strip_app by exact Hp. reflexivity. }
    apply (IH L0 k' v); auto. intros q d s -> Sq.
    destruct (H (p ++ q) d s (app_assoc _ _ _)) as [(k0 & N' & S' & [r ->])|(d1 & d2 & r1 & r2 & D1 & D2 & D3 & S1 & S2)].
    + rewrite Tr. exact Sq.
    + left. exists ((q ++ [d]) ++ r). rewrite <- !app_assoc in *. split; [|split; [|exists r; rewrite <- app_assoc; reflexivity]].
      * intros Q. apply N'. rewrite Q. reflexivity.
      * rewrite Tr in S'. exact S'.
    + right. exists d1, d2, r1, r2. rewrite <- app_assoc in S1, S2. rewrite Tr in S1, S2. auto.
Qed.

Lemma keeps_canon_obs t : forall L k, wf L t -> shape t -> stored t k ->
  (forall j, stored t j -> ~ strict_prefix k j) \/
  (exists x y r s, x <> y /\ stored t (k ++ x :: r) /\ stored t (k ++ y :: s)) ->
  keeps_canon t k.
Proof.
  induction t as [|h|ch w IH|n c IH|n w] using node_ind'; intros L k W Sh St H; try exact I.
  - inversion W as [| |L0 ? ? Hl F| |]; subst. inversion Sh as [| |? ? FS X| |]; subst.
    assert (Tr : forall e j, stored (Branch ch w) (e :: j) <-> stored (child ch e) j) by (intros e j; unfold stored; rewrite lk_branch; reflexivity).
    destruct k as [|d k].
    + cbn [keeps_canon]. rewrite occupied_nil. destruct H as [H|(x & y & r & s & D & H1 & H2)].
      * exfalso. destruct X as (c & Ic & NEc). destruct (in_child_ex _ _ Ic) as (d & _ & Ed).
        rewrite Forall_forall in FS. destruct (shape_stored c (FS c Ic) NEc) as (j & Hj).
        apply (H (d :: j)); [apply Tr; rewrite Ed; exact Hj|exists d, j; reflexivity].
      * cbn [app] in H1, H2.
        assert (L1 : x < 16) by (destruct (stored_wf _ _ _ W H1) as [_ Hx]; inversion Hx; assumption).
        assert (L2 : y < 16) by (destruct (stored_wf _ _ _ W H2) as [_ Hx]; inversion Hx; assumption).
        rewrite Tr in H1, H2.
        apply (occ_two ch x y); auto; intros Q; rewrite Q in *; eapply not_stored_empty; eassumption.
    + rewrite keeps_branch. rewrite Tr in St.
      destruct (child_in ch d) as [E0|I0]; [rewrite E0; exact I|].
      rewrite Forall_forall in IH, F, FS. apply (IH _ I0 L0 k); auto.
      destruct H as [H|(x & y & r & s & D & H1 & H2)].
      * left. intros j Sj (x & r & ->). apply (H (d :: k ++ x :: r)); [apply Tr; exact Sj|exists x, r; reflexivity].
      * right. exists x, y, r, s. cbn [app] in H1, H2. rewrite Tr in H1, H2. auto.
  - inversion W as [| | |L0 p c0 Hp Wc|]; subst. inversion Sh as [| | |? ? Hn B Sc|]; subst.
    destruct (stored_ext_inv _ _ _ Hp St) as (k' & -> & St').
    assert (Tr : forall j, stored (Extension (enc p) c) (p ++ j) <-> stored c j).
    { intros j. unfold stored. rewrite lk_ext_nseq, strip_app by exact Hp. reflexivity. }
    cbn [keeps_canon]. rewrite nseq_enc, strip_app by exact Hp. apply (IH L0); auto.
    destruct H as [H|(x & y & r & s & D & H1 & H2)].
    * left. intros j Sj (x & r & ->). apply (H (p ++ k' ++ x :: r)); [apply Tr; exact Sj|exists x, r; apply app_assoc].
    * right. exists x, y, r, s. rewrite <- app_assoc in H1, H2. rewrite Tr in H1, H2. auto.
Qed.
