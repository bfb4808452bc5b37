(** What the operations do in canonical tries, in terms of the stored keys only. *)
From Verif Require Import Base Nibbles NibblesSpec NibblesFacts NibblesFacts2 NibblesFacts3 Trie TrieSpec TrieHistSpec TrieFacts TrieInsert TrieGet TrieDelete TrieUnique TrieIter TrieHist.
Open Scope N_scope.

Lemma stored_branch ch w e j : stored (Branch ch w) (e :: j) <-> stored (child ch e) j.
Proof. unfold stored. rewrite lk_branch. reflexivity. Qed.

Lemma stored_in_ext p c j : hexl p -> stored (Extension (enc p) c) (p ++ j) <-> stored c j.
Proof. intros H. unfold stored. rewrite lk_in_ext by exact H. reflexivity. Qed.

Lemma strict_app p a b : strict_prefix (p ++ a) (p ++ b) <-> strict_prefix a b.
Proof.
  split; [|apply strict_prefix_app]. intros (x & r & E). rewrite <- app_assoc in E. apply app_inv_head in E. exists x, r. exact E.
Qed.
Lemma strict_cons d a b : strict_prefix (d :: a) (d :: b) <-> strict_prefix a b.
Proof. apply (strict_app [d]). Qed.
Lemma strict_cons_inv d a b : strict_prefix (d :: a) b -> exists b', b = d :: b' /\ strict_prefix a b'.
Proof. intros (x & r & ->). exists (a ++ x :: r). split; [reflexivity|exists x, r; reflexivity]. Qed.
Lemma strict_app_inv p a b : strict_prefix (p ++ a) b -> exists b', b = p ++ b' /\ strict_prefix a b'.
Proof. intros (x & r & ->). exists (a ++ x :: r). split; [symmetry; apply app_assoc|exists x, r; reflexivity]. Qed.
Lemma prefix_cons d a b : is_prefix (d :: a) (d :: b) <-> is_prefix a b.
Proof. split; intros [r E]; exists r; [cbn in E; congruence|cbn; congruence]. Qed.
Lemma prefix_app p a b : is_prefix (p ++ a) (p ++ b) <-> is_prefix a b.
Proof. split; intros [r E]; exists r; [rewrite <- app_assoc in E; apply app_inv_head in E; exact E|rewrite <- app_assoc; congruence]. Qed.
Lemma prefix_app_inv p a b : is_prefix (p ++ a) b -> exists b', b = p ++ b' /\ is_prefix a b'.
Proof. intros [r ->]. exists (a ++ r). split; [symmetry; apply app_assoc|exists r; reflexivity]. Qed.
Lemma prefix_cons_inv d a b : is_prefix (d :: a) b -> exists b', b = d :: b' /\ is_prefix a b'.
Proof. apply (prefix_app_inv [d]). Qed.
Lemma strict_is_prefix a b : strict_prefix a b -> is_prefix a b.
Proof. intros (x & r & ->). exists (x :: r). reflexivity. Qed.
Lemma prefix_nil a : is_prefix [] a.
Proof. exists a. reflexivity. Qed.
Lemma prefix_refl (a : list N) : is_prefix a a.
Proof. exists []. rewrite app_nil_r. reflexivity. Qed.

(** In a canonical branch no key is the only stored one. *)
Lemma branch_two L ch w j : wf L (Branch ch w) -> canon (Branch ch w) ->
  ~ (forall i, stored (Branch ch w) i -> i = j).
Proof. intros W C H. destruct (branch_div L ch w W C) as (a & b & Sa & Sb & D & _). apply H in Sa. apply H in Sb. congruence. Qed.

(** ** Lookup, Debug *)
Lemma get_debug_some t : forall L k v, wf L t -> (L <= 127)%nat -> hexl k -> (length k <= 127)%nat ->
  trie_get Debug t (enc k) = Ok (Some v) -> canon t -> finds t k v.
Proof.
  unfold finds.
  induction t as [|h|ch w IH|n c IH|n w] using node_ind'; intros L k v W HL Hk Lk E C.
  - discriminate.
  - discriminate.
  - destruct k as [|d k].
    + rewrite get_branch_nil in E. left. cbn. destruct w; congruence.
    + inversion W as [| |L0 ? ? Hl F| |]; subst. inversion C as [| |? ? FC O| |]; subst.
      rewrite get_branch_cons in E by (auto; lia). rewrite lk_branch.
      destruct (child_in ch d) as [E0|I0]; [rewrite E0 in E; discriminate|].
      rewrite Forall_forall in IH, F, FC. cbn [length] in Lk.
      destruct (IH _ I0 L0 k v (F _ I0) ltac:(lia) ltac:(inversion Hk; assumption) ltac:(lia) E (FC _ I0)) as [G|[(j & G1 & G2 & G3)|(j & G1 & G2 & G3)]].
      * left. exact G.
      * right. left. exists (d :: j). rewrite lk_branch, strict_cons. split; [exact G1|]. split; [exact G2|].
        intros i Si Pi. apply strict_cons_inv in Pi. destruct Pi as (i' & -> & Pi). apply stored_branch in Si. exact (G3 i' Si Pi).
      * right. right. exists (d :: j). rewrite lk_branch, strict_cons. split; [exact G1|]. split; [exact G2|].
        intros i Si Pi. apply prefix_cons_inv in Pi. destruct Pi as (i' & -> & Pi). apply stored_branch in Si. f_equal. apply G3; assumption.
  - inversion W as [| | |L0 p c0 Hp Wc|]; subst. inversion C as [| | |? ? Hn B Cc|]; subst.
    destruct (le_lt_dec (length p) (length k)) as [Le|Lt]; [|rewrite get_ext_short_debug in E by exact Lt; discriminate].
    destruct (compare_keys p k) as [Ek|y k' Ek|x p' Ek|q x p' y k' E1 E2 D].
    3: { exfalso. subst p. rewrite app_length in Le. cbn [length] in Le. lia. }
    3: { subst. rewrite get_ext_div in E by auto. discriminate. }
    1,2: (assert (exists k0, k = p ++ k0) as (k0 & ->) by (first [exists []; rewrite app_nil_r; congruence|eexists; exact Ek]); clear Ek;
      rewrite get_ext_long in E by auto; apply hexl_app in Hk; rewrite app_length in Lk;
      rewrite lk_in_ext by exact Hp;
      destruct (IH L0 k0 v Wc ltac:(lia) ltac:(tauto) ltac:(lia) E Cc) as [G|[(j & G1 & G2 & G3)|(j & G1 & G2 & G3)]];
      [left; exact G
      |right; left; exists (p ++ j); rewrite lk_in_ext, strict_app by exact Hp; split; [exact G1|]; split; [exact G2|];
       intros i Si Pi; apply strict_app_inv in Pi; destruct Pi as (i' & -> & Pi); apply stored_in_ext in Si; [|exact Hp]; exact (G3 i' Si Pi)
      |right; right; exists (p ++ j); rewrite lk_in_ext, strict_app by exact Hp; split; [exact G1|]; split; [exact G2|];
       intros i Si Pi; apply prefix_app_inv in Pi; destruct Pi as (i' & -> & Pi); apply stored_in_ext in Si; [|exact Hp]; f_equal; apply G3; assumption]).
  - inversion W as [| | | |L0 p w0 Hp Lp]; subst. rewrite get_leaf in E by (assumption || lia).
    destruct (Nat.leb _ _) eqn:Hm; [|discriminate]. injection E as <-. apply identical_prefix in Hm.
    assert (St : forall i, stored (Leaf (enc p) w) i -> i = p) by (intros i; apply stored_leaf_inv; exact Hp).
    destruct (compare_keys p k) as [Ek|y k' Ek|x p' Ek|q x p' y k' E1 E2 D].
    + left. subst. rewrite lk_leaf_nseq, key_eqb_refl by exact Hp. reflexivity.
    + right. left. exists p. rewrite lk_leaf_nseq, key_eqb_refl by exact Hp. split; [reflexivity|]. split; [exists y, k'; exact Ek|].
      intros i Si (x & r & ->). apply St in Si. apply (f_equal (@length N)) in Si. rewrite app_length in Si. cbn [length] in Si. lia.
    + right. right. exists p. rewrite lk_leaf_nseq, key_eqb_refl by exact Hp. split; [reflexivity|]. split; [exists x, p'; exact Ek|].
      intros i Si _. exact (St i Si).
    + exfalso. subst. destruct Hm as [[r Q]|[r Q]]; rewrite <- app_assoc in Q; apply app_inv_head in Q; cbn in Q; congruence.
Qed.

Lemma get_debug_finds pr t : forall L k v, wf L t -> (L <= 127)%nat -> hexl k -> (length k <= 127)%nat -> canon t ->
  finds t k v -> trie_get pr t (enc k) = Ok (Some v).
Proof.
  intros L k v W HL Hk Lk C [F|F]; [apply (get_found pr t L); assumption|].
  revert L k v W HL Hk Lk C F.
  induction t as [|h|ch w IH|n c IH|n w] using node_ind'; intros L k v W HL Hk Lk C H.
  - exfalso. destruct H as [(j & H & _)|(j & H & _)]; discriminate.
  - exfalso. destruct H as [(j & H & _)|(j & H & _)]; destruct j; discriminate.
  - inversion W as [| |L0 ? ? Hl F| |]; subst. inversion C as [| |? ? FC O| |]; subst. destruct k as [|d k].
    + exfalso. destruct H as [(j & _ & (x & r & H) & _)|(j & _ & _ & H)]; [destruct j; discriminate|].
      eapply branch_two; [exact W|exact C|]. intros i Si. apply (H i Si). apply prefix_nil.
    + cbn [length] in Lk. rewrite get_branch_cons by (auto; cbn [length]; lia).
      assert (Hk' : hexl k) by (inversion Hk; assumption).
      assert (In0 : stored (child ch d) [] \/ In (child ch d) ch \/ child ch d = Empty) by (destruct (child_in ch d); auto).
      rewrite Forall_forall in IH, F, FC.
      destruct H as [(j & G1 & G2 & G3)|(j & G1 & G2 & G3)].
      * destruct j as [|e j].
        { exfalso. destruct (shape_below _ ch w W (canon_shape _ C)) as (e & j & Sj). apply (G3 _ Sj). exists e, j. reflexivity. }
        destruct G2 as (x & r & G2). injection G2 as -> G2. rewrite lk_branch in G1.
        destruct (child_in ch e) as [E0|I0]; [rewrite E0 in G1; discriminate|].
        apply (IH _ I0 L0); auto; try lia. left. exists j. split; [exact G1|]. split; [exists x, r; exact G2|].
        intros i Si Pi. apply (G3 (e :: i)); [apply stored_branch; exact Si|apply strict_cons; exact Pi].
      * apply strict_cons_inv in G2. destruct G2 as (j' & -> & G2). rewrite lk_branch in G1.
        destruct (child_in ch d) as [E0|I0]; [rewrite E0 in G1; discriminate|].
        apply (IH _ I0 L0); auto; try lia. right. exists j'. split; [exact G1|]. split; [exact G2|].
        intros i Si Pi. assert (Q : d :: i = d :: j') by (apply G3; [apply stored_branch; exact Si|apply prefix_cons; exact Pi]). congruence.
  - inversion W as [| | |L0 p c0 Hp Wc|]; subst. inversion C as [| | |? ? Hn B Cc|]; subst.
    destruct H as [(j & G1 & G2 & G3)|(j & G1 & G2 & G3)].
    + destruct (stored_ext_inv p c j Hp ltac:(unfold stored; congruence)) as (j' & -> & _).
      apply strict_app_inv in G2. destruct G2 as (k' & -> & G2). rewrite lk_in_ext in G1 by exact Hp.
      rewrite get_ext_long by auto. apply hexl_app in Hk. rewrite app_length in Lk.
      apply (IH L0); auto; try lia; try tauto. left. exists j'. split; [exact G1|]. split; [exact G2|].
      intros i Si Pi. apply (G3 (p ++ i)); [apply stored_in_ext; assumption|apply strict_app; exact Pi].
    + destruct (stored_ext_inv p c j Hp ltac:(unfold stored; congruence)) as (j' & -> & _). rewrite lk_in_ext in G1 by exact Hp.
      destruct (strip p k) as [k'|] eqn:Es.
      * apply strip_some in Es. subst k. rewrite strict_app in G2. rewrite get_ext_long by auto. apply hexl_app in Hk. rewrite app_length in Lk.
        apply (IH L0); auto; try lia; try tauto. right. exists j'. split; [exact G1|]. split; [exact G2|].
        intros i Si Pi. apply (app_inv_head p). apply G3; [apply stored_in_ext; assumption|apply prefix_app; exact Pi].
      * exfalso. assert (Pk : is_prefix k p).
        { destruct (compare_keys p k) as [->|y k' ->|x p' ->|q x p' y k' -> -> D].
          - rewrite <- (app_nil_r k) in Es at 2. rewrite strip_app in Es. discriminate.
          - rewrite strip_app in Es. discriminate.
          - exists (x :: p'). reflexivity.
          - exfalso. destruct G2 as (z & r & G2). rewrite <- !app_assoc in G2. apply app_inv_head in G2. cbn in G2. congruence. }
        destruct c as [|h|ch w| |]; try contradiction.
        -- cbn in G1. destruct j'; discriminate.
        -- apply (branch_two L0 ch w j' Wc Cc). intros i Si. apply (app_inv_head p). apply G3; [apply stored_in_ext; assumption|].
           destruct Pk as [r ->]. exists (r ++ i). symmetry. apply app_assoc.
  - inversion W as [| | | |L0 p w0 Hp Lp]; subst.
    assert (Q : forall j, lk (Leaf (enc p) w) j = Some (Val v) -> j = p /\ w = v).
    { intros j. rewrite lk_leaf_nseq by exact Hp. destruct (key_eqb_spec p j); [|discriminate]. intros E. split; congruence. }
    rewrite get_leaf by (assumption || lia).
    assert (Hm : (Nat.min (length p) (length k) <=? lcp p k)%nat = true).
    { apply identical_prefix. destruct H as [(j & G1 & G2 & _)|(j & G1 & G2 & _)]; apply Q in G1; destruct G1 as [-> _];
        apply strict_is_prefix in G2; [left|right]; exact G2. }
    rewrite Hm. do 2 f_equal. destruct H as [(j & G1 & _)|(j & G1 & _)]; apply Q in G1; tauto.
Qed.

(** ** Where an insertion lands *)
Lemma eff_inside t : forall L k, wf L t -> shape t -> eff t k <> k ->
  strict_prefix k (eff t k) /\ ~ stored t k /\ (exists j, stored t j /\ is_prefix (eff t k) j) /\
  (forall j, stored t j -> is_prefix k j -> is_prefix (eff t k) j) /\
  (canon t -> (exists h, lk t (eff t k) = Some (HashV h)) \/
              (exists j1 j2, j1 <> j2 /\ stored t j1 /\ stored t j2 /\ is_prefix (eff t k) j1 /\ is_prefix (eff t k) j2)).
Proof.
  induction t as [|h|ch w IH|n c IH|n w] using node_ind'; intros L k W Sh NE; try (exfalso; apply NE; reflexivity).
  - destruct k as [|d k]; [exfalso; apply NE; reflexivity|]. rewrite eff_branch in *.
    inversion W as [| |L0 ? ? Hl F| |]; subst. inversion Sh as [| |? ? FS X| |]; subst.
    destruct (child_in ch d) as [E0|I0]; [exfalso; apply NE; rewrite E0; reflexivity|].
    rewrite Forall_forall in IH, F, FS.
    destruct (IH _ I0 L0 k (F _ I0) (FS _ I0) ltac:(congruence)) as (G1 & G2 & (j & Sj & Pj) & G4 & G5).
    split; [apply strict_cons; exact G1|]. split; [rewrite stored_branch; exact G2|].
    split; [exists (d :: j); rewrite stored_branch, prefix_cons; auto|]. split.
    + intros i Si Pi. apply prefix_cons_inv in Pi. destruct Pi as (i' & -> & Pi). rewrite stored_branch in Si. rewrite prefix_cons. auto.
    + intros C. inversion C as [| |? ? FC O| |]; subst. rewrite Forall_forall in FC.
      destruct (G5 (FC _ I0)) as [(h & G)|(j1 & j2 & D & S1 & S2 & P1 & P2)].
      * left. exists h. rewrite lk_branch. exact G.
      * right. exists (d :: j1), (d :: j2). rewrite !stored_branch, !prefix_cons. repeat split; auto. congruence.
  - inversion W as [| | |L0 p c0 Hp Wc|]; subst. inversion Sh as [| | |? ? Hn B Sc|]; subst.
    destruct (compare_keys p k) as [->|y k' ->|x p' ->|q x p' y k' -> -> D].
    + exfalso. apply NE. rewrite <- (app_nil_r k) at 2. rewrite eff_ext_long by exact Hp.
      destruct c; try contradiction; cbn; rewrite app_nil_r; reflexivity.
    + rewrite eff_ext_long in * by exact Hp.
      destruct (IH L0 (y :: k') Wc Sc ltac:(congruence)) as (G1 & G2 & (j & Sj & Pj) & G4 & G5).
      split; [apply strict_app; exact G1|]. split; [rewrite stored_in_ext by exact Hp; exact G2|].
      split; [exists (p ++ j); rewrite stored_in_ext, prefix_app by exact Hp; auto|]. split.
      * intros i Si Pi. apply prefix_app_inv in Pi. destruct Pi as (i' & -> & Pi). rewrite stored_in_ext in Si by exact Hp. rewrite prefix_app. auto.
      * intros C. inversion C; subst. destruct (G5 ltac:(assumption)) as [(h & G)|(j1 & j2 & D & S1 & S2 & P1 & P2)].
        -- left. exists h. rewrite lk_in_ext by exact Hp. exact G.
        -- right. exists (p ++ j1), (p ++ j2). rewrite !stored_in_ext, !prefix_app by exact Hp. repeat split; auto.
           intros Q. apply app_inv_head in Q. congruence.
    + rewrite eff_ext_short in * by exact Hp.
      assert (Pre : forall j, stored (Extension (enc (k ++ x :: p')) c) j -> is_prefix (k ++ x :: p') j).
      { intros j Sj. destruct (stored_ext_inv _ c j Hp Sj) as (j' & -> & _). exists j'. reflexivity. }
      split; [exists x, p'; reflexivity|]. split.
      { intros Sk. apply Pre in Sk. destruct Sk as [r Q]. apply (f_equal (@length N)) in Q. rewrite !app_length in Q. cbn [length] in Q. lia. }
      split. { destruct (shape_stored (Extension (enc (k ++ x :: p')) c) Sh ltac:(congruence)) as (j & Sj). exists j. auto. }
      split; [auto|]. intros C. inversion C as [| | |? ? _ _ Cc|]; subst. destruct c as [|h|ch w| |]; try contradiction.
      * left. exists h. rewrite <- (app_nil_r (k ++ x :: p')) at 2. rewrite lk_in_ext by exact Hp. reflexivity.
      * right. destruct (branch_div L0 ch w Wc Cc) as (a & b & Sa & Sb & D & _).
        exists ((k ++ x :: p') ++ a), ((k ++ x :: p') ++ b). rewrite !stored_in_ext by exact Hp.
        repeat split; auto; [intros Q; apply app_inv_head in Q; congruence|eexists; reflexivity..].
    + exfalso. apply NE. apply eff_ext_div; assumption.
Qed.

Lemma eff_insertable t L k : wf L t -> canon t -> (eff t k = k <-> insertable t k).
Proof.
  intros W C. pose proof (canon_shape _ C) as Sh. split.
  2: { intros H. apply (eff_self_aux t L k W Sh). destruct H as [H|[H|[H|(k1 & v & H1 & H2 & H3)]]]; auto.
       right. right. right. split; [exact C|]. exists k1, v. split; [apply strict_is_prefix, H1|auto]. }
  intros E. unfold insertable.
  revert L k W C Sh E. induction t as [|h|ch w IH|n c IH|n w] using node_ind'; intros L k W C Sh E.
  - right. left. intros j Sj. exfalso. exact (not_stored_empty _ Sj).
  - right. left. intros j Sj (x & r & ->). apply stored_hash_inv in Sj. destruct k; discriminate.
  - inversion W as [| |L0 ? ? Hl F| |]; subst. inversion C as [| |? ? FC O| |]; subst. inversion Sh as [| |? ? FS X| |]; subst.
    destruct k as [|d k].
    + rewrite occupied_occ in O. destruct w as [|b w]; [|left; unfold stored; cbn; congruence].
      right. right. left. destruct (occ_two_ex ch Hl ltac:(lia)) as (d & e & _ & _ & D & NEd & NEe).
      assert (St : forall d, child ch d <> Empty -> exists r, stored (Branch ch []) (d :: r)).
      { intros x NE. destruct (shape_stored (child ch x)) as (r & Sr); [apply Forall_child; [constructor|exact FS]|exact NE|].
        exists r. apply stored_branch. exact Sr. }
      destruct (St d NEd) as (r & Sr). destruct (St e NEe) as (s & Ss). exists d, e, r, s. auto.
    + rewrite eff_branch in E. assert (E' : eff (child ch d) k = k) by congruence.
      destruct (child_in ch d) as [E0|I0].
      { right. left. intros j Sj Pj. apply strict_cons_inv in Pj. destruct Pj as (j' & -> & _). rewrite stored_branch, E0 in Sj. exact (not_stored_empty _ Sj). }
      rewrite Forall_forall in IH, F, FC, FS.
      destruct (IH _ I0 L0 k (F _ I0) (FC _ I0) (FS _ I0) E') as [H|[H|[(x & y & r & s & D & H1 & H2)|(k1 & v & H1 & H2 & H3)]]].
      * left. apply stored_branch. exact H.
      * right. left. intros j Sj Pj. apply strict_cons_inv in Pj. destruct Pj as (j' & -> & Pj). apply stored_branch in Sj. exact (H j' Sj Pj).
      * right. right. left. exists x, y, r, s. cbn [app]. rewrite !stored_branch. auto.
      * right. right. right. exists (d :: k1), v. rewrite strict_cons, lk_branch. split; [exact H1|]. split; [exact H2|].
        intros j Sj Pj. apply prefix_cons_inv in Pj. destruct Pj as (j' & -> & Pj). apply stored_branch in Sj. f_equal. auto.
  - inversion W as [| | |L0 p c0 Hp Wc|]; subst. inversion C as [| | |? ? Hn B Cc|]; subst. inversion Sh as [| | |? ? _ _ Sc|]; subst.
    assert (Long : forall k0, eff c k0 = k0 -> insertable (Extension (enc p) c) (p ++ k0)).
    { intros k0 E0. destruct (IH L0 k0 Wc Cc Sc E0) as [H|[H|[(x & y & r & s & D & H1 & H2)|(k1 & v & H1 & H2 & H3)]]].
      * left. apply stored_in_ext; assumption.
      * right. left. intros j Sj Pj. apply strict_app_inv in Pj. destruct Pj as (j' & -> & Pj). apply stored_in_ext in Sj; [|exact Hp]. exact (H j' Sj Pj).
      * right. right. left. exists x, y, r, s. rewrite <- !app_assoc, !stored_in_ext by exact Hp. auto.
      * right. right. right. exists (p ++ k1), v. rewrite strict_app, lk_in_ext by exact Hp. split; [exact H1|]. split; [exact H2|].
        intros j Sj Pj. apply prefix_app_inv in Pj. destruct Pj as (j' & -> & Pj). apply stored_in_ext in Sj; [|exact Hp]. f_equal. auto. }
    destruct (compare_keys p k) as [->|y k' ->|x p' ->|q x p' y k' -> -> D].
    + pose proof (Long []) as Q. rewrite app_nil_r in Q. apply Q. destruct c; try contradiction; reflexivity.
    + apply Long. rewrite eff_ext_long in E by exact Hp. apply app_inv_head in E. exact E.
    + exfalso. rewrite eff_ext_short in E by exact Hp. apply (f_equal (@length N)) in E. rewrite app_length in E. cbn [length] in E. lia.
    + right. left. intros j Sj Pj. destruct (stored_ext_inv _ c j Hp Sj) as (j' & -> & _). destruct Pj as (z & r & Q).
      rewrite <- !app_assoc in Q. apply app_inv_head in Q. cbn in Q. congruence.
  - inversion W as [| | | |L0 p w0 Hp Lp]; subst. assert (Sp : forall j, stored (Leaf (enc p) w) j -> j = p) by (intros j; apply stored_leaf_inv; exact Hp).
    destruct (compare_keys p k) as [->|y k' ->|x p' ->|q x p' y k' -> -> D].
    + left. unfold stored. rewrite lk_leaf_nseq, key_eqb_refl by exact Hp. congruence.
    + right. left. intros j Sj (z & r & ->). apply Sp in Sj. apply (f_equal (@length N)) in Sj. rewrite !app_length in Sj. cbn [length] in Sj. lia.
    + right. right. right. exists (k ++ x :: p'), w. split; [exists x, p'; reflexivity|]. rewrite lk_leaf_nseq, key_eqb_refl by exact Hp. auto.
    + right. left. intros j Sj (z & r & ->). apply Sp in Sj. rewrite <- !app_assoc in Sj. apply app_inv_head in Sj. cbn in Sj. congruence.
Qed.

(** A key whose only stored extension is a hash node ends inside the extension that leads to it. *)
Lemma eff_hash t : forall L k p h, wf L t -> canon t -> lk t p = Some (HashV h) -> strict_prefix k p ->
  (forall j, stored t j -> is_prefix k j -> j = p) -> eff t k = p.
Proof.
  induction t as [|h0|ch w IH|n c IH|n w] using node_ind'; intros L k p h W C E P H.
  - discriminate.
  - destruct p; [|discriminate]. destruct P as (x & r & P). destruct k; discriminate.
  - destruct k as [|d k].
    { exfalso. apply (branch_two L ch w p W C). intros i Si. apply H; [exact Si|apply prefix_nil]. }
    inversion W as [| |L0 ? ? Hl F| |]; subst. inversion C as [| |? ? FC O| |]; subst.
    apply strict_cons_inv in P. destruct P as (p' & -> & P). rewrite lk_branch in E. rewrite eff_branch. f_equal.
    destruct (child_in ch d) as [E0|I0]; [rewrite E0 in E; discriminate|].
    rewrite Forall_forall in IH, F, FC. apply (IH _ I0 L0 k p' h); auto.
    intros j Sj Pj. assert (Q : d :: j = d :: p') by (apply H; [apply stored_branch, Sj|apply prefix_cons, Pj]). congruence.
  - inversion W as [| | |L0 q c0 Hq Wc|]; subst. inversion C as [| | |? ? Hn B Cc|]; subst.
    destruct (stored_ext_inv q c p Hq ltac:(unfold stored; congruence)) as (p' & -> & _). rewrite lk_in_ext in E by exact Hq.
    destruct (compare_keys q k) as [->|y k' ->|x q' ->|s x q' y k' -> -> D].
    + exfalso. rewrite <- (app_nil_r k) in P at 1. rewrite strict_app in P. destruct c as [|h1|ch w| |]; try contradiction.
      * destruct P as (x & r & ->). discriminate.
      * apply (branch_two L0 ch w p' Wc Cc). intros i Si. apply (app_inv_head k). apply H; [apply stored_in_ext; assumption|exists i; reflexivity].
    + rewrite eff_ext_long by exact Hq. f_equal. rewrite strict_app in P. apply (IH L0 _ p' h); auto.
      intros j Sj Pj. apply (app_inv_head q). apply H; [apply stored_in_ext; assumption|apply prefix_app, Pj].
    + rewrite eff_ext_short by exact Hq. destruct c as [|h1|ch w| |]; try contradiction.
      * destruct p'; [rewrite app_nil_r; reflexivity|discriminate].
      * exfalso. apply (branch_two L0 ch w p' Wc Cc). intros i Si. apply (app_inv_head (k ++ x :: q')).
        apply H; [apply stored_in_ext; assumption|]. exists (x :: q' ++ i). rewrite <- app_assoc. reflexivity.
    + exfalso. destruct P as (z & r & P). rewrite <- !app_assoc in P. apply app_inv_head in P. cbn in P. congruence.
  - cbn [lk] in E. destruct (key_eqb _ _); discriminate.
Qed.
