(** Two partial tries with one root hash are partial views of one trie, up to collisions. *)
From Verif Require Import Base Nibbles NibblesSpec NibblesFacts NibblesFacts2 NibblesFacts3 Trie TrieSpec TrieFacts TrieGet TrieHist Rlp YellowPaper Hashing HashSpec HideSpec HashFacts RlpFacts HashBind HideFacts HideBind.
Open Scope N_scope.

Section H.
Variable keccak : list N -> list N.
Hypothesis K32 : hash32 keccak.
Notation item := (item keccak).
Notation ref := (ref keccak).
Notation encodings := (encodings keccak).
Notation collision := (collision keccak).
Notation hides := (hides keccak).

Lemma ref_hides' t1 h : not_hash t1 -> fits (Hash h) -> ref t1 = ref (Hash h) -> hides t1 (Hash h).
Proof.
  intros N [_ L] E. assert (R : ref t1 = shorten keccak (item t1)) by (destruct t1; cbn in *; tauto).
  rewrite R in E. unfold HashSpec.ref, shorten in E. destruct (N.ltb_spec (len (RLP (item t1))) 32).
  - apply (item_not_str keccak) in E; [|exact N]. subst. discriminate.
  - injection E as <-. constructor; assumption.
Qed.

Definition alike_shape t1 t2 t := (branch_or_hash t1 -> branch_or_hash t2 -> branch_or_hash t) /\ (shape t1 -> shape t2 -> shape t) /\ (canon t1 -> canon t2 -> canon t).
Definition joined L t1 t2 := exists t, wf L t /\ fits t /\ hides t t1 /\ hides t t2 /\ alike_shape t1 t2 t.
Lemma alike_l t1 t2 : alike_shape t1 t2 t1.
Proof. repeat split; auto. Qed.
Lemma alike_r t1 t2 : alike_shape t1 t2 t2.
Proof. repeat split; auto. Qed.

(** Children, by cases which of them are hash nodes. *)
Lemma join_ref L c1 c2 : wf L c1 -> wf L c2 -> fits c1 -> fits c2 -> ref c1 = ref c2 ->
  (not_hash c1 -> not_hash c2 -> keccak (RLP (item c1)) = keccak (RLP (item c2)) -> joined L c1 c2 \/ collision (encodings c1) (encodings c2)) ->
  joined L c1 c2 \/ collision (encodings c1) (encodings c2).
Proof.
  intros W1 W2 F1 F2 E IH. destruct (not_hash_dec c1) as [N1|[h1 ->]], (not_hash_dec c2) as [N2|[h2 ->]].
  - apply IH; auto. apply (ref_eq keccak K32); assumption.
  - left. exists c1. split; [assumption|]. split; [assumption|]. split; [apply hides_refl|]. split; [apply ref_hides'; assumption|apply alike_l].
  - left. exists c2. split; [assumption|]. split; [assumption|]. split; [apply ref_hides'; auto|]. split; [apply hides_refl|apply alike_r].
  - left. injection E as <-. exists (Hash h1). split; [assumption|]. split; [assumption|]. split; [constructor|]. split; [constructor|apply alike_l].
Qed.

Lemma join_binding t1 : forall L t2, wf L t1 -> wf L t2 -> (L <= 64)%nat -> fits t1 -> fits t2 -> not_hash t1 -> not_hash t2 ->
  keccak (RLP (item t1)) = keccak (RLP (item t2)) -> joined L t1 t2 \/ collision (encodings t1) (encodings t2).
Proof.
  induction t1 as [|h|ch v IH|n c IH|n v] using node_ind'; intros L t2 W1 W2 HL F1 F2 NH1 NH2 E;
    pose proof (item_rok keccak K32 _ _ W1 HL F1) as R1; pose proof (item_rok keccak K32 _ _ W2 HL F2) as R2;
    match type of E with keccak (RLP (item ?t1)) = _ => destruct (bytes_eq_dec (RLP (item t1)) (RLP (item t2))) as [EI|NI];
      [|right; exists (RLP (item t1)), (RLP (item t2)); repeat split; auto using encodings_head] end;
    apply RLP_inj in EI; try assumption; clear E.
  - destruct t2; try discriminate EI; [|destruct NH2]. left. exists Empty. split; [constructor|]. split; [exact I|]. split; [constructor|]. split; [constructor|apply alike_l].
  - destruct NH1.
  - destruct t2 as [|h2|ch2 v2|n2 c2|n2 v2]; try discriminate EI.
    + rewrite !item_branch in EI. injection EI as EI. inversion W1 as [| |L0 ? ? Hlen Fw| |]; subst. inversion W2 as [| |L0' ? ? Hlen2 Fw2| |]; subst.
      apply app_inj_tail in EI. destruct EI as [EI Ev]. injection Ev as <-. apply fits_branch in F1, F2. destruct F1 as (Fv & Fl & F1), F2 as (_ & _ & F2).
      assert (G : (exists ts, length ts = length ch /\ Forall (wf L0) ts /\ Forall fits ts /\ Forall2 hides ts ch /\ Forall2 hides ts ch2 /\
                     (Forall shape ch -> Forall shape ch2 -> Forall shape ts) /\ (Forall canon ch -> Forall canon ch2 -> Forall canon ts))
                  \/ exists c1 c2, In c1 ch /\ In c2 ch2 /\ collision (encodings c1) (encodings c2)).
      { clear - IH EI Fw Fw2 F1 F2 HL K32. revert ch2 EI Fw2 F2. induction ch as [|c1 ch IHl]; intros [|c2 ch2] EI Fw2 F2; try discriminate EI.
        - left. exists []. repeat split; auto; constructor.
        - cbn [map] in EI. injection EI as E1 E2. inversion IH as [|? ? IHc IHr]; inversion Fw; inversion F1; inversion Fw2; inversion F2; subst.
          assert (Q : joined L0 c1 c2 \/ collision (encodings c1) (encodings c2)).
          { apply join_ref; try assumption. intros N1 N2 E. apply (IHc L0 c2); try assumption; lia. }
          destruct Q as [(t & Wt & Ft & H1 & H2 & _ & Sa & Ca)|Col].
          + destruct (IHl IHr ltac:(assumption) ltac:(assumption) ch2 E2) as [(ts & Hl & A & B & C & D & Sb & Cb)|(a & b & A & B & Col)]; try assumption.
            * left. exists (t :: ts). cbn [length]. repeat split; try (constructor; auto; fail); auto; intros X1 X2; inversion X1; inversion X2; subst; constructor; auto.
            * right. exists a, b. split; [right; exact A|]. split; [right; exact B|exact Col].
          + right. exists c1, c2. split; [left; reflexivity|]. split; [left; reflexivity|exact Col]. }
      destruct G as [(ts & Hl & A & B & C & D & Sb & Cb)|(a & b & A & B & Col)].
      * left. exists (Branch ts v). split; [constructor; [congruence|exact A]|]. split; [apply fits_branch; auto|]. split; [constructor; assumption|]. split; [constructor; assumption|].
        split; [intros _ _; exact I|]. split; intros X1 X2; inversion X1 as [| |? ? P1 O1| |]; inversion X2 as [| |? ? P2 O2| |]; subst; constructor; auto.
        -- destruct O1 as (c & Hc & NE). destruct (in_child_ex ch c Hc) as (d & Hd & <-). exists (child ts d).
           pose proof (hides_child keccak ts ch d C) as Hh. apply (hides_empty_iff keccak) in Hh. assert (child ts d <> Empty) by tauto. split; [apply in_child|]; assumption.
        -- unfold occupied in *. rewrite <- (hides_filter keccak _ _ C). exact O1.
      * right. eapply collision_mono; [| |exact Col]; apply incl_branch; assumption.
    + exfalso. rewrite item_branch, item_ext in EI. inversion W1 as [| |L0 ? ? Hlen Fw| |]; subst. apply (f_equal (fun x => match x with RList l => length l | _ => 0%nat end)) in EI.
      rewrite app_length, map_length, Hlen in EI. discriminate.
    + exfalso. rewrite item_branch in EI. inversion W1 as [| |L0 ? ? Hlen Fw| |]; subst. apply (f_equal (fun x => match x with RList l => length l | _ => 0%nat end)) in EI.
      rewrite app_length, map_length, Hlen in EI. discriminate.
  - inversion W1 as [| | |L0 q c0 Hq Wc EL|]; subst. destruct t2 as [|h2|ch2 v2|n2 c2|n2 v2]; try discriminate EI.
    + exfalso. rewrite item_branch, item_ext in EI. inversion W2 as [| |L0' ? ? Hlen Fw| |]; subst. apply (f_equal (fun x => match x with RList l => length l | _ => 0%nat end)) in EI.
      rewrite app_length, map_length, Hlen in EI. discriminate.
    + inversion W2 as [| | |L0' q2 c0' Hq2 Wc2 EL2|]; subst. rewrite !item_ext, !nseq_enc in EI by assumption. injection EI as EH ER.
      destruct (hp_inj_aux q q2 false false Hq Hq2 EH) as [<- _]. assert (L0' = L0) by lia. subst L0'.
      cbn [fits] in F1, F2.
      destruct (join_ref L0 c c2 Wc Wc2 F1 F2 ER) as [(t & Wt & Ft & H1 & H2 & Ba & Sa & Ca)|Col].
      * intros N1 N2 E. apply (IH L0 c2); try assumption; lia.
      * left. exists (Extension (enc q) t). split; [constructor; assumption|]. split; [exact Ft|]. split; [constructor; assumption|]. split; [constructor; assumption|].
        split; [intros []|]. split; intros X1 X2; inversion X1; inversion X2; subst; constructor; auto.
      * right. eapply collision_mono; [| |exact Col]; apply incl_ext.
    + exfalso. inversion W2 as [| | | |L0' l2 v0' Hl2 Ll2]; subst. rewrite item_ext in EI. cbn [HashSpec.item] in EI. rewrite !nseq_enc in EI by assumption. injection EI as EH _.
      destruct (hp_inj_aux q l2 false true Hq Hl2 EH) as [_ D]. discriminate.
  - inversion W1 as [| | | |L0 l v0 Hl Ll]; subst. destruct t2 as [|h2|ch2 v2|n2 c2|n2 v2]; try discriminate EI.
    + exfalso. rewrite item_branch in EI. inversion W2 as [| |L0' ? ? Hlen Fw| |]; subst. apply (f_equal (fun x => match x with RList l => length l | _ => 0%nat end)) in EI.
      rewrite app_length, map_length, Hlen in EI. discriminate.
    + exfalso. inversion W2 as [| | |L0' q2 c0' Hq2 Wc2|]; subst. rewrite item_ext in EI. cbn [HashSpec.item] in EI. rewrite !nseq_enc in EI by assumption. injection EI as EH _.
      destruct (hp_inj_aux l q2 true false Hl Hq2 EH) as [_ D]. discriminate.
    + inversion W2 as [| | | |L0' l2 v0' Hl2 Ll2]; subst. cbn [HashSpec.item] in EI. rewrite !nseq_enc in EI by assumption. injection EI as EH ->.
      destruct (hp_inj_aux l l2 true true Hl Hl2 EH) as [-> _]. left. exists (Leaf (enc l2) v2). split; [exact W2|]. split; [exact F2|]. split; [constructor|]. split; [constructor|apply alike_r].
Qed.
End H.
