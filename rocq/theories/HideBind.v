(** A partial trie with the root hash of a full trie is that trie with subtrees hidden, up to collisions. *)
From Verif Require Import Base Nibbles NibblesSpec NibblesFacts NibblesFacts2 NibblesFacts3 Trie TrieSpec TrieFacts TrieGet TrieHist Rlp YellowPaper Hashing HashSpec HideSpec HashFacts RlpFacts HashBind HideFacts.
Open Scope N_scope.

Section H.
Variable keccak : list N -> list N.
Hypothesis K32 : hash32 keccak.
Notation item := (item keccak).
Notation ref := (ref keccak).
Notation encodings := (encodings keccak).
Notation collision := (collision keccak).
Notation hides := (hides keccak).

Lemma not_hash_dec t : not_hash t \/ exists h, t = Hash h.
Proof. destruct t; cbn; eauto. Qed.

Lemma ref_hides t1 h : hash_free t1 -> fits (Hash h) -> ref t1 = ref (Hash h) -> hides t1 (Hash h).
Proof.
  intros N [_ L] E. apply hash_free_not_hash in N. assert (R : ref t1 = shorten keccak (item t1)) by (destruct t1; cbn in *; tauto).
  rewrite R in E. unfold HashSpec.ref, shorten in E. destruct (N.ltb_spec (len (RLP (item t1))) 32).
  - apply (item_not_str keccak) in E; [|exact N]. subst. discriminate.
  - injection E as <-. constructor; assumption.
Qed.

Lemma hide_binding t1 : forall L1 L2 t2, wf L1 t1 -> wf L2 t2 -> (L1 <= 64)%nat -> (L2 <= 64)%nat -> fits t1 -> fits t2 -> hash_free t1 -> not_hash t2 ->
  keccak (RLP (item t1)) = keccak (RLP (item t2)) -> hides t1 t2 \/ collision (encodings t1) (encodings t2).
Proof.
  induction t1 as [|h|ch v IH|n c IH|n v] using node_ind'; intros L1 L2 t2 W1 W2 HL1 HL2 F1 F2 N1 NH2 E;
    pose proof (item_rok keccak K32 _ _ W1 HL1 F1) as R1; pose proof (item_rok keccak K32 _ _ W2 HL2 F2) as R2;
    match type of E with keccak (RLP (item ?t1)) = _ => destruct (bytes_eq_dec (RLP (item t1)) (RLP (item t2))) as [EI|NI];
      [|right; exists (RLP (item t1)), (RLP (item t2)); repeat split; auto using encodings_head] end;
    apply RLP_inj in EI; try assumption; clear E;
    pose proof (hash_free_not_hash _ N1) as NH1.
  - destruct t2; try discriminate EI; [left; constructor|destruct NH2].
  - destruct NH1.
  - destruct t2 as [|h2|ch2 v2|n2 c2|n2 v2]; try discriminate EI.
    + rewrite !item_branch in EI. injection EI as EI. inversion W1 as [| |L0 ? ? Hlen Fw| |]; subst. inversion W2 as [| |L0' ? ? Hlen2 Fw2| |]; subst.
      apply app_inj_tail in EI. destruct EI as [EI Ev]. injection Ev as <-. apply fits_branch in F1, F2. destruct F1 as (_ & _ & F1), F2 as (_ & _ & F2).
      assert (G : Forall2 hides ch ch2 \/ exists c1 c2, In c1 ch /\ In c2 ch2 /\ collision (encodings c1) (encodings c2)).
      { assert (N1' : Forall hash_free ch) by (apply Forall_forall; intros c Hc; exact (hash_free_child ch v c N1 Hc)).
        clear - IH EI Fw Fw2 F1 F2 N1' HL1 HL2 K32. revert ch2 EI Fw2 F2. induction ch as [|c1 ch IHl]; intros [|c2 ch2] EI Fw2 F2; try discriminate EI; [left; constructor|].
        cbn [map] in EI. injection EI as E1 E2. inversion IH as [|? ? IHc IHr]; inversion Fw; inversion F1; inversion N1'; inversion Fw2; inversion F2; subst.
        assert (Q : hides c1 c2 \/ collision (encodings c1) (encodings c2)).
        { destruct (not_hash_dec c2) as [NH|[h ->]].
          - apply (IHc L0 L0' c2); try assumption; try lia. apply ref_eq; [exact K32|apply hash_free_not_hash; assumption|assumption|exact E1].
          - left. apply ref_hides; assumption. }
        destruct Q as [Q|Col].
        - destruct (IHl IHr ltac:(assumption) ltac:(assumption) ltac:(assumption) ch2 E2) as [Q2|(a & b & A & B & Col)]; try assumption; [left; constructor; assumption|].
          right. exists a, b. split; [right; exact A|]. split; [right; exact B|exact Col].
        - right. exists c1, c2. split; [left; reflexivity|]. split; [left; reflexivity|exact Col]. }
      destruct G as [G|(a & b & A & B & Col)]; [left; constructor; exact G|right]. eapply collision_mono; [| |exact Col]; apply incl_branch; assumption.
    + exfalso. rewrite item_branch, item_ext in EI. inversion W1 as [| |L0 ? ? Hlen Fw| |]; subst. apply (f_equal (fun x => match x with RList l => length l | _ => 0%nat end)) in EI.
      rewrite app_length, map_length, Hlen in EI. discriminate.
    + exfalso. rewrite item_branch in EI. inversion W1 as [| |L0 ? ? Hlen Fw| |]; subst. apply (f_equal (fun x => match x with RList l => length l | _ => 0%nat end)) in EI.
      rewrite app_length, map_length, Hlen in EI. discriminate.
  - inversion W1 as [| | |L0 q c0 Hq Wc|]; subst. destruct t2 as [|h2|ch2 v2|n2 c2|n2 v2]; try discriminate EI.
    + exfalso. rewrite item_branch, item_ext in EI. inversion W2 as [| |L0' ? ? Hlen Fw| |]; subst. apply (f_equal (fun x => match x with RList l => length l | _ => 0%nat end)) in EI.
      rewrite app_length, map_length, Hlen in EI. discriminate.
    + inversion W2 as [| | |L0' q2 c0' Hq2 Wc2|]; subst. rewrite !item_ext, !nseq_enc in EI by assumption. injection EI as EH ER.
      destruct (hp_inj_aux q q2 false false Hq Hq2 EH) as [-> _].
      pose proof (hash_free_ext _ _ Hq N1) as M1. cbn [fits] in F1, F2.
      destruct (not_hash_dec c2) as [NH|[h ->]]; [|left; constructor; apply ref_hides; assumption].
      destruct (IH L0 L0' c2) as [Q|Col]; try assumption; try lia; [apply ref_eq; [exact K32|apply hash_free_not_hash; assumption|assumption|exact ER]|left; constructor; exact Q|].
      right. eapply collision_mono; [| |exact Col]; apply incl_ext.
    + exfalso. inversion W2 as [| | | |L0' l2 v0' Hl2 Ll2]; subst. rewrite item_ext in EI. cbn [HashSpec.item] in EI. rewrite !nseq_enc in EI by assumption. injection EI as EH _.
      destruct (hp_inj_aux q l2 false true Hq Hl2 EH) as [_ D]. discriminate.
  - inversion W1 as [| | | |L0 l v0 Hl Ll]; subst. destruct t2 as [|h2|ch2 v2|n2 c2|n2 v2]; try discriminate EI.
    + exfalso. rewrite item_branch in EI. inversion W2 as [| |L0' ? ? Hlen Fw| |]; subst. apply (f_equal (fun x => match x with RList l => length l | _ => 0%nat end)) in EI.
      rewrite app_length, map_length, Hlen in EI. discriminate.
    + exfalso. inversion W2 as [| | |L0' q2 c0' Hq2 Wc2|]; subst. rewrite item_ext in EI. cbn [HashSpec.item] in EI. rewrite !nseq_enc in EI by assumption. injection EI as EH _.
      destruct (hp_inj_aux l q2 true false Hl Hq2 EH) as [_ D]. discriminate.
    + inversion W2 as [| | | |L0' l2 v0' Hl2 Ll2]; subst. cbn [HashSpec.item] in EI. rewrite !nseq_enc in EI by assumption. injection EI as EH ->.
      destruct (hp_inj_aux l l2 true true Hl Hl2 EH) as [-> _]. left. constructor.
Qed.
End H.
