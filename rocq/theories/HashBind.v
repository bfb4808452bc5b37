(** The root hash determines a trie without hash nodes, up to collisions; hashing out subtrees keeps the root hash. *)
From Verif Require Import Base Nibbles NibblesSpec NibblesFacts NibblesFacts2 NibblesFacts3 Trie TrieSpec TrieFacts TrieGet TrieHist Rlp YellowPaper Hashing HashSpec HideSpec HashFacts RlpFacts.
Open Scope N_scope.

Lemma hash_free_child ch v c : hash_free (Branch ch v) -> In c ch -> hash_free c.
Proof.
  intros H Hin k h E. destruct (in_child_ex ch c Hin) as (d & _ & <-). apply (H (d :: k) h). rewrite lk_branch. exact E.
Qed.
Lemma hash_free_ext p c : hexl p -> hash_free (Extension (enc p) c) -> hash_free c.
Proof. intros Hp H k h E. apply (H (p ++ k) h). rewrite lk_in_ext by exact Hp. exact E. Qed.

Section H.
Variable keccak : list N -> list N.
Hypothesis K32 : hash32 keccak.
Notation item := (item keccak).
Notation ref := (ref keccak).
Notation encodings := (encodings keccak).

Lemma shorten_rok x : rok x -> rok (shorten keccak x).
Proof.
  intros H. unfold shorten. destruct (_ <? _); [exact H|]. constructor. rewrite (proj2 (K32 _)). reflexivity.
Qed.

Lemma concat_refs ch : Forall fits ch -> len (concat (map (fun c => RLP (ref c)) ch)) <= 33 * len ch.
Proof.
  induction ch as [|c ch IH]; intros F; cbn [map concat]; [cbn; lia|]. inversion F; subst. specialize (IH ltac:(assumption)).
  rewrite len_app, len_cons. pose proof (ref_len keccak K32 c ltac:(assumption)). lia.
Qed.

Lemma item_rok t : forall L, wf L t -> (L <= 64)%nat -> fits t -> rok (item t).
Proof.
  induction t as [|h|ch v IH|n c IH|n v] using node_ind'; intros L W HL F.
  - constructor. reflexivity.
  - constructor. destruct F as [_ F]. rewrite F. reflexivity.
  - rewrite item_branch. inversion W as [| |L0 ? ? Hlen Fw| |]; subst. apply fits_branch in F. destruct F as (Fv & Fl & Fc).
    assert (Hv : rok (RStr v)) by (constructor; unfold max_size; lia). constructor.
    + apply Forall_app. split; [|constructor; [exact Hv|constructor]]. rewrite Forall_map, Forall_forall. intros c Hc.
      rewrite Forall_forall in IH, Fw, Fc. specialize (IH c Hc L0 (Fw c Hc) ltac:(lia) (Fc c Hc)). unfold HashSpec.ref.
      destruct c; try (apply shorten_rok; exact IH). exact IH.
    + rewrite map_app, map_map, concat_app, len_app. cbn [map concat RLP]. rewrite app_nil_r.
      pose proof (Rb_len v ltac:(lia)). pose proof (concat_refs ch Fc) as Q. unfold len in Q at 2. rewrite Hlen in Q. unfold max_size. lia.
  - rewrite item_ext. inversion W as [| | |L0 q c0 Hq Wc|]; subst. rewrite nseq_enc by exact Hq. pose proof (hp_len q false ltac:(lia)) as P.
    pose proof (IH L0 Wc ltac:(lia) F) as R. assert (R' : rok (ref c)) by (unfold HashSpec.ref; destruct c; try (apply shorten_rok; exact R); exact R).
    constructor.
    + constructor; [constructor; unfold max_size; lia|]. constructor; [exact R'|constructor].
    + cbn [map concat RLP]. rewrite app_nil_r, len_app. pose proof (Rb_len (yp_hp q false) ltac:(lia)). pose proof (ref_len keccak K32 c F). unfold max_size. lia.
  - inversion W as [| | | |L0 l v0 Hl Ll]; subst. cbn [HashSpec.item]. rewrite nseq_enc by exact Hl. pose proof (hp_len l true ltac:(lia)) as P.
    destruct F as [Fb Fl]. constructor.
    + constructor; [constructor; unfold max_size; lia|]. constructor; [constructor; unfold max_size; lia|constructor].
    + cbn [map concat RLP]. rewrite app_nil_r, len_app. pose proof (Rb_len (yp_hp l true) ltac:(lia)). pose proof (Rb_len v ltac:(lia)). unfold max_size. lia.
Qed.

Notation collision := (collision keccak).

Lemma collision_mono A B A' B' : incl A A' -> incl B B' -> collision A B -> collision A' B'.
Proof. intros I1 I2 (x & y & H1 & H2 & H3 & H4). exists x, y. auto. Qed.

Lemma hash_free_not_hash t : hash_free t -> not_hash t.
Proof. destruct t; cbn; auto. intros H. exact (H [] h eq_refl). Qed.

Lemma item_not_str t b : not_hash t -> item t = RStr b -> b = [].
Proof. destruct t; cbn [not_hash HashSpec.item]; intros N E; try discriminate; [|destruct N]. congruence. Qed.

Lemma ref_eq c1 c2 : not_hash c1 -> not_hash c2 -> ref c1 = ref c2 -> keccak (RLP (item c1)) = keccak (RLP (item c2)).
Proof.
  intros N1 N2. assert (R : forall c, not_hash c -> ref c = shorten keccak (item c)) by (intros []; cbn; tauto).
  rewrite !R by assumption. unfold shorten.
  destruct (N.ltb_spec (len (RLP (item c1))) 32), (N.ltb_spec (len (RLP (item c2))) 32); intros E.
  - congruence.
  - apply item_not_str in E; [|exact N1]. pose proof (proj2 (K32 (RLP (item c2)))) as Q. rewrite E in Q. discriminate.
  - symmetry in E. apply item_not_str in E; [|exact N2]. pose proof (proj2 (K32 (RLP (item c1)))) as Q. rewrite E in Q. discriminate.
  - congruence.
Qed.

Lemma encodings_head t : In (RLP (item t)) (encodings t).
Proof. destruct t; left; reflexivity. Qed.
Lemma incl_branch ch v c : In c ch -> incl (encodings c) (encodings (Branch ch v)).
Proof. intros H x Hx. right. apply in_flat_map. exists c. auto. Qed.
Lemma incl_ext n c : incl (encodings c) (encodings (Extension n c)).
Proof. intros x Hx. right. exact Hx. Qed.

Lemma bytes_eq_dec (a b : list N) : {a = b} + {a <> b}.
Proof. apply list_eq_dec, N.eq_dec. Qed.

Lemma binding t1 : forall L1 L2 t2, wf L1 t1 -> wf L2 t2 -> (L1 <= 64)%nat -> (L2 <= 64)%nat -> fits t1 -> fits t2 -> hash_free t1 -> hash_free t2 ->
  keccak (RLP (item t1)) = keccak (RLP (item t2)) -> t1 = t2 \/ collision (encodings t1) (encodings t2).
Proof.
  induction t1 as [|h|ch v IH|n c IH|n v] using node_ind'; intros L1 L2 t2 W1 W2 HL1 HL2 F1 F2 N1 N2 E;
    pose proof (item_rok _ _ W1 HL1 F1) as R1; pose proof (item_rok _ _ W2 HL2 F2) as R2;
    match type of E with keccak (RLP (item ?t1)) = _ => destruct (bytes_eq_dec (RLP (item t1)) (RLP (item t2))) as [EI|NI];
      [|right; exists (RLP (item t1)), (RLP (item t2)); repeat split; auto using encodings_head] end;
    apply RLP_inj in EI; try assumption; clear E;
    pose proof (hash_free_not_hash _ N1) as NH1; pose proof (hash_free_not_hash _ N2) as NH2.
  - destruct t2; try discriminate EI; [left; reflexivity|destruct NH2].
  - destruct NH1.
  - destruct t2 as [|h2|ch2 v2|n2 c2|n2 v2]; try discriminate EI.
    + rewrite !item_branch in EI. injection EI as EI. inversion W1 as [| |L0 ? ? Hlen Fw| |]; subst. inversion W2 as [| |L0' ? ? Hlen2 Fw2| |]; subst.
      apply app_inj_tail in EI. destruct EI as [EI Ev]. injection Ev as <-. apply fits_branch in F1, F2. destruct F1 as (_ & _ & F1), F2 as (_ & _ & F2).
      assert (G : ch = ch2 \/ exists c1 c2, In c1 ch /\ In c2 ch2 /\ collision (encodings c1) (encodings c2)).
      { assert (N1' : Forall hash_free ch) by (apply Forall_forall; intros c Hc; exact (hash_free_child ch v c N1 Hc)).
        assert (N2' : Forall hash_free ch2) by (apply Forall_forall; intros c Hc; exact (hash_free_child ch2 v c N2 Hc)).
        clear - IH EI Fw Fw2 F1 F2 N1' N2' HL1 HL2 K32. revert ch2 EI Fw2 F2 N2'. induction ch as [|c1 ch IHl]; intros [|c2 ch2] EI Fw2 F2 N2'; try discriminate EI; [left; reflexivity|].
        cbn [map] in EI. injection EI as E1 E2. inversion IH as [|? ? IHc IHr]; inversion Fw; inversion F1; inversion N1'; inversion Fw2; inversion F2; inversion N2'; subst.
        destruct (IHc L0 L0' c2) as [->|Col]; try assumption; try lia.
        - apply ref_eq; [apply hash_free_not_hash; assumption..|exact E1].
        - destruct (IHl IHr ltac:(assumption) ltac:(assumption) ltac:(assumption) ch2 E2) as [->|(a & b & A & B & Col)]; try assumption; [left; reflexivity|].
          right. exists a, b. split; [right; exact A|]. split; [right; exact B|exact Col].
        - right. exists c1, c2. split; [left; reflexivity|]. split; [left; reflexivity|exact Col]. }
      destruct G as [->|(a & b & A & B & Col)]; [left; reflexivity|right]. eapply collision_mono; [| |exact Col]; apply incl_branch; assumption.
    + exfalso. rewrite item_branch, item_ext in EI. inversion W1 as [| |L0 ? ? Hlen Fw| |]; subst. apply (f_equal (fun x => match x with RList l => length l | _ => 0%nat end)) in EI.
      rewrite app_length, map_length, Hlen in EI. discriminate.
    + exfalso. rewrite item_branch in EI. inversion W1 as [| |L0 ? ? Hlen Fw| |]; subst. apply (f_equal (fun x => match x with RList l => length l | _ => 0%nat end)) in EI.
      rewrite app_length, map_length, Hlen in EI. discriminate.
  - inversion W1 as [| | |L0 q c0 Hq Wc|]; subst. destruct t2 as [|h2|ch2 v2|n2 c2|n2 v2]; try discriminate EI.
    + exfalso. rewrite item_branch, item_ext in EI. inversion W2 as [| |L0' ? ? Hlen Fw| |]; subst. apply (f_equal (fun x => match x with RList l => length l | _ => 0%nat end)) in EI.
      rewrite app_length, map_length, Hlen in EI. discriminate.
    + inversion W2 as [| | |L0' q2 c0' Hq2 Wc2|]; subst. rewrite !item_ext, !nseq_enc in EI by assumption. injection EI as EH ER.
      destruct (hp_inj_aux q q2 false false Hq Hq2 EH) as [-> _].
      pose proof (hash_free_ext _ _ Hq N1) as M1. pose proof (hash_free_ext _ _ Hq2 N2) as M2.
      destruct (IH L0 L0' c2) as [->|Col]; try assumption; try lia; [apply ref_eq; [apply hash_free_not_hash; assumption..|exact ER]|left; reflexivity|].
      right. eapply collision_mono; [| |exact Col]; apply incl_ext.
    + exfalso. inversion W2 as [| | | |L0' l2 v0' Hl2 Ll2]; subst. rewrite item_ext in EI. cbn [HashSpec.item] in EI. rewrite !nseq_enc in EI by assumption. injection EI as EH _.
      destruct (hp_inj_aux q l2 false true Hq Hl2 EH) as [_ D]. discriminate.
  - inversion W1 as [| | | |L0 l v0 Hl Ll]; subst. destruct t2 as [|h2|ch2 v2|n2 c2|n2 v2]; try discriminate EI.
    + exfalso. rewrite item_branch in EI. inversion W2 as [| |L0' ? ? Hlen Fw| |]; subst. apply (f_equal (fun x => match x with RList l => length l | _ => 0%nat end)) in EI.
      rewrite app_length, map_length, Hlen in EI. discriminate.
    + exfalso. inversion W2 as [| | |L0' q2 c0' Hq2 Wc2|]; subst. rewrite item_ext in EI. cbn [HashSpec.item] in EI. rewrite !nseq_enc in EI by assumption. injection EI as EH _.
      destruct (hp_inj_aux l q2 true false Hl Hq2 EH) as [_ D]. discriminate.
    + inversion W2 as [| | | |L0' l2 v0' Hl2 Ll2]; subst. cbn [HashSpec.item] in EI. rewrite !nseq_enc in EI by assumption. injection EI as EH ->.
      destruct (hp_inj_aux l l2 true true Hl Hl2 EH) as [-> _]. left. reflexivity.
Qed.
End H.
