(** If a neighbour of a key is requested, then the excerpt itself shows that the key can be deleted. *)
From Verif Require Import Base Nibbles NibblesSpec NibblesFacts NibblesFacts2 NibblesFacts3 Trie TrieSpec TrieHistSpec TrieFacts TrieInsert TrieGet TrieDelete TrieUnique TrieHist TrieObs InsertWf YellowPaper HashSpec HideSpec HashFacts HideFacts HideDelete HideExact NeighbourSpec ReplayFacts NeighbourSpec NeighbourFacts PartialSpec.
Open Scope N_scope.

Lemma absent_collapse s : forall L k, wf L s -> (forall v, lk s k <> Some (Val v)) -> collapse_visible s k.
Proof.
  induction s as [|h|ch w IH|n c IH|n w] using node_ind'; intros L k W NV; try exact Logic.I.
  - inversion W as [| |L0 ? ? Hl Fw| |]; subst. destruct k as [|d k]; [exact Logic.I|]. cbn [collapse_visible]. rewrite at_child_nth. split.
    + destruct (nth_error ch (N.to_nat d)) as [c|] eqn:Ec; [|exact Logic.I]. assert (Ic : In c ch) by exact (nth_error_In _ _ Ec). rewrite Forall_forall in IH, Fw.
      apply (IH c Ic L0); [auto|]. intros v E. apply (NV v). rewrite lk_branch. unfold child. rewrite (nth_error_nth _ _ Empty Ec). exact E.
    + intros _. fold (child ch d). destruct (child ch d) as [| | | |m u] eqn:Ec; try exact Logic.I. intros <- i h _. exfalso.
      apply (NV u). rewrite lk_branch, Ec. cbn [lk]. destruct (key_eqb_spec (nseq m) (nseq m)); [reflexivity|congruence].
  - inversion W as [| | |L0 q c0 Hq Wc|]; subst. cbn [collapse_visible]. rewrite nseq_enc by exact Hq. destruct (strip q k) as [k'|] eqn:Es; [|exact Logic.I].
    apply strip_some in Es. subst k. apply (IH L0); auto. intros v E. apply (NV v). rewrite lk_in_ext by exact Hq. exact E.
Qed.

Lemma neighbour_collapse s : forall L k k' v v', wf L s -> canon s -> lk s k = Some (Val v) -> lk s k' = Some (Val v') ->
  length k' = length k -> k' <> k -> (forall j, stored s j -> j <> k -> (lcp j k <= lcp k' k)%nat) -> collapse_visible s k.
Proof.
  induction s as [|h|ch w IH|n c IH|n w] using node_ind'; intros L k k' v v' W C E E' Ln NE Max; try exact Logic.I.
  - inversion W as [| |L0 ? ? Hl Fw| |]; subst. inversion C as [| |? ? FC O| |]; subst.
    destruct k as [|d k]; [exact Logic.I|]. destruct k' as [|d' k']; [discriminate|]. pose proof (lk_big _ _ _ _ _ Hl E) as Hd. pose proof (lk_big _ _ _ _ _ Hl E') as Hd'.
    rewrite lk_branch in E, E'. cbn [collapse_visible]. rewrite at_child_nth, nth_error_child by assumption. fold (child ch d).
    assert (I0 : In (child ch d) ch) by (destruct (child_in ch d) as [Z|I0]; [rewrite Z in E; discriminate|exact I0]).
    assert (NEd' : child ch d' <> Empty) by (intros Z; rewrite Z in E'; discriminate).
    rewrite Forall_forall in IH, Fw, FC. split.
    + destruct (N.eq_dec d' d) as [->|D].
      * apply (IH _ I0 L0 k k' v v'); auto; [congruence|].
        intros j Sj NEj. specialize (Max (d :: j) ltac:(apply stored_branch; exact Sj) ltac:(congruence)). cbn [lcp] in Max. rewrite N.eqb_refl in Max. lia.
      * destruct (other_key (child ch d) L0 k v (Fw _ I0) (FC _ I0) E) as [(n & u & ->)|(j & Sj & NEj)]; [exact Logic.I|]. exfalso.
        specialize (Max (d :: j) ltac:(apply stored_branch; exact Sj) ltac:(congruence)). cbn [lcp] in Max. rewrite N.eqb_refl in Max.
        destruct (N.eqb_spec d' d); [contradiction|]. lia.
    + intros Oc. destruct (child ch d) as [| | | |m u] eqn:Ec; try exact Logic.I. intros Em i h Hi X.
      destruct (N.eq_dec d' d) as [->|D].
      { rewrite Ec in E'. cbn [lk] in E'. destruct (key_eqb_spec (nseq m) k') as [Q|]; [|discriminate]. apply NE. congruence. }
      rewrite occupied_nil in Oc. destruct (Nat.eq_dec i (N.to_nat d')) as [->|Di].
      * unfold child in E'. rewrite X in E'. cbn [lk] in E'. destruct k'; discriminate E'.
      * assert (Z : nth i ch Empty = Empty).
        { apply (occ_others ch (N.to_nat d) (N.to_nat d')); auto; [lia|]. unfold child in Ec. rewrite Ec. discriminate. }
        congruence.
  - inversion W as [| | |L0 q c0 Hq Wc|]; subst. inversion C as [| | |? ? Hn Bc Cc|]; subst.
    destruct (stored_ext_inv q c k Hq ltac:(unfold stored; congruence)) as (k1 & -> & _). destruct (stored_ext_inv q c k' Hq ltac:(unfold stored; congruence)) as (k2 & -> & _).
    rewrite lk_in_ext in E, E' by exact Hq. cbn [collapse_visible]. rewrite nseq_enc by exact Hq. rewrite strip_app. rewrite !app_length in Ln.
    apply (IH L0 k1 k2 v v'); auto; [lia|congruence|].
    intros j Sj NEj. specialize (Max (q ++ j) ltac:(apply stored_in_ext; assumption) ltac:(intros X; apply app_inv_head in X; contradiction)). rewrite !lcp_app in Max. lia.
Qed.

Lemma lcp_grow a r b : (lcp a b <= lcp (a ++ r) b)%nat.
Proof.
  revert b. induction a as [|x a IH]; intros [|y b]; cbn [lcp app]; try lia. destruct (x =? y); [|lia]. specialize (IH b). lia.
Qed.

Lemma held_collapse keccak n ks t s k : (forall k, In k ks -> length (nseq k) = n) -> like n ks t s -> hides keccak t s ->
  In k ks -> held_neighbour t ks (nseq k) -> collapse_visible s (nseq k).
Proof.
  intros Kn (Ft & (Ws & Cs & _) & A) H I Hn. pose proof Ft as (W & C & _). destruct (lk s (nseq k)) as [[v|h]|] eqn:E; try (apply (absent_collapse s 64); [exact Ws|congruence]).
  assert (NP : ~ hash_on_path s (nseq k)) by (intros HP; exact (hop_no_val s 64 _ v Ws HP E)). assert (NPt : ~ hash_on_path t (nseq k)) by (intros HP; apply NP, (A k I), HP).
  assert (Et : lk t (nseq k) = Some (Val v)) by (rewrite (proj2 (A k I) NPt); exact E).
  assert (Sub : forall j, stored s j -> j <> nseq k -> exists r, stored t (j ++ r) /\ j ++ r <> nseq k).
  { intros j Sj NEj. unfold stored in Sj. destruct (lk s j) as [[u|h]|] eqn:Ej; [| |congruence].
    - exists []. rewrite app_nil_r. split; [|exact NEj]. unfold stored. rewrite (hides_lk_val keccak t s j u H Ej). discriminate.
    - destruct (hides_pos keccak t s j h (canon_shape _ C) H Ej) as [r Sr]. exists r. split; [exact Sr|]. intros X. apply NP. exists j, h. split; [exact Ej|]. exists r. symmetry. exact X. }
  destruct Hn as [N|[U|(k' & v' & I' & E' & (_ & NE & Max))]]; [destruct (N v Et)| |].
  - destruct (other_key s 64 (nseq k) v Ws Cs E) as [(m & w & ->)|(j & Sj & NEj)]; [exact Logic.I|]. destruct (Sub j Sj NEj) as (r & Sr & Nr). destruct (Nr (U _ Sr)).
  - assert (NPt' : ~ hash_on_path t (nseq k')) by (intros HP; exact (hop_no_val t 64 _ v' W HP E')).
    apply (neighbour_collapse s 64 (nseq k) (nseq k') v v'); auto.
    + rewrite <- (proj2 (A k' I') NPt'). exact E'.
    + rewrite !Kn by assumption. reflexivity.
    + intros j Sj NEj. destruct (Sub j Sj NEj) as (r & Sr & Nr). pose proof (Max _ Sr Nr). pose proof (lcp_grow j r (nseq k)). lia.
Qed.
