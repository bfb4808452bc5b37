(** A neighbour that is not hidden makes the merge of a deletion visible. *)
From Verif Require Import Base Nibbles NibblesSpec NibblesFacts NibblesFacts2 NibblesFacts3 Trie TrieSpec TrieHistSpec TrieFacts TrieInsert TrieGet TrieDelete TrieUnique TrieHist TrieObs InsertWf YellowPaper HashSpec HideSpec HashFacts HideFacts HideDelete HideExact NeighbourSpec.
Open Scope N_scope.

Lemma lk_big ch w d k e : length ch = 16%nat -> lk (Branch ch w) (d :: k) = Some e -> d < 16.
Proof.
  intros Hl E. rewrite lk_branch in E. destruct (N.ltb_spec d 16); [assumption|]. unfold child in E. rewrite nth_overflow in E by lia. discriminate E.
Qed.
Lemma other_key t : forall L k v, wf L t -> canon t -> lk t k = Some (Val v) -> (exists n w, t = Leaf n w) \/ exists j, stored t j /\ j <> k.
Proof.
  induction t as [|h|ch w IH|n c IH|n w] using node_ind'; intros L k v W C E.
  - discriminate.
  - destruct k; discriminate.
  - right. inversion W as [| |L0 ? ? Hl F| |]; subst. inversion C as [| |? ? FC O| |]; subst. rewrite occupied_occ in O.
    assert (FS : Forall shape ch) by (eapply Forall_impl; [|exact FC]; intros; apply canon_shape; assumption).
    assert (St : forall d, child ch d <> Empty -> exists r, stored (Branch ch w) (d :: r)).
    { intros x NE. destruct (shape_stored (child ch x)) as (r & Sr); [apply Forall_child; [constructor|exact FS]|exact NE|].
      exists r. apply stored_branch. exact Sr. }
    destruct k as [|d k].
    + cbn [lk] in E. destruct w as [|b w]; [discriminate|].
      assert (X : exists e, child ch e <> Empty).
      { inversion C as [| |? ? ? O'| |]; subst. apply canon_shape in C. inversion C as [| |? ? ? (c & I & NE)| |]; subst. apply In_nth with (d := Empty) in I as (i & Hi & <-).
        exists (N.of_nat i). unfold child. rewrite Nnat.Nat2N.id. exact NE. }
      destruct X as (e & NE). destruct (St e NE) as (r & Sr). exists (e :: r). split; [exact Sr|discriminate].
    + destruct w as [|b w].
      * destruct (occ_two_ex ch Hl ltac:(lia)) as (e & f & _ & _ & D & NEe & NEf).
        destruct (N.eq_dec e d) as [->|X]; [destruct (St f NEf) as (r & Sr); exists (f :: r)|destruct (St e NEe) as (r & Sr); exists (e :: r)]; (split; [exact Sr|congruence]).
      * exists []. split; [unfold stored; cbn; discriminate|discriminate].
  - right. inversion W as [| | |L0 q c0 Hq Wc|]; subst. inversion C as [| | |? ? Hn Bc Cc|]; subst.
    destruct (stored_ext_inv q c k Hq ltac:(unfold stored; congruence)) as (k' & -> & _). rewrite lk_in_ext in E by exact Hq.
    destruct (IH L0 k' v Wc Cc E) as [(m & u & ->)|(j & Sj & NE)]; [destruct Bc|]. exists (q ++ j). split; [apply stored_in_ext; assumption|]. intros X. apply app_inv_head in X. contradiction.
  - left. eauto.
Qed.

Section Visible.
Variable keccak : list N -> list N.

Lemma hides_empty s : hides keccak Empty s -> s = Empty.
Proof. intros H. inversion H as [| | | | |? _ B]; subst; [reflexivity|]. exfalso. vm_compute in B. apply B. reflexivity. Qed.
Lemma hides_child ch ch' i : Forall2 (hides keccak) ch ch' -> hides keccak (nth i ch Empty) (nth i ch' Empty).
Proof. intros F. revert i. induction F as [|c c' ch ch' H F IH]; intros [|i]; cbn [nth]; auto; constructor. Qed.

Lemma absent_visible t : forall L s k, wf L t -> (forall v, lk t k <> Some (Val v)) -> shape t -> hides keccak t s -> hexl k -> merge_visible t s k.
Proof.
  induction t as [|h|ch w IH|n c IH|n w] using node_ind'; intros L s k W NV Sh H Hk; try (destruct s; exact I).
  - inversion H as [| |? ch' ? F| | |]; subst; [|exact I]. inversion W as [| |L0 ? ? Hl Fw| |]; subst. inversion Sh as [| |? ? Fs _| |]; subst.
    cbn [merge_visible]. destruct k as [|d k]; [exact I|]. inversion Hk as [|? ? Hd Hk']; subst. rewrite at_child_nth, nth_error_child by assumption.
    fold (child ch d). split.
    + destruct (child_in ch d) as [E|Ic]; [rewrite E; destruct (nth _ _ _); exact I|]. rewrite Forall_forall in IH, Fw, Fs.
      apply (IH _ Ic L0); auto; [|apply hides_child, F]. intros v E. apply (NV v). rewrite lk_branch. exact E.
    + intros _. destruct (child ch d) as [| | | |m u] eqn:Ec; try exact I. intros <- i Hi. exfalso.
      assert (Wl : wf L0 (Leaf m u)) by (destruct (child_in ch d) as [E|Ic]; [congruence|]; rewrite Ec in Ic; rewrite Forall_forall in Fw; apply Fw, Ic). inversion Wl; subst.
      apply (NV u). rewrite lk_branch, Ec. cbn [lk]. destruct (key_eqb_spec (nseq (enc l)) (nseq (enc l))); [reflexivity|congruence].
  - inversion H as [| | |? ? c' Hc| |]; subst; [|exact I]. inversion W as [| | |L0 q c0 Hq Wc|]; subst. inversion Sh as [| | |? ? _ _ Sc|]; subst.
    cbn [merge_visible]. rewrite nseq_enc by exact Hq. destruct (strip q k) as [k'|] eqn:Es; [|exact I]. apply strip_some in Es. subst k. apply hexl_app in Hk.
    apply (IH L0); auto; [|tauto]. intros v E. apply (NV v). rewrite lk_in_ext by exact Hq. exact E.
Qed.

Lemma only_visible t : forall L s k v, wf L t -> canon t -> lk t k = Some (Val v) -> (forall j, stored t j -> j = k) -> merge_visible t s k.
Proof.
  intros L s k v W C E U. destruct (other_key t L k v W C E) as [(n & w & ->)|(j & Sj & NE)]; [destruct s; exact I|]. destruct (NE (U j Sj)).
Qed.

Lemma neighbour_visible t : forall L s k k' v v', wf L t -> canon t -> hides keccak t s -> lk t k = Some (Val v) -> lk t k' = Some (Val v') ->
  length k' = length k -> k' <> k -> (forall j, stored t j -> j <> k -> (lcp j k <= lcp k' k)%nat) -> ~ hash_on_path s k' -> merge_visible t s k.
Proof.
  induction t as [|h|ch w IH|n c IH|n w] using node_ind'; intros L s k k' v v' W C H E E' Ln NE Max NH; try (destruct s; exact I).
  - inversion H as [| |? ch' ? F| | |]; subst; [|exact I]. inversion W as [| |L0 ? ? Hl Fw| |]; subst. inversion C as [| |? ? FC O| |]; subst.
    destruct k as [|d k]; [exact I|]. destruct k' as [|d' k']; [discriminate|]. pose proof (lk_big _ _ _ _ _ Hl E) as Hd. pose proof (lk_big _ _ _ _ _ Hl E') as Hd'.
    rewrite lk_branch in E, E'. cbn [merge_visible]. rewrite at_child_nth, nth_error_child by assumption. fold (child ch d).
    assert (I0 : In (child ch d) ch) by (destruct (child_in ch d) as [Z|I0]; [rewrite Z in E; discriminate|exact I0]).
    assert (NEd : child ch d <> Empty) by (intros Z; rewrite Z in E; discriminate). assert (NEd' : child ch d' <> Empty) by (intros Z; rewrite Z in E'; discriminate).
    rewrite Forall_forall in IH, Fw, FC. split.
    + destruct (N.eq_dec d' d) as [->|D].
      * apply (IH _ I0 L0 _ k k' v v'); auto; [apply hides_child, F|congruence| |].
        -- intros j Sj NEj. specialize (Max (d :: j) ltac:(apply stored_branch; exact Sj) ltac:(congruence)). cbn [lcp] in Max. rewrite N.eqb_refl in Max. lia.
        -- intros (p & h & Ep & r & Er). apply NH. exists (d :: p), h. split; [rewrite lk_branch; exact Ep|]. exists r. cbn. congruence.
      * destruct (other_key (child ch d) L0 k v (Fw _ I0) (FC _ I0) E) as [(n & u & ->)|(j & Sj & NEj)]; [destruct (nth _ _ _); exact I|]. exfalso.
        specialize (Max (d :: j) ltac:(apply stored_branch; exact Sj) ltac:(congruence)). cbn [lcp] in Max. rewrite N.eqb_refl in Max.
        destruct (N.eqb_spec d' d); [contradiction|]. lia.
    + intros Oc. destruct (child ch d) as [| | | |m u] eqn:Ec; try exact I. intros Em i Hi.
      destruct (N.eq_dec d' d) as [->|D].
      { exfalso. rewrite Ec in E'. cbn [lk] in E'. destruct (key_eqb_spec (nseq m) k') as [Q|]; [|discriminate]. apply NE. congruence. }
      rewrite occupied_nil in Oc. destruct (Nat.eq_dec i (N.to_nat d')) as [->|Di].
      * destruct (nth (N.to_nat d') ch' Empty) as [|h| | |] eqn:Eh; try exact I. exfalso. apply NH. exists [d'], h. split; [|exists k'; reflexivity].
        rewrite lk_branch. unfold child. rewrite Eh. reflexivity.
      * assert (Z : nth i ch Empty = Empty).
        { apply (occ_others ch (N.to_nat d) (N.to_nat d')); auto; [lia|]. unfold child in Ec. rewrite Ec. discriminate. }
        pose proof (hides_child ch ch' i F) as Hc. rewrite Z in Hc. apply hides_empty in Hc. rewrite Hc. exact I.
  - inversion H as [| | |? ? c' Hc| |]; subst; [|exact I]. inversion W as [| | |L0 q c0 Hq Wc|]; subst. inversion C as [| | |? ? Hn Bc Cc|]; subst.
    destruct (stored_ext_inv q c k Hq ltac:(unfold stored; congruence)) as (k1 & -> & _). destruct (stored_ext_inv q c k' Hq ltac:(unfold stored; congruence)) as (k2 & -> & _).
    rewrite lk_in_ext in E, E' by exact Hq. cbn [merge_visible]. rewrite nseq_enc by exact Hq. rewrite strip_app. rewrite !app_length in Ln.
    apply (IH L0 _ k1 k2 v v'); auto; [lia|congruence| |].
    + intros j Sj NEj. specialize (Max (q ++ j) ltac:(apply stored_in_ext; assumption) ltac:(intros X; apply app_inv_head in X; contradiction)). rewrite !lcp_app in Max. lia.
    + intros (p & h & Ep & r & Er). apply NH. exists (q ++ p), h. split; [rewrite lk_in_ext by exact Hq; exact Ep|]. exists r. rewrite <- app_assoc. congruence.
Qed.
End Visible.
