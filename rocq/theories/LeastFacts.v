(** Subsets are the smallest excerpts: facts. *)
From Verif Require Import Base Nibbles NibblesSpec NibblesFacts NibblesFacts2 Trie TrieSpec TrieFacts TrieInsert TrieGet TrieUnique TrieHist TrieObs YellowPaper Hashing HashSpec HideSpec HashFacts HideFacts HideBind Subset SubsetSpec SubsetFacts SubsetFacts2 ReleaseSpec ComposeFacts LeastSpec.
Open Scope N_scope.

Section L.
Variable keccak : list N -> list N.
Notation hides := (hides keccak).
Notation item := (item keccak).
Notation prune := (prune keccak).
Notation prune_keep := (prune_keep keccak).

Lemma hash_top t h : shape t -> lk t [] = Some (HashV h) -> t = Hash h.
Proof.
  intros Sh E. destruct t as [|h'|ch w|n c|n w]; cbn [lk] in E.
  - discriminate.
  - congruence.
  - destruct w; discriminate.
  - inversion Sh; subst. destruct (nseq n); [congruence|discriminate].
  - destruct (key_eqb (nseq n) []); discriminate.
Qed.

(** Keys that a partial trie does not cut off have the same subset there. *)
Lemma prune_uncut : forall t t' ks, shape t -> hides t t' ->
  (forall k p h, In k ks -> lk t' p = Some (HashV h) -> is_prefix p k -> lk t p = Some (HashV h)) ->
  prune ks t' = prune ks t.
Proof.
  assert (Hs : forall t h' ks, shape t -> hides t (Hash h') ->
    (forall k p h, In k ks -> lk (Hash h') p = Some (HashV h) -> is_prefix p k -> lk t p = Some (HashV h)) -> prune ks (Hash h') = prune ks t).
  { intros t h' ks Sh H U. destruct ks as [|k ks].
    - inversion H as [| | | | |t0 N G]; subst; [reflexivity|]. rewrite !prune_eq. cbn [some_key]. rewrite !enode_eq. apply N.leb_le in G. rewrite G.
      destruct t; try reflexivity. contradiction.
    - pose proof (U k [] h' (or_introl eq_refl) eq_refl (ex_intro _ k eq_refl)) as Q. apply (hash_top _ _ Sh) in Q. rewrite Q. reflexivity. }
  intros t. induction t as [|h|ch w IH|n c IH|n w] using node_ind'; intros t' ks Sh H U; (destruct (not_hash_dec t') as [NH|[h' ->]]; [|apply Hs; assumption]).
  1,2,5: inversion H; subst; solve [reflexivity|contradiction].
  - rewrite !prune_eq, (enode_hides keccak _ _ H NH).
    inversion H as [| |? ch' ? F| | |]; subst; [|contradiction].
    assert (X : prune_keep ks (Branch ch' w) = prune_keep ks (Branch ch w)).
    { cbn [SubsetFacts2.prune_keep]. f_equal. inversion Sh as [| |? ? Fs _| |]; subst.
      assert (U' : forall j c', nth_error ch' j = Some c' -> forall k p h, In (N.of_nat j :: k) ks -> lk c' p = Some (HashV h) -> is_prefix p k ->
        exists c, nth_error ch j = Some c /\ lk c p = Some (HashV h)).
      { intros j c' Ej k p h I L [s ->]. assert (Z : lk (Branch ch w) (N.of_nat j :: p) = Some (HashV h)).
        { apply (U (N.of_nat j :: p ++ s)); [exact I| |exists s; reflexivity]. cbn [lk]. rewrite at_child_nth, Nat2N.id, Ej. exact L. }
        cbn [lk] in Z. rewrite at_child_nth, Nat2N.id in Z. destruct (nth_error ch j) as [c|]; [eauto|discriminate]. }
      clear U H NH Sh. assert (G : forall i, (forall j c', nth_error ch' j = Some c' -> forall k p h, In (i + N.of_nat j :: k) ks -> lk c' p = Some (HashV h) -> is_prefix p k ->
        exists c, nth_error ch j = Some c /\ lk c p = Some (HashV h)) ->
        map_children (fun d c => prune (keys_under d ks) c) ch' i = map_children (fun d c => prune (keys_under d ks) c) ch i); [|apply G; exact U'].
      clear U'. induction F as [|c c' ch ch' Hc F IHf]; intros i U; [reflexivity|]. cbn [map_children].
      inversion IH as [|? ? IHc IHl]; subst. inversion Fs as [|? ? Sc Sl]; subst. f_equal.
      - apply IHc; [exact Sc|exact Hc|]. intros k p h I L P. apply keys_under_iff in I.
        destruct (U 0%nat c' eq_refl k p h) as (c0 & E0 & Z); [rewrite N.add_0_r; exact I|exact L|exact P|]. injection E0 as <-. exact Z.
      - apply IHf; [exact IHl|exact Sl|]. intros j d Ej k p h I L P.
        destruct (U (S j) d Ej k p h) as (c0 & E0 & Z); [replace (i + N.of_nat (S j)) with (i + 1 + N.of_nat j) by lia; exact I|exact L|exact P|]. exists c0. split; [exact E0|exact Z]. }
    rewrite X. reflexivity.
  - rewrite !prune_eq, (enode_hides keccak _ _ H NH).
    inversion H as [| | |? ? c' F| |]; subst; [|contradiction]. inversion Sh as [| | |? ? Hn Bo Sc|]; subst.
    cbn [SubsetFacts2.prune_keep]. rewrite (IH c' (keys_below (nseq n) ks) Sc F); [reflexivity|].
    intros k p h I L P. apply keys_below_iff in I. destruct P as [s ->].
    assert (Z : lk (Extension n c) (nseq n ++ p) = Some (HashV h)).
    { apply (U (nseq n ++ p ++ s)); [exact I| |exists s; rewrite app_assoc; reflexivity]. cbn [lk]. rewrite strip_app. exact L. }
    cbn [lk] in Z. rewrite strip_app in Z. exact Z.
Qed.

Lemma hides_antisym t : forall t', hides t t' -> hides t' t -> t' = t.
Proof.
  induction t as [|h|ch v IH|n c IH|n v] using node_ind'; intros t' H H'; inversion H as [| |? ch' ? F|? ? c' F| |t0 N G]; subst; auto;
    try (inversion H'; subst; contradiction).
  - f_equal. inversion H' as [| |? ? ? F'| | |]; subst. clear - F F' IH.
    induction F as [|c c' ch ch' Hc F IHf]; [reflexivity|]. inversion IH; subst. inversion F'; subst. f_equal; auto.
  - f_equal. inversion H'; subst. auto.
Qed.

Lemma hides_nth ch ch' j c' : Forall2 hides ch ch' -> nth_error ch' j = Some c' -> exists c, nth_error ch j = Some c /\ hides c c'.
Proof.
  intros F. revert j. induction F as [|a b l l' Hab F IH]; intros [|j] E; cbn [nth_error] in *; try discriminate; eauto.
  injection E as <-. eauto.
Qed.

(** A key is followed in a partial trie that does not cut it off as in the trie, also in Release builds when it is too short. *)
Lemma filled_hides : forall t t' k, shape t -> hides t t' ->
  (forall p h, lk t' p = Some (HashV h) -> is_prefix p (filled t k) -> lk t p = Some (HashV h)) -> filled t' k = filled t k.
Proof.
  assert (Hs : forall t h' k, shape t ->
    (forall p h, lk (Hash h') p = Some (HashV h) -> is_prefix p (filled t k) -> lk t p = Some (HashV h)) -> t = Hash h').
  { intros t h' k Sh U. apply (hash_top _ _ Sh). apply (U [] h' eq_refl). exists (filled t k). reflexivity. }
  intros t. induction t as [|h|ch w IH|n c IH|n w] using node_ind'; intros t' k Sh H U; (destruct (not_hash_dec t') as [NH|[h' ->]]; [|rewrite (Hs _ _ _ Sh U); reflexivity]).
  1,2,5: inversion H; subst; solve [reflexivity|contradiction].
  - inversion H as [| |? ch' ? F| | |]; subst; [|contradiction]. inversion Sh as [| |? ? Fs _| |]; subst.
    destruct k as [|d k]; [reflexivity|]. cbn [filled] in U |- *. rewrite !at_child_nth in *. f_equal.
    destruct (nth_error ch (N.to_nat d)) as [c|] eqn:Ec.
    + destruct (nth_error ch' (N.to_nat d)) as [c'|] eqn:Ec'.
      * destruct (hides_nth _ _ _ _ F Ec') as (c0 & E0 & Hc). rewrite Ec in E0. injection E0 as <-.
        rewrite Forall_forall in IH, Fs. apply nth_error_In in Ec as Ic. apply (IH c Ic); [apply Fs, Ic|exact Hc|].
        intros p h L [s Es]. assert (Z : lk (Branch ch w) (d :: p) = Some (HashV h)).
        { apply U; [cbn [lk]; rewrite at_child_nth, Ec'; exact L|exists s; cbn [app]; rewrite Es; reflexivity]. }
        cbn [lk] in Z. rewrite at_child_nth, Ec in Z. exact Z.
      * exfalso. apply nth_error_None in Ec'. rewrite <- (Forall2_length _ _ _ F) in Ec'. apply nth_error_None in Ec'. congruence.
    + apply nth_error_None in Ec. rewrite (Forall2_length _ _ _ F) in Ec. apply nth_error_None in Ec. rewrite Ec. reflexivity.
  - inversion H as [| | |? ? c' F| |]; subst; [|contradiction]. inversion Sh as [| | |? ? Hn Bo Sc|]; subst.
    assert (Go : forall j, (forall p h, lk (Extension n c') p = Some (HashV h) -> is_prefix p (nseq n ++ filled c j) -> lk (Extension n c) p = Some (HashV h)) ->
      filled c' j = filled c j).
    { intros j Uj. apply IH; [exact Sc|exact F|]. intros p h L [s Es].
      assert (Z : lk (Extension n c) (nseq n ++ p) = Some (HashV h)).
      { apply Uj; [cbn [lk]; rewrite strip_app; exact L|exists s; rewrite Es, app_assoc; reflexivity]. }
      cbn [lk] in Z. rewrite strip_app in Z. exact Z. }
    cbn [filled] in U |- *. destruct (length k <? length (nseq n))%nat.
    + destruct (key_eqb_spec (nseq n) (repeat 0 (length (nseq n)))) as [Q|Q]; [|reflexivity]. rewrite <- Q in U |- *.
      f_equal. apply Go, U.
    + destruct (strip (nseq n) k) as [k'|]; [|reflexivity]. f_equal. apply Go, U.
Qed.
End L.
