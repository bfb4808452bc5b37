(** Keys that end inside an extension node, in Release builds. *)
From Verif Require Import Base Nibbles NibblesSpec NibblesFacts NibblesFacts2 NibblesFacts3 Trie TrieSpec TrieFacts TrieInsert TrieGet TrieDelete TrieHist TrieObs Rlp YellowPaper Hashing HashSpec HideSpec HashFacts HideFacts HideBind Subset SubsetSpec SubsetFacts SubsetFacts2 ReleaseSpec.
Open Scope N_scope.

Lemma filled_branch ch v d k : length ch = 16%nat -> d < 16 -> filled (Branch ch v) (d :: k) = d :: filled (child ch d) k.
Proof.
  intros L H. cbn [filled]. rewrite at_child_nth. unfold child. rewrite (nth_error_nth' ch Empty); [reflexivity|]. lia.
Qed.

Lemma filled_wf t : forall L k, wf L t -> hexl k -> hexl (filled t k) /\ (length (filled t k) <= Nat.max L (length k))%nat.
Proof.
  induction t as [|h|ch v IH|n c IH|n v] using node_ind'; intros L k W H; try (cbn [filled]; split; [exact H|lia]).
  - destruct k as [|d k]; [cbn [filled]; split; [exact H|cbn; lia]|].
    inversion W as [| |L0 ? ? Hlen Fw| |]; subst. inversion H as [|? ? Hd Hk]; subst. rewrite filled_branch by assumption.
    assert (Ic : In (child ch d) ch) by (apply nth_In; lia).
    rewrite Forall_forall in IH, Fw. destruct (IH _ Ic L0 k (Fw _ Ic) Hk) as [A B]. split; [constructor; assumption|]. cbn [length]. lia.
  - inversion W as [| | |L0 q c1 Hq Wc|]; subst. rename q into p. cbn [filled]. rewrite !nseq_enc by assumption.
    destruct (Nat.ltb_spec (length k) (length p)).
    + destruct (key_eqb_spec p (repeat 0 (length p))) as [E|E].
      * destruct (IH _ [] Wc ltac:(constructor)) as [A B]. split; [apply hexl_app; split; [apply hexl_zeros|exact A]|].
        rewrite app_length, repeat_length. cbn [length] in B. lia.
      * split; [apply hexl_zeros|]. rewrite repeat_length. lia.
    + destruct (strip p k) as [k'|] eqn:S; [|split; [exact H|lia]]. apply strip_some in S. subst k.
      apply hexl_app in H. destruct (IH _ k' Wc ltac:(tauto)) as [A B]. split; [apply hexl_app; split; [exact Hq|exact A]|].
      rewrite !app_length. lia.
Qed.

Lemma filled_same t : forall L k, wf L t -> hexl k -> ~ too_short t k -> filled t k = k.
Proof.
  induction t as [|h|ch v IH|n c IH|n v] using node_ind'; intros L k W H S; try reflexivity.
  - destruct k as [|d k]; [reflexivity|]. inversion W as [| |L0 ? ? Hlen Fw| |]; subst. inversion H as [|? ? Hd Hk]; subst.
    rewrite filled_branch by assumption. assert (Ic : In (child ch d) ch) by (apply nth_In; lia).
    rewrite Forall_forall in IH, Fw. f_equal. apply (IH _ Ic L0 k (Fw _ Ic) Hk). intros A. apply S. cbn [too_short].
    rewrite at_child_nth. unfold child in A. rewrite (nth_error_nth' ch Empty) by lia. exact A.
  - inversion W as [| | |L0 q c1 Hq Wc|]; subst. rename q into p. cbn [filled too_short] in *. rewrite !nseq_enc in * by assumption.
    destruct (Nat.ltb_spec (length k) (length p)); [exfalso; auto|].
    destruct (strip p k) as [k'|] eqn:E; [|reflexivity]. apply strip_some in E. subst k. apply hexl_app in H. f_equal. apply (IH _ k' Wc ltac:(tauto)). auto.
Qed.

Lemma filled_long t : forall L k, wf L t -> hexl k -> ~ too_short t (filled t k).
Proof.
  induction t as [|h|ch v IH|n c IH|n v] using node_ind'; intros L k W H; try (cbn [filled too_short]; tauto).
  - destruct k as [|d k]; [cbn [filled too_short]; tauto|]. inversion W as [| |L0 ? ? Hlen Fw| |]; subst. inversion H as [|? ? Hd Hk]; subst.
    rewrite filled_branch by assumption. assert (Ic : In (child ch d) ch) by (apply nth_In; lia).
    rewrite Forall_forall in IH, Fw. cbn [too_short]. rewrite at_child_nth. rewrite (nth_error_nth' ch Empty) by lia. apply (IH _ Ic L0 k (Fw _ Ic) Hk).
  - inversion W as [| | |L0 q c1 Hq Wc|]; subst. rename q into p. cbn [filled too_short]. rewrite !nseq_enc by assumption.
    destruct (Nat.ltb_spec (length k) (length p)).
    + destruct (key_eqb_spec p (repeat 0 (length p))) as [E|E].
      * rewrite <- E. rewrite app_length, strip_app. intros [A|A]; [lia|]. revert A. apply (IH _ [] Wc). constructor.
      * rewrite repeat_length. destruct (strip p (repeat 0 (length p))) as [r|] eqn:S; [|lia]. apply strip_some in S. exfalso. apply E.
        pose proof (f_equal (@length N) S) as Q. rewrite app_length, repeat_length in Q. destruct r; [|cbn in Q; lia]. rewrite app_nil_r in S. congruence.
    + destruct (strip p k) as [k'|] eqn:S.
      * apply strip_some in S. subst k. apply hexl_app in H. rewrite app_length, strip_app. intros [A|A]; [lia|]. revert A. apply (IH _ k' Wc). tauto.
      * rewrite S. lia.
Qed.

(** Marking in Release builds follows the filled key. *)
Lemma mark_ext_zeros p k c c0 b : hexl p -> hexl k -> (length k < length p)%nat -> (length p <= 127)%nat ->
  mark Release (TExtension c (Extension (enc p) c0) b) (enc k) =
  if key_eqb p (repeat 0 (length p)) then
    (r <- mark Release c (enc []) ;; Ok (match r with ROk c' => ROk (TExtension c' (Extension (enc p) c0) true) | RErr e => RErr e end))
  else Ok (ROk (TExtension c (Extension (enc p) c0) true)).
Proof.
  intros H1 H2 L1 L2. cbn [mark get_nibbles_expected bind]. rewrite count_enc, pop_nibbles_front_short_release by assumption. cbn [bind].
  rewrite <- enc_zeros. rewrite identical_enc; [|apply hexl_zeros|assumption|rewrite repeat_length; lia|lia]. cbn [bind].
  rewrite repeat_length, Nat.min_id.
  destruct (key_eqb_spec p (repeat 0 (length p))) as [E|E].
  - rewrite <- E. rewrite lcp_refl, Nat.leb_refl. reflexivity.
  - destruct (Nat.leb_spec (length p) (lcp (repeat 0 (length p)) p)); [|reflexivity].
    exfalso. apply E. pose proof (lcp_firstn (repeat 0 (length p)) p) as F.
    pose proof (lcp_le (repeat 0 (length p)) p) as [_ G]. replace (lcp (repeat 0 (length p)) p) with (length p) in F by lia.
    rewrite !firstn_all2 in F by (rewrite ?repeat_length; lia). symmetry. exact F.
Qed.

Lemma with_tracked_ext {E} (f g : tracked -> res (result tracked E)) l : forall i,
  (forall c, nth_error l i = Some c -> f c = g c) -> with_tracked f l i = with_tracked g l i.
Proof.
  induction l as [|c l IH]; intros i H; [destruct i; reflexivity|]. destruct i as [|i]; cbn [with_tracked].
  - rewrite (H c eq_refl). reflexivity.
  - rewrite (IH i) by exact H. reflexivity.
Qed.

Lemma Forall2_nth_error {A B} (R : A -> B -> Prop) l l' i x : Forall2 R l l' -> nth_error l i = Some x -> exists y, nth_error l' i = Some y /\ R x y.
Proof. intros F. revert i. induction F; intros [|i] E; try discriminate; cbn [nth_error] in *; [injection E as <-; eauto|auto]. Qed.

Lemma mark_filled t : forall L tr k, wf L t -> (L <= 64)%nat -> tracks tr t -> hexl k -> (length k <= 64)%nat ->
  mark Release tr (enc k) = mark Release tr (enc (filled t k)).
Proof.
  induction t as [|h|ch v IH|n c IH|n v] using node_ind'; intros L tr k W LL T H Lk; try reflexivity.
  - destruct k as [|d k]; [reflexivity|]. pose proof (filled_wf _ _ _ W H) as [A B].
    inversion W as [| |L0 ? ? Hlen Fw| |]; subst. pose proof H as H'. inversion H' as [|? ? Hd Hk]; subst. inversion T; subst.
    rewrite filled_branch in * by assumption. cbn [length] in *. rewrite !mark_branch_cons by (assumption || cbn [length] in *; lia). f_equal.
    apply with_tracked_ext. intros x Ex. match goal with F : Forall2 tracks _ _ |- _ => destruct (Forall2_nth_error _ _ _ _ _ F Ex) as (y & Ey & R) end.
    assert (child ch d = y) as -> by (unfold child; apply nth_error_nth; exact Ey). apply nth_error_In in Ey.
    rewrite Forall_forall in IH, Fw. apply (IH _ Ey L0 x k (Fw _ Ey)); auto; lia.
  - inversion W as [| | |L0 q c1 Hq Wc|]; subst. rename q into p. inversion T; subst. cbn [filled]. rewrite !nseq_enc by assumption.
    destruct (Nat.ltb_spec (length k) (length p)).
    + rewrite mark_ext_zeros by (assumption || lia). destruct (key_eqb_spec p (repeat 0 (length p))) as [E|E].
      * rewrite <- E. destruct (filled_wf c _ [] Wc ltac:(constructor)) as [A B]. cbn [length] in B.
        rewrite mark_ext_long; [|apply hexl_app; split; assumption|rewrite app_length; lia].
        rewrite <- (IH _ _ [] Wc); auto; [lia|constructor|cbn; lia].
      * rewrite mark_ext_div; auto; try (apply hexl_zeros); rewrite ?repeat_length; try lia.
        destruct (strip p (repeat 0 (length p))) as [r|] eqn:S; [|reflexivity]. apply strip_some in S. exfalso. apply E.
        pose proof (f_equal (@length N) S) as Q. rewrite app_length, repeat_length in Q. destruct r; [|cbn in Q; lia]. rewrite app_nil_r in S. congruence.
    + destruct (strip p k) as [k'|] eqn:S; [|reflexivity]. apply strip_some in S. subst k. pose proof H as H'. apply hexl_app in H'. rewrite app_length in *.
      destruct (filled_wf c _ k' Wc ltac:(tauto)) as [A B].
      rewrite !mark_ext_long; [|apply hexl_app; tauto|rewrite app_length; lia|assumption|rewrite app_length; lia].
      rewrite <- (IH _ _ k' Wc); auto; try lia. tauto.
Qed.

Definition fill (t : node) (k : nibbles) : nibbles := enc (filled t (nseq k)).

Lemma fill_kwf t k : wf 64 t -> kwf k -> kwf (fill t k) /\ nseq (fill t k) = filled t (nseq k).
Proof.
  intros W Hk. destruct (kwf_ex k Hk) as (l & -> & El & Hl & Ll). unfold fill. rewrite El. destruct (filled_wf t 64 l W Hl) as [A B].
  split; [apply kwf_enc; [exact A|lia]|apply nseq_enc, A].
Qed.

Lemma mark_fill t tr k : wf 64 t -> tracks tr t -> kwf k -> mark Release tr k = mark Release tr (fill t k).
Proof.
  intros W T Hk. destruct (kwf_ex k Hk) as (l & -> & El & Hl & Ll). unfold fill. rewrite El. apply (mark_filled t 64 tr l W); auto.
Qed.

Lemma mark_all_fill t ks : forall tr, wf 64 t -> tracks tr t -> Forall kwf ks -> mark_all Release tr ks = mark_all Release tr (map (fill t) ks).
Proof.
  induction ks as [|k ks IH]; intros tr W T K; [reflexivity|]. inversion K; subst. cbn [mark_all map].
  rewrite <- mark_fill by assumption. destruct (mark Release tr k) as [[tr'|e]|] eqn:E; try reflexivity. cbn [bind].
  apply IH; auto. exact (fle_tracks _ _ _ (mark_fle _ _ _ _ E) T).
Qed.

Lemma into_hash_filled t k : wf 64 t -> kwf k -> into_hash t (filled t (nseq k)) <-> into_hash t (nseq k).
Proof.
  intros W Hk. destruct (fill_kwf t k W Hk) as [Hf Ef]. rewrite <- Ef.
  assert (B : forall x, kwf x -> into_hash t (nseq x) <-> exists e, mark_all Release (track t) [x] = Ok (RErr e)).
  { intros x Hx. split.
    - intros A. apply (mark_all_err Release t [x] (track t) W (track_tracks t)); [exact (Forall_cons _ Hx (Forall_nil _))|exists x; split; [left; reflexivity|exact A]|left; reflexivity].
    - intros [e E]. destruct (into_hash_dec t 64 (nseq x) W) as [A|A]; [exact A|].
      destruct (mark_all_ok Release t [x] (track t) W (track_tracks t)) as (tr' & E' & _); [exact (Forall_cons _ Hx (Forall_nil _))|intros k' [<-|[]]; exact A|left; reflexivity|congruence]. }
  rewrite (B _ Hf), (B _ Hk). change [fill t k] with (map (fill t) [k]).
  rewrite <- mark_all_fill; [reflexivity|exact W|apply track_tracks|exact (Forall_cons _ Hk (Forall_nil _))].
Qed.

Lemma subset_fill keccak t ks : wf 64 t -> Forall kwf ks -> create_trie_subset keccak Release t ks = create_trie_subset keccak Release t (map (fill t) ks).
Proof. intros W K. unfold create_trie_subset, create_trie_subset_intern. rewrite <- mark_all_fill; auto. apply track_tracks. Qed.

Lemma subsets_fill keccak t kss : forall tr, wf 64 t -> tracks tr t -> Forall (Forall kwf) kss ->
  create_subsets_from keccak Release tr kss = create_subsets_from keccak Release tr (map (map (fill t)) kss).
Proof.
  induction kss as [|ks kss IH]; intros tr W T K; [reflexivity|]. inversion K; subst. cbn [create_subsets_from map].
  unfold create_trie_subset_intern. rewrite <- mark_all_fill by assumption. destruct (mark_all Release tr ks) as [[tr'|e]|] eqn:E; try reflexivity. cbn [bind].
  destruct (create_from_tracked keccak Release tr') as [n|]; [|reflexivity]. cbn [bind].
  rewrite <- IH; auto. apply reset_tracks. exact (fle_tracks _ _ _ (mark_all_fle _ _ _ _ E) T).
Qed.

