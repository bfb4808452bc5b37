(** Subsets of subsets. *)
From Verif Require Import Base Nibbles NibblesSpec NibblesFacts NibblesFacts2 Trie TrieSpec TrieFacts TrieInsert TrieGet TrieUnique TrieHist TrieObs YellowPaper Hashing HashSpec HideSpec HashFacts HideFacts HideBind Subset SubsetSpec SubsetFacts SubsetFacts2.
Open Scope N_scope.

Lemma nth_map_children_ {B} (f : N -> node -> B) l : forall i j c, nth_error l j = Some c -> nth_error (map_children f l i) j = Some (f (i + N.of_nat j) c).
Proof.
  induction l as [|a l IH]; intros i [|j] c E; try discriminate; cbn [nth_error map_children] in *.
  - injection E as ->. rewrite N.add_0_r. reflexivity.
  - rewrite (IH (i + 1) j c E). do 2 f_equal. lia.
Qed.

Section C.
Variable keccak : list N -> list N.
Hypothesis K32 : hash32 keccak.
Notation hides := (hides keccak).
Notation item := (item keccak).
Notation prune := (prune keccak).
Notation prune_keep := (prune_keep keccak).

Lemma enode_hides t t' : hides t t' -> not_hash t' -> enode keccak t' = enode keccak t.
Proof.
  intros H N. pose proof (proj2 (hides_item keccak _ _ H) N) as E. rewrite !enode_eq, E.
  inversion H; subst; cbn in N; try reflexivity; contradiction.
Qed.

Lemma keep_hides ks t : (forall t0 ks0, (match t with Branch ch _ => In t0 ch | Extension _ c => t0 = c | _ => False end) -> hides t0 (prune ks0 t0)) -> hides t (prune_keep ks t).
Proof.
  intros H. destruct t as [|h|ch w|n c|n w]; cbn [prune_keep]; try constructor; auto.
  generalize 0. induction ch as [|c ch IH]; intros i; cbn [map_children]; constructor.
  - apply H. left. reflexivity.
  - apply IH. intros t0 ks0 I. apply H. right. exact I.
Qed.

Lemma prune_hides t : forall ks, hides t (prune ks t).
Proof.
  induction t as [|h|ch w IH|n c IH|n w] using node_ind'; intros ks; rewrite prune_eq.
  all: match goal with |- context [SubsetFacts2.prune_keep _ _ ?t] => assert (HK : hides t (prune_keep ks t)) end.
  all: try (apply keep_hides; intros t0 ks0 I0; first [contradiction | subst; apply IH | rewrite Forall_forall in IH; apply IH; exact I0]).
  all: destruct (some_key ks); [exact HK|]; rewrite enode_eq; try exact HK; try constructor.
  all: match goal with |- context [32 <=? ?x] => destruct (N.leb_spec 32 x); [|exact HK] end; apply hd_out; [exact I|assumption].
Qed.

Lemma some_key_incl a b : incl a b -> some_key b = false -> some_key a = false.
Proof. intros I E. destruct b; [|discriminate]. destruct a as [|k a]; [reflexivity|]. destruct (I k). left. reflexivity. Qed.

Lemma keep_keep a b t : (forall t0 a0 b0, (match t with Branch ch _ => In t0 ch | Extension _ c => t0 = c | _ => False end) -> incl a0 b0 -> prune a0 (prune b0 t0) = prune a0 t0) ->
  incl a b -> prune_keep a (prune_keep b t) = prune_keep a t.
Proof.
  intros H I. destruct t as [|h|ch w|n c|n w]; cbn [prune_keep]; try reflexivity.
  - f_equal. clear w. generalize 0. induction ch as [|c ch IH]; intros i; cbn [map_children]; [reflexivity|]. f_equal.
    + apply H; [left; reflexivity|]. intros k. rewrite !keys_under_iff. apply I.
    + apply IH. intros t0 a0 b0 I0. apply H. right. exact I0.
  - f_equal. apply H; [reflexivity|]. intros k. rewrite !keys_below_iff. apply I.
Qed.

Lemma keep_not_hash ks t : not_hash t -> not_hash (prune_keep ks t).
Proof. destruct t; auto. Qed.

Lemma prune_prune t : forall a b, incl a b -> prune a (prune b t) = prune a t.
Proof.
  assert (Main : forall t, (forall t0 a0 b0, (match t with Branch ch _ => In t0 ch | Extension _ c => t0 = c | _ => False end) -> incl a0 b0 -> prune a0 (prune b0 t0) = prune a0 t0) ->
    forall a b, incl a b -> prune a (prune b t) = prune a t).
  { intros t0 H a b I. destruct (not_hash_dec t0) as [NH|[h ->]].
    2:{ rewrite !(prune_eq keccak _ (Hash h)). rewrite enode_eq. assert (Q : (if some_key b then prune_keep b (Hash h) else Hash h) = Hash h) by (destruct (some_key b); reflexivity).
        rewrite Q, prune_eq, enode_eq. reflexivity. }
    assert (HK : hides t0 (prune_keep b t0)) by (apply keep_hides; intros; apply prune_hides).
    assert (EN : enode keccak (prune_keep b t0) = enode keccak t0) by (apply enode_hides; [exact HK|apply keep_not_hash; exact NH]).
    assert (KK : prune_keep a (prune_keep b t0) = prune_keep a t0) by (apply keep_keep; assumption).
    assert (G : prune a (prune_keep b t0) = prune a t0) by (rewrite (prune_eq keccak a (prune_keep b t0)), EN, KK, <- prune_eq; reflexivity).
    rewrite (prune_eq keccak b t0). destruct (some_key b) eqn:Eb; [exact G|]. apply (some_key_incl a b I) in Eb.
    destruct (enode keccak t0) as [r|h] eqn:E; [exact G|]. rewrite !prune_eq, Eb, E, enode_eq. reflexivity. }
  induction t as [|h|ch w IH|n c IH|n w] using node_ind'; apply Main; intros t0 a0 b0 I0; try contradiction.
  - rewrite Forall_forall in IH. intros; apply IH; assumption.
  - subst. intros; apply IH; assumption.
Qed.

Lemma too_short_hides t : forall t' k, hides t t' -> too_short t' k -> too_short t k.
Proof.
  induction t as [|h|ch w IH|n c IH|n w] using node_ind'; intros t' k H S; inversion H as [| |? ch' ? F|? ? c' F| |t0 N G]; subst; try contradiction.
  - destruct k as [|d k]; [contradiction|]. apply too_short_branch in S. apply too_short_branch.
    destruct (child_in ch d) as [E0|I0].
    + exfalso. pose proof (hides_child keccak _ _ d F) as Hc. rewrite E0 in Hc. inversion Hc as [E1 E2| | | | |t0 N G E1 E2]; subst.
      * rewrite <- E2 in S. exact S.
      * rewrite <- E2 in S. exact S.
    + rewrite Forall_forall in IH. apply (IH _ I0 (child ch' d)); [apply hides_child; exact F|exact S].
  - cbn [too_short] in *. destruct S as [S|S]; [left; exact S|right]. destruct (strip (nseq n) k); [|exact S]. eapply IH; eassumption.
Qed.

(** Pruning for all stored keys changes nothing. *)
Lemma prune_all t : forall L ks, wf L t -> shape t -> (forall j, stored t j -> In j ks) -> prune ks t = t.
Proof.
  induction t as [|h|ch w IH|n c IH|n w] using node_ind'; intros L ks W Sh H.
  - rewrite prune_eq. destruct (some_key ks); [reflexivity|]. rewrite enode_eq. reflexivity.
  - rewrite prune_eq. destruct (some_key ks); [reflexivity|]. rewrite enode_eq. reflexivity.
  - inversion W as [| |L0 ? ? Hlen Fw| |]; subst. destruct (shape_stored _ Sh) as (k0 & S0); [discriminate|]. inversion Sh as [| |? ? FS _| |]; subst.
    pose proof (H _ S0) as I0. rewrite prune_eq. destruct ks as [|k1 ks]; [contradiction|]. cbn [some_key prune_keep]. set (KS := k1 :: ks) in *. f_equal.
    apply (nth_ext _ _ Empty Empty); [apply map_children_length|]. rewrite map_children_length. intros i Hi.
    assert (E : nth_error ch i = Some (nth i ch Empty)) by (apply nth_error_nth'; exact Hi).
    erewrite nth_error_nth by (apply nth_map_children_; exact E).
    rewrite Forall_forall in IH, Fw, FS. assert (Ic : In (nth i ch Empty) ch) by (apply nth_In; exact Hi).
    apply (IH _ Ic L0); [auto|auto|]. intros j Sj. apply keys_under_iff. apply H. apply stored_branch. unfold child.
    rewrite N.add_0_l, Nnat.Nat2N.id. exact Sj.
  - inversion W as [| | |L0 p c0 Hp Wc|]; subst. destruct (shape_stored _ Sh) as (k0 & S0); [discriminate|]. inversion Sh as [| | |? ? _ _ Sc|]; subst.
    pose proof (H _ S0) as I0. rewrite prune_eq. destruct ks as [|k1 ks]; [contradiction|]. cbn [some_key prune_keep]. set (KS := k1 :: ks) in *. f_equal.
    apply (IH L0); auto. intros j Sj. apply keys_below_iff. apply H. rewrite nseq_enc by exact Hp. apply stored_in_ext; assumption.
  - destruct (shape_stored _ Sh) as (k0 & S0); [discriminate|]. pose proof (H _ S0) as I0. rewrite prune_eq. destruct ks; [contradiction|]. reflexivity.
Qed.
End C.
