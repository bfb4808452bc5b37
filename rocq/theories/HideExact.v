(** When deleting in a partial trie goes wrong: the converse of HideDelete.v. *)
From Verif Require Import Base Nibbles NibblesSpec NibblesFacts NibblesFacts2 NibblesFacts3 Trie TrieSpec TrieFacts TrieInsert TrieGet TrieDelete TrieHist YellowPaper HashSpec HideSpec HashFacts HideFacts HashBind HideDelete.
Open Scope N_scope.

(** Two tries of which the second has, somewhere, an extension above a hash node where the first has a leaf or a longer
    extension. *)
Inductive differ : node -> node -> Prop :=
| df_branch ch ch' v v' i : differ (nth i ch Empty) (nth i ch' Empty) -> differ (Branch ch v) (Branch ch' v')
| df_ext n c c' : differ c c' -> differ (Extension n c) (Extension n c')
| df_leaf n v n' h : differ (Leaf n v) (Extension n' (Hash h))
| df_long n c n' h : count n' < count n -> count n <= 64 -> branch_or_hash c -> differ (Extension n c) (Extension n' (Hash h)).

(** The same before the merge of an extension with its child is done. *)
Definition short_node (c : node) : Prop :=
  match c with Leaf _ _ => True | Extension m c0 => 0 < count m <= 64 /\ branch_or_hash c0 | _ => False end.
Inductive pending : node -> node -> Prop :=
| pd n n' c h : count n' = count n -> count n <= 64 -> short_node c -> pending (Extension n c) (Extension n' (Hash h)).
Definition off (r r' : node) : Prop := differ r r' \/ pending r r'.

Lemma merge_count pr a b m : count a <= 64 -> count b <= 64 -> merge_nibbles pr a b = Ok m -> count m = count a + count b /\ count m <= 64.
Proof.
  unfold merge_nibbles, uadd, assert, umul. intros A B. unfold usize_range.
  destruct (N.ltb_spec (count a + count b) 18446744073709551616); [|lia]. cbn [bind].
  destruct (N.leb_spec (count a + count b) 64); [|discriminate]. cbn [bind].
  destruct (N.ltb_spec (count b * 4) 18446744073709551616); [|lia]. cbn [bind]. intros [= <-]. cbn [count]. lia.
Qed.

Lemma off_not_empty r r' : off r r' -> r <> Empty /\ node_is_empty r' = false.
Proof. intros [[]|[]]; split; (discriminate || reflexivity). Qed.

(** Merging keeps the difference. *)
Lemma differ_collapse pr q r r' s s' : count q <= 64 -> differ r r' ->
  collapse_ext_node_if_needed pr q r = Ok s -> collapse_ext_node_if_needed pr q r' = Ok s' -> differ s s'.
Proof.
  intros Q D E E'. destruct D as [ch ch' v v' i D|n c c' D|n v n' h|n c n' h L1 L2 Bc]; cbn [collapse_ext_node_if_needed] in E, E'.
  - injection E as <-. injection E' as <-. apply df_ext. exact (df_branch _ _ _ _ i D).
  - destruct (merge_nibbles pr q n) as [m|]; [|discriminate]. injection E as <-. injection E' as <-. apply df_ext. exact D.
  - destruct (merge_nibbles pr q n) as [m|]; [|discriminate]. destruct (merge_nibbles pr q n') as [m'|]; [|discriminate].
    injection E as <-. injection E' as <-. apply df_leaf.
  - destruct (merge_nibbles pr q n) as [m|] eqn:M; [|discriminate]. destruct (merge_nibbles pr q n') as [m'|] eqn:M'; [|discriminate].
    injection E as <-. injection E' as <-. apply merge_count in M; [|assumption..]. apply merge_count in M'; [|assumption|lia].
    apply df_long; [lia|lia|exact Bc].
Qed.

Lemma off_collapse pr q r r' s s' : count q <= 64 -> off r r' ->
  collapse_ext_node_if_needed pr q r = Ok s -> collapse_ext_node_if_needed pr q r' = Ok s' -> off s s'.
Proof.
  intros Q [D|P] E E'; [left; eapply differ_collapse; eassumption|].
  right. destruct P as [n n' c h C1 C2 S]; cbn [collapse_ext_node_if_needed] in E, E'.
  destruct (merge_nibbles pr q n) as [m|] eqn:M; [|discriminate]. destruct (merge_nibbles pr q n') as [m'|] eqn:M'; [|discriminate].
  injection E as <-. injection E' as <-. apply merge_count in M; [|assumption..]. apply merge_count in M'; [|assumption|lia].
  constructor; [lia|lia|exact S].
Qed.

Lemma enc_count l : count (enc l) = N.of_nat (length l).
Proof. reflexivity. Qed.

Lemma off_try_collapse pr L r r' s s' : wf L r -> (L <= 64)%nat -> off r r' ->
  try_collapse_if_extension pr r = Ok s -> try_collapse_if_extension pr r' = Ok s' -> differ s s'.
Proof.
  intros W HL [D|P] E E'.
  - destruct D as [ch ch' v v' i D|n c c' D|n v n' h|n c n' h L1 L2 Bc]; cbn [try_collapse_if_extension] in E, E'.
    + injection E as <-. injection E' as <-. exact (df_branch _ _ _ _ i D).
    + inversion W as [| | |L0 p c0 Hp Wc|]; subst. apply (differ_collapse pr (enc p) c c' s s'); try assumption. rewrite enc_count. lia.
    + injection E as <-. injection E' as <-. apply df_leaf.
    + injection E' as <-. destruct c; cbn in Bc; try contradiction; injection E as <-; apply df_long; assumption || exact I.
  - destruct P as [n n' c h C1 C2 S]; cbn [try_collapse_if_extension collapse_ext_node_if_needed] in E, E'. injection E' as <-.
    destruct c as [|?|? ?|m c0|m w]; cbn in S; try contradiction; cbn [collapse_ext_node_if_needed] in E; destruct (merge_nibbles pr n m) as [m'|] eqn:M; try discriminate; injection E as <-.
    + destruct S as [S1 S2]. apply merge_count in M; [|lia..]. apply df_long; [lia|lia|exact S2].
    + apply df_leaf.
Qed.

(** Deleting does not make hash nodes. *)
Fixpoint nohash (t : node) : Prop :=
  match t with
  | Hash _ => False
  | Branch ch _ => (fix go l := match l with [] => True | c :: l' => nohash c /\ go l' end) ch
  | Extension _ c => nohash c
  | _ => True
  end.
Lemma nohash_branch ch v : nohash (Branch ch v) <-> Forall nohash ch.
Proof. cbn [nohash]. induction ch as [|c ch IH]; split; intros H; [constructor|exact I|destruct H; constructor; [assumption|apply IH; assumption]|inversion H; subst; split; [assumption|apply IH; assumption]]. Qed.

Lemma nohash_free t : nohash t -> hash_free t.
Proof.
  induction t as [|h|ch w IH|n c IH|n w] using node_ind'; intros H k h' E; cbn [lk] in E; try discriminate; try contradiction.
  - apply nohash_branch in H. destruct k as [|d k]; [destruct w; discriminate|]. rewrite at_child_nth in E. destruct (nth_error ch (N.to_nat d)) as [c|] eqn:En; [|discriminate].
    apply nth_error_In in En. rewrite Forall_forall in IH, H. exact (IH _ En (H _ En) _ _ E).
  - destruct (strip (nseq n) k); [|discriminate]. exact (IH H _ _ E).
  - destruct (key_eqb _ _); discriminate.
Qed.
Lemma free_nohash t : forall L, wf L t -> hash_free t -> nohash t.
Proof.
  induction t as [|h|ch w IH|n c IH|n w] using node_ind'; intros L W H; try exact I.
  - exact (H [] h eq_refl).
  - apply nohash_branch. inversion W as [| |L0 ? ? Hl F| |]; subst. rewrite Forall_forall in *. intros c Hc. exact (IH _ Hc L0 (F _ Hc) (hash_free_child ch w c H Hc)).
  - inversion W as [| | |L0 p c0 Hp Wc|]; subst. exact (IH L0 Wc (hash_free_ext p c Hp H)).
Qed.
Lemma nohash_collapse pr n c r : collapse_ext_node_if_needed pr n c = Ok r -> nohash c -> nohash r.
Proof. destruct c; cbn [collapse_ext_node_if_needed]; try discriminate; try (intros [= <-]; exact (fun H => H)); destruct (merge_nibbles _ _ _); try discriminate; intros [= <-] H; exact H. Qed.
Lemma nohash_try pr c r : try_collapse_if_extension pr c = Ok r -> nohash c -> nohash r.
Proof. destruct c; cbn [try_collapse_if_extension]; try (intros [= <-]; exact (fun H => H)). intros E H. exact (nohash_collapse pr _ _ _ E H). Qed.
Lemma nohash_set ch i c : Forall nohash ch -> nohash c -> Forall nohash (set_child ch i c).
Proof. intros F H. revert i. induction F; intros [|i]; cbn [set_child]; constructor; auto. Qed.
Lemma with_child_some {A} (f : node -> res A) ch : forall i x, with_child f ch i = Ok x -> exists c, In c ch /\ f c = Ok x.
Proof. induction ch as [|c ch IH]; intros [|i] x; cbn [with_child]; try discriminate; intros E; [exists c; cbn; auto|]. destruct (IH i x E) as (c0 & I & Ec). exists c0. cbn. auto. Qed.
Lemma nohash_delete pr t : forall k r d, delete_intern pr t k = Ok (Some (r, d)) -> nohash t -> nohash r.
Proof.
  induction t as [|h|ch w IH|n c IH|n w] using node_ind'; intros k r d E H; cbn [delete_intern] in E; try discriminate.
  - pose proof (proj1 (nohash_branch ch w) H) as F. destruct (is_empty k); [injection E as <- _; exact H|].
    destruct (pop_next_nibble_front pr k) as [[nib k']|]; [|discriminate]. cbn [bind] in E.
    destruct (with_child _ _ _) as [[[c1 d1]|]|] eqn:Ew; try discriminate. cbn [bind] in E. destruct (_ && _).
    + pose proof (get_other_gen ch 0 (N.to_nat nib)) as G. destruct (get_other_non_empty_child _ _ _) as [[i c]|]; [|discriminate]. destruct (from_nibble _); [|discriminate]. cbn [bind] in E. injection E as <- _.
      destruct G as (_ & Li & _ & En & _). rewrite Nat.sub_0_r in *. cbn [nohash]. rewrite Forall_forall in F. apply F. rewrite <- En. apply nth_In. exact Li.
    + destruct (try_collapse_if_extension pr c1) as [c2|] eqn:Et; [|discriminate]. cbn [bind] in E. injection E as <- _.
      apply nohash_branch, nohash_set; [exact F|]. apply (nohash_try pr c1); [exact Et|]. 
      destruct (with_child_some _ ch _ _ Ew) as (c & En & Ec). rewrite Forall_forall in IH, F. exact (IH _ En _ _ _ Ec (F _ En)).
  - destruct (identical_up_to_smallest pr n k) as [[]|]; try discriminate. cbn [bind] in E. destruct (truncate_n_nibbles_front pr k (count n)); [|discriminate]. cbn [bind] in E.
    destruct (delete_intern pr c _) as [[[c1 d1]|]|] eqn:E1; try discriminate. cbn [bind] in E. destruct (collapse_ext_node_if_needed pr n c1) eqn:E2; [|discriminate]. cbn [bind] in E. injection E as <- _.
    apply (nohash_collapse pr n c1); [exact E2|]. exact (IH _ _ _ E1 H).
  - destruct (nib_eqb n k); [|discriminate]. injection E as <- _. exact I.
Qed.
Lemma nohash_trie_delete pr t k r w : trie_delete pr t k = Ok (r, w) -> nohash t -> nohash r.
Proof.
  unfold trie_delete. intros E H. destruct (delete_intern pr t k) as [[[t1 d]|]|] eqn:E1; try discriminate; cbn [bind] in E; [|injection E as <- _; exact H].
  destruct (try_collapse_if_extension pr t1) as [t2|] eqn:Et; [|discriminate]. cbn [bind] in E. injection E as <- _.
  apply (nohash_try pr t1); [exact Et|]. exact (nohash_delete _ _ _ _ _ E1 H).
Qed.

Section H.
Variable keccak : list N -> list N.
Hypothesis K32 : hash32 keccak.
Notation hides := (hides keccak).

Lemma differ_not_hides r r' : differ r r' -> ~ hides r r'.
Proof.
  induction 1 as [ch ch' v v' i D IH|n c c' D IH|n v n' h|n c n' h L1 L2 Bc]; intros H; inversion H; subst.
  - apply IH. assert (F : Forall2 hides ch ch') by assumption. pose proof (hides_child keccak _ _ (N.of_nat i) F) as Q. unfold child in Q. rewrite Nat2N.id in Q. exact Q.
  - auto.
  - lia.
Qed.

Lemma occ_others ch i j : (occ ch <= 2)%nat -> i <> j -> nth i ch Empty <> Empty -> nth j ch Empty <> Empty ->
  forall l, l <> i -> l <> j -> nth l ch Empty = Empty.
Proof.
  intros O D Hi Hj l Li Lj.
  assert (Ii : (i < length ch)%nat) by (destruct (le_lt_dec (length ch) i); [destruct Hi; apply nth_overflow; assumption|assumption]).
  assert (Ij : (j < length ch)%nat) by (destruct (le_lt_dec (length ch) j); [destruct Hj; apply nth_overflow; assumption|assumption]).
  pose proof (occ_set_empty ch i Ii Hi) as E1.
  assert (Lset : forall ch0 i0 c0, length (set_child ch0 i0 c0) = length ch0) by (induction ch0; intros [|?] ?; cbn; auto).
  assert (Nset : forall ch0 i0 c0 l0, l0 <> i0 -> nth l0 (set_child ch0 i0 c0) Empty = nth l0 ch0 Empty) by (induction ch0; intros [|?] ? [|?] ?; cbn; auto; congruence).
  pose proof (occ_set_empty (set_child ch i Empty) j) as E2. rewrite Lset, Nset in E2 by congruence. specialize (E2 Ij Hj).
  rewrite <- (Nset ch i Empty l), <- (Nset (set_child ch i Empty) j Empty l) by assumption. apply occ_zero. lia.
Qed.

(** Deleting succeeds in the partial trie: then the merge was visible, or the results differ. *)
Lemma hides_delete_or pr t : forall L t' k o', hides t t' -> wf L t -> (L <= 64)%nat -> shape t -> hexl k -> (length k <= 64)%nat ->
  delete_intern pr t' (enc k) = Ok o' ->
  merge_visible t t' k \/
  match o' with
  | None => False
  | Some (r', d) => exists r, delete_intern pr t (enc k) = Ok (Some (r, d)) /\ off r r'
  end.
Proof.
  induction t as [|h|ch w IH|n c IH|n w] using node_ind'; intros L t' k o' H W HL Sh Hk Lk E; inversion H as [| |? ch' ? F|? ? c' F| |t0 N G]; subst;
    try (left; exact I); try (cbn [delete_intern] in E; discriminate E).
  - inversion W as [| |L0 ? ? Hlen Fw| |]; subst. pose proof (Forall2_length _ _ _ F) as Hlen'. rewrite Hlen in Hlen'. symmetry in Hlen'.
    inversion Sh as [| |? ? Fs _| |]; subst. destruct k as [|d k]; [left; exact I|].
    cbn [length] in Lk. rewrite delete_branch_cons in E by (assumption || cbn [length]; lia). rewrite (delete_branch_cons pr ch) by (assumption || cbn [length]; lia).
    assert (Hd : hexl k) by (inversion Hk; assumption). assert (Hd0 : d < 16) by (inversion Hk; assumption).
    cbn [merge_visible]. rewrite at_child_nth, nth_error_child by assumption.
    change (nth (N.to_nat d) ch' Empty) with (child ch' d). change (nth (N.to_nat d) ch Empty) with (child ch d).
    destruct (delete_intern pr (child ch' d) (enc k)) as [o1|] eqn:E1; [|discriminate]. cbn [bind] in E.
    pose proof (hides_child keccak _ _ d F) as Hc.
    pose proof (wf_child L0 ch w d W) as Wd.
    assert (Sd : shape (child ch d)) by (destruct (child_in ch d) as [->|Hin]; [constructor|rewrite Forall_forall in Fs; auto]).
    (* a leaf with this key is deleted *)
    assert (LF : forall n0 w0, child ch d = Leaf n0 w0 -> nseq n0 = k -> exists e, o1 = Some (Empty, e)).
    { intros n0 w0 E0 Es. rewrite E0 in Hc, Wd. inversion Wd as [| | | |L1 l v0 Hl Ll]; subst. rewrite nseq_enc in * by exact Hl.
      assert (Ecd : child ch' d = Leaf (enc l) w0) by (inversion Hc as [| | | | |t1 N1 G1 E1' E2']; [congruence|rewrite <- E2' in E1; cbn [delete_intern] in E1; discriminate]).
      rewrite Ecd in E1. rewrite delete_leaf in E1 by assumption. destruct (key_eqb_spec l l); [|congruence]. injection E1 as <-. eauto. }
    assert (Q : merge_visible (child ch d) (child ch' d) k \/
      match o1 with None => False | Some (r', e) => exists r, delete_intern pr (child ch d) (enc k) = Ok (Some (r, e)) /\ off r r' end).
    { destruct (child_in ch d) as [E0|Hin]; [left; rewrite E0; exact I|].
      rewrite Forall_forall in IH. exact (IH _ Hin L0 _ k o1 Hc Wd ltac:(lia) Sd Hd ltac:(lia) E1). }
    destruct o1 as [[r1' e]|].
    2:{ destruct Q as [Q|[]]. left. split; [exact Q|]. intros _. destruct (child ch d) eqn:Ed; try exact I. intros Es. destruct (LF _ _ eq_refl Es) as [? ?]. discriminate. }
    destruct Q as [Q|(r1 & Er & Of)].
    + pose proof (hides_delete keccak pr (child ch d) L0 (child ch' d) k (Some (r1', e)) Hc Wd ltac:(lia) Sd Hd ltac:(lia) Q E1) as P.
      cbn beta iota in P. destruct P as (r1 & Er & Hr & _). rewrite Er. cbn [bind]. rewrite (hides_is_empty keccak _ _ Hr), <- (hides_num keccak ch ch' F).
      destruct (node_is_empty r1' && (get_num_non_empty_children ch' <=? 2)%nat) eqn:Econd.
      * apply andb_prop in Econd. destruct Econd as [C1 C2]. apply Nat.leb_le in C2. rewrite (hides_num keccak ch ch' F), num_occ in C2.
        pose proof (hides_other keccak ch ch' F 0 (N.to_nat d)) as Ho. pose proof (get_other_gen ch' 0 (N.to_nat d)) as Hg'.
        destruct (get_other_non_empty_child 0 ch' (N.to_nat d)) as [[i c']|] eqn:Eo'; [|discriminate E].
        destruct Ho as (c & Eo & Hcc). rewrite Eo. destruct (from_nibble (N.of_nat i)) as [m|] eqn:Em; [|discriminate]. cbn [bind] in *. injection E as <-.
        pose proof (get_other_gen ch 0 (N.to_nat d)) as Hg. rewrite Eo in Hg. rewrite Nat.sub_0_r in *.
        destruct Hg as (_ & Hi & Hne & Hnth & NEc). destruct Hg' as (_ & _ & _ & Hnth' & _).
        assert (Ed : child ch d <> Empty) by (intros E0; rewrite E0 in Er; discriminate).
        assert (S : seen c c' \/ ~ seen c c') by (unfold seen; destruct c'; auto; destruct c; cbn; tauto).
        destruct S as [S|S].
        -- left. split; [exact Q|]. intros _. destruct (child ch d) eqn:Edd; try exact I. intros Es i' Hi'.
           destruct (Nat.eq_dec i' i) as [->|Ni]; [rewrite Hnth, Hnth'; exact S|].
           assert (X : nth i' ch Empty = Empty) by (apply (occ_others ch (N.to_nat d) i C2); try congruence; change (nth (N.to_nat d) ch Empty) with (child ch d); congruence).
           pose proof (hides_child keccak ch ch' (N.of_nat i') F) as Y. unfold child in Y. rewrite Nat2N.id, X in Y.
           pose proof (proj1 (hides_empty_iff keccak _ _ Y) eq_refl) as Z. rewrite Z. exact I.
        -- right. eexists. split; [reflexivity|]. right. unfold seen in S. destruct c' as [|h| | |]; try (exfalso; apply S; exact I).
           assert (Em' : count m = 1) by (rewrite from_nibble_enc in Em by lia; injection Em as <-; reflexivity).
           constructor; [reflexivity|lia|]. assert (Hin : In c ch) by (rewrite <- Hnth; apply nth_In; lia).
           rewrite Forall_forall in Fs, Fw. specialize (Fs _ Hin). specialize (Fw _ Hin). destruct c as [|h0|? ?|m0 c0|? ?]; cbn in S; try tauto; try exact I.
           inversion Fs; subst. inversion Fw as [| | |L1 p cc Hp Wc|]; subst. cbn [short_node]. rewrite nseq_enc in * by assumption. rewrite enc_count. split; [|assumption].
           destruct p; [congruence|]. cbn [length] in *. lia.
      * left. split; [exact Q|]. intros O. destruct (child ch d) eqn:Edd; try exact I. intros Es. destruct (LF _ _ eq_refl Es) as [e' [= -> ->]].
        cbn [node_is_empty andb] in Econd. apply Nat.leb_gt in Econd. rewrite (hides_num keccak ch ch' F), num_occ in Econd. rewrite occupied_nil in O. lia.
    + right. destruct (off_not_empty _ _ Of) as [NE NE']. rewrite NE' in E. cbn [andb] in E. rewrite Er. cbn [bind].
      assert (NE1 : node_is_empty r1 = false) by (destruct r1; try reflexivity; congruence). rewrite NE1. cbn [andb].
      destruct (try_collapse_if_extension pr r1') as [c2'|] eqn:E2; [|discriminate]. cbn [bind] in E. injection E as <-.
      pose proof (delete_spec pr (child ch d) L0 k Wd Sd Hd ltac:(lia) ltac:(lia)) as P. rewrite Er in P. cbn [del_post] in P. destruct P as (_ & _ & Wr & Pr & _).
      destruct (try_collapse_spec pr r1 L0 Wr ltac:(lia) Pr) as (s & Es & _). rewrite Es. cbn [bind]. eexists. split; [reflexivity|].
      left. apply (df_branch _ _ _ _ (N.to_nat d)). rewrite !nth_set_child, !Nat.eqb_refl by lia.
      exact (off_try_collapse pr L0 r1 r1' s c2' Wr ltac:(lia) Of Es E2).
  - inversion W as [| | |L0 q c0 Hq Wc|]; subst. inversion Sh as [| | |? ? Nq Bc Shc|]; subst. cbn [merge_visible]. rewrite nseq_enc by exact Hq.
    assert (Fin : forall k1, hexl k1 -> (length k1 <= 64)%nat ->
      (r <- delete_intern pr c' (enc k1) ;; match r with None => Ok None | Some (c2, deleted) => n <- collapse_ext_node_if_needed pr (enc q) c2 ;; Ok (Some (n, deleted)) end) = Ok o' ->
      merge_visible c c' k1 \/
      match o' with
      | None => False
      | Some (r', d) => exists r, (r <- delete_intern pr c (enc k1) ;; match r with None => Ok None | Some (c2, deleted) => n <- collapse_ext_node_if_needed pr (enc q) c2 ;; Ok (Some (n, deleted)) end) = Ok (Some (r, d)) /\ off r r'
      end).
    { clear E Hk Lk. intros k1 Hk Lk E. destruct (delete_intern pr c' (enc k1)) as [o1|] eqn:E1; [|discriminate]. cbn [bind] in E.
      destruct (IH L0 c' k1 o1 F Wc ltac:(lia) Shc Hk Lk E1) as [Q|Q]; [left; exact Q|]. destruct o1 as [[r1' e]|]; [|destruct Q].
      destruct Q as (r1 & Er & Of). rewrite Er. cbn [bind]. destruct (collapse_ext_node_if_needed pr (enc q) r1') as [r'|] eqn:E2; [|discriminate]. cbn [bind] in E. injection E as <-.
      pose proof (delete_spec pr c L0 k1 Wc Shc Hk ltac:(lia) ltac:(lia)) as P. rewrite Er in P. cbn [del_post] in P. destruct P as (_ & _ & Wr & _).
      destruct (off_not_empty _ _ Of) as [NE _].
      destruct (collapse_ext_spec pr q r1 L0 Hq Wr NE HL) as (s & Es & _). rewrite Es. cbn [bind]. right. eexists. split; [reflexivity|].
      apply (off_collapse pr (enc q) r1 r1'); try assumption. rewrite enc_count. lia. }
    destruct (compare_keys q k) as [->|y s ->|x s ->|p x a y b -> -> D].
    + pose proof (delete_ext_long pr k [] c) as IE. pose proof (delete_ext_long pr k [] c') as IE'. rewrite app_nil_r in IE, IE'.
      rewrite IE' in E by (assumption || lia). rewrite IE by (assumption || lia).
      pose proof (strip_app k []) as ES. rewrite app_nil_r in ES. rewrite ES. apply Fin; [constructor|cbn; lia|exact E].
    + rewrite delete_ext_long in E by (assumption || lia). rewrite delete_ext_long by (assumption || lia). rewrite app_length in Lk.
      rewrite strip_app. apply Fin; [apply Forall_app in Hk; apply Hk|lia|exact E].
    + rewrite strip_strict. left. exact I.
    + rewrite strip_div by assumption. left. exact I.
Qed.

Lemma hides_trie_delete_or pr t t' k r' w : hides t t' -> wf 64 t -> shape t -> hexl k -> (length k <= 64)%nat ->
  trie_delete pr t' (enc k) = Ok (r', w) ->
  merge_visible t t' k \/ exists r, trie_delete pr t (enc k) = Ok (r, w) /\ ~ hides r r' /\ not_hash r'.
Proof.
  intros H W Sh Hk Lk E. unfold trie_delete in *. destruct (delete_intern pr t' (enc k)) as [o'|] eqn:E1; [|discriminate]. cbn [bind] in E.
  destruct (hides_delete_or pr t 64 t' k o' H W (le_n _) Sh Hk Lk E1) as [Q|Q]; [left; exact Q|right]. destruct o' as [[t1' d]|]; [|destruct Q].
  destruct Q as (t1 & Er & Of). rewrite Er. cbn [bind]. destruct (try_collapse_if_extension pr t1') as [t2'|] eqn:E2; [|discriminate]. cbn [bind] in E. injection E as <- <-.
  pose proof (delete_spec pr t 64 k W Sh Hk ltac:(lia) (le_n _)) as P. rewrite Er in P. cbn [del_post] in P. destruct P as (_ & _ & Wr & Pr & _).
  destruct (try_collapse_spec pr t1 64 Wr (le_n _) Pr) as (s & Es & _). rewrite Es. cbn [bind]. exists s. split; [reflexivity|].
  pose proof (off_try_collapse pr 64 t1 t1' s t2' Wr (le_n _) Of Es E2) as D. split; [apply differ_not_hides, D|]. destruct D; exact I.
Qed.
End H.
