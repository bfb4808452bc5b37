(** Simulation of delete between a trie and its partial tries. *)
From Verif Require Import Base Nibbles NibblesSpec NibblesFacts NibblesFacts2 NibblesFacts3 Trie TrieSpec TrieFacts TrieInsert TrieGet TrieDelete TrieHist YellowPaper HashSpec HideSpec HashFacts HideFacts.
Open Scope N_scope.

Section H.
Variable keccak : list N -> list N.
Hypothesis K32 : hash32 keccak.
Notation hides := (hides keccak).

Definition seen (c c' : node) : Prop := match c' with Hash _ => branch_or_hash c | _ => True end.
Definition vis (r r' : node) : Prop := match r, r' with Extension _ c, Extension _ c' => seen c c' | _, _ => True end.

Lemma hides_collapse pr n c c' r' : hides c c' -> seen c c' -> collapse_ext_node_if_needed pr n c' = Ok r' ->
  exists r, collapse_ext_node_if_needed pr n c = Ok r /\ hides r r' /\ (vis c c' -> vis r r').
Proof.
  intros H V E. inversion H as [| |? ch' ? F|? ? c0' F| |t0 N G]; subst; cbn [collapse_ext_node_if_needed] in *; try discriminate.
  - injection E as <-. eexists. split; [reflexivity|]. split; [constructor; exact H|]. intros _. exact I.
  - injection E as <-. eexists. split; [reflexivity|]. split; [constructor; exact H|]. intros _. exact I.
  - destruct (merge_nibbles pr n n0) as [m|]; [|discriminate]. cbn [bind] in *. injection E as <-. eexists. split; [reflexivity|]. split; [constructor; exact F|]. intros Q. exact Q.
  - destruct (merge_nibbles pr n n0) as [m|]; [|discriminate]. cbn [bind] in *. injection E as <-. eexists. split; [reflexivity|]. split; [constructor|]. intros Q. exact Q.
  - injection E as <-. destruct c; cbn in V, N; try tauto. eexists. split; [reflexivity|]. split; [constructor; exact H|]. intros _. exact I.
Qed.

Lemma hides_try_collapse pr c c' r' : hides c c' -> not_hash c' -> vis c c' -> try_collapse_if_extension pr c' = Ok r' ->
  exists r, try_collapse_if_extension pr c = Ok r /\ hides r r'.
Proof.
  intros H N V E. inversion H as [| |? ch' ? F|? ? c0' F| |t0 N0 G]; subst; cbn [try_collapse_if_extension] in *;
    try (injection E as <-; eexists; split; [reflexivity|exact H]); [|destruct N].
  destruct (hides_collapse pr n c0 c0' r' F V E) as (r & A & B & _). eauto.
Qed.

Lemma delete_not_hash pr t : forall k r d, delete_intern pr t k = Ok (Some (r, d)) -> not_hash r.
Proof.
  assert (Q : forall n c r, collapse_ext_node_if_needed pr n c = Ok r -> not_hash r).
  { intros n c r E. destruct c; cbn in E; try discriminate; try (injection E as <-; exact I); destruct (merge_nibbles _ _ _); try discriminate; cbn [bind] in E; injection E as <-; exact I. }
  destruct t as [|h|ch v|n c|n v]; intros k r d E; cbn [delete_intern] in E; try discriminate.
  - destruct (is_empty k); [injection E as <- _; exact I|]. destruct (pop_next_nibble_front pr k) as [[nib k']|]; [|discriminate]. cbn [bind] in E.
    destruct (with_child _ _ _) as [[[c1 d1]|]|]; try discriminate. cbn [bind] in E. destruct (_ && _).
    + destruct (get_other_non_empty_child _ _ _) as [[i c]|]; [|discriminate]. destruct (from_nibble _); [|discriminate]. cbn [bind] in E. injection E as <- _. exact I.
    + destruct (try_collapse_if_extension pr c1); [|discriminate]. cbn [bind] in E. injection E as <- _. exact I.
  - destruct (identical_up_to_smallest pr n k) as [[]|]; try discriminate. cbn [bind] in E. destruct (truncate_n_nibbles_front pr k (count n)); [|discriminate]. cbn [bind] in E.
    destruct (delete_intern pr c _) as [[[c1 d1]|]|]; try discriminate. cbn [bind] in E. destruct (collapse_ext_node_if_needed pr n c1) eqn:E1; [|discriminate]. cbn [bind] in E. injection E as <- _. eauto.
  - destruct (nib_eqb n k); [|discriminate]. injection E as <- _. exact I.
Qed.

Lemma collapse_not_empty pr n c : collapse_ext_node_if_needed pr n c <> Ok Empty.
Proof. destruct c; cbn; try discriminate; destruct (merge_nibbles _ _ _); discriminate. Qed.

Lemma delete_to_empty pr t k d : delete_intern pr t k = Ok (Some (Empty, d)) -> exists n, t = Leaf n d /\ nib_eqb n k = true.
Proof.
  destruct t as [|h|ch v|n c|n v]; intros E; cbn [delete_intern] in E; try discriminate.
  - destruct (is_empty k); [discriminate|]. destruct (pop_next_nibble_front pr k) as [[nib k']|]; [|discriminate]. cbn [bind] in E.
    destruct (with_child _ _ _) as [[[c1 d1]|]|]; try discriminate. cbn [bind] in E. destruct (_ && _).
    + destruct (get_other_non_empty_child _ _ _) as [[i c]|]; [|discriminate]. destruct (from_nibble _); [|discriminate]. discriminate.
    + destruct (try_collapse_if_extension pr c1); discriminate.
  - destruct (identical_up_to_smallest pr n k) as [[]|]; try discriminate. cbn [bind] in E. destruct (truncate_n_nibbles_front pr k (count n)); [|discriminate]. cbn [bind] in E.
    destruct (delete_intern pr c _) as [[[c1 d1]|]|]; try discriminate. cbn [bind] in E. destruct (collapse_ext_node_if_needed pr n c1) eqn:E1; [|discriminate]. cbn [bind] in E. injection E as -> _.
    destruct (collapse_not_empty _ _ _ E1).
  - destruct (nib_eqb n k) eqn:En; [|discriminate]. injection E as ->. eauto.
Qed.

Lemma hides_num ch ch' : Forall2 hides ch ch' -> get_num_non_empty_children ch' = get_num_non_empty_children ch.
Proof. intros F. rewrite !num_occ. apply (hides_filter keccak _ _ F). Qed.

Lemma hides_other ch ch' : Forall2 hides ch ch' -> forall i0 nib,
  match get_other_non_empty_child i0 ch' nib with
  | Some (i, c') => exists c, get_other_non_empty_child i0 ch nib = Some (i, c) /\ hides c c'
  | None => get_other_non_empty_child i0 ch nib = None
  end.
Proof.
  induction 1 as [|c c' ch ch' Hc F IH]; intros i0 nib; cbn [get_other_non_empty_child]; [reflexivity|].
  rewrite (hides_is_empty keccak _ _ Hc). destruct (_ && _); [eauto|apply IH].
Qed.

Lemma hides_delete pr t : forall L t' k o', hides t t' -> wf L t -> (L <= 64)%nat -> shape t -> hexl k -> (length k <= 64)%nat ->
  merge_visible t t' k -> delete_intern pr t' (enc k) = Ok o' ->
  match o' with
  | None => delete_intern pr t (enc k) = Ok None
  | Some (r', d) => exists r, delete_intern pr t (enc k) = Ok (Some (r, d)) /\ hides r r' /\ vis r r'
  end.
Proof.
  induction t as [|h|ch w IH|n c IH|n w] using node_ind'; intros L t' k o' H W HL Sh Hk Lk MV E; inversion H as [| |? ch' ? F|? ? c' F| |t0 N G]; subst;
    try (cbn [delete_intern] in E; discriminate E).
  - cbn [delete_intern] in *. injection E as <-. reflexivity.
  - inversion W as [| |L0 ? ? Hlen Fw| |]; subst. pose proof (Forall2_length _ _ _ F) as Hlen'. rewrite Hlen in Hlen'. symmetry in Hlen'.
    inversion Sh as [| |? ? Fs _| |]; subst. destruct k as [|d k].
    + rewrite delete_branch_nil in *. injection E as <-. eexists. split; [reflexivity|]. split; [constructor; exact F|exact I].
    + cbn [length] in Lk. rewrite delete_branch_cons in * by (assumption || cbn [length]; lia).
      assert (Hd : hexl k) by (inversion Hk; assumption). assert (Hd0 : d < 16) by (inversion Hk; assumption).
      cbn [merge_visible] in MV. rewrite at_child_nth, nth_error_child in MV by assumption. destruct MV as [MVc MVm].
      change (nth (N.to_nat d) ch' Empty) with (child ch' d) in MVc. change (nth (N.to_nat d) ch Empty) with (child ch d) in MVm.
      destruct (delete_intern pr (child ch' d) (enc k)) as [o1|] eqn:E1; [|discriminate]. cbn [bind] in E.
      assert (Q : match o1 with
          | None => delete_intern pr (child ch d) (enc k) = Ok None
          | Some (r', e) => exists r, delete_intern pr (child ch d) (enc k) = Ok (Some (r, e)) /\ hides r r' /\ vis r r' end).
      { pose proof (hides_child keccak _ _ d F) as Hc. destruct (child_in ch d) as [E0|Hin].
        - pose proof (proj1 (hides_empty_iff keccak _ _ Hc) E0) as E'. rewrite E' in E1. cbn [delete_intern] in E1. injection E1 as <-. rewrite E0. reflexivity.
        - rewrite Forall_forall in IH, Fw, Fs. exact (IH _ Hin L0 _ k o1 Hc (Fw _ Hin) ltac:(lia) (Fs _ Hin) Hd ltac:(lia) MVc E1). }
      destruct o1 as [[r1' e]|]; [|injection E as <-; rewrite Q; reflexivity].
      destruct Q as (r1 & Q & Hr & Vr). rewrite Q. cbn [bind]. rewrite (hides_is_empty keccak _ _ Hr), <- (hides_num ch ch' F).
      destruct (node_is_empty r1' && (get_num_non_empty_children ch' <=? 2)%nat) eqn:Econd.
      * apply andb_prop in Econd. destruct Econd as [C1 C2]. apply Nat.leb_le in C2.
        pose proof (hides_other ch ch' F 0 (N.to_nat d)) as Ho. pose proof (get_other_gen ch' 0 (N.to_nat d)) as Hg.
        destruct (get_other_non_empty_child 0 ch' (N.to_nat d)) as [[i c']|]; [|discriminate E].
        destruct Ho as (c & Eo & Hc). rewrite Eo. destruct (from_nibble (N.of_nat i)) as [m|] eqn:Em; [|discriminate]. cbn [bind] in *. injection E as <-.
        eexists. split; [reflexivity|]. split; [constructor; exact Hc|]. cbn [vis].
        assert (Er : r1 = Empty) by (destruct r1'; try discriminate C1; apply (hides_empty_iff keccak _ _ Hr); reflexivity). subst r1.
        destruct (delete_to_empty _ _ _ _ Q) as (n & En & Ek). rewrite En in MVm.
        rewrite (hides_num ch ch' F), num_occ in C2. rewrite <- occupied_nil in C2.
        assert (Hn : nseq n = k).
        { pose proof (wf_child L0 ch w d W) as Wd. rewrite En in Wd. inversion Wd as [| | | |L1 l v0 Hl Ll]; subst.
          rewrite nib_eqb_enc in Ek by assumption. rewrite nseq_enc by exact Hl. destruct (key_eqb_spec l k); [assumption|discriminate]. }
        destruct Hg as (_ & Hi & Hne & Hnth & _). rewrite Nat.sub_0_r in Hnth.
        specialize (MVm C2 Hn i Hne). rewrite Hnth in MVm. unfold seen. destruct c'; try exact I.
        pose proof (get_other_gen ch 0 (N.to_nat d)) as Hg2. rewrite Eo in Hg2. destruct Hg2 as (_ & _ & _ & Hg2 & _). rewrite Nat.sub_0_r in Hg2.
        rewrite Hg2 in MVm. exact MVm.
      * destruct (try_collapse_if_extension pr r1') as [c2'|] eqn:E2; [|discriminate]. cbn [bind] in E. injection E as <-.
        destruct (hides_try_collapse pr r1 r1' c2' Hr (delete_not_hash _ _ _ _ _ E1) Vr E2) as (c2 & -> & H2). cbn [bind].
        eexists. split; [reflexivity|]. split; [constructor; apply hides_set; assumption|exact I].
  - inversion W as [| | |L0 q c0 Hq Wc|]; subst. inversion Sh as [| | |? ? Nq Bc Shc|]; subst. cbn [merge_visible] in MV. rewrite nseq_enc in MV by exact Hq.
    assert (Fin : forall k1, merge_visible c c' k1 -> hexl k1 -> (length k1 <= 64)%nat ->
      (r <- delete_intern pr c' (enc k1) ;; match r with None => Ok None | Some (c2, deleted) => n <- collapse_ext_node_if_needed pr (enc q) c2 ;; Ok (Some (n, deleted)) end) = Ok o' ->
      match o' with
      | None => (r <- delete_intern pr c (enc k1) ;; match r with None => Ok None | Some (c2, deleted) => n <- collapse_ext_node_if_needed pr (enc q) c2 ;; Ok (Some (n, deleted)) end) = Ok None
      | Some (r', d) => exists r, (r <- delete_intern pr c (enc k1) ;; match r with None => Ok None | Some (c2, deleted) => n <- collapse_ext_node_if_needed pr (enc q) c2 ;; Ok (Some (n, deleted)) end) = Ok (Some (r, d)) /\ hides r r' /\ vis r r'
      end).
    { clear E MV Hk Lk. intros k1 MV Hk Lk E. destruct (delete_intern pr c' (enc k1)) as [o1|] eqn:E1; [|discriminate]. cbn [bind] in E.
      pose proof (IH L0 c' k1 o1 F Wc ltac:(lia) Shc Hk Lk MV E1) as Q. destruct o1 as [[r1' e]|]; [|injection E as <-; rewrite Q; reflexivity].
      destruct Q as (r1 & -> & Hr & Vr). cbn [bind]. destruct (collapse_ext_node_if_needed pr (enc q) r1') as [r'|] eqn:E2; [|discriminate]. cbn [bind] in E. injection E as <-.
      pose proof (delete_not_hash _ _ _ _ _ E1) as NH.
      destruct (hides_collapse pr (enc q) r1 r1' r' Hr) as (r & -> & A & B); [destruct r1'; try exact I; destruct NH|exact E2|]. cbn [bind]. eauto. }
    destruct (compare_keys q k) as [->|y s ->|x s ->|p x a y b -> -> D].
    + pose proof (delete_ext_long pr k [] c) as IE. pose proof (delete_ext_long pr k [] c') as IE'. rewrite app_nil_r in IE, IE'.
      rewrite IE' in E by (assumption || lia). rewrite IE by (assumption || lia).
      apply Fin; [|constructor|cbn; lia|exact E]. pose proof (strip_app k []) as ES. rewrite app_nil_r in ES. rewrite ES in MV. exact MV.
    + rewrite delete_ext_long in * by (assumption || lia). rewrite app_length in Lk.
      apply Fin; [|apply Forall_app in Hk; apply Hk|lia|exact E]. rewrite strip_app in MV. exact MV.
    + rewrite app_length in HL. rewrite delete_ext_short in * by (assumption || rewrite app_length; lia).
      apply Fin; [|constructor|cbn; lia|exact E]. destruct c; cbn in Bc; try contradiction; [exact I|]. inversion F; subst; exact I.
    + rewrite delete_ext_div in * by (assumption || lia). injection E as <-. reflexivity.
  - inversion W as [| | | |L0 l v0 Hl Ll]; subst. rewrite delete_leaf in * by assumption. injection E as <-. destruct (key_eqb l k); [|reflexivity].
    eexists. split; [reflexivity|]. split; [constructor|exact I].
Qed.
End H.
