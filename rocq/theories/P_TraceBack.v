(** Property C54: the lines that a deletion writes on its way back to the root. [back_lines] (TraceSpec.v) are the expected ones. *)
From Coq Require Import String.
From Verif Require Import Base Nibbles NibblesSpec NibblesFacts NibblesFacts2 NibblesFacts3 Trie TrieSpec TrieHistSpec TrieFacts TrieInsert TrieGet TrieDelete TrieHist InsertWf P_Trie
  Query Diff Text TextSpec TextFacts Trace TraceSpec TraceFacts P_Diff P_Trace.
Open Scope N_scope.
Open Scope list_scope.

Lemma others_hd ch : forall i0 nib, get_other_non_empty_child i0 ch nib =
  hd_error (filter (fun e => negb (Nat.eqb (fst e) nib) && match snd e with Empty => false | _ => true end) (combine (seq i0 (length ch)) ch)).
Proof.
  induction ch as [|c ch IH]; intros i0 nib; cbn [get_other_non_empty_child length seq combine filter hd_error fst snd]; [reflexivity|].
  replace (negb (node_is_empty c)) with (match c with Empty => false | _ => true end) by (destruct c; reflexivity).
  destruct (negb (i0 =? nib)%nat && match c with Empty => false | _ => true end); [reflexivity|apply IH].
Qed.
Lemma num_others ch : forall i0 nib, (i0 <= nib < i0 + length ch)%nat -> nth (nib - i0) ch Empty <> Empty ->
  get_num_non_empty_children ch = S (length (filter (fun e => negb (Nat.eqb (fst e) nib) && match snd e with Empty => false | _ => true end) (combine (seq i0 (length ch)) ch))).
Proof.
  assert (P : forall c, negb (node_is_empty c) = match c with Empty => false | _ => true end) by (intros []; reflexivity).
  assert (G : forall ch i0 nib, (nib < i0)%nat -> get_num_non_empty_children ch =
     length (filter (fun e => negb (Nat.eqb (fst e) nib) && match snd e with Empty => false | _ => true end) (combine (seq i0 (length ch)) ch))).
  { induction ch0 as [|c ch0 IH]; intros i0 nib H; [reflexivity|]. unfold get_num_non_empty_children in *. cbn [length seq combine filter fst snd].
    rewrite P. destruct (Nat.eqb_spec i0 nib); [lia|]. cbn [negb andb]. specialize (IH (S i0) nib ltac:(lia)). destruct c; cbn [length]; rewrite <- IH; reflexivity. }
  induction ch as [|c ch IH]; intros i0 nib H Hn; cbn [length] in H; [lia|]. unfold get_num_non_empty_children in *. cbn [length seq combine filter fst snd]. rewrite P.
  destruct (Nat.eqb_spec i0 nib) as [->|D]; cbn [negb andb].
  - rewrite Nat.sub_diag in Hn. cbn [nth] in Hn. specialize (G ch (S nib) nib ltac:(lia)). destruct c; try contradiction; cbn [length]; f_equal; exact G.
  - replace (nib - i0)%nat with (S (nib - S i0)) in Hn by lia. cbn [nth] in Hn. specialize (IH (S i0) nib ltac:(lia) Hn). destruct c; cbn [length]; rewrite IH; reflexivity.
Qed.

Definition left_is (s : remains) (r : node) : Prop :=
  match s with
  | Gone => r = Empty
  | Short p ty => exists c, r = Extension (enc p) c /\ hexl p /\ (length p <= 64)%nat /\ type_of c = ty
  | Kept => exists ch w, r = Branch ch w
  end.

Lemma lcollapse_fst pr p c : hexl p -> (length p <= 128)%nat -> fst (lcollapse_ext_node_if_needed true pr (enc p) c) = [collapse_line p (type_of c)].
Proof.
  intros Hp Lp. unfold lcollapse_ext_node_if_needed. rewrite key_text_enc by assumption. cbn [bind]. erewrite lbind_say by reflexivity. cbn [lres fst].
  unfold collapse_line. rewrite type_text_eq. reflexivity.
Qed.
Lemma ltry_fst pr s r : left_is s r -> fst (ltry_collapse_if_extension true pr r) = match s with Short p ty => [collapse_line p ty] | _ => [] end.
Proof.
  destruct s as [|p ty|]; cbn [left_is].
  - intros ->. reflexivity.
  - intros (c & -> & Hp & Lp & <-). cbn [ltry_collapse_if_extension]. apply lcollapse_fst; [exact Hp|lia].
  - intros (ch & w & ->). reflexivity.
Qed.

Section Back.
Variable pr : profile.

Lemma ldelete_intern_back t : forall L k r v, wf L t -> (L <= 64)%nat -> shape t -> hexl k -> (length k <= 64)%nat -> covers t k ->
  delete_intern pr t (enc k) = Ok (Some (r, v)) ->
  fst (ldelete_intern true pr t (enc k)) = path_lines "Delete" t k ++ fst (back (trail t k)) /\ left_is (snd (back (trail t k))) r.
Proof.
  induction t as [|h|ch w IH|n c IH|n w] using node_ind'; intros L k r v W HL Sh Hk Lk C E; unfold path_lines.
  - discriminate E.
  - discriminate E.
  - inversion W as [| |L0 ? ? Hlen Fw| |]; subst. destruct k as [|d k].
    { cbn [delete_intern] in E. rewrite is_empty_enc in E. injection E as <- <-. split; [reflexivity|]. cbn. eauto. }
    assert (Hd : d < 16) by (inversion Hk; assumption). assert (Hk' : hexl k) by (inversion Hk; assumption). cbn [length] in Lk.
    pose proof (trail_branch ch w d k Hlen Hd) as T. apply (covers_tail _ _ _ _ T) in C. rewrite T. rewrite delete_branch_cons in E by (assumption || (cbn [length]; lia)).
    destruct (delete_intern pr (child ch d) (enc k)) as [[[c1 v1]|]|] eqn:Ec; cbn [bind] in E; [|discriminate|discriminate].
    assert (NE : child ch d <> Empty) by (intros Z; rewrite Z in Ec; discriminate Ec).
    assert (I : In (child ch d) ch) by (destruct (child_in ch d) as [Z|I]; [contradiction|exact I]).
    assert (Wc : wf L0 (child ch d)) by (rewrite Forall_forall in Fw; apply Fw, I).
    assert (Sc : shape (child ch d)) by (inversion Sh as [| |? ? Fs ?| |]; subst; rewrite Forall_forall in Fs; apply Fs, I).
    rewrite Forall_forall in IH. destruct (IH _ I L0 k c1 v1 Wc ltac:(lia) Sc Hk' ltac:(lia) C Ec) as [B1 B2].
    assert (Sn : snd (ldelete_intern true pr (child ch d) (enc k)) = Ok (Some (c1, v1))).
    { rewrite <- Ec. apply (ldelete_intern_snd true pr _ L0). right. split; [exact Wc|lia]. }
    cbn [ldelete_intern flat_map back]. rewrite is_empty_enc. rewrite (lbind_res _ _ (d, enc k)) by (apply pop_front_enc; [assumption|cbn [length]; lia]).
    erewrite lbind_say by reflexivity. rewrite with_child_log_ok by assumption. rewrite nibble_text_hex by exact Hd.
    rewrite (fst_lbind_ok _ _ (fst (ldelete_intern true pr (child ch d) (enc k))) (Some (c1, v1))) by (rewrite <- Sn; apply surjective_pairing).
    rewrite B1. destruct (back (trail (child ch d) k)) as [lines below] eqn:Eb. cbn [fst snd] in *. cbn [back_step fst snd].
    destruct below as [|p ty|].
    + cbn [left_is] in B2. subst c1. cbn [node_is_empty andb] in *. unfold others.
      pose proof (others_hd ch 0 (N.to_nat d)) as Oh. pose proof (num_others ch 0 (N.to_nat d) ltac:(lia) ltac:(rewrite Nat.sub_0_r; exact NE)) as On.
      rewrite On in *. rewrite Oh in *. set (o := filter _ _) in *. destruct o as [|[i c] o]; cbn [length hd_error] in *; [discriminate E|].
      assert (Hi : (i < 16)%nat).
      { apply get_other_in in Oh as [_ Hi]. lia. }
      destruct o as [|e o]; cbn [Nat.leb length app] in *.
      * erewrite lbind_say by reflexivity. rewrite !nibble_text_hex by lia. rewrite type_text_eq.
        rewrite from_nibble_enc in * by lia. cbn [bind] in E. injection E as <- <-. split.
        -- cbn [lbind lres lret fst snd app step_line path_lines]. rewrite <- ?app_assoc. unfold path_lines. reflexivity.
        -- cbn [snd left_is]. exists c. split; [reflexivity|]. split; [repeat constructor; lia|]. split; [cbn; lia|reflexivity].
      * cbn [ltry_collapse_if_extension]. cbn [try_collapse_if_extension bind] in E. injection E as <- <-. split.
        -- cbn [lbind lres lret fst snd app step_line path_lines]. rewrite ?app_nil_r, <- ?app_assoc. unfold path_lines. reflexivity.
        -- cbn. eauto.
    + assert (Nn : node_is_empty c1 = false) by (destruct B2 as (? & -> & _); reflexivity). rewrite Nn in *. cbn [andb] in *.
      pose proof (ltry_fst pr (Short p ty) c1 B2) as Lt. destruct (try_collapse_if_extension pr c1) as [c2|] eqn:E2; cbn [bind] in E; [|discriminate]. injection E as <- <-.
      assert (S2 : snd (ltry_collapse_if_extension true pr c1) = Ok c2).
      { rewrite <- E2. apply (ltry_collapse_snd true pr L0). right. split; [|lia]. eapply delete_intern_wf; [exact Wc| |exact Ec]. lia. }
      rewrite (fst_lbind_ok _ _ (fst (ltry_collapse_if_extension true pr c1)) c2) by (rewrite <- S2; apply surjective_pairing).
      rewrite Lt. split.
      * cbn [lret fst snd app step_line]. rewrite ?app_nil_r, <- ?app_assoc. unfold path_lines. reflexivity.
      * cbn. eauto.
    + assert (Nn : node_is_empty c1 = false) by (destruct B2 as (? & ? & ->); reflexivity). rewrite Nn in *. cbn [andb] in *.
      destruct B2 as (ch' & w' & ->). cbn [ltry_collapse_if_extension try_collapse_if_extension bind] in *. injection E as <- <-. split.
      * cbn [lbind lret fst snd app step_line]. rewrite ?app_nil_r, <- ?app_assoc. unfold path_lines. reflexivity.
      * cbn. eauto.
  - inversion W; subst. inversion Sh as [| | |? ? Hn Bo Sc|]; subst. assert (Hs : (length l <= length k)%nat).
    { unfold covers in C. cbn [trail] in C. inversion C as [|? ? C1 _]; subst. cbn [fst snd] in C1. rewrite nseq_enc in C1 by assumption. exact C1. }
    unfold covers in C. cbn [trail flat_map back] in *. inversion C as [|? ? _ C']; subst. rewrite nseq_enc in * by assumption.
    cbn [ldelete_intern]. unfold say_nibbles. erewrite lbind_say by (apply say_ext_line; [assumption|lia]).
    cbn [app step_line fst snd]. rewrite nseq_enc by assumption.
    rewrite identical_enc by (assumption || lia). erewrite lbind_res by reflexivity.
    replace (Nat.min (length l) (length k)) with (length l) by lia. destruct (strip l k) as [k'|] eqn:Es.
    + apply strip_some in Es. subst k. rewrite delete_ext_long in E by (assumption || lia). rewrite lcp_app_l, Nat.leb_refl. rewrite count_enc, truncate_front_enc by (assumption || lia).
      erewrite lbind_res by reflexivity. rewrite skipn_exact. apply hexl_app in Hk. rewrite app_length in Lk.
      destruct (delete_intern pr c (enc k')) as [[[c1 v1]|]|] eqn:Ec; cbn [bind] in E; [|discriminate|discriminate].
      destruct (collapse_ext_node_if_needed pr (enc l) c1) as [r1|] eqn:E1; cbn [bind] in E; [|discriminate]. injection E as <- <-.
      assert (Sn : snd (ldelete_intern true pr c (enc k')) = Ok (Some (c1, v1))).
      { rewrite <- Ec. apply (ldelete_intern_snd true pr _ L0). right. split; [assumption|lia]. }
      destruct (IH L0 k' c1 v1 ltac:(assumption) ltac:(lia) Sc ltac:(tauto) ltac:(lia) C' Ec) as [B1 B2].
      rewrite (fst_lbind_ok _ _ (fst (ldelete_intern true pr c (enc k'))) (Some (c1, v1))) by (rewrite <- Sn; apply surjective_pairing).
      assert (S2 : snd (lcollapse_ext_node_if_needed true pr (enc l) c1) = Ok r1).
      { rewrite <- E1. apply lcollapse_snd. right. exists l. split; [reflexivity|]. split; [assumption|lia]. }
      rewrite (fst_lbind_ok _ _ (fst (lcollapse_ext_node_if_needed true pr (enc l) c1)) r1) by (rewrite <- S2; apply surjective_pairing).
      rewrite lcollapse_fst by (assumption || lia). rewrite B1. destruct (back (trail c k')) as [lines below] eqn:Eb. cbn [fst snd] in *. cbn [back_step fst snd].
      rewrite nseq_enc by assumption.
      destruct below as [|p ty|].
      * cbn [left_is] in B2. subst c1. discriminate E1.
      * destruct B2 as (c2 & -> & Hp & Lp & <-). cbn [type_of]. split.
        -- cbn [lret fst]. rewrite ?app_nil_r. cbn [app]. rewrite <- ?app_assoc. unfold path_lines. reflexivity.
        -- cbn [snd left_is]. assert (W1 : wf L0 (Extension (enc p) c2)) by (eapply delete_intern_wf; [eassumption| |exact Ec]; lia). 
           assert (Lp' : (length p <= L0)%nat) by (remember (enc p) as ep eqn:Ep; inversion W1; subst; match goal with X : enc _ = enc p |- _ => apply enc_inj in X; [subst|assumption..] end; lia).
           cbn [collapse_ext_node_if_needed] in E1. rewrite merge_nibbles_enc in E1 by (assumption || lia). cbn [bind] in E1. injection E1 as <-.
           exists c2. split; [reflexivity|]. split; [apply hexl_app; auto|]. split; [rewrite app_length; lia|reflexivity].
      * destruct B2 as (ch & w & ->). cbn [type_of]. split.
        -- cbn [lret fst]. rewrite ?app_nil_r. cbn [app]. rewrite <- ?app_assoc. unfold path_lines. reflexivity.
        -- cbn [snd left_is]. cbn [collapse_ext_node_if_needed] in E1. injection E1 as <-. eexists. split; [reflexivity|]. split; [assumption|]. split; [lia|reflexivity].
    + exfalso. destruct (Nat.leb_spec (length l) (lcp l k)) as [Hl|Hl].
      * apply strip_none in Es. apply Es. apply lcp_full_prefix. pose proof (lcp_le l k). lia.
      * cbn [delete_intern] in E. rewrite identical_enc in E by (assumption || lia). cbn [bind] in E. replace (Nat.min (length l) (length k)) with (length l) in E by lia.
        destruct (Nat.leb_spec (length l) (lcp l k)); [lia|discriminate E].
  - inversion W; subst. cbn [ldelete_intern]. unfold say_nibbles. erewrite lbind_say by (apply say_ext_line; [assumption|lia]).
    cbn [trail flat_map app step_line fst snd back back_step]. rewrite delete_leaf in E by assumption. rewrite nib_eqb_enc by assumption. destruct (key_eqb l k); [|discriminate].
    injection E as <- <-. rewrite key_text_enc by (assumption || lia). cbn [bind]. erewrite lbind_say by reflexivity. rewrite nseq_enc by assumption. split; reflexivity.
Qed.
End Back.

(** The lines of a deletion that deletes something. *)
Theorem C54_delete_back : forall pr t k t' v, wf 64 t -> shape t -> kwf k -> covers t (nseq k) -> trie_delete pr t k = Ok (t', Some v) ->
  fst (ldelete true pr t k) = delete_line (nseq k) :: path_lines "Delete" t (nseq k) ++ back_lines t (nseq k).
Proof.
  intros pr t k t' v W Sh Hk C E. destruct (kwf_ex k Hk) as (q & -> & Eq & Hq & Lq). rewrite Eq in *. unfold ldelete, trie_delete in *. rewrite key_text_enc by (assumption || lia). cbn [bind].
  erewrite lbind_say by reflexivity. destruct (delete_intern pr t (enc q)) as [[[r w]|]|] eqn:Ed; cbn [bind] in E; [|discriminate|discriminate].
  destruct (ldelete_intern_back pr t 64 q r w W (le_n _) Sh Hq Lq C Ed) as [B1 B2].
  assert (Sn : snd (ldelete_intern true pr t (enc q)) = Ok (Some (r, w))).
  { rewrite <- Ed. apply (ldelete_intern_snd true pr _ 64). right. split; [exact W|lia]. }
  rewrite (fst_lbind_ok _ _ (fst (ldelete_intern true pr t (enc q))) (Some (r, w))) by (rewrite <- Sn; apply surjective_pairing). rewrite B1.
  destruct (try_collapse_if_extension pr r) as [r2|] eqn:E2; cbn [bind] in E; [|discriminate].
  assert (S2 : snd (ltry_collapse_if_extension true pr r) = Ok r2).
  { rewrite <- E2. apply (ltry_collapse_snd true pr 64). right. split; [|lia]. eapply delete_intern_wf; [exact W|lia|exact Ed]. }
  rewrite (fst_lbind_ok _ _ (fst (ltry_collapse_if_extension true pr r)) r2) by (rewrite <- S2; apply surjective_pairing).
  rewrite (ltry_fst pr _ r B2). unfold back_lines. destruct (back (trail t q)) as [lines here]. cbn [fst snd lret]. rewrite app_nil_r, <- app_assoc. reflexivity.
Qed.
(** At most one line for each node on the way down, at most one on the way back, one at the start and one at the root. *)
Theorem C54_delete_count : forall pr t k, wf 64 t -> shape t -> kwf k -> covers t (nseq k) ->
  (forall t' v, trie_delete pr t k = Ok (t', Some v) -> length (fst (ldelete true pr t k)) <= 2 + 2 * length (trail t (nseq k)))%nat /\
  (forall v, length (fst (linsert true pr t k v)) <= 1 + length (trail t (nseq k)))%nat /\
  (length (fst (lget true pr t k)) <= length (trail t (nseq k)))%nat.
Proof.
  intros pr t k W Sh Hk C.
  assert (P : forall op way, (length (flat_map (step_line op) way) <= length way)%nat).
  { intros op way. induction way as [|[n r] way IH]; [reflexivity|]. cbn [flat_map length]. rewrite app_length.
    assert (length (step_line op (n, r)) <= 1)%nat; [|lia]. unfold step_line. cbn [fst snd]. destruct n; try destruct r; try destruct (list_eq_dec _ _ _); cbn; lia. }
  assert (B : forall way, (length (fst (back way)) <= length way)%nat).
  { induction way as [|[n r] way IH]; [reflexivity|]. cbn [back length]. destruct (back way) as [lines below]. cbn [fst] in IH.
    assert (length (fst (back_step (n, r) below)) <= 1)%nat.
    { unfold back_step. cbn [fst snd]. destruct n; try destruct r; try destruct below; try (cbn; lia). destruct (others _ _) as [|[i c] [|]]; cbn; lia. }
    destruct (back_step (n, r) below) as [more here]. cbn [fst] in *. rewrite app_length. lia. }
  split; [|split].
  - intros t' v E. rewrite (C54_delete_back pr t k t' v W Sh Hk C E). cbn [length]. rewrite app_length. unfold path_lines, back_lines. specialize (P (txt "Delete") (trail t (nseq k))).
    specialize (B (trail t (nseq k))). destruct (back (trail t (nseq k))) as [lines here]. cbn [fst] in B. rewrite app_length.
    assert (length (match here with Short p child => [collapse_line p child] | _ => [] end) <= 1)%nat by (destruct here; cbn; lia). lia.
  - intros v. rewrite C54_insert_lines by assumption. cbn [length]. specialize (P (txt "Insert") (trail t (nseq k))). unfold path_lines. lia.
  - rewrite C54_get_lines by assumption. apply P.
Qed.
(** A deletion that turns a branch into an extension node, which the extension node above absorbs, and which the branch above that turns into a leaf. *)
Example C54_back_example : reach Debug ex_trie /\ (exists t, trie_delete Debug ex_trie (K 4 0x1234) = Ok (t, Some [1])) /\
  back_lines ex_trie (nseq (K 4 0x1234)) =
    map txt ["Deleting leaf (0x4)"]%string ++
    [txt "Branch 3 became an extension when collapsing a branch (may be collapsed further still)." ++ newline ++ repeat 32 32 ++
     txt "Single remaining child in slot 5 (Leaf) will be pointed at with an extension node."] ++
    map txt ["Collapsing extension node (0x2) with child Extension..."; "Collapsing extension node (0x25) with child Leaf..."]%string.
Proof.
  split; [unfold ex_trie; reach_tac ex_entries|]. split; [eexists; vm_compute; reflexivity|]. vm_compute. reflexivity.
Qed.

Print Assumptions C54_delete_back.
Print Assumptions C54_delete_count.
