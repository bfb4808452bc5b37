(** Facts about partial tries: hashes, contents, and simulation of get and insert. *)
From Verif Require Import Base Nibbles NibblesSpec NibblesFacts NibblesFacts2 NibblesFacts3 Trie TrieSpec TrieFacts TrieInsert TrieGet TrieDelete TrieHist InsertWf YellowPaper HashSpec HideSpec HashFacts.
Open Scope N_scope.

Lemma Forall2_length {A B} (R : A -> B -> Prop) l l' : Forall2 R l l' -> length l = length l'.
Proof. induction 1; cbn [length]; congruence. Qed.

Section H.
Variable keccak : list N -> list N.
Hypothesis K32 : hash32 keccak.
Notation item := (item keccak).
Notation ref := (ref keccak).
Notation root := (root keccak).
Notation hides := (hides keccak).

Lemma hides_refl t : hides t t.
Proof.
  induction t as [|h|ch v IH|n c IH|n v] using node_ind'; constructor; auto.
  induction IH; constructor; auto.
Qed.

Lemma Forall2_self {A} (R : A -> A -> Prop) l : Forall (fun x => R x x) l -> Forall2 R l l.
Proof. induction 1; constructor; auto. Qed.

Lemma hides_child ch ch' d : Forall2 hides ch ch' -> hides (child ch d) (child ch' d).
Proof.
  unfold child. intros F. generalize (N.to_nat d). induction F; intros [|i]; cbn [nth]; try constructor; auto.
Qed.
Lemma hides_set ch ch' i c c' : Forall2 hides ch ch' -> hides c c' -> Forall2 hides (set_child ch i c) (set_child ch' i c').
Proof. intros F H. revert i. induction F; intros [|i]; cbn [set_child]; constructor; auto. Qed.
Lemma hides_new : Forall2 hides new_branch_child_arr new_branch_child_arr.
Proof. apply Forall2_self, Forall_new. constructor. Qed.

Lemma hides_empty_iff t t' : hides t t' -> (t = Empty <-> t' = Empty).
Proof.
  intros H. inversion H; subst; split; intros E; try discriminate; auto. subst t.
  match goal with L : 32 <= _ |- _ => vm_compute in L; contradiction (L eq_refl) end.
Qed.
Lemma hides_is_empty t t' : hides t t' -> node_is_empty t = node_is_empty t'.
Proof.
  intros H. apply hides_empty_iff in H. destruct t, t'; cbn; try reflexivity; destruct H as [A B];
    try (discriminate (A eq_refl)); discriminate (B eq_refl).
Qed.

(** ** Hashes *)
Lemma ref_out t : not_hash t -> 32 <= len (RLP (item t)) -> ref t = RStr (keccak (RLP (item t))).
Proof.
  intros N G. unfold HashSpec.ref, shorten. destruct (N.ltb_spec (len (RLP (item t))) 32); [lia|]. destruct t; try reflexivity. destruct N.
Qed.

Lemma hides_item t : forall t', hides t t' -> ref t' = ref t /\ (not_hash t' -> item t' = item t).
Proof.
  induction t as [|h|ch v IH|n c IH|n v] using node_ind'; intros t' H; inversion H as [| |? ch' ? F|? ? c' F| |t0 N G]; subst;
    try (split; [reflexivity|intros; reflexivity]);
    try (split; [rewrite (ref_out _ N G); reflexivity|intros []]).
  - assert (E : map ref ch' = map ref ch).
    { clear - F IH. induction F as [|c c' ch ch' Hc F IHf]; [reflexivity|]. inversion IH as [|? ? IHc IHr]; subst. cbn [map]. rewrite (proj1 (IHc c' Hc)), IHf by exact IHr. reflexivity. }
    assert (E2 : item (Branch ch' v) = item (Branch ch v)) by (rewrite !item_branch, E; reflexivity).
    split; [|auto]. unfold HashSpec.ref. rewrite E2. reflexivity.
  - assert (E2 : item (Extension n c') = item (Extension n c)) by (rewrite !item_ext, (proj1 (IH c' F)); reflexivity).
    split; [|auto]. unfold HashSpec.ref. rewrite E2. reflexivity.
Qed.

Lemma hides_ref t t' : hides t t' -> ref t' = ref t.
Proof. intros H. apply hides_item, H. Qed.

Lemma hides_root t t' : hides t t' -> root t' = root t.
Proof.
  intros H. pose proof (proj2 (hides_item t t' H)) as E. inversion H as [| |? ch' ? F|? ? c' F| |t0 N G]; subst; try reflexivity;
    unfold HashFacts.root; try (rewrite E by exact I; reflexivity).
  destruct t; try reflexivity. destruct N.
Qed.

(** Hiding more. *)
Lemma hides_trans t1 : forall t2 t3, hides t1 t2 -> hides t2 t3 -> hides t1 t3.
Proof.
  induction t1 as [|h|ch v IH|n c IH|n v] using node_ind'; intros t2 t3 H1 H2;
    pose proof (proj2 (hides_item _ _ H1)) as E;
    inversion H1 as [| |? ch' ? F|? ? c' F| |t0 N G]; subst;
    inversion H2 as [| |? ch'' ? F'|? ? c'' F'| |t0' N' G']; subst; auto; try (destruct N').
  - constructor. clear - F F' IH. revert ch'' F'. induction F as [|c c' ch ch' Hc F IHf]; intros ch'' F'; inversion F'; subst; constructor.
    + inversion IH; subst; eauto.
    + inversion IH; subst; auto.
  - rewrite E in * by exact I. constructor; [exact I|assumption].
  - constructor. eauto.
  - rewrite E in * by exact I. constructor; [exact I|assumption].
Qed.

(** ** Invariants *)
Lemma hides_wf t : forall L t', hides t t' -> wf L t -> wf L t'.
Proof.
  induction t as [|h|ch v IH|n c IH|n v] using node_ind'; intros L t' H W; inversion H as [| |? ch' ? F|? ? c' F| |t0 N G]; subst; auto; try constructor.
  - inversion W as [| |L0 ? ? Hlen Fw| |]; subst. constructor.
    + rewrite <- (Forall2_length _ _ _ F). exact Hlen.
    + clear - F Fw IH. induction F as [|c c' ch ch' Hc F IHf]; constructor; inversion IH; inversion Fw; subst; auto.
  - inversion W as [| | |L0 q c0 Hq Wc|]; subst. constructor; auto.
Qed.

Lemma hides_fits t : forall t', hides t t' -> fits t -> fits t'.
Proof.
  induction t as [|h|ch v IH|n c IH|n v] using node_ind'; intros t' H W; inversion H as [| |? ch' ? F|? ? c' F| |t0 N G]; subst; auto; try apply K32.
  - apply fits_branch in W. apply fits_branch. destruct W as (A & B & Fc). repeat split; auto.
    clear - F Fc IH. induction F as [|c c' ch ch' Hc F IHf]; constructor; inversion IH; inversion Fc; subst; auto.
  - cbn [fits] in *. auto.
Qed.

Lemma hides_boh c c' : hides c c' -> branch_or_hash c -> branch_or_hash c'.
Proof. intros H. inversion H; subst; cbn; auto. Qed.

Lemma hides_filter ch ch' : Forall2 hides ch ch' ->
  length (filter (fun c => match c with Empty => false | _ => true end) ch') = length (filter (fun c => match c with Empty => false | _ => true end) ch).
Proof.
  induction 1 as [|c c' ch ch' Hc F IH]; [reflexivity|]. cbn [filter]. pose proof (hides_empty_iff _ _ Hc) as E.
  destruct c, c'; cbn [length]; rewrite ?IH; try reflexivity; destruct E as [A B]; try (discriminate (A eq_refl)); discriminate (B eq_refl).
Qed.

Lemma hides_shape t : forall t', hides t t' -> shape t -> shape t'.
Proof.
  induction t as [|h|ch v IH|n c IH|n v] using node_ind'; intros t' H W; inversion H as [| |? ch' ? F|? ? c' F| |t0 N G]; subst; auto; try constructor.
  - inversion W as [| |? ? Fs (c & Hc & NE)| |]; subst. clear - F Fs IH. induction F as [|c c' ch ch' Hc F IHf]; constructor; inversion IH; inversion Fs; subst; auto.
  - inversion W as [| |? ? Fs (c & Hc & NE)| |]; subst. destruct (in_child_ex ch c Hc) as (d & Hd & <-).
    exists (child ch' d). pose proof (hides_child ch ch' d F) as Hh. apply hides_empty_iff in Hh.
    assert (child ch' d <> Empty) by tauto. split; [apply in_child|]; assumption.
  - inversion W; subst; auto.
  - inversion W; subst; eauto using hides_boh.
  - inversion W; subst; auto.
Qed.

Lemma hides_canon t : forall t', hides t t' -> canon t -> canon t'.
Proof.
  induction t as [|h|ch v IH|n c IH|n v] using node_ind'; intros t' H W; inversion H as [| |? ch' ? F|? ? c' F| |t0 N G]; subst; auto; try constructor.
  - inversion W; subst. match goal with Fs : Forall canon _ |- _ => clear - F Fs IH; rename Fs into FF end. induction F as [|c c' ch ch' Hc F IHf]; constructor; inversion IH; inversion FF; subst; auto.
  - inversion W; subst. unfold occupied in *. rewrite (hides_filter _ _ F). assumption.
  - inversion W; subst; auto.
  - inversion W; subst; eauto using hides_boh.
  - inversion W; subst; auto.
Qed.

(** ** Contents *)
Lemma hides_lk t : forall t' k, hides t t' -> lk t' k = lk t k \/ exists p h, lk t' p = Some (HashV h) /\ is_prefix p k.
Proof.
  induction t as [|h|ch v IH|n c IH|n v] using node_ind'; intros t' k H; inversion H as [| |? ch' ? F|? ? c' F| |t0 N G]; subst; auto;
    try (right; exists [], (keccak (RLP (item (Branch ch v)))); split; [reflexivity|exists k; reflexivity]);
    try (right; eexists [], _; split; [reflexivity|exists k; reflexivity]).
  - destruct k as [|d k]; [left; reflexivity|]. rewrite !lk_branch. pose proof (hides_child _ _ d F) as Hd.
    assert (Q : lk (child ch' d) k = lk (child ch d) k \/ exists p h, lk (child ch' d) p = Some (HashV h) /\ is_prefix p k).
    { destruct (child_in ch d) as [E|I].
      - left. pose proof (proj1 (hides_empty_iff _ _ Hd) E) as E'. rewrite E, E'. reflexivity.
      - rewrite Forall_forall in IH. exact (IH _ I _ k Hd). }
    destruct Q as [Q|(p & h & Q & [r ->])]; [left; exact Q|]. right. exists (d :: p), h. rewrite lk_branch. split; [exact Q|exists r; reflexivity].
  - cbn [lk]. destruct (strip (nseq n) k) as [k'|] eqn:E; [|left; reflexivity].
    destruct (IH c' k' F) as [Q|(p & h & Q & [r ->])]; [left; exact Q|]. right. exists (nseq n ++ p), h.
    split.
    + cbn [lk]. replace (strip (nseq n) (nseq n ++ p)) with (Some p); [exact Q|]. generalize (nseq n). intros l. induction l as [|x l IHl]; [reflexivity|]. cbn [app strip]. rewrite N.eqb_refl. exact IHl.
    + exists r. clear - E. revert k E. generalize (nseq n). intros l. induction l as [|x l IHl]; intros k E; cbn [strip] in E; [injection E as ->; reflexivity|].
      destruct k as [|y k]; [discriminate|]. destruct (N.eqb_spec x y); [subst|discriminate]. cbn [app]. rewrite (IHl k E). reflexivity.
Qed.

Lemma hides_lk_val t : forall t' k v, hides t t' -> lk t' k = Some (Val v) -> lk t k = Some (Val v).
Proof.
  induction t as [|h|ch v IH|n c IH|n v] using node_ind'; intros t' k w H E; inversion H as [| |? ch' ? F|? ? c' F| |t0 N G]; subst; auto;
    try (cbn [lk] in E; destruct k; discriminate).
  - destruct k as [|d k]; [exact E|]. rewrite !lk_branch in *. pose proof (hides_child _ _ d F) as Hd.
    destruct (child_in ch d) as [E0|I].
    + pose proof (proj1 (hides_empty_iff _ _ Hd) E0) as E'. rewrite E' in E. discriminate.
    + rewrite Forall_forall in IH. exact (IH _ I _ k w Hd E).
  - cbn [lk] in *. destruct (strip (nseq n) k) as [k'|]; [|discriminate]. eauto.
Qed.

(** ** Simulation: get *)
Lemma hides_get pr t : forall t' k, hides t t' -> trie_get pr t' k = trie_get pr t k \/ trie_get pr t' k = Ok None.
Proof.
  induction t as [|h|ch v IH|n c IH|n v] using node_ind'; intros t' k H; inversion H as [| |? ch' ? F|? ? c' F| |t0 N G]; subst; auto.
  - cbn [trie_get]. destruct (is_empty k); [left; reflexivity|]. destruct (pop_next_nibble_front pr k) as [[nib k']|]; [|left; reflexivity]. cbn [bind].
    rewrite !with_child_nth. generalize (N.to_nat nib). intros i. clear - F IH. revert i. induction F as [|c c' ch ch' Hc F IHf]; intros i.
    + left. destruct i; reflexivity.
    + inversion IH; subst. destruct i; cbn [nth_error]; auto.
  - cbn [trie_get]. destruct (pop_nibbles_front pr k (count n)) as [[r k']|]; [|left; reflexivity]. cbn [bind].
    destruct (identical_up_to_smallest pr r n) as [[]|]; cbn [bind]; auto.
Qed.

(** ** Simulation: insert *)
Lemma hides_mk k v : hides (mk k v) (mk k v).
Proof. apply hides_refl. Qed.
Lemma hides_ext q b b' : hides b b' -> hides (ext q b) (ext q b').
Proof. intros H. destruct q; [exact H|constructor; exact H]. Qed.

Lemma hides_insert pr t : forall L t' k v r', hides t t' -> wf L t -> (L <= 64)%nat -> hexl k -> (length k <= 64)%nat ->
  insert_rec pr t' (enc k) v = Ok r' -> exists r, insert_rec pr t (enc k) v = Ok r /\ hides r r'.
Proof.
  induction t as [|h|ch w IH|n c IH|n w] using node_ind'; intros L t' k v r' H W HL Hk Lk E; inversion H as [| |? ch' ? F|? ? c' F| |t0 N G]; subst;
    try (cbn [insert_rec] in E; discriminate E);
    try (exists r'; split; [exact E|apply hides_refl]).
  - inversion W as [| |L0 ? ? Hlen Fw| |]; subst. pose proof (Forall2_length _ _ _ F) as Hlen'. rewrite Hlen in Hlen'. symmetry in Hlen'.
    destruct k as [|d k].
    + rewrite insert_branch_nil in *. destruct v as [u|h]; [|discriminate]. injection E as <-. exists (Branch ch u). split; [reflexivity|constructor; exact F].
    + cbn [length] in Lk. rewrite insert_branch_cons in * by (assumption || cbn [length]; lia).
      destruct (insert_rec pr (child ch' d) (enc k) v) as [c1|] eqn:E1; [|discriminate]. cbn [bind] in E. injection E as <-.
      assert (Hd : hexl k) by (inversion Hk; assumption).
      assert (Q : exists r, insert_rec pr (child ch d) (enc k) v = Ok r /\ hides r c1).
      { pose proof (hides_child _ _ d F) as Hc. destruct (child_in ch d) as [E0|I].
        - pose proof (proj1 (hides_empty_iff _ _ Hc) E0) as E'. rewrite E' in E1. rewrite E0. exists c1. split; [exact E1|apply hides_refl].
        - rewrite Forall_forall in IH, Fw. exact (IH _ I L0 _ k v c1 Hc (Fw _ I) ltac:(lia) Hd ltac:(lia) E1). }
      destruct Q as (r & -> & Hr). cbn [bind]. eexists. split; [reflexivity|]. constructor. apply hides_set; assumption.
  - inversion W as [| | |L0 q c0 Hq Wc|]; subst.
    destruct (compare_keys q k) as [->|y s ->|x s ->|p x a y b -> -> D].
    + pose proof (insert_ext_long pr k [] c v) as IE. pose proof (insert_ext_long pr k [] c' v) as IE'. rewrite app_nil_r in IE, IE'.
      rewrite IE' in E by (assumption || lia). rewrite IE by (assumption || lia).
      destruct (insert_rec pr c' (enc []) v) as [c1|] eqn:E1; [|discriminate]. cbn [bind] in E. injection E as <-.
      destruct (IH L0 c' [] v c1 F Wc ltac:(lia) ltac:(constructor) ltac:(cbn; lia) E1) as (r & -> & Hr). cbn [bind]. eexists. split; [reflexivity|constructor; exact Hr].
    + rewrite insert_ext_long in * by (assumption || lia).
      destruct (insert_rec pr c' (enc (y :: s)) v) as [c1|] eqn:E1; [|discriminate]. cbn [bind] in E. injection E as <-.
      rewrite app_length in Lk.
      destruct (IH L0 c' (y :: s) v c1 F Wc ltac:(lia) ltac:(apply Forall_app in Hk; apply Hk) ltac:(lia) E1) as (r & -> & Hr). cbn [bind]. eexists. split; [reflexivity|constructor; exact Hr].
    + rewrite app_length in HL. rewrite insert_ext_short in * by (assumption || rewrite app_length; lia).
      destruct (insert_rec pr c' (enc []) v) as [c1|] eqn:E1; [|discriminate]. cbn [bind] in E. injection E as <-.
      destruct (IH L0 c' [] v c1 F Wc ltac:(lia) ltac:(constructor) ltac:(cbn; lia) E1) as (r & -> & Hr). cbn [bind]. eexists. split; [reflexivity|constructor; exact Hr].
    + rewrite insert_ext_div in * by (assumption || lia). injection E as <-. eexists. split; [reflexivity|]. apply hides_ext. constructor.
      apply hides_set; [|apply hides_refl]. apply hides_set; [apply hides_new|]. apply hides_ext, F.
Qed.

Lemma hides_extend pr l : forall t t' r', hides t t' -> wf 64 t -> Forall (fun e => kwf (fst e)) l ->
  trie_extend pr t' l = Ok r' -> exists r, trie_extend pr t l = Ok r /\ hides r r'.
Proof.
  induction l as [|[k v] l IH]; intros t t' r' H W F E; cbn [trie_extend] in *.
  - injection E as <-. eauto.
  - inversion F as [|? ? Hk F']; subst. cbn [fst] in *.
    destruct (trie_insert pr t' k v) as [t1'|] eqn:E1; [|discriminate]. cbn [bind] in E.
    destruct (kwf_ex k Hk) as (q & -> & _ & Hq & Lq).
    destruct (hides_insert pr t 64 t' q v t1' H W (le_n _) Hq Lq E1) as (t1 & E2 & H1).
    change (trie_insert pr t (enc q) v = Ok t1) in E2. rewrite E2. cbn [bind].
    eapply IH; eauto. eapply tinsert_wf; eauto.
Qed.

(** [fits] is kept by insertion. *)
Definition fits_val (v : val_or_hash) : Prop :=
  match v with Val v => bytesl v /\ len v < 2147483648 | HashV h => bytesl h /\ len h = 32 end.

Lemma fits_create k v : fits_val v -> fits (create_node_from_insert_val k v).
Proof. destruct v; cbn; [auto|]. destruct (is_empty k); cbn; auto. Qed.

Lemma fits_new : Forall fits new_branch_child_arr.
Proof. apply Forall_new. exact I. Qed.

Definition fits_pl (p : placement) : Prop :=
  match p with
  | BranchValue v (_, c) => bytesl v /\ len v < 2147483648 /\ fits c
  | BothBranchChildren (_, c1) (_, c2) => fits c1 /\ fits c2
  end.

Lemma fits_ins pr info k v x : fits_val v -> ins_entry_into_leaf_and_nibble pr info k v = Ok x -> fits (snd x).
Proof.
  unfold ins_entry_into_leaf_and_nibble. intros Fv E. destruct (get_nibble _ _ _); [|discriminate]. cbn [bind] in E.
  destruct (uadd _ _ _); [|discriminate]. cbn [bind] in E. destruct (truncate_n_nibbles_front _ _ _); [|discriminate]. cbn [bind] in E.
  injection E as <-. apply fits_create, Fv.
Qed.

Lemma fits_check pr info ex k v p : fits ex -> fits_val v -> check_placement pr info ex k v = Ok p -> fits_pl p.
Proof.
  intros Fe Fv E. unfold check_placement in E.
  set (other := if count (new_postfix info) =? 0 then _ else _) in E.
  assert (G : other = Ok p -> fits_pl p).
  { clear E. unfold other. intros E. destruct (count (new_postfix info) =? 0).
    - destruct v as [v|]; cbn [expect_val bind] in E; [|discriminate]. destruct (get_nibble _ _ _); [|discriminate]. cbn [bind] in E. injection E as <-. cbn in *. tauto.
    - destruct (get_nibble _ _ _); [|discriminate]. cbn [bind] in E. destruct (ins_entry_into_leaf_and_nibble pr info k v) as [[n c]|] eqn:Ei; [|discriminate]. cbn [bind] in E. injection E as <-.
      apply fits_ins in Ei; [|exact Fv]. cbn in *. auto. }
  destruct (count (existing_postfix info) =? 0); [|auto]. destruct ex; auto.
  destruct (ins_entry_into_leaf_and_nibble pr info k v) as [[n c]|] eqn:Ei; [|discriminate]. cbn [bind] in E. injection E as <-.
  apply fits_ins in Ei; [|exact Fv]. cbn in *. tauto.
Qed.

Lemma fits_place pr info ex k v r : fits ex -> fits_val v -> place_branch pr info ex k v = Ok r -> fits r.
Proof.
  intros Fe Fv E. unfold place_branch in E. destruct (check_placement pr info ex k v) as [p|] eqn:EP; [|discriminate]. cbn [bind] in E.
  apply fits_check in EP; [|assumption..].
  assert (Fb : fits (match p with
    | BranchValue bv (nib, n) => Branch (set_child new_branch_child_arr (N.to_nat nib) n) bv
    | BothBranchChildren (n1, c1) (n2, c2) =>
        Branch (set_child (set_child new_branch_child_arr (N.to_nat n1) c1) (N.to_nat n2) c2) []
    end)).
  { destruct p as [bv [nib n]|[n1 c1] [n2 c2]]; cbn [fits_pl] in EP; apply fits_branch; (split; [|split]); try tauto; try constructor;
      repeat apply Forall_set_child; try apply fits_new; tauto. }
  injection E as <-. destruct (_ =? _); exact Fb.
Qed.

Lemma insert_fits pr t : forall k v r, fits t -> fits_val v -> insert_rec pr t k v = Ok r -> fits r.
Proof.
  induction t as [|h|ch w IH|n c IH|n w] using node_ind'; intros k v r Ft Fv E; cbn [insert_rec] in E.
  - injection E as <-. apply fits_create, Fv.
  - discriminate.
  - apply fits_branch in Ft. destruct Ft as (A & B & Fc). destruct (count k =? 0).
    + destruct v as [v|]; cbn in E; [|discriminate]. injection E as <-. apply fits_branch. destruct Fv. auto.
    + destruct (pop_next_nibble_front pr k) as [[nib k']|]; [|discriminate]. cbn [bind] in E. rewrite with_child_nth in E.
      destruct (nth_error ch (N.to_nat nib)) as [c|] eqn:En; [|discriminate]. destruct (insert_rec pr c k' v) as [c1|] eqn:E1; [|discriminate]. cbn [bind] in E. injection E as <-.
      apply fits_branch. split; [exact A|]. split; [exact B|]. apply Forall_set_child; [exact Fc|]. apply nth_error_In in En. rewrite Forall_forall in IH, Fc. eauto.
  - destruct (get_pre_and_postfixes pr n k) as [info|]; [|discriminate]. cbn [bind] in E. destruct (identical_up_to_smallest pr n k) as [[]|]; [| |discriminate]; cbn [bind] in E.
    + destruct (truncate_n_nibbles_front pr k (count n)) as [k'|]; [|discriminate]. cbn [bind] in E. destruct (insert_rec pr c k' v) as [c1|] eqn:E1; [|discriminate]. cbn [bind] in E. injection E as <-.
      cbn [fits] in *. eauto.
    + destruct (truncate_n_nibbles_front pr (existing_postfix info) 1) as [adj|]; [|discriminate]. cbn [bind] in E. eapply fits_place; [|exact Fv|exact E].
      destruct (count adj =? 0); exact Ft.
  - destruct (nib_eqb n k).
    + destruct v as [v|]; cbn in E; [|discriminate]. injection E as <-. exact Fv.
    + destruct (get_pre_and_postfixes pr n k) as [info|]; [|discriminate]. cbn [bind] in E. destruct (uadd pr (count (common_prefix info)) 1) as [n1|]; [|discriminate]. cbn [bind] in E.
      destruct (truncate_n_nibbles_front pr n n1) as [l'|]; [|discriminate]. cbn [bind] in E. eapply fits_place; [|exact Fv|exact E]. exact Ft.
Qed.

Lemma extend_fits pr l : forall t r, fits t -> Forall (fun e => fits_val (snd e)) l -> trie_extend pr t l = Ok r -> fits r.
Proof.
  induction l as [|[k v] l IH]; intros t r Ft F E; cbn [trie_extend] in E; [injection E as <-; exact Ft|].
  inversion F; subst. destruct (trie_insert pr t k v) as [t1|] eqn:E1; [|discriminate]. cbn [bind] in E. eapply IH; [|eassumption|exact E].
  eapply insert_fits; [exact Ft| |exact E1]. assumption.
Qed.

Lemma collapse_fits pr n c r : fits c -> collapse_ext_node_if_needed pr n c = Ok r -> fits r.
Proof.
  destruct c; cbn [collapse_ext_node_if_needed]; intros F E; try discriminate; try (injection E as <-; exact F);
    destruct (merge_nibbles _ _ _); try discriminate; cbn [bind] in E; injection E as <-; exact F.
Qed.
Lemma try_collapse_fits pr c r : fits c -> try_collapse_if_extension pr c = Ok r -> fits r.
Proof. destruct c; cbn [try_collapse_if_extension]; intros F E; try (injection E as <-; exact F). eapply collapse_fits; [|exact E]. exact F. Qed.

Lemma get_other_in ch : forall i0 nib i c, get_other_non_empty_child i0 ch nib = Some (i, c) -> In c ch.
Proof.
  induction ch as [|x ch IH]; intros i0 nib i c E; cbn [get_other_non_empty_child] in E; [discriminate|].
  destruct (_ && _); [injection E as _ <-; left; reflexivity|right; eauto].
Qed.

Lemma delete_fits pr t : forall k r d, fits t -> delete_intern pr t k = Ok (Some (r, d)) -> fits r /\ bytesl d /\ len d < 2147483648.
Proof.
  induction t as [|h|ch w IH|n c IH|n w] using node_ind'; intros k r d Ft E; cbn [delete_intern] in E; try discriminate.
  - apply fits_branch in Ft. destruct Ft as (A & B & Fc). destruct (is_empty k).
    + injection E as <- <-. split; [apply fits_branch; repeat split; auto; constructor|auto].
    + destruct (pop_next_nibble_front pr k) as [[nib k']|]; [|discriminate]. cbn [bind] in E. rewrite with_child_nth in E.
      destruct (nth_error ch (N.to_nat nib)) as [c|] eqn:En; [|discriminate]. destruct (delete_intern pr c k') as [[[c1 d1]|]|] eqn:E1; try discriminate. cbn [bind] in E.
      apply nth_error_In in En. rewrite Forall_forall in IH, Fc. destruct (IH c En k' c1 d1 (Fc c En) E1) as (F1 & F2 & F3).
      destruct (node_is_empty c1 && _).
      * destruct (get_other_non_empty_child 0 ch (N.to_nat nib)) as [[i c2]|] eqn:Eo; [|discriminate]. destruct (from_nibble (N.of_nat i)); [|discriminate]. cbn [bind] in E. injection E as <- <-.
        split; [|auto]. cbn [fits]. apply Fc. eapply get_other_in, Eo.
      * destruct (try_collapse_if_extension pr c1) as [c2|] eqn:E2; [|discriminate]. cbn [bind] in E. injection E as <- <-. split; [|auto].
        apply fits_branch. split; [exact A|]. split; [exact B|]. apply Forall_set_child; [apply Forall_forall; exact Fc|]. eapply try_collapse_fits; [exact F1|exact E2].
  - destruct (identical_up_to_smallest pr n k) as [[]|]; try discriminate. cbn [bind] in E. destruct (truncate_n_nibbles_front pr k (count n)) as [k'|]; [|discriminate]. cbn [bind] in E.
    destruct (delete_intern pr c k') as [[[c1 d1]|]|] eqn:E1; try discriminate. cbn [bind] in E. destruct (IH k' c1 d1 Ft E1) as (F1 & F2 & F3).
    destruct (collapse_ext_node_if_needed pr n c1) as [c2|] eqn:E2; [|discriminate]. cbn [bind] in E. injection E as <- <-. split; [|auto]. eapply collapse_fits; eauto.
  - destruct (nib_eqb n k); [|discriminate]. injection E as <- <-. split; [exact I|exact Ft].
Qed.

Lemma tdelete_fits pr t k r d : fits t -> trie_delete pr t k = Ok (r, d) -> fits r.
Proof.
  intros F E. unfold trie_delete in E. destruct (delete_intern pr t k) as [[[t1 w]|]|] eqn:E1; try discriminate; cbn [bind] in E.
  - destruct (try_collapse_if_extension pr t1) as [t2|] eqn:E2; [|discriminate]. cbn [bind] in E. injection E as <- _. eapply try_collapse_fits; [|exact E2]. eapply delete_fits; eauto.
  - injection E as <- _. exact F.
Qed.
End H.
