(** Facts about subsets. *)
From Verif Require Import Base Nibbles NibblesSpec NibblesFacts NibblesFacts2 NibblesFacts3 Trie TrieSpec TrieFacts TrieInsert TrieGet TrieDelete TrieHist TrieObs Rlp YellowPaper Hashing HashSpec HideSpec HashFacts HideFacts HideBind Subset SubsetSpec.
Open Scope N_scope.

Section Ind.
Variable P : tracked -> Prop.
Hypothesis HE : forall u b, P (TEmpty u b).
Hypothesis HH : forall u b, P (THash u b).
Hypothesis HB : forall l u b, Forall P l -> P (TBranch l u b).
Hypothesis HX : forall c u b, P c -> P (TExtension c u b).
Hypothesis HL : forall u b, P (TLeaf u b).
Fixpoint tracked_ind' (t : tracked) : P t :=
  match t with
  | TEmpty u b => HE u b
  | THash u b => HH u b
  | TBranch l u b =>
      HB l u b ((fix go l : Forall P l := match l with [] => Forall_nil P | c :: l' => Forall_cons c (tracked_ind' c) (go l') end) l)
  | TExtension c u b => HX c u b (tracked_ind' c)
  | TLeaf u b => HL u b
  end.
End Ind.

(** A tracked trie of [t], with any flags. *)
Inductive tracks : tracked -> node -> Prop :=
| tr_empty b : tracks (TEmpty Empty b) Empty
| tr_hash h b : tracks (THash (Hash h) b) (Hash h)
| tr_branch l ch v b : Forall2 tracks l ch -> tracks (TBranch l (Branch ch v) b) (Branch ch v)
| tr_ext c n c0 b : tracks c c0 -> tracks (TExtension c (Extension n c0) b) (Extension n c0)
| tr_leaf n v b : tracks (TLeaf (Leaf n v) b) (Leaf n v).

Lemma track_tracks t : tracks (track t) t.
Proof.
  induction t as [|h|ch v IH|n c IH|n v] using node_ind'; cbn [track]; constructor; auto.
  induction IH; cbn [map]; constructor; auto.
Qed.

Lemma tracks_underlying tr t : tracks tr t -> underlying tr = t.
Proof. destruct 1; reflexivity. Qed.

(** [tr'] has at least the flags of [tr]. *)
Inductive fle : tracked -> tracked -> Prop :=
| fle_empty u b b' : (b = true -> b' = true) -> fle (TEmpty u b) (TEmpty u b')
| fle_hash u b b' : (b = true -> b' = true) -> fle (THash u b) (THash u b')
| fle_branch l l' u b b' : (b = true -> b' = true) -> Forall2 fle l l' -> fle (TBranch l u b) (TBranch l' u b')
| fle_ext c c' u b b' : (b = true -> b' = true) -> fle c c' -> fle (TExtension c u b) (TExtension c' u b')
| fle_leaf u b b' : (b = true -> b' = true) -> fle (TLeaf u b) (TLeaf u b').

Lemma Forall2_refl {A} (R : A -> A -> Prop) l : Forall (fun x => R x x) l -> Forall2 R l l.
Proof. induction 1; constructor; auto. Qed.

Lemma fle_refl tr : fle tr tr.
Proof. induction tr as [| |l u b IH| |] using tracked_ind'; constructor; auto. apply Forall2_refl, IH. Qed.

Lemma fle_trans a : forall b c, fle a b -> fle b c -> fle a c.
Proof.
  induction a as [| |l u b IH| |] using tracked_ind'; intros y z H1 H2; inversion H1; subst; inversion H2; subst; constructor; auto.
  - match goal with A : Forall2 fle l ?m, B : Forall2 fle ?m ?n |- _ => clear - IH A B; revert n B; induction A; intros n B; inversion B; subst; constructor end;
      inversion IH; subst; eauto.
  - eauto.
Qed.

Lemma fle_touched a b : fle a b -> touched a = true -> touched b = true.
Proof. destruct 1; cbn; auto. Qed.

Lemma with_tracked_ok {E} (f : tracked -> res (result tracked E)) l : forall i l',
  with_tracked f l i = Ok (ROk l') ->
  exists c c', nth_error l i = Some c /\ f c = Ok (ROk c') /\ (nth_error l' i = Some c') /\
    forall R : tracked -> tracked -> Prop, (forall x, R x x) -> R c c' -> Forall2 R l l'.
Proof.
  induction l as [|x l IH]; intros i l' H; destruct i as [|i]; cbn [with_tracked] in H; try discriminate.
  - destruct (f x) as [[c'|]|] eqn:Ef; try discriminate. cbn [bind] in H. injection H as <-. exists x, c'.
    repeat split; auto. intros R Rr Rc. constructor; [exact Rc|]. apply Forall2_refl, Forall_forall. auto.
  - destruct (with_tracked f l i) as [[l1|]|] eqn:Ef; try discriminate. cbn [bind] in H. injection H as <-.
    destruct (IH i l1 Ef) as (c & c' & A & B & C & D). exists c, c'. repeat split; auto.
Qed.

Lemma mark_fle pr tr : forall k tr', mark pr tr k = Ok (ROk tr') -> fle tr tr'.
Proof.
  induction tr as [u b|u b|l u b IH|c u b IH|u b] using tracked_ind'; intros k tr' E; cbn [mark] in E.
  - injection E as <-. constructor; auto.
  - destruct (is_empty k); [|discriminate]. injection E as <-. constructor; auto.
  - destruct (is_empty k); [injection E as <-; constructor; auto; apply Forall2_refl, Forall_forall; intros; apply fle_refl|].
    destruct (pop_next_nibble_front pr k) as [[nib k']|]; [|discriminate]. cbn [bind] in E.
    destruct (with_tracked _ l (N.to_nat nib)) as [[l'|]|] eqn:Ew; try discriminate. cbn [bind] in E. injection E as <-.
    constructor; auto. destruct (with_tracked_ok _ _ _ _ Ew) as (c & c' & A & B & C & D). apply D; [apply fle_refl|].
    apply nth_error_In in A. rewrite Forall_forall in IH. eauto.
  - destruct (get_nibbles_expected u) as [n|]; [|discriminate]. cbn [bind] in E. destruct (pop_nibbles_front pr k (count n)) as [[r k']|]; [|discriminate]. cbn [bind] in E.
    destruct (identical_up_to_smallest pr r n) as [[]|]; [| |discriminate]; cbn [bind] in E.
    + destruct (mark pr c k') as [[c'|]|] eqn:Em; try discriminate. cbn [bind] in E. injection E as <-. constructor; eauto.
    + injection E as <-. constructor; auto using fle_refl.
  - injection E as <-. constructor; auto.
Qed.

Lemma fle_tracks a : forall b t, fle a b -> tracks a t -> tracks b t.
Proof.
  induction a as [| |l u b IH| |] using tracked_ind'; intros y t H T; inversion H; subst; inversion T; subst; constructor; auto.
  match goal with A : Forall2 fle l _, B : Forall2 tracks l ?ch |- _ => clear - IH A B; revert ch B; induction A; intros ch B; inversion B; subst; constructor end;
    inversion IH; subst; eauto.
Qed.

Lemma mark_all_fle pr ks : forall tr tr', mark_all pr tr ks = Ok (ROk tr') -> fle tr tr'.
Proof.
  induction ks as [|k ks IH]; intros tr tr' E; cbn [mark_all] in E.
  - injection E as <-. apply fle_refl.
  - destruct (mark pr tr k) as [[tr1|]|] eqn:Em; try discriminate. cbn [bind] in E. eapply fle_trans; [eapply mark_fle, Em|eauto].
Qed.

(** Resetting keeps the structure. *)
Lemma reset_info_tracks tr t : tracks tr t -> tracks (reset_info tr) t.
Proof. destruct 1; cbn; constructor; auto. Qed.
Lemma reset_tracks tr t : tracks tr t -> tracks (reset_tracked tr) t.
Proof.
  intros H. inversion H; subst; cbn; constructor.
  - match goal with F : Forall2 _ _ _ |- _ => clear H; induction F; cbn [map]; constructor; auto using reset_info_tracks end.
  - apply reset_info_tracks. assumption.
Qed.

(** ** Hashes *)
Section H.
Variable keccak : list N -> list N.
Hypothesis K32 : hash32 keccak.
Notation hides := (hides keccak).
Notation item := (item keccak).

Definition create_all (pr : profile) : list tracked -> res (list node) :=
  fix go (l : list tracked) : res (list node) :=
    match l with
    | [] => Ok []
    | c :: l' => n <- create_from_tracked keccak pr c ;; ns <- go l' ;; Ok (n :: ns)
    end.

Definition keep_of (pr : profile) (t : tracked) : res node :=
  match t with
  | TEmpty _ _ => Ok Empty
  | THash u _ => h <- get_hash_node_hash_expected u ;; Ok (Hash h)
  | TBranch children u _ => ch <- create_all pr children ;; v <- get_branch_value_expected u ;; Ok (Branch ch v)
  | TExtension child u _ => n <- get_nibbles_expected u ;; c <- create_from_tracked keccak pr child ;; Ok (Extension n c)
  | TLeaf u _ => '(n, v) <- get_leaf_nibbles_and_value_expected u ;; Ok (Leaf n v)
  end.

Lemma create_eq pr tr t L : tracks tr t -> wf L t -> (L <= 64)%nat -> fits t ->
  create_from_tracked keccak pr tr =
  if touched tr then keep_of pr tr else match enode keccak t with Hashed h => Ok (Hash h) | Raw _ => keep_of pr tr end.
Proof.
  intros T W HL F.
  transitivity (if touched tr then keep_of pr tr else e <- rlp_encode_and_hash_node keccak pr (underlying tr) ;; match e with Hashed h => Ok (Hash h) | Raw _ => keep_of pr tr end).
  - destruct tr; reflexivity.
  - rewrite (tracks_underlying _ _ T), (hash_node_ok keccak K32 pr t L W ltac:(lia) F). reflexivity.
Qed.

Lemma enode_hides t h : enode keccak t = Hashed h -> hides t (Hash h).
Proof.
  unfold enode, hash_bytes_if_large_enough. change (@lenN N) with (@len N).
  destruct t; intros E; try (injection E as <-; constructor);
    (destruct (32 <=? _) eqn:E32; [|discriminate]; injection E as <-; constructor; [exact I|apply N.leb_le, E32]).
Qed.

Lemma create_hides pr tr : forall t L, tracks tr t -> wf L t -> (L <= 64)%nat -> fits t ->
  exists t', create_from_tracked keccak pr tr = Ok t' /\ hides t t'.
Proof.
  induction tr as [u b|u b|l u b IH|c u b IH|u b] using tracked_ind'; intros t L T W HL F; rewrite (create_eq pr _ t L T W HL F);
    match goal with |- exists t', (if _ then ?k else _) = _ /\ _ => assert (HK : exists t', k = Ok t' /\ hides t t') end;
    try (destruct (touched _); [exact HK|]; destruct (enode keccak t) eqn:Ee; [exact HK|]; eexists; split; [reflexivity|apply enode_hides, Ee]);
    inversion T as [|h b0|? ch v b0 FT|? n c0 b0 TC|n v b0]; subst; cbn [keep_of].
  - exists Empty. split; [reflexivity|constructor].
  - eexists. split; [reflexivity|constructor].
  - inversion W as [| |L0 ? ? Hlen Fw| |]; subst. apply fits_branch in F. destruct F as (_ & _ & Fc).
    assert (G : exists ch', create_all pr l = Ok ch' /\ Forall2 hides ch ch').
    { clear - FT Fw Fc IH HL. revert ch FT Fw Fc. induction l as [|c l IHl]; intros ch FT Fw Fc; inversion FT; subst.
      - exists []. split; [reflexivity|constructor].
      - inversion IH as [|? ? IHc IHr]; inversion Fw; inversion Fc; subst. cbn [create_all].
        destruct (IHc _ L0 ltac:(eassumption) ltac:(assumption) ltac:(lia) ltac:(assumption)) as (c' & -> & Hc). cbn [bind].
        destruct (IHl IHr _ ltac:(eassumption) ltac:(assumption) ltac:(assumption)) as (ch' & E & Hch). fold (create_all pr). rewrite E. cbn [bind]. eauto. }
    destruct G as (ch' & -> & Hch). cbn [bind get_branch_value_expected]. eexists. split; [reflexivity|constructor; exact Hch].
  - inversion W as [| | |L0 q c1 Hq Wc|]; subst. cbn [fits] in F. destruct (IH _ L0 TC Wc ltac:(lia) F) as (c' & E & Hc). cbn [get_nibbles_expected bind]. rewrite E. cbn [bind].
    eexists. split; [reflexivity|constructor; exact Hc].
  - eexists. split; [reflexivity|constructor].
Qed.

(** A subtree that may be replaced by its hash may also be after parts of it have been hidden. *)
Lemma hides_join t t2 h : hides t t2 -> hides t (Hash h) -> hides t2 (Hash h).
Proof.
  intros H2 Q. pose proof (hides_root keccak _ _ H2) as R1. pose proof (hides_root keccak _ _ Q) as R2.
  destruct (not_hash_dec t2) as [N2|[h2 ->]].
  - inversion Q as [|? EQ| | | |t0 N0 G0]; subst; [inversion H2; subst; destruct N2|].
    rewrite <- (proj2 (hides_item keccak _ _ H2) N2). constructor; [exact N2|]. rewrite (proj2 (hides_item keccak _ _ H2) N2). exact G0.
  - cbn [root] in R1, R2. replace h with h2 by congruence. constructor.
Qed.

(** More flags, less hidden. *)
Lemma create_mono pr tr1 : forall tr2 t L t1 t2, fle tr1 tr2 -> tracks tr1 t -> wf L t -> (L <= 64)%nat -> fits t ->
  create_from_tracked keccak pr tr1 = Ok t1 -> create_from_tracked keccak pr tr2 = Ok t2 -> hides t2 t1.
Proof.
  induction tr1 as [u b|u b|l u b IH|c u b IH|u b] using tracked_ind'; intros tr2 t L t1 t2 FL T W HL F E1 E2;
    pose proof (fle_tracks _ _ _ FL T) as T2;
    destruct (create_hides pr tr2 t L T2 W HL F) as (t2' & E2' & H2); assert (t2' = t2) by congruence; subst t2'; clear E2';
    rewrite (create_eq pr _ t L T W HL F) in E1; rewrite (create_eq pr _ t L T2 W HL F) in E2;
    (match type of E1 with (if ?a then ?k1 else _) = _ => match type of E2 with (if ?b then ?k2 else _) = _ =>
       assert (HK : k1 = Ok t1 -> k2 = Ok t2 -> hides t2 t1); [clear E1 E2|
         pose proof (fle_touched _ _ FL) as TM; destruct a; [rewrite TM in E2 by reflexivity; auto|];
         destruct (enode keccak t) eqn:Ee; [destruct b; auto|]; injection E1 as <-; apply hides_join with (t := t); [exact H2|apply enode_hides, Ee]] end end);
    inversion FL as [? ? ? TM|? ? ? TM|? l2 ? ? ? TM FF|? c2 ? ? ? TM FF|? ? ? TM]; subst; inversion T as [|h b0|? ch v b0 FT|? n c0 b0 TC|n v b0]; subst; cbn [keep_of];
    try (cbn; intros E1 E2; injection E1 as <-; injection E2 as <-; constructor).
  - inversion W as [| |L0 ? ? Hlen Fw| |]; subst. apply fits_branch in F. destruct F as (_ & _ & Fc). intros E1 E2.
    destruct (create_all pr l) as [ch1|] eqn:A1; [|discriminate]. destruct (create_all pr l2) as [ch2|] eqn:A2; [|discriminate]. cbn in E1, E2.
    injection E1 as <-. injection E2 as <-. constructor. clear - A1 A2 FF FT Fw Fc IH HL.
    revert l2 FF ch FT Fw Fc ch1 ch2 A1 A2. induction l as [|c l IHl]; intros l2 FF ch FT Fw Fc ch1 ch2 A1 A2; inversion FF; subst; inversion FT; subst; cbn [create_all] in A1, A2.
    + injection A1 as <-. injection A2 as <-. constructor.
    + inversion IH as [|? ? IHc IHr]; inversion Fw; inversion Fc; subst. fold (create_all pr) in A1, A2.
      destruct (create_from_tracked keccak pr c) as [c1|] eqn:C1; [|discriminate]. cbn [bind] in A1. destruct (create_all pr l) as [r1|] eqn:R1; [|discriminate].
      destruct (create_from_tracked keccak pr y) as [c2|] eqn:C2; [|discriminate]. cbn [bind] in A2. destruct (create_all pr l') as [r2|] eqn:R2; [|discriminate].
      injection A1 as <-. injection A2 as <-. constructor; [eapply IHc; eauto; lia|eapply IHl; eauto].
  - inversion W as [| | |L0 q c1 Hq Wc|]; subst. cbn [fits] in F. cbn [get_nibbles_expected bind]. intros E1 E2.
    destruct (create_from_tracked keccak pr c) as [c1|] eqn:C1; [|discriminate]. destruct (create_from_tracked keccak pr c2) as [c2'|] eqn:C2; [|discriminate].
    injection E1 as <-. injection E2 as <-. constructor. eapply IH; eauto. lia.
Qed.

(** ** Requested keys *)
Definition at_tracked (f : tracked -> Prop) : list tracked -> nat -> Prop :=
  fix go (l : list tracked) (i : nat) {struct l} : Prop :=
    match l, i with
    | [], _ => True
    | c :: _, O => f c
    | _ :: l', S i' => go l' i'
    end.

(** Every node that a lookup of [k] visits is flagged. *)
Fixpoint kept (pr : profile) (tr : tracked) (k : nibbles) {struct tr} : Prop :=
  touched tr = true /\
  match tr with
  | TBranch l _ _ =>
      if is_empty k then True
      else match pop_next_nibble_front pr k with
           | Ok (nib, k') => at_tracked (fun c => kept pr c k') l (N.to_nat nib)
           | Panic => True
           end
  | TExtension c u _ =>
      match (n <- get_nibbles_expected u ;; '(r, k') <- pop_nibbles_front pr k (count n) ;; s <- identical_up_to_smallest pr r n ;; Ok (s, k')) with
      | Ok (true, k') => kept pr c k'
      | _ => True
      end
  | _ => True
  end.

Lemma at_tracked_nth f l : forall i, at_tracked f l i <-> forall c, nth_error l i = Some c -> f c.
Proof.
  induction l as [|x l IH]; intros [|i]; cbn; try (split; [intros _ c E; discriminate|auto]).
  - split; [intros H c E; injection E as <-; exact H|auto].
  - apply IH.
Qed.

Lemma Forall2_nth {A B} (R : A -> B -> Prop) l l' : Forall2 R l l' -> forall i b, nth_error l' i = Some b -> exists a, nth_error l i = Some a /\ R a b.
Proof. induction 1; intros [|i] z E; cbn in *; try discriminate; [injection E as <-; eauto|eauto]. Qed.

Lemma fle_kept pr a : forall b k, fle a b -> kept pr a k -> kept pr b k.
Proof.
  induction a as [u b|u b|l u b IH|c u b IH|u b] using tracked_ind'; intros y k FL [T K]; pose proof (fle_touched _ _ FL T) as T';
    inversion FL as [? ? ? TM|? ? ? TM|? l2 ? ? ? TM FF|? c2 ? ? ? TM FF|? ? ? TM]; subst; cbn [kept]; (split; [exact T'|]); try exact I.
  - destruct (is_empty k); [exact I|]. destruct (pop_next_nibble_front pr k) as [[nib k']|]; [|exact I]. rewrite at_tracked_nth in *.
    intros c E. destruct (Forall2_nth _ _ _ FF _ _ E) as (a & Ea & Ra). rewrite Forall_forall in IH. eapply IH; [eapply nth_error_In, Ea|exact Ra|apply K, Ea].
  - destruct (n <- get_nibbles_expected u ;; _) as [[[] k']|]; auto.
Qed.

Lemma mark_kept pr tr : forall k tr', mark pr tr k = Ok (ROk tr') -> kept pr tr' k.
Proof.
  induction tr as [u b|u b|l u b IH|c u b IH|u b] using tracked_ind'; intros k tr' E; cbn [mark] in E.
  - injection E as <-. split; auto.
  - destruct (is_empty k); [|discriminate]. injection E as <-. split; auto.
  - destruct (is_empty k) eqn:Ek; [injection E as <-; split; [reflexivity|]; cbn; rewrite Ek; exact I|].
    destruct (pop_next_nibble_front pr k) as [[nib k']|] eqn:Ep; [|discriminate]. cbn [bind] in E.
    destruct (with_tracked _ l (N.to_nat nib)) as [[l'|]|] eqn:Ew; try discriminate. cbn [bind] in E. injection E as <-.
    cbn [kept]. split; [reflexivity|]. rewrite Ek, Ep. rewrite at_tracked_nth. intros c1 E1.
    destruct (with_tracked_ok _ _ _ _ Ew) as (c & c' & A & B & C & D). assert (c1 = c') by congruence. subst c1.
    rewrite Forall_forall in IH. eapply IH; [eapply nth_error_In, A|exact B].
  - cbn [kept]. destruct (get_nibbles_expected u) as [n|] eqn:En; [|discriminate]. cbn [bind] in E. destruct (pop_nibbles_front pr k (count n)) as [[r k']|] eqn:Ep; [|discriminate]. cbn [bind] in E.
    destruct (identical_up_to_smallest pr r n) as [[]|] eqn:Ei; [| |discriminate]; cbn [bind] in E.
    + destruct (mark pr c k') as [[c'|]|] eqn:Em; try discriminate. cbn [bind] in E. injection E as <-. cbn [kept]. split; [reflexivity|].
      rewrite En. cbn [bind]. rewrite Ep. cbn [bind]. rewrite Ei. cbn [bind]. eauto.
    + injection E as <-. cbn [kept]. split; [reflexivity|]. rewrite En. cbn [bind]. rewrite Ep. cbn [bind]. rewrite Ei. exact I.
  - injection E as <-. split; auto.
Qed.

Lemma mark_all_kept pr ks : forall tr tr' k, mark_all pr tr ks = Ok (ROk tr') -> In k ks -> kept pr tr' k.
Proof.
  induction ks as [|k0 ks IH]; intros tr tr' k E I; [destruct I|]. cbn [mark_all] in E.
  destruct (mark pr tr k0) as [[tr1|]|] eqn:Em; try discriminate. cbn [bind] in E. destruct I as [->|I]; [|eauto].
  eapply fle_kept; [eapply mark_all_fle, E|eapply mark_kept, Em].
Qed.

(** A lookup along flagged nodes gives the same result. *)
Lemma create_kept_get pr pr' tr : forall t k t', tracks tr t -> kept pr tr k -> create_from_tracked keccak pr' tr = Ok t' ->
  trie_get pr t' k = trie_get pr t k.
Proof.
  induction tr as [u b|u b|l u b IH|c u b IH|u b] using tracked_ind'; intros t k t' T [Tc K] E; cbn [touched] in Tc; subst b;
    inversion T as [|h b0|? ch v b0 FT|? n c0 b0 TC|n v b0]; subst; cbn [create_from_tracked touched] in E.
  - injection E as <-. reflexivity.
  - injection E as <-. reflexivity.
  - fold (create_all pr') in E. destruct (create_all pr' l) as [ch'|] eqn:EA; [|discriminate]. cbn in E. injection E as <-.
    cbn [trie_get]. destruct (is_empty k); [reflexivity|]. destruct (pop_next_nibble_front pr k) as [[nib k']|]; [|reflexivity]. cbn [bind].
    clear - IH FT EA K. revert l ch ch' IH FT EA K. induction (N.to_nat nib) as [|i IHi]; intros l ch ch' IH FT EA K; destruct FT as [|x y l ch Txy FT]; cbn [create_all] in EA; fold (create_all pr') in EA.
    + injection EA as <-. reflexivity.
    + destruct (create_from_tracked keccak pr' x) as [c1|] eqn:C1; [|discriminate]. cbn [bind] in EA. destruct (create_all pr' l) as [r1|] eqn:R1; [|discriminate]. injection EA as <-.
      cbn [with_child]. inversion IH; subst. cbn in K. eauto.
    + injection EA as <-. reflexivity.
    + destruct (create_from_tracked keccak pr' x) as [c1|] eqn:C1; [|discriminate]. cbn [bind] in EA. destruct (create_all pr' l) as [r1|] eqn:R1; [|discriminate]. injection EA as <-.
      cbn [with_child]. inversion IH; subst. eapply IHi; eauto.
  - cbn [get_nibbles_expected bind] in *. destruct (create_from_tracked keccak pr' c) as [c1|] eqn:C1; [|discriminate]. injection E as <-.
    cbn [trie_get]. destruct (pop_nibbles_front pr k (count n)) as [[r k']|]; [|reflexivity]. cbn [bind] in *.
    destruct (identical_up_to_smallest pr r n) as [[]|]; [|reflexivity|reflexivity]. cbn [bind] in *. eauto.
  - injection E as <-. reflexivity.
Qed.
End H.
