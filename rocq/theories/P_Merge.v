(** Property C86: merging tries. *)
From Coq Require Import Permutation.
From Verif Require Import Base Nibbles NibblesSpec NibblesFacts NibblesFacts2 NibblesFacts3 Trie TrieSpec TrieHistSpec TrieFacts TrieInsert TrieGet TrieDelete TrieUnique TrieIter TrieHist TrieObs OrderSpec Rlp YellowPaper Hashing Keccak HashSpec HashFacts KeccakFacts HideSpec HideFacts P_Trie P_Hash ItemsFacts HandSpec HandFacts LongDelete ReplayFacts FreeSpec FreeFacts P_Free Subset SubsetSpec SubsetFacts SubsetFacts2 P_Subset MergeSpec.
Open Scope N_scope.

Lemma prefix_trans (a b c : list N) : is_prefix a b -> is_prefix b c -> is_prefix a c.
Proof. intros [r ->] [s ->]. exists (r ++ s). symmetry. apply app_assoc. Qed.

(** ** Lists whose keys do not get in each other's way *)
Definition fine (t : node) (l : list (nibbles * val_or_hash)) : Prop :=
  forall i x k y, lk t i = Some x -> In (k, y) l -> is_prefix i (nseq k) \/ is_prefix (nseq k) i ->
    i = nseq k /\ (exists v, x = Val v) /\ exists w, y = Val w.

Lemma apart_tail e l : apart (e :: l) -> apart l /\ forall e', In e' l -> ~ is_prefix (nseq (fst e)) (nseq (fst e')) /\ ~ is_prefix (nseq (fst e')) (nseq (fst e)).
Proof.
  intros H. split; [intros a x b y c ->; exact (H (e :: a) x b y c eq_refl)|].
  intros e' I. apply in_split in I. destruct I as (b & c & ->). exact (H [] e b e' c eq_refl).
Qed.

Lemma extend_fine pr l : forall t, ctrie t -> Forall pentry l -> apart l -> fine t l ->
  exists t', trie_extend pr t l = Ok t' /\ ctrie t' /\
    forall j e, lk t' j = Some e <-> gives l j e \/ (lk t j = Some e /\ ~ exists x, gives l j x).
Proof.
  induction l as [|[k v] l IH]; intros t [W C] F Ap Fi.
  - exists t. split; [reflexivity|]. split; [split; assumption|]. intros j e. split; [intros H; right; split; [exact H|intros (x & n & [] & _)]|intros [(n & [] & _)|[H _]]; exact H].
  - inversion F as [|? ? [Hk Hv] F']; subst. cbn [fst snd] in *. destruct (apart_tail _ _ Ap) as [Ap' Far]. cbn [fst] in Far.
    assert (Ins : insertable t (nseq k)).
    { unfold insertable. destruct (lk t (nseq k)) as [e|] eqn:L; [left; unfold stored; congruence|]. right. left. intros j Sj Sp.
      unfold stored in Sj. destruct (lk t j) as [e|] eqn:Lj; [|congruence]. destruct (Fi j e k v Lj (or_introl eq_refl)) as [-> _]; [right; destruct Sp as (x & r & ->); exists (x :: r); reflexivity|].
      congruence. }
    apply (eff_insertable t 64 _ W C) in Ins.
    destruct (tinsert pr t k v W (canon_shape _ C) Hk Hv) as [(t1 & E1 & (P1 & _ & _ & P4 & P5) & _)|[_ B]].
    + rewrite Ins in P5. destruct (IH t1 (conj P1 (P4 C)) F' Ap') as (t' & E' & V' & P').
      { intros i x k' y L I Cm. rewrite P5 in L. destruct (key_eqb_spec (nseq k) i) as [<-|N].
        - exfalso. destruct (Far _ I) as [Z1 Z2]. cbn [fst] in *. tauto.
        - exact (Fi i x k' y L (or_intror I) Cm). }
      exists t'. split; [cbn [trie_extend]; rewrite E1; exact E'|]. split; [exact V'|]. intros j e. rewrite P', P5.
      assert (Gk : gives ((k, v) :: l) j e <-> (nseq k = j /\ e = v) \/ gives l j e).
      { split; [intros (n & [I|I] & En); [injection I as <- <-; auto|right; exists n; auto]|].
        intros [[<- ->]|(n & I & En)]; [exists k; split; [left; reflexivity|reflexivity]|exists n; split; [right; exact I|exact En]]. }
      rewrite Gk. destruct (key_eqb_spec (nseq k) j) as [<-|N].
      * assert (NG : ~ exists x, gives l (nseq k) x).
        { intros (x & n & I & En). destruct (Far _ I) as [Z _]. cbn [fst] in Z. rewrite En in Z. apply Z, prefix_refl. }
        split; [intros [H|[H _]]; [auto|]; injection H as <-; auto|]. intros [[[_ ->]|H]|[_ H]]; [right; auto|auto|].
        exfalso. apply H. exists v, k. split; [left; reflexivity|reflexivity].
      * split; [intros [H|[H1 H2]]; [auto|right; split; [exact H1|]]; intros (x & n & [I|I] & En); [injection I as <- <-; congruence|]; apply H2; exists x, n; auto|].
        intros [[[H _]|H]|[H1 H2]]; [congruence|auto|right; split; [exact H1|]]. intros (x & n & I & En). apply H2. exists x, n. split; [right; exact I|exact En].
    + exfalso. unfold blocked in B. rewrite Ins in B. destruct B as [(p & h & Lp & Ip)|[Vh (j & Sj & Ij)]].
      * destruct (Fi _ _ k v Lp (or_introl eq_refl) (or_introl Ip)) as (_ & (w & Q) & _). discriminate.
      * unfold stored in Sj. destruct (lk t j) as [e|] eqn:Q; [|congruence]. destruct (Fi _ _ k v Q (or_introl eq_refl) (or_intror Ij)) as (_ & _ & (w & ->)). exact Vh.
Qed.

Lemma items_gives t j x : wf 64 t -> (gives (map item_of (entries t)) j x <-> lk t j = Some x).
Proof.
  intros W. split.
  - intros (n & I & <-). apply in_map_iff in I. destruct I as ([k e] & Q & I). injection Q as <- <-. apply entries_lk in I.
    pose proof (hexl_item t k e W I) as X. cbn [item_of fst] in X. rewrite X. exact I.
  - intros L. exists (fst (item_of (j, x))). split; [|exact (hexl_item t j x W L)]. apply in_map_iff. exists (j, x). split; [reflexivity|]. apply entries_lk. exact L.
Qed.

Lemma items_in t k x : wf 64 t -> In (k, x) (map item_of (entries t)) -> lk t (nseq k) = Some x.
Proof. intros W I. apply (items_gives t _ _ W). exists k. auto. Qed.

Lemma items_apart t : wf 64 t -> prefix_free (stored t) -> apart (map item_of (entries t)).
Proof.
  intros W PF. pose proof (entries_nodup t) as ND. rewrite <- (keys_items t W) in ND.
  intros a e b e' c Q. rewrite Q in ND. unfold ikeys in ND. rewrite map_app in ND. cbn [map] in ND. rewrite map_app in ND. cbn [map] in ND.
  assert (Se : stored t (nseq (fst e))).
  { destruct e as [k x]. unfold stored. cbn [fst]. rewrite (items_in t k x W); [discriminate|]. rewrite Q. apply in_or_app. right. left. reflexivity. }
  assert (Se' : stored t (nseq (fst e'))).
  { destruct e' as [k x]. unfold stored. cbn [fst]. rewrite (items_in t k x W); [discriminate|]. rewrite Q. apply in_or_app. right. right. apply in_or_app. right. left. reflexivity. }
  assert (Ne : nseq (fst e) <> nseq (fst e')).
  { intros X. apply NoDup_remove_2 in ND. apply ND. rewrite X. apply in_or_app. right. apply in_or_app. right. left. reflexivity. }
  split; intros P; apply prefix_strict in P; destruct P as [P|P]; try congruence; [exact (PF _ _ Se Se' P)|exact (PF _ _ Se' Se P)].
Qed.

(** * C86 *)

(** A hash node of one trie at or above a key of the other: it panics, whatever else the tries hold. *)
Lemma extend_keeps pr l : forall t t', wf 64 t -> shape t -> Forall pentry l -> trie_extend pr t l = Ok t' ->
  (forall i, stored t i -> stored t' i) /\ (forall i h, lk t i = Some (HashV h) -> lk t' i = Some (HashV h)) /\ wf 64 t' /\ shape t'.
Proof.
  induction l as [|[k v] l IH]; intros t t' W Sh F E; cbn [trie_extend] in E; [injection E as <-; auto|].
  inversion F as [|? ? [Hk Hv] F']; subst. cbn [fst snd] in *. destruct (tinsert pr t k v W Sh Hk Hv) as [(t1 & E1 & (P1 & P2 & _ & _ & P5) & NB)|[E1 _]]; rewrite E1 in E; [|discriminate].
  cbn [bind] in E. destruct (IH t1 t' P1 P2 F' E) as (A & B & Q). split; [|split; [|exact Q]].
  - intros i Si. apply A. unfold stored in *. rewrite P5. destruct (key_eqb _ i); [discriminate|exact Si].
  - intros i h L. apply B. rewrite P5. destruct (key_eqb_spec (eff t (nseq k)) i) as [<-|]; [|exact L].
    exfalso. apply NB. left. exists (eff t (nseq k)), h. split; [exact L|apply prefix_refl].
Qed.

Lemma extend_app pr l m : forall t, trie_extend pr t (l ++ m) = (t' <- trie_extend pr t l ;; trie_extend pr t' m).
Proof. induction l as [|[k v] l IH]; intros t; cbn [app trie_extend bind]; [reflexivity|]. destruct (trie_insert pr t k v); cbn [bind]; [apply IH|reflexivity]. Qed.

Lemma clash_panics pr a b : wf 64 a -> shape a -> wf 64 b -> shape b -> clash a b -> trie_extend pr a (map item_of (entries b)) = Panic.
Proof.
  intros Wa Sa Wb Sb (i & x & j & y & La & Lb & H). pose proof (entries_pentry b Wb Sb) as F. pose proof Lb as I. apply entries_lk, in_split in I. destruct I as (p & q & Q).
  rewrite Q, map_app in *. cbn [map] in *. set (P0 := map item_of p : list (nibbles * val_or_hash)) in *. rewrite (extend_app pr P0). apply Forall_app in F. destruct F as [F1 F2]. apply Forall_inv in F2. destruct F2 as [Hk Hv].
  destruct (trie_extend pr a P0) as [t|] eqn:E; cbn [bind]; [|reflexivity].
  destruct (extend_keeps pr _ a t Wa Sa F1 E) as (A & B & W & Sh). pose proof (hexl_item b j y Wb Lb) as Ej. unfold item_of in *. cbn [fst snd trie_extend] in *.
  destruct (tinsert pr t (enc j) y W Sh Hk Hv) as [(t1 & _ & _ & NB)|[-> _]]; [|reflexivity]. exfalso. apply NB. rewrite Ej.
  destruct H as [[(h & ->) P]|[(h & ->) P]].
  - left. exact (hop_prefix t j i h (B i h La) P).
  - right. split; [exact Logic.I|]. exists i. split; [apply A; unfold stored; congruence|exact P].
Qed.

Theorem C86_panics : forall pr pr' a b f l,
  reach pr' a -> reach pr' b -> trie_items f pr b = Some (Ok l) -> clash a b -> trie_extend pr a l = Panic.
Proof.
  intros pr pr' a b f l Ra Rb E H. destruct (reach_valid pr' a Ra) as [Wa Sa]. destruct (reach_valid pr' b Rb) as [Wb Sb].
  rewrite (items_are pr b f l Wb Sb E). apply clash_panics; assumption.
Qed.
Print Assumptions C86_panics.

(** Otherwise, for tries over prefix-free keys: the merged trie has all entries, those of the second trie where both have one. *)
Lemma free_pf U t : prefix_free U -> free_trie U t -> prefix_free (stored t).
Proof.
  intros PF Ft i j Si Sj (x & r & ->). pose proof Ft as (W & C & A & B). unfold stored in Si. destruct (lk t i) as [[v|h]|] eqn:L; [| |congruence].
  - apply (free_noext U PF t i (i ++ x :: r) Ft (A _ _ L) Sj). exists x, r. reflexivity.
  - apply Sj. exact (below_hash t 64 i h (x :: r) W L ltac:(discriminate)).
Qed.

Lemma free_fine U a b : prefix_free U -> free_trie U a -> free_trie U b -> ~ clash a b -> fine a (map item_of (entries b)).
Proof.
  intros PF Fa Fb NC i x k y La I Cm. pose proof Fa as (_ & _ & Aa & Ba). pose proof Fb as (Wb & _ & Ab & Bb). apply (items_in b k y Wb) in I. set (j := nseq k) in *. clearbody j.
  destruct x as [v|h]; destruct y as [w|g].
  - split; [|eauto]. destruct Cm as [P|P]; apply prefix_strict in P; destruct P as [P|P]; try congruence; exfalso; eapply PF; [| |exact P| | |exact P]; eauto.
  - exfalso. destruct Cm as [P|P]; [|apply NC; exists i, (Val v), j, (HashV g); eauto 10]. destruct (Bb _ _ I) as (u & Uu & Pu). apply prefix_strict in P. destruct P as [->|P].
    + apply NC. exists j, (Val v), j, (HashV g). split; [exact La|]. split; [exact I|]. right. split; [eauto|apply prefix_refl].
    + apply (PF i u (Aa _ _ La) Uu). exact (strict_trans _ _ _ P Pu).
  - exfalso. destruct Cm as [P|P]; [apply NC; exists i, (HashV h), j, (Val w); eauto 10|]. destruct (Ba _ _ La) as (u & Uu & Pu). apply prefix_strict in P. destruct P as [->|P].
    + apply NC. exists i, (HashV h), i, (Val w). split; [exact La|]. split; [exact I|]. left. split; [eauto|apply prefix_refl].
    + apply (PF j u (Ab _ _ I) Uu). exact (strict_trans _ _ _ P Pu).
  - exfalso. apply NC. exists i, (HashV h), j, (HashV g). split; [exact La|]. split; [exact I|]. destruct Cm as [P|P]; [left|right]; eauto.
Qed.

Lemma over_gives a b j e (W : wf 64 b) : (gives (map item_of (entries b)) j e \/ (lk a j = Some e /\ ~ exists x, gives (map item_of (entries b)) j x)) <-> over a b j = Some e.
Proof.
  unfold over. rewrite (items_gives b j e W). destruct (lk b j) as [x|] eqn:L.
  - split; [intros [H|[_ H]]; [exact H|exfalso; apply H; exists x; apply (items_gives b j x W), L]|auto].
  - split; [intros [H|[H _]]; [discriminate|exact H]|]. intros H. right. split; [exact H|]. intros (x & G). apply (items_gives b j x W) in G. congruence.
Qed.

Theorem C86_merge : forall pr U a b f l,
  prefix_free U -> free_trie U a -> free_trie U b -> trie_items f pr b = Some (Ok l) ->
  (clash a b /\ trie_extend pr a l = Panic) \/
  (~ clash a b /\ exists t, trie_extend pr a l = Ok t /\ free_trie U t /\ forall k, lk t k = over a b k).
Proof.
  intros pr U a b f l PF Fa Fb E. pose proof Fa as (Wa & Ca & Aa & Ba). pose proof Fb as (Wb & Cb & Ab & Bb).
  rewrite (items_are pr b f l Wb (canon_shape _ Cb) E). destruct (trie_extend pr a (map item_of (entries b))) as [t|] eqn:Et.
  - right. assert (NC : ~ clash a b) by (intros H; rewrite (clash_panics pr a b Wa (canon_shape _ Ca) Wb (canon_shape _ Cb) H) in Et; discriminate).
    split; [exact NC|]. destruct (extend_fine pr _ a (conj Wa Ca) (entries_pentry b Wb (canon_shape _ Cb)) (items_apart b Wb (free_pf U b PF Fb)) (free_fine U a b PF Fa Fb NC)) as (t1 & E1 & [W1 C1] & P1).
    assert (t1 = t) by congruence. subst t1. assert (Lk : forall k, lk t k = over a b k).
    { intros k. destruct (lk t k) as [e|] eqn:L; [apply P1, (over_gives a b k e Wb) in L; auto|]. destruct (over a b k) as [e|] eqn:O; [|reflexivity]. apply (over_gives a b k e Wb), P1 in O. congruence. }
    exists t. split; [reflexivity|]. split; [|exact Lk]. split; [exact W1|]. split; [exact C1|]. split; intros k x Q; rewrite Lk in Q; unfold over in Q; destruct (lk b k) eqn:Lb; try (injection Q as ->); eauto.
  - left. split; [|reflexivity].
    (* no clash would give success *)
    assert (D : clash a b \/ ~ clash a b).
    { set (bad := fun ea eb : list N * val_or_hash =>
        match snd ea, strip (fst ea) (fst eb) with HashV _, Some _ => true | _, _ => false end || match snd eb, strip (fst eb) (fst ea) with HashV _, Some _ => true | _, _ => false end).
      assert (Bd : forall ea eb, bad ea eb = true <-> ((exists h, snd ea = HashV h) /\ is_prefix (fst ea) (fst eb) \/ (exists h, snd eb = HashV h) /\ is_prefix (fst eb) (fst ea))).
      { intros [i x] [j y]. unfold bad. cbn [fst snd]. rewrite Bool.orb_true_iff.
        assert (Sp : forall p k : list N, (exists r, strip p k = Some r) <-> is_prefix p k).
        { clear. induction p as [|d p IH]; intros k; cbn [strip]; [split; [intros _; exists k; reflexivity|intros _; eauto]|].
          destruct k as [|e k]; [split; [intros [r R]; discriminate|intros [r R]; discriminate]|]. destruct (N.eqb_spec d e) as [->|N].
          - rewrite IH. split; intros [r R]; exists r; cbn [app] in *; congruence.
          - split; [intros [r R]; discriminate|]. intros [r R]. cbn [app] in R. congruence. }
        assert (One : forall (x0 : val_or_hash) p k, match x0, strip p k with HashV _, Some _ => true | _, _ => false end = true <-> (exists h, x0 = HashV h) /\ is_prefix p k).
        { intros x0 p k. rewrite <- Sp. destruct x0 as [u|h]; [split; [discriminate|intros [[h Q] _]; discriminate]|]. destruct (strip p k); split; eauto; try discriminate. intros [_ [r R]]. discriminate. }
        rewrite !One. reflexivity. }
      destruct (existsb (fun ea => existsb (bad ea) (entries b)) (entries a)) eqn:X.
      - left. apply existsb_exists in X. destruct X as ([i x] & Ia & X). apply existsb_exists in X. destruct X as ([j y] & Ib & X). apply Bd in X.
        apply entries_lk in Ia. apply entries_lk in Ib. exists i, x, j, y. auto.
      - right. intros (i & x & j & y & La & Lb & H). apply entries_lk in La. apply entries_lk in Lb.
        assert (Q : existsb (fun ea => existsb (bad ea) (entries b)) (entries a) = true); [|congruence].
        apply existsb_exists. exists (i, x). split; [exact La|]. apply existsb_exists. exists (j, y). split; [exact Lb|]. apply Bd. exact H. }
    destruct D as [D|D]; [exact D|]. exfalso.
    destruct (extend_fine pr _ a (conj Wa Ca) (entries_pentry b Wb (canon_shape _ Cb)) (items_apart b Wb (free_pf U b PF Fb)) (free_fine U a b PF Fa Fb D)) as (t1 & E1 & _). congruence.
Qed.
Print Assumptions C86_merge.

(** The order does not matter if no key is in both. *)
Lemma clash_sym a b : clash a b -> clash b a.
Proof. intros (i & x & j & y & A & B & H). exists j, y, i, x. tauto. Qed.

Theorem C86_order : forall pr U a b f l f' l',
  prefix_free U -> free_trie U a -> free_trie U b -> disjoint_keys a b ->
  trie_items f pr b = Some (Ok l) -> trie_items f' pr a = Some (Ok l') -> trie_extend pr a l = trie_extend pr b l'.
Proof.
  intros pr U a b f l f' l' PF Fa Fb D E E'.
  destruct (C86_merge pr U a b f l PF Fa Fb E) as [[H ->]|[H (t & -> & Ft & Lt)]]; destruct (C86_merge pr U b a f' l' PF Fb Fa E') as [[H' ->]|[H' (t' & -> & Ft' & Lt')]].
  - reflexivity.
  - exfalso. apply H', clash_sym, H.
  - exfalso. apply H, clash_sym, H'.
  - f_equal. destruct Ft as (W & C & _). destruct Ft' as (W' & C' & _). apply (C17_canonical t t' W W' C C'). intros k. rewrite Lt, Lt'. unfold over. destruct (D k) as [->| ->]; destruct (lk _ k); reflexivity.
Qed.
Print Assumptions C86_order.

(** Building the parts of a list of entries separately and merging them gives the trie of the whole list. *)
Lemma inv_free_no U t m : inv U t m -> free_trie U t /\ forall k h, lk t k <> Some (HashV h).
Proof. intros H. split; [exact (inv_free U t m H)|]. destruct H as (_ & _ & H & _). intros k h. rewrite H. destruct (m k); discriminate. Qed.

Lemma no_clash a b : (forall k h, lk a k <> Some (HashV h)) -> (forall k h, lk b k <> Some (HashV h)) -> ~ clash a b.
Proof. intros A B (i & x & j & y & La & Lb & [[(h & ->) _]|[(h & ->) _]]); [exact (A _ _ La)|exact (B _ _ Lb)]. Qed.

Definition fold_kv (l : list (nibbles * list N)) (m : kvmap) : kvmap := fold_left (fun m e => kv_set m (nseq (fst e)) (Some (snd e))) l m.
Lemma fold_kv_eq l j : forall m, fold_kv l m j = match last_value l j with Some v => Some v | None => m j end.
Proof.
  unfold fold_kv. induction l as [|[k v] l IH]; intros m; cbn [fold_left last_value fst snd]; [reflexivity|]. rewrite IH.
  destruct (last_value l j); [reflexivity|]. unfold kv_set. destruct (key_eqb (nseq k) j); reflexivity.
Qed.

Lemma merged_all pr U : prefix_free U -> forall ls t m, inv U t m ->
  Forall (Forall (fun e => kwf (fst e) /\ U (nseq (fst e)) /\ snd e <> [])) ls ->
  exists ts r, Forall2 (fun l t => from_iter pr (vals l) = Ok t) ls ts /\ trie_extend pr t (vals (concat ls)) = Ok r /\ merged pr t ts r.
Proof.
  intros PF ls. induction ls as [|l ls IH]; intros t m I F.
  - exists [], t. split; [constructor|]. split; [reflexivity|constructor].
  - inversion F as [|? ? Fl F']; subst.
    destruct (inv_extend pr U l Empty kv_empty PF (inv_empty U) Fl) as (b & Eb & Ib). destruct (inv_extend pr U l t m PF I Fl) as (t1 & E1 & I1).
    destruct (inv_free_no U t m I) as [Ft Nt]. destruct (inv_free_no U b _ Ib) as [Fb Nb]. pose proof Fb as (Wb & Cb & _).
    pose proof (items_spec pr b Wb (canon_shape _ Cb) (S (S (nsize b))) ltac:(lia)) as It.
    destruct (C86_merge pr U t b _ _ PF Ft Fb It) as [[H _]|[_ (t2 & E2 & (W2 & C2 & _) & L2)]]; [exfalso; exact (no_clash _ _ Nt Nb H)|].
    assert (t2 = t1).
    { pose proof I1 as (W1 & C1 & H1 & _). apply (C17_canonical t2 t1 W2 W1 C2 C1). intros k. rewrite L2, H1. unfold over. destruct Ib as (_ & _ & Hb & _). destruct I as (_ & _ & Ht & _).
      rewrite Hb, Ht. fold (fold_kv l kv_empty) (fold_kv l m). rewrite !fold_kv_eq. destruct (last_value l k); reflexivity. }
    subst t2. destruct (IH t1 _ I1 F') as (ts & r & G1 & G2 & G3). exists (b :: ts), r.
    split; [constructor; [exact Eb|exact G1]|]. split; [|econstructor; eassumption].
    unfold vals in *. cbn [concat]. rewrite map_app, extend_app, E1. exact G2.
Qed.

Theorem C86_parts : forall pr U ls,
  prefix_free U -> Forall (Forall (fun e => kwf (fst e) /\ U (nseq (fst e)) /\ snd e <> [])) ls ->
  exists ts r, Forall2 (fun l t => from_iter pr (vals l) = Ok t) ls ts /\ from_iter pr (vals (concat ls)) = Ok r /\ merged pr Empty ts r.
Proof. intros pr U ls PF F. exact (merged_all pr U PF ls Empty kv_empty (inv_empty U) F). Qed.
Print Assumptions C86_parts.

(** Merging has only one outcome. *)
Theorem C86_one : forall pr a ts r r', merged pr a ts r -> merged pr a ts r' -> Forall (reach pr) ts -> r = r'.
Proof.
  intros pr a ts r r' H. revert r'. induction H as [a|a b ts f l a' r Ei Ee H IH]; intros r' H' F.
  - inversion H'; subst; reflexivity.
  - inversion H' as [|? ? ? f2 l2 a2 ? Ei2 Ee2 H2]; subst. inversion F as [|? ? Rb F']; subst. destruct (reach_valid pr b Rb) as [W Sh].
    rewrite (items_are pr b f l W Sh Ei) in Ee. rewrite (items_are pr b f2 l2 W Sh Ei2) in Ee2. assert (a2 = a') by congruence. subst. apply IH; assumption.
Qed.
Print Assumptions C86_one.

(** ** Excerpts of the same trie *)
Section Ex.
Variable keccak : list N -> list N.

Lemma hides_or_hash t : forall L s, wf L t -> hides keccak t s -> s = t \/ exists p h, lk s p = Some (HashV h).
Proof.
  induction t as [|h|ch w IH|n c IH|n w] using node_ind'; intros L s W H; inversion H as [| |? ch' ? Fh|? ? c' Fh| |t0 N G]; subst; try (left; reflexivity); try (right; exists []; eexists; reflexivity).
  - inversion W as [| |L0 ? ? Hl Fw| |]; subst. clear W H.
    assert (X : ch' = ch \/ exists d p h, (d < length ch')%nat /\ lk (nth d ch' Empty) p = Some (HashV h)).
    { clear Hl. revert ch' Fh. induction ch as [|c ch IHc]; intros ch' Fh; inversion Fh as [|? c' ? l' Hc Hl']; subst; [left; reflexivity|].
      inversion IH as [|? ? I1 I2]; subst. inversion Fw as [|? ? W1 W2]; subst. destruct (I1 L0 c' W1 Hc) as [->|(p & h & Q)]; [|right; exists 0%nat, p, h; split; [cbn; lia|exact Q]].
      destruct (IHc I2 W2 l' Hl') as [->|(d & p & h & D & Q)]; [left; reflexivity|right]. exists (S d), p, h. split; [cbn [length]; lia|exact Q]. }
    destruct X as [->|(d & p & h & D & Q)]; [left; reflexivity|right]. exists (N.of_nat d :: p), h. cbn [lk]. rewrite <- Q. rewrite Nat2N.id.
    clear - D. revert D. generalize ch' at 1 2 3. intros l. revert d. induction l as [|a l IHl]; intros [|d] D; cbn [at_child nth length] in *; try lia; [reflexivity|apply IHl; lia].
  - inversion W as [| | |L0 q c0 Hq Wc|]; subst. destruct (IH L0 c' Wc Fh) as [->|(p & h & Q)]; [left; reflexivity|right].
    exists (q ++ p), h. cbn [lk]. rewrite nseq_enc by exact Hq. rewrite strip_app. exact Q.
Qed.

(** Where an excerpt has a hash node, the trie has a key at or below. *)
Lemma node_at_shape t p u : node_at t p u -> shape t -> shape u /\ forall r, lk t (p ++ r) = lk u r.
Proof.
  induction 1 as [t|ch v d k c u E N IH|n c k u N IH]; intros Sh; [split; [exact Sh|reflexivity]| |].
  - inversion Sh; subst. destruct IH as [A B]; [rewrite Forall_forall in *; eauto using nth_error_In|]. split; [exact A|]. intros r. cbn [app lk]. rewrite at_child_nth, E. apply B.
  - inversion Sh; subst. destruct IH as [A B]; [assumption|]. split; [exact A|]. intros r. cbn [lk]. rewrite <- app_assoc, strip_app. apply B.
Qed.
Lemma hash_covers t s p h : canon t -> hides keccak t s -> lk s p = Some (HashV h) -> exists r x, lk t (p ++ r) = Some x.
Proof.
  intros C H Lp. destruct (hides_part keccak t s p _ H Lp) as [Q|(u & A & N & G & _)].
  - exists [], (HashV h). rewrite app_nil_r. exact Q.
  - destruct (node_at_shape t p u A (canon_shape _ C)) as [Su Lu]. destruct (shape_stored u Su) as (r & Sr); [intros ->; vm_compute in G; apply G; reflexivity|].
    unfold stored in Sr. destruct (lk u r) as [x|] eqn:L; [|congruence]. exists r, x. rewrite Lu. exact L.
Qed.

Lemma excerpts_clash t a b p h : canon t -> hides keccak t a -> hides keccak t b -> lk b p = Some (HashV h) -> clash a b.
Proof.
  intros C Ha Hb Lp. destruct (hash_covers t b p h C Hb Lp) as (r & x & L). destruct (hides_lk keccak t a (p ++ r) Ha) as [E|(q & g & Lq & Pq)].
  - exists (p ++ r), x, p, (HashV h). rewrite E. split; [exact L|]. split; [exact Lp|]. right. split; [eauto|exists r; reflexivity].
  - exists q, (HashV g), p, (HashV h). split; [exact Lq|]. split; [exact Lp|]. destruct (prefix_cmp (p ++ r) q p Pq ltac:(exists r; reflexivity)); [left|right]; eauto.
Qed.
End Ex.

Theorem C86_excerpts : forall keccak pr t a b f l,
  wf 64 t -> canon t -> hides keccak t a -> hides keccak t b -> trie_items f pr b = Some (Ok l) ->
  ((exists p h, lk a p = Some (HashV h) \/ lk b p = Some (HashV h)) /\ trie_extend pr a l = Panic) \/
  ((forall p h, lk a p <> Some (HashV h) /\ lk b p <> Some (HashV h)) /\ a = t /\ b = t /\ trie_extend pr a l = Ok t).
Proof.
  intros keccak pr t a b f l W C Ha Hb E. pose proof (hides_wf keccak t 64 a Ha W) as Wa. pose proof (hides_canon keccak t a Ha C) as Ca.
  pose proof (hides_wf keccak t 64 b Hb W) as Wb. pose proof (hides_canon keccak t b Hb C) as Cb. rewrite (items_are pr b f l Wb (canon_shape _ Cb) E).
  assert (Cl : (exists p h, lk a p = Some (HashV h) \/ lk b p = Some (HashV h)) -> clash a b).
  { intros (p & h & [L|L]); [apply clash_sym; exact (excerpts_clash keccak t b a p h C Hb Ha L)|exact (excerpts_clash keccak t a b p h C Ha Hb L)]. }
  assert (Pn : clash a b -> trie_extend pr a (map item_of (entries b)) = Panic) by (apply clash_panics; auto using canon_shape).
  assert (D : (exists p h, lk a p = Some (HashV h) \/ lk b p = Some (HashV h)) \/ (forall p h, lk a p <> Some (HashV h) /\ lk b p <> Some (HashV h))).
  { assert (X : forall s, (exists p h, lk s p = Some (HashV h)) \/ forall p h, lk s p <> Some (HashV h)).
    { intros s. destruct (existsb (fun e => match snd e with HashV _ => true | _ => false end) (entries s)) eqn:Q.
      - left. apply existsb_exists in Q. destruct Q as ([p [v|h]] & I & Q); [discriminate|]. apply entries_lk in I. eauto.
      - right. intros p h L. apply entries_lk in L. assert (Z : existsb (fun e => match snd e with HashV _ => true | _ => false end) (entries s) = true); [|congruence].
        apply existsb_exists. exists (p, HashV h). auto. }
    destruct (X a) as [(p & h & L)|Xa]; [left; eauto|]. destruct (X b) as [(p & h & L)|Xb]; [left; eauto|]. right. auto. }
  destruct D as [D|D]; [left; split; [exact D|apply Pn, Cl, D]|right]. split; [exact D|].
  assert (Ea : a = t) by (destruct (hides_or_hash keccak t 64 a W Ha) as [->|(p & h & L)]; [reflexivity|exfalso; exact (proj1 (D p h) L)]).
  assert (Eb : b = t) by (destruct (hides_or_hash keccak t 64 b W Hb) as [->|(p & h & L)]; [reflexivity|exfalso; exact (proj2 (D p h) L)]).
  subst a b. split; [reflexivity|]. split; [reflexivity|].
  (* inserting what is there changes nothing *)
  assert (G : forall m, Forall pentry m -> (forall k x, In (k, x) m -> lk t (nseq k) = Some x) -> trie_extend pr t m = Ok t).
  { induction m as [|[k x] m IH]; intros F Hm; [reflexivity|]. inversion F as [|? ? [Hk Hx] F']; subst. cbn [fst snd trie_extend] in *.
    pose proof (Hm k x (or_introl eq_refl)) as L. destruct x as [v|h]; [|exfalso; exact (proj1 (D _ _) L)].
    assert (Ee : eff t (nseq k) = nseq k) by (apply (eff_insertable t 64 _ W C); left; unfold stored; congruence).
    destruct (tinsert pr t k (Val v) W (canon_shape _ C) Hk Hx) as [(t1 & -> & (P1 & _ & _ & P4 & P5) & _)|[_ [(p & h & Lp & _)|[[] _]]]]; [|exfalso; exact (proj1 (D _ _) Lp)].
    cbn [bind]. assert (t1 = t); [|subst; apply IH; [exact F'|intros k' x' I; apply Hm; right; exact I]].
    apply (C17_canonical t1 t P1 W (P4 C) C). intros j. rewrite P5, Ee. destruct (key_eqb_spec (nseq k) j) as [<-|]; auto. }
  apply G; [apply entries_pentry; [exact W|apply canon_shape, C]|]. intros k x I. exact (items_in t k x W I).
Qed.
Print Assumptions C86_excerpts.

(** Two tries with values and hash nodes and a key that both have; a trie that clashes with the first; parts; two excerpts of a trie. *)
Definition list_a : list (nibbles * val_or_hash) := [(K 4 0x1234, Val [1]); (K 4 0x1256, Val [2]); (K 2 0x20, HashV (repeat 7 32))].
Definition ex_a : node := okn (from_iter Debug list_a).
Definition list_b : list (nibbles * val_or_hash) := [(K 4 0x1256, Val [9]); (K 4 0x2134, Val [4]); (K 3 0x138, HashV (repeat 8 32))].
Definition ex_b : node := okn (from_iter Debug list_b).
Definition list_c : list (nibbles * val_or_hash) := [(K 4 0x1278, Val [9]); (K 4 0x2034, Val [4])].
Definition ex_c : node := okn (from_iter Debug list_c).
Definition four (k : list N) : Prop := length k = 4%nat.
Lemma four_pf : prefix_free four.
Proof. intros a b A B (x & c & ->). unfold four in *. rewrite app_length in B. cbn [length] in B. lia. Qed.
Lemma ex_free l t : from_iter Debug l = Ok t -> Forall pentry l ->
  forallb (fun e => match snd e with Val _ => Nat.eqb (length (fst e)) 4 | HashV _ => Nat.leb (length (fst e)) 4 end) (entries t) = true -> free_trie four t.
Proof.
  intros E F B. destruct (extend_canon Debug l Empty t (wf_empty 64) cn_empty F E) as [W C]. rewrite forallb_forall in B.
  split; [exact W|]. split; [exact C|]. split; intros k x L; apply entries_lk in L; apply B in L; cbn [fst snd] in L.
  - apply Nat.eqb_eq, L.
  - apply Nat.leb_le in L. exists (k ++ repeat 0 (4 - length k)). split; [unfold four; rewrite app_length, repeat_length; lia|eexists; reflexivity].
Qed.
Example C86_example : prefix_free four /\ free_trie four ex_a /\ free_trie four ex_b /\ free_trie four ex_c /\ ~ clash ex_a ex_b /\ clash ex_a ex_c /\
  ~ disjoint_keys ex_a ex_b /\ disjoint_keys ex_b ex_c /\
  exists l, trie_items 100 Debug ex_b = Some (Ok l) /\ exists t, trie_extend Debug ex_a l = Ok t /\ lk t [1;2;5;6] = Some (Val [9]) /\ lk t [1;2;3;4] = Some (Val [1]) /\ lk t [1;3;8] = Some (HashV (repeat 8 32)).
Proof.
  assert (Fa : free_trie four ex_a).
  { apply (ex_free list_a); [vm_compute; reflexivity|unfold list_a|vm_compute; reflexivity]. repeat (apply Forall_cons; [split; [split; vm_compute; (reflexivity || (intro; discriminate))|try exact Logic.I; discriminate]|]). apply Forall_nil. }
  assert (Fb : free_trie four ex_b).
  { apply (ex_free list_b); [vm_compute; reflexivity|unfold list_b|vm_compute; reflexivity]. repeat (apply Forall_cons; [split; [split; vm_compute; (reflexivity || (intro; discriminate))|try exact Logic.I; discriminate]|]). apply Forall_nil. }
  assert (Fc : free_trie four ex_c).
  { apply (ex_free list_c); [vm_compute; reflexivity|unfold list_c|vm_compute; reflexivity]. repeat (apply Forall_cons; [split; [split; vm_compute; (reflexivity || (intro; discriminate))|try exact Logic.I; discriminate]|]). apply Forall_nil. }
  assert (X : exists l, trie_items 100 Debug ex_b = Some (Ok l) /\ exists t, trie_extend Debug ex_a l = Ok t /\ lk t [1;2;5;6] = Some (Val [9]) /\ lk t [1;2;3;4] = Some (Val [1]) /\ lk t [1;3;8] = Some (HashV (repeat 8 32))).
  { eexists. split; [vm_compute; reflexivity|]. eexists. split; [vm_compute; reflexivity|]. repeat split. }
  split; [exact four_pf|]. split; [exact Fa|]. split; [exact Fb|]. split; [exact Fc|]. split; [|split; [|split; [|split; [|exact X]]]].
  - destruct X as (l & El & t & Et & _). destruct (C86_merge Debug four ex_a ex_b 100 l four_pf Fa Fb El) as [[_ Q]|[Q _]]; [congruence|exact Q].
  - exists [2;0], (HashV (repeat 7 32)), [2;0;3;4], (Val [4]). split; [vm_compute; reflexivity|]. split; [vm_compute; reflexivity|]. left. split; [eauto|exists [3;4]; reflexivity].
  - intros D. destruct (D [1;2;5;6]) as [Q|Q]; vm_compute in Q; discriminate.
  - intros k. destruct (lk ex_b k) as [e|] eqn:L; [right|left; reflexivity]. apply entries_lk in L. vm_compute in L.
    repeat (destruct L as [L|L]; [injection L as <- <-; vm_compute; reflexivity|]). destruct L.
Qed.
Example C86_parts_example : Forall (Forall (fun e : nibbles * list N => kwf (fst e) /\ four (nseq (fst e)) /\ snd e <> []))
  [[(K 4 0x1234, [1]); (K 4 0x1256, [2])]; []; [(K 4 0x1234, [3]); (K 4 0x2000, [4])]].
Proof. repeat first [apply Forall_nil|apply Forall_cons]; (split; [split; vm_compute; (reflexivity || (intro; discriminate))|split; [reflexivity|discriminate]]). Qed.
Definition ex_whole : node := okn (from_iter Debug [(K 4 0x1234, Val (repeat 1 33)); (K 4 0x1256, Val (repeat 2 33)); (K 4 0x2000, Val (repeat 3 33))]).
Lemma ex_whole_eq : trie_extend Debug Empty [(K 4 0x1234, Val (repeat 1 33)); (K 4 0x1256, Val (repeat 2 33)); (K 4 0x2000, Val (repeat 3 33))] = Ok ex_whole.
Proof. vm_compute. reflexivity. Qed.
Definition ex_sub (ks : list nibbles) : node := match create_trie_subset keccak256 Debug ex_whole ks with Ok (ROk s) => s | _ => Empty end.
Definition ex_sub_ok (ks : list nibbles) : bool := match create_trie_subset keccak256 Debug ex_whole ks with Ok (ROk _) => true | _ => false end.
Lemma ex_sub_1 : ex_sub_ok [K 4 0x1234] = true.
Proof. vm_compute. reflexivity. Qed.
Lemma ex_sub_2 : ex_sub_ok [K 4 0x2000] = true.
Proof. vm_compute. reflexivity. Qed.
Lemma ex_sub_3 : match lk (ex_sub [K 4 0x1234]) [1;2;3;4], lk (ex_sub [K 4 0x2000]) [1;2;3;4] with Some (Val _), None => true | _, _ => false end = true.
Proof. vm_compute. reflexivity. Qed.
Example C86_excerpts_example : wf 64 ex_whole /\ canon ex_whole /\ hides keccak256 ex_whole (ex_sub [K 4 0x1234]) /\ hides keccak256 ex_whole (ex_sub [K 4 0x2000]) /\
  ex_sub [K 4 0x1234] <> ex_sub [K 4 0x2000].
Proof.
  assert (F : Forall pentry [(K 4 0x1234, Val (repeat 1 33)); (K 4 0x1256, Val (repeat 2 33)); (K 4 0x2000, Val (repeat 3 33))]).
  { repeat (apply Forall_cons; [split; [split; vm_compute; (reflexivity || (intro; discriminate))|discriminate]|]). apply Forall_nil. }
  destruct (extend_canon Debug _ Empty ex_whole (wf_empty 64) cn_empty F ex_whole_eq) as [W C].
  assert (Ft : fits ex_whole).
  { apply (extend_fits Debug [(K 4 0x1234, Val (repeat 1 33)); (K 4 0x1256, Val (repeat 2 33)); (K 4 0x2000, Val (repeat 3 33))] Empty); [exact Logic.I| |exact ex_whole_eq].
    repeat (apply Forall_cons; [split; [cbn [repeat]; repeat (apply Forall_cons; [reflexivity|]); apply Forall_nil|reflexivity]|]). apply Forall_nil. }
  assert (Sb : forall ks, ex_sub_ok ks = true -> hides keccak256 ex_whole (ex_sub ks)).
  { intros ks. unfold ex_sub_ok, ex_sub. destruct (create_trie_subset keccak256 Debug ex_whole ks) as [[s|]|] eqn:E; try discriminate. intros _.
    exact (subset_hides keccak256 Debug ex_whole ks s keccak256_32 W Ft E). }
  split; [exact W|]. split; [exact C|]. split; [exact (Sb _ ex_sub_1)|]. split; [exact (Sb _ ex_sub_2)|].
  intros Q. pose proof ex_sub_3 as Z. rewrite Q in Z. destruct (lk (ex_sub [K 4 0x2000]) [1;2;3;4]) as [[]|]; discriminate.
Qed.
