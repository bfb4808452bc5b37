(** Property C82: iterating over an excerpt of a trie. *)
From Verif Require Import Base Nibbles NibblesSpec NibblesFacts NibblesFacts2 NibblesFacts3 Trie TrieSpec TrieHistSpec TrieFacts TrieInsert TrieGet TrieDelete TrieUnique TrieIter TrieHist TrieObs InsertWf ItemsFacts Rlp YellowPaper Hashing Keccak HashSpec HideSpec HashFacts KeccakFacts HideFacts Subset SubsetSpec SubsetFacts SubsetFacts2 P_Trie P_Hash P_Subset BlockSpec.
Open Scope N_scope.

Section B.
Variable keccak : list N -> list N.
Hypothesis K32 : hash32 keccak.

Definition estands (e : ent) (b : list ent) : Prop :=
  b = [e] \/ exists h c, snd e = HashV h /\ wf 64 c /\ canon c /\ fits c /\ c <> Empty /\ root keccak c = h /\ b = below (fst e) (entries c).

Lemma below_app {A} p q (l : list (list N * A)) : below p (below q l) = below (p ++ q) l.
Proof. unfold below. rewrite map_map. apply map_ext. intros [k x]. cbn [fst snd]. rewrite app_assoc. reflexivity. Qed.
Lemma below_concat {A} p (l : list (list (list N * A))) : below p (concat l) = concat (map (below p) l).
Proof. unfold below. apply concat_map. Qed.
Lemma estands_below p l bs : Forall2 estands l bs -> Forall2 estands (below p l) (map (below p) bs).
Proof.
  induction 1 as [|e b l bs E _ IH]; cbn [below map]; constructor; [|exact IH].
  destruct E as [->|(h & c & Eh & W & C & F & NE & R & ->)]; [left; reflexivity|right]. exists h, c. cbn [fst snd]. repeat (split; [assumption|]). apply below_app.
Qed.

Lemma hides_blocks : forall t L s, wf L t -> (L <= 64)%nat -> canon t -> fits t -> hides keccak t s -> exists bs, entries t = concat bs /\ Forall2 estands (entries s) bs.
Proof.
  assert (Self : forall l : list ent, exists bs, l = concat bs /\ Forall2 estands l bs).
  { intros l. exists (map (fun e => [e]) l). split; [|induction l; constructor; [left; reflexivity|assumption]]. induction l as [|a l IH]; [reflexivity|]. cbn [map concat app]. congruence. }
  assert (Out : forall t L, wf L t -> (L <= 64)%nat -> canon t -> fits t -> not_hash t -> 32 <= len (RLP (HashSpec.item keccak t)) ->
    exists bs, entries t = concat bs /\ Forall2 estands (entries (Hash (keccak (RLP (HashSpec.item keccak t))))) bs).
  { intros t L W HL C F N G. exists [entries t]. cbn [concat entries]. split; [rewrite app_nil_r; reflexivity|]. constructor; [|constructor]. right.
    exists (keccak (RLP (HashSpec.item keccak t))), t. split; [reflexivity|]. split; [exact (wf_weaken L t W 64 HL)|]. split; [exact C|]. split; [exact F|]. split; [intros ->; vm_compute in G; apply G; reflexivity|].
    split; [destruct t; try reflexivity; destruct N|]. unfold below. cbn [fst app]. rewrite <- (map_id (entries t)) at 1. apply map_ext. intros [k e]. reflexivity. }
  induction t as [|h|ch w IH|n c IH|n w] using node_ind'; intros L s W HL C F H; inversion H as [| |? ch' ? Fh|? ? c' Fh| |t0 N G]; subst; try apply Self; try (eapply Out; eassumption).
  - inversion W as [| |L0 ? ? Hl Fw| |]; subst. inversion C as [| |? ? FC O| |]; subst. cbn [fits] in F. destruct F as (_ & _ & Fc). cbn [entries].
    assert (X : forall i, exists bs, concat_children entries ch i = concat bs /\ Forall2 estands (concat_children entries ch' i) bs).
    { clear Hl O H C W. revert ch' Fh. induction ch as [|a ch IHc]; intros ch' Fh i; inversion Fh as [|? b ? l' Hab Hl']; subst; [exists []; split; [reflexivity|constructor]|].
      inversion IH as [|? ? IHa IHl]; subst. inversion Fw as [|? ? Wa Wl]; subst. inversion FC as [|? ? Ca Cl]; subst. destruct Fc as [Fa Fl].
      destruct (IHa L0 b Wa ltac:(lia) Ca Fa Hab) as (bs1 & E1 & F1). destruct (IHc IHl Fl Wl Cl l' Hl' (i + 1)) as (bs2 & E2 & F2).
      exists (map (below [i]) bs1 ++ bs2). rewrite !concat_cons. change (pre_ [i] (entries a)) with (below [i] (entries a)). change (pre_ [i] (entries b)) with (below [i] (entries b)).
      split; [rewrite E1, below_concat, concat_app, E2; reflexivity|]. apply Forall2_app; [apply estands_below, F1|exact F2]. }
    destruct (X 0) as (bs & E & Fs). destruct (Self (match w with [] => [] | _ => [([], Val w)] end)) as (bs' & E' & Fs').
    exists (bs ++ bs'). split; [transitivity (concat bs ++ concat bs'); [f_equal; assumption|symmetry; apply concat_app]|apply Forall2_app; assumption].
  - inversion W as [| | |L0 q c0 Hq Wc|]; subst. inversion C as [| | |? ? Hn Bc Cc|]; subst. cbn [fits] in F. cbn [entries].
    destruct (IH L0 c' Wc ltac:(lia) Cc F Fh) as (bs & E & Fs). exists (map (below (nseq (enc q))) bs). fold (below (nseq (enc q)) (entries c)). fold (below (nseq (enc q)) (entries c')).
    split; [rewrite E; apply below_concat|apply estands_below, Fs].
Qed.
End B.

Lemma spelled_item t e : wf 64 t -> In e (entries t) -> spelled (item_of e) = e.
Proof.
  intros W I. destruct e as [k x]. apply entries_lk in I. destruct (stored_wf t 64 k W ltac:(unfold stored; congruence)) as [_ Hk].
  unfold spelled, item_of. cbn [fst snd]. rewrite nseq_enc by exact Hk. reflexivity.
Qed.

(** The items of the complete trie are obtained from those of the excerpt, in their order, by putting in place of some hash items the entries of the subtries
    that they stand for. *)
Theorem C82_items : forall keccak pr t s f f' l l',
  hash32 keccak -> wf 64 t -> canon t -> fits t -> hides keccak t s ->
  trie_items f pr t = Some (Ok l) -> trie_items f' pr s = Some (Ok l') ->
  exists bs, l = concat bs /\ Forall2 (stands_for keccak pr) l' bs.
Proof.
  intros keccak pr t s f f' l l' K W C F H El El'.
  pose proof (hides_wf keccak t 64 s H W) as Ws. pose proof (hides_canon keccak t s H C) as Cs.
  rewrite (items_are pr t f l W (canon_shape _ C) El), (items_are pr s f' l' Ws (canon_shape _ Cs) El').
  destruct (hides_blocks keccak t 64 s W (le_n _) C F H) as (bs & E & Fs).
  exists (map (map item_of) bs). split; [rewrite E; apply concat_map|].
  assert (It : forall b, In b bs -> forall e, In e b -> spelled (item_of e) = e) by (intros b Ib e Ie; apply (spelled_item t); [exact W|]; rewrite E; apply List.in_concat; eauto).
  assert (Is : forall e, In e (entries s) -> spelled (item_of e) = e) by (intros e; apply spelled_item, Ws).
  clear E El El'. induction Fs as [|e b es bs Eb Fs IH]; cbn [map]; constructor.
  - destruct Eb as [->|(h & c & Eh & Wc & Cc & Fc & NE & R & Eb)]; [left; reflexivity|right].
    exists h, c, (entries c). split; [exact Eh|]. split; [exact Cc|]. split; [intros k x; symmetry; apply entries_lk|]. split; [rewrite (hash_trie_ok keccak K pr c Wc Fc), R; reflexivity|].
    split. { intros Q. destruct (shape_stored c (canon_shape _ Cc) NE) as (k & Sk). unfold stored in Sk. destruct (lk c k) as [x|] eqn:Ex; [|congruence]. apply entries_lk in Ex. rewrite Q in Ex. destruct Ex. }
    pose proof (Is e (or_introl eq_refl)) as Qe. apply (f_equal fst) in Qe. cbn [spelled fst] in Qe. rewrite Qe, <- Eb.
    rewrite map_map. rewrite <- (map_id b) at 2. apply map_ext_in. intros x Ix. exact (It b (or_introl eq_refl) x Ix).
  - apply IH; intros; [eapply It; [right|]; eassumption|apply Is; right; assumption].
Qed.
Print Assumptions C82_items.

(** If the complete trie has no hash nodes: a value item stands for itself and a hash item for the entries whose Yellow Paper root it is. *)
Theorem C82_values : forall keccak pr t s f f' l l',
  hash32 keccak -> wf 64 t -> canon t -> fits t -> (forall k h, lk t k <> Some (HashV h)) -> hides keccak t s ->
  trie_items f pr t = Some (Ok l) -> trie_items f' pr s = Some (Ok l') ->
  exists bs, l = concat bs /\ Forall2 (stands_for_values keccak) l' bs.
Proof.
  intros keccak pr t s f f' l l' K W C F HF H El El'.
  pose proof (hides_wf keccak t 64 s H W) as Ws. pose proof (hides_canon keccak t s H C) as Cs.
  rewrite (items_are pr t f l W (canon_shape _ C) El), (items_are pr s f' l' Ws (canon_shape _ Cs) El').
  destruct (hides_blocks keccak t 64 s W (le_n _) C F H) as (bs & E & Fs).
  exists (map (map item_of) bs). split; [rewrite E; apply concat_map|].
  assert (It : forall b, In b bs -> forall e, In e b -> spelled (item_of e) = e /\ exists v, snd e = Val v).
  { intros b Ib e Ie. assert (I : In e (entries t)) by (rewrite E; apply List.in_concat; eauto). split; [apply (spelled_item t); assumption|].
    destruct e as [k [v|h]]; [exists v; reflexivity|]. apply entries_lk in I. destruct (HF _ _ I). }
  assert (Is : forall e, In e (entries s) -> spelled (item_of e) = e) by (intros e; apply spelled_item, Ws).
  clear E El El'. induction Fs as [|e b es bs Eb Fs IH]; cbn [map]; constructor.
  - unfold stands_for_values. change (snd (item_of e)) with (snd e). destruct Eb as [->|(h & c & Eh & Wc & Cc & Fc & NE & R & Eb)].
    { destruct (It [e] (or_introl eq_refl) e (or_introl eq_refl)) as [_ [v Ev]]. rewrite Ev. reflexivity. }
    rewrite Eh. set (val := fun e : val_or_hash => match e with Val v => v | HashV _ => [] end).
    assert (Vc : forall x, In x (entries c) -> snd x = Val (val (snd x))).
    { intros x Ix. destruct (It b (or_introl eq_refl) (fst e ++ fst x, snd x)) as [_ [v Ev]]; [rewrite Eb; apply in_map_iff; exists x; auto|]. cbn [snd] in Ev. rewrite Ev. reflexivity. }
    exists (map (fun x => (fst x, val (snd x))) (entries c)). split; [|split; [|split]].
    + intros Q. apply map_eq_nil in Q. destruct (shape_stored c (canon_shape _ Cc) NE) as (k & Sk). unfold stored in Sk. destruct (lk c k) as [x|] eqn:Ex; [|congruence]. apply entries_lk in Ex. rewrite Q in Ex. destruct Ex.
    + rewrite map_map. cbn [fst]. apply entries_nodup.
    + pose proof (Is e (or_introl eq_refl)) as Qe. apply (f_equal fst) in Qe. cbn [spelled fst] in Qe. rewrite Qe.
      assert (Q : map (fun e : list N * list N => (fst e, Val (snd e))) (map (fun x => (fst x, val (snd x))) (entries c)) = entries c).
      { rewrite map_map. transitivity (map (fun x : ent => x) (entries c)); [|apply map_id]. apply map_ext_in. intros [k x] Ix. cbn [fst snd]. f_equal. symmetry. exact (Vc _ Ix). }
      transitivity (below (fst e) (entries c)); [|symmetry; exact (f_equal (below (fst e)) Q)]. rewrite <- Eb.
      rewrite map_map. rewrite <- (map_id b) at 2. apply map_ext_in. intros x Ix. exact (proj1 (It b (or_introl eq_refl) x Ix)).
    + assert (Y : hash_trie keccak pr c = Ok (yp_root keccak (map (fun x => (fst x, val (snd x))) (entries c)))).
      { apply C19_canonical; auto. split; [rewrite map_map; cbn [fst]; apply entries_nodup|]. intros k x. rewrite <- entries_lk. split.
        - intros Ix. exists (val x). split; [exact (Vc _ Ix)|]. apply in_map_iff. exists (k, x). auto.
        - intros (v & -> & Ix). apply in_map_iff in Ix. destruct Ix as ([k0 x] & [= <- Ev] & Ix). cbn [snd] in Ev. pose proof (Vc _ Ix) as Q. cbn [snd] in Q. rewrite Ev in Q. rewrite <- Q. exact Ix. }
      rewrite (hash_trie_ok keccak K pr c Wc Fc), R in Y. congruence.
  - apply IH; intros; [eapply It; [right|]; eassumption|apply Is; right; assumption].
Qed.
Print Assumptions C82_values.

(** In particular each item of the complete trie is one of the excerpt, or begins with the key of a hash item of it; and each value of the excerpt is one of
    the complete trie. *)
Theorem C82_found : forall keccak pr t s f f' l l',
  hash32 keccak -> wf 64 t -> canon t -> fits t -> hides keccak t s ->
  trie_items f pr t = Some (Ok l) -> trie_items f' pr s = Some (Ok l') ->
  (forall x, In x l -> In x l' \/ exists k h, In (k, HashV h) l' /\ is_prefix (nseq k) (nseq (fst x))) /\
  (forall k v, In (k, Val v) l' -> In (k, Val v) l) /\ (length l' <= length l)%nat.
Proof.
  intros keccak pr t s f f' l l' K W C F H El El'. destruct (C82_items keccak pr t s f f' l l' K W C F H El El') as (bs & -> & Fs). clear El El'. split; [|split].
  - intros x I. apply List.in_concat in I. destruct I as (b & Ib & Ix). induction Fs as [|y b' l' bs Sy Fs IH]; [destruct Ib|destruct Ib as [->|Ib]].
    + destruct Sy as [->|(h & c & J & Eh & _ & _ & _ & _ & Eb)]; [destruct Ix as [<-|[]]; left; left; reflexivity|].
      right. destruct y as [k e]. cbn [snd fst] in *. subst e. exists k, h. split; [left; reflexivity|].
      apply (in_map spelled) in Ix. rewrite Eb in Ix. apply in_map_iff in Ix. destruct Ix as (j & Ej & _). apply (f_equal fst) in Ej. cbn [spelled fst] in Ej. exists (fst j). congruence.
    + destruct (IH Ib) as [Q|(k & h & Q & P)]; [left; right; exact Q|right; exists k, h; split; [right; exact Q|exact P]].
  - intros k v I. apply List.in_concat. induction Fs as [|y b' l' bs Sy Fs IH]; [destruct I|destruct I as [->|I]].
    + destruct Sy as [->|(h & c & J & Eh & _)]; [|discriminate]. exists [(k, Val v)]. split; left; reflexivity.
    + destruct (IH I) as (b & Ib & Ix). exists b. split; [right; exact Ib|exact Ix].
  - induction Fs as [|y b' l' bs Sy Fs IH]; [apply le_n|]. cbn [length concat]. rewrite app_length.
    refine (Nat.add_le_mono 1 (length b') _ _ _ IH). destruct Sy as [->|(h & c & J & _ & _ & _ & _ & NE & Eb)]; [apply le_n|].
    apply (f_equal (@length _)) in Eb. unfold below in Eb. rewrite !map_length in Eb. destruct J; [congruence|]. cbn [length] in Eb. lia.
Qed.
Print Assumptions C82_found.

(** For subsets: the excerpt made for some keys. *)
Theorem C82_subset : forall keccak pr t ks s f f' l l',
  hash32 keccak -> wf 64 t -> canon t -> fits t -> (forall k h, lk t k <> Some (HashV h)) -> create_trie_subset keccak pr t ks = Ok (ROk s) ->
  trie_items f pr t = Some (Ok l) -> trie_items f' pr s = Some (Ok l') ->
  exists bs, l = concat bs /\ Forall2 (stands_for_values keccak) l' bs.
Proof.
  intros keccak pr t ks s f f' l l' K W C F HF E El El'.
  exact (C82_values keccak pr t s f f' l l' K W C F HF (subset_hides keccak pr t ks s K W F E) El El').
Qed.
Print Assumptions C82_subset.

(** The subset of a trie with three keys for one of them: its iterator gives the value and a hash item for the other two, or for one. *)
Example C82_example : wf 64 ex_big /\ canon ex_big /\ fits ex_big /\ (forall k h, lk ex_big k <> Some (HashV h)) /\
  exists s l l', create_trie_subset keccak256 Debug ex_big [K 4 0x1234] = Ok (ROk s) /\ trie_items 200 Debug ex_big = Some (Ok l) /\ trie_items 200 Debug s = Some (Ok l') /\
    length l = 3%nat /\ exists h, l' = [(K 4 0x1234, Val (big 1)); (K 1 0x5, HashV h)].
Proof.
  destruct ex_big_ok as (_ & W & C & F). split; [exact W|]. split; [exact C|]. split; [exact F|]. split.
  { intros k h E. apply entries_lk in E. revert E.
    change (entries ex_big) with [([1;2;3;4], Val (big 1)); ([5;6;7;8], Val (big 2)); ([5;6;9;9], Val (big 3))].
    intros [[= _ Q]|[[= _ Q]|[[= _ Q]|[]]]]. }
  set (s := oks (create_trie_subset keccak256 Debug ex_big [K 4 0x1234])).
  exists s. eexists. eexists. split; [vm_compute; reflexivity|]. split; [vm_compute; reflexivity|]. split; [vm_compute; reflexivity|]. split; [reflexivity|]. eexists. vm_compute. reflexivity.
Qed.
