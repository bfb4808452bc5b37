(** Partial tries built by hand: facts. *)
From Coq Require Import Permutation.
From Verif Require Import Base Nibbles NibblesSpec NibblesFacts NibblesFacts2 NibblesFacts3 Trie TrieSpec TrieHistSpec TrieFacts TrieInsert TrieGet TrieDelete TrieUnique TrieIter TrieHist TrieObs Rlp YellowPaper Hashing HashSpec HashFacts HideSpec HideFacts ItemsFacts HandSpec.
Open Scope N_scope.

Section Pick.
Variable keccak : list N -> list N.
Notation item := (item keccak).
Notation hides := (hides keccak).

Definition part (t : node) (k : list N) (x : val_or_hash) : Prop :=
  lk t k = Some x \/
  exists u, node_at t k u /\ not_hash u /\ 32 <= len (RLP (item u)) /\ x = HashV (keccak (RLP (item u))).

Lemma finite_choice {A B} (R : nat -> A -> B -> Prop) (l : list A) : forall n, (forall i c, nth_error l i = Some c -> exists c', R (n + i)%nat c c') ->
  exists l', length l' = length l /\ forall i c c', nth_error l i = Some c -> nth_error l' i = Some c' -> R (n + i)%nat c c'.
Proof.
  induction l as [|c l IH]; intros n H.
  - exists []. split; [reflexivity|]. intros [|i]; discriminate.
  - destruct (H 0%nat c eq_refl) as [c' Hc]. destruct (IH (S n)) as (l' & El & Hl).
    { intros i d E. destruct (H (S i) d E) as [d' Hd]. exists d'. replace (S n + i)%nat with (n + S i)%nat by lia. exact Hd. }
    exists (c' :: l'). split; [cbn [length]; congruence|]. intros [|i] d d' E E'; cbn [nth_error] in *.
    + injection E as <-. injection E' as <-. exact Hc.
    + replace (n + S i)%nat with (S n + i)%nat by lia. eauto.
Qed.

Lemma forall2_nth {A B} (R : A -> B -> Prop) l : forall l', length l' = length l ->
  (forall i c c', nth_error l i = Some c -> nth_error l' i = Some c' -> R c c') -> Forall2 R l l'.
Proof.
  induction l as [|c l IH]; intros [|c' l'] E H; try discriminate; constructor; [exact (H 0%nat c c' eq_refl eq_refl)|].
  apply IH; [injection E as E; exact E|]. intros i d d' Q Q'. exact (H (S i) d d' Q Q').
Qed.

Lemma len_empty : len (RLP (item Empty)) < 32.
Proof. vm_compute. reflexivity. Qed.

Lemma prefix_nil j : is_prefix j [] -> j = [].
Proof. intros [s E]. destruct j; [reflexivity|discriminate]. Qed.

(** The trie that hides exactly what the entries [E] ask to hide. *)
Lemma pick : forall t L (E : list N -> val_or_hash -> Prop), wf L t -> canon t ->
  (forall k x, E k x -> part t k x) ->
  (forall k x, lk t k = Some x -> E k x \/ exists j h, E j (HashV h) /\ is_prefix j k) ->
  (forall j k x y, E j x -> E k y -> is_prefix j k -> j = k /\ x = y) ->
  (forall k, (exists x, E k x) \/ ~ exists x, E k x) ->
  exists t', hides t t' /\ forall k x, lk t' k = Some x <-> E k x.
Proof.
  assert (Top : forall t L (E : list N -> val_or_hash -> Prop) x, not_hash t -> wf L t -> canon t ->
    (forall k x, lk t k = Some x -> E k x \/ exists j h, E j (HashV h) /\ is_prefix j k) ->
    (forall j k x y, E j x -> E k y -> is_prefix j k -> j = k /\ x = y) ->
    E [] x -> (forall u, node_at t [] u -> u = t) -> part t [] x ->
    exists t', hides t t' /\ forall k x, lk t' k = Some x <-> E k x).
  { intros t L E x NH W C B D Ex Un P.
    assert (Only : forall k y, E k y -> k = [] /\ y = x).
    { intros k y Q. destruct (D [] k x y Ex Q) as [<- <-]; [exists k; reflexivity|auto]. }
    destruct P as [Lk|(u & Na & _ & G & ->)].
    - destruct t as [|h|ch w|n c|n w]; [discriminate|destruct NH| | |].
      + exfalso. cbn [lk] in Lk. destruct (shape_stored _ (canon_shape _ C)) as [k Sk]; [discriminate|].
        pose proof (canon_shape _ C) as Sh. inversion Sh as [| |? ? Fs (c & Ic & Nc)| |]; subst.
        rewrite Forall_forall in Fs. destruct (shape_stored c (Fs c Ic) Nc) as [j Sj].
        destruct (in_child_ex ch c Ic) as (d & _ & <-).
        unfold stored in Sj. destruct (lk (child ch d) j) as [y|] eqn:Ly; [|congruence].
        rewrite <- (lk_branch ch w) in Ly. destruct (B _ _ Ly) as [Q|(p & h & Q & _)]; destruct (Only _ _ Q) as [A A']; [discriminate|].
        subst. destruct w; discriminate.
      + exfalso. inversion C; subst. cbn [lk] in Lk. destruct (nseq n); [congruence|discriminate].
      + exists (Leaf n w). split; [constructor|]. cbn [lk] in *. destruct (key_eqb_spec (nseq n) []) as [En|]; [|discriminate].
        injection Lk as <-. rewrite En. intros k y. destruct (key_eqb_spec [] k) as [<-|Nk].
        * split; [intros Q; injection Q as <-; exact Ex|]. intros Q. destruct (Only _ _ Q) as [_ ->]. reflexivity.
        * split; [discriminate|]. intros Q. destruct (Only _ _ Q) as [-> _]. congruence.
    - rewrite (Un _ Na) in *. exists (Hash (keccak (RLP (item t)))). split; [constructor; assumption|]. intros k y. cbn [lk]. destruct k as [|d k].
      + split; [intros Q; injection Q as <-; exact Ex|]. intros Q. destruct (Only _ _ Q) as [_ ->]. reflexivity.
      + split; [discriminate|]. intros Q. destruct (Only _ _ Q) as [Z _]. discriminate. }
  intros t. induction t as [|h|ch w IH|n c IH|n w] using node_ind'; intros L E W C A B D Dec.
  - exists Empty. split; [constructor|]. intros k x. split; [discriminate|]. intros Q. destruct (A _ _ Q) as [Z|(u & Na & _ & G & _)]; [discriminate|].
    inversion Na; subst. pose proof len_empty. lia.
  - exists (Hash h). split; [constructor|].
    assert (P : forall k x, E k x -> k = [] /\ x = HashV h).
    { intros k x Q. destruct (A _ _ Q) as [Z|(u & Na & N & _)]; [cbn [lk] in Z; destruct k; [injection Z as <-; auto|discriminate]|].
      inversion Na; subst. destruct N. }
    assert (Q : E [] (HashV h)).
    { destruct (B [] (HashV h) eq_refl) as [Q|(j & h' & Q & _)]; [exact Q|]. destruct (P _ _ Q) as [-> Z]. rewrite Z in Q. exact Q. }
    intros k x. cbn [lk]. destruct k as [|d k].
    + split; [intros Z; injection Z as <-; exact Q|]. intros Z. destruct (P _ _ Z) as [_ ->]. reflexivity.
    + split; [discriminate|]. intros Z. destruct (P _ _ Z) as [Z' _]. discriminate.
  - destruct (Dec []) as [[x Ex]|No].
    { apply (Top _ L E x); auto; [exact Logic.I|]. intros u Na. inversion Na. reflexivity. }
    assert (No' : forall x, ~ E [] x) by (intros x Q; apply No; exists x; exact Q).
    inversion W as [| |L0 ? ? Hlen Fw| |]; subst. inversion C as [| |? ? Fc Occ| |]; subst.
    assert (Sub : forall d k x, E (d :: k) x -> exists c, nth_error ch (N.to_nat d) = Some c /\ part c k x).
    { intros d k x Q. destruct (A _ _ Q) as [Lk|(u & Na & N & G & ->)].
      - cbn [lk] in Lk. rewrite at_child_nth in Lk. destruct (nth_error ch (N.to_nat d)) as [c|]; [|discriminate]. exists c. split; [reflexivity|left; exact Lk].
      - inversion Na; subst. eexists. split; [eassumption|]. right. exists u. auto. }
    destruct (finite_choice (fun i c c' => hides c c' /\ forall k x, lk c' k = Some x <-> E (N.of_nat i :: k) x) ch 0) as (ch' & El & Hch).
    { intros i c Ei. cbn [Nat.add]. pose proof (nth_error_In _ _ Ei) as Ic. rewrite Forall_forall in IH, Fw, Fc.
      apply (IH c Ic L0 (fun k x => E (N.of_nat i :: k) x)); auto.
      - intros k x Q. destruct (Sub _ _ _ Q) as (c0 & E0 & P). rewrite Nat2N.id in E0. congruence.
      - intros k x Lk. assert (Lk' : lk (Branch ch w) (N.of_nat i :: k) = Some x).
        { cbn [lk]. rewrite at_child_nth, Nat2N.id, Ei. exact Lk. }
        destruct (B _ _ Lk') as [Q|(j & h & Q & [s Es])]; [auto|]. right. destruct j as [|d j]; [destruct (No' _ Q)|].
        cbn [app] in Es. injection Es as <- Es. exists j, h. split; [exact Q|exists s; exact Es].
      - intros j k x y Q1 Q2 [s ->]. destruct (D _ _ _ _ Q1 Q2) as [Z ->]; [exists s; reflexivity|]. split; [injection Z as Z; exact Z|reflexivity]. }
    exists (Branch ch' w). cbn [Nat.add] in Hch. split; [constructor; apply forall2_nth; [exact El|]; intros; eapply Hch; eassumption|].
    intros k x. cbn [lk]. destruct k as [|d k].
    + split; [|intros Q; destruct (No' _ Q)]. intros Q. destruct (B [] x Q) as [Z|(j & h & Z & P)]; [exact Z|]. apply prefix_nil in P. subst j. destruct (No' _ Z).
    + rewrite at_child_nth. destruct (nth_error ch' (N.to_nat d)) as [c'|] eqn:E'.
      * destruct (nth_error ch (N.to_nat d)) as [c|] eqn:Ec; [|apply nth_error_None in Ec; assert (nth_error ch' (N.to_nat d) <> None) as Z by congruence; apply nth_error_Some in Z; lia].
        destruct (Hch _ _ _ Ec E') as [_ Z]. rewrite N2Nat.id in Z. apply Z.
      * split; [discriminate|]. intros Q. destruct (Sub _ _ _ Q) as (c & Ec & _). apply nth_error_None in E'.
        assert (nth_error ch (N.to_nat d) <> None) as Z by congruence. apply nth_error_Some in Z. lia.
  - assert (Nn : nseq n <> []) by (inversion C; assumption).
    destruct (Dec []) as [[x Ex]|No].
    { apply (Top _ L E x); auto; [exact Logic.I|]. intros u Na. inversion Na as [| |? ? k ? Q Z]; subst; [reflexivity|].
      destruct (nseq n); [congruence|discriminate]. }
    assert (No' : forall x, ~ E [] x) by (intros x Q; apply No; exists x; exact Q).
    inversion C as [| | |? ? Hn Bo Cc|]; subst. inversion W as [| | |L0 q ? Hq Wc|]; subst.
    set (p := nseq (enc q)) in *.
    assert (Sub : forall k x, E k x -> exists k', k = p ++ k' /\ part c k' x).
    { intros k x Q. destruct (A _ _ Q) as [Lk|(u & Na & N & G & ->)].
      - cbn [lk] in Lk. fold p in Lk. destruct (strip p k) as [k'|] eqn:Es; [|discriminate]. apply strip_some in Es. exists k'. split; [exact Es|left; exact Lk].
      - inversion Na; subst; [destruct (No' _ Q)|]. eexists. split; [reflexivity|]. right. exists u. auto. }
    destruct (IH L0 (fun k x => E (p ++ k) x)) as (c' & Hc & Hl); auto.
    + intros k x Q. destruct (Sub _ _ Q) as (k' & Z & P). apply app_inv_head in Z. subst. exact P.
    + intros k x Lk. assert (Lk' : lk (Extension (enc q) c) (p ++ k) = Some x) by (cbn [lk]; fold p; rewrite strip_app; exact Lk).
      destruct (B _ _ Lk') as [Q|(j & h & Q & [s Es])]; [auto|]. right. destruct (Sub _ _ Q) as (j' & -> & _).
      rewrite <- app_assoc in Es. apply app_inv_head in Es. exists j', h. split; [exact Q|exists s; exact Es].
    + intros j k x y Q1 Q2 [s ->]. destruct (D _ _ _ _ Q1 Q2) as [Z ->]; [exists s; rewrite app_assoc; reflexivity|].
      split; [apply app_inv_head in Z; exact Z|reflexivity].
    + exists (Extension (enc q) c'). split; [constructor; exact Hc|]. intros k x. cbn [lk]. fold p.
      destruct (strip p k) as [k'|] eqn:Es.
      * apply strip_some in Es. subst k. apply Hl.
      * split; [discriminate|]. intros Q. destruct (Sub _ _ Q) as (k' & -> & _). rewrite strip_app in Es. discriminate.
  - destruct (Dec []) as [[x Ex]|No].
    { apply (Top _ L E x); auto; [exact Logic.I|]. intros u Na. inversion Na. reflexivity. }
    assert (P : forall k x, E k x -> k = nseq n /\ x = Val w).
    { intros k x Q. destruct (A _ _ Q) as [Lk|(u & Na & _)].
      - cbn [lk] in Lk. destruct (key_eqb_spec (nseq n) k) as [<-|]; [|discriminate]. injection Lk as <-. auto.
      - inversion Na; subst. exfalso. apply No. exists x. exact Q. }
    assert (Q : E (nseq n) (Val w)).
    { destruct (B (nseq n) (Val w)) as [Q|(j & h & Q & _)]; [cbn [lk]; destruct (key_eqb_spec (nseq n) (nseq n)); congruence|exact Q|].
      destruct (P _ _ Q) as [_ Z]. discriminate. }
    exists (Leaf n w). split; [constructor|]. intros k x. cbn [lk]. destruct (key_eqb_spec (nseq n) k) as [<-|Nk].
    + split; [intros Z; injection Z as <-; exact Q|]. intros Z. destruct (P _ _ Z) as [_ ->]. reflexivity.
    + split; [discriminate|]. intros Z. destruct (P _ _ Z) as [-> _]. congruence.
Qed.
End Pick.

(** Building from a list in which no key is a prefix of another. *)
Lemma from_iter_snoc' pr l k v t1 : from_iter pr l = Ok t1 -> from_iter pr (l ++ [(k, v)]) = trie_insert pr t1 k v.
Proof. intros E1. unfold from_iter in *. pose proof (extend_snoc pr l k v Empty) as Z. rewrite E1 in Z. exact Z. Qed.

Lemma apart_app l e : apart (l ++ [e]) -> apart l /\
  forall e', In e' l -> ~ is_prefix (nseq (fst e)) (nseq (fst e')) /\ ~ is_prefix (nseq (fst e')) (nseq (fst e)).
Proof.
  intros H. split.
  - intros a x b y c ->. apply (H a x b y (c ++ [e])). rewrite <- app_assoc. cbn [app]. rewrite <- app_assoc. reflexivity.
  - intros e' I. apply in_split in I. destruct I as (a & b & ->). destruct (H a e' b e []) as [P Q]; [rewrite <- app_assoc; reflexivity|auto].
Qed.

Lemma apart_build pr l : Forall pentry l -> apart l ->
  exists t1, from_iter pr l = Ok t1 /\ ctrie t1 /\ forall j x, lk t1 j = Some x <-> gives l j x.
Proof.
  induction l as [|[k v] l IH] using rev_ind; intros F Ap.
  - exists Empty. split; [reflexivity|]. split; [apply ctrie_empty|]. intros j e. split; [discriminate|intros (n & [] & _)].
  - apply Forall_app in F. destruct F as [Fl F]. apply Forall_inv in F. destruct F as [Fk Fv]. cbn [fst snd] in *.
    apply apart_app in Ap. destruct Ap as [Ap Far]. destruct (IH Fl Ap) as (t1 & E1 & [W1 C1] & P1).
    assert (Far' : forall j x, lk t1 j = Some x -> ~ is_prefix (nseq k) j /\ ~ is_prefix j (nseq k)).
    { intros j x L. apply P1 in L. destruct L as (n & I & <-). exact (Far _ I). }
    assert (In1 : insertable t1 (nseq k)).
    { right. left. intros j Sj (x & r & ->). unfold stored in Sj. destruct (lk t1 _) as [e|] eqn:Q; [|congruence].
      destruct (Far' _ _ Q) as [Z _]. apply Z. exists (x :: r). reflexivity. }
    apply (eff_insertable t1 64 _ W1 C1) in In1.
    destruct (tinsert pr t1 k v W1 (canon_shape _ C1) Fk Fv) as [(t2 & E2 & (Q1 & _ & _ & Q4 & Q5) & _)|[_ B]].
    + exists t2. split; [rewrite (from_iter_snoc' pr l k v t1 E1); exact E2|]. split; [split; auto|].
      intros j x. rewrite Q5, In1. destruct (key_eqb_spec (nseq k) j) as [<-|N].
      * split; [intros Z; injection Z as <-; exists k; split; [apply in_or_app; right; left; reflexivity|reflexivity]|].
        intros (n & I & En). apply in_app_or in I. destruct I as [I|[I|[]]]; [|congruence].
        destruct (Far _ I) as [Z _]. cbn [fst] in Z. exfalso. apply Z. exists []. rewrite app_nil_r. exact En.
      * rewrite P1. split; intros (n & I & En).
        { exists n. split; [apply in_or_app; auto|exact En]. }
        { apply in_app_or in I. destruct I as [I|[I|[]]]; [exists n; auto|]. injection I as <- <-. congruence. }
    + exfalso. destruct B as [(p & h & Lp & Ip)|[_ (j & Sj & Ij)]].
      * rewrite In1 in Ip. destruct (Far' _ _ Lp) as [_ Z]. exact (Z Ip).
      * unfold stored in Sj. destruct (lk t1 j) as [e|] eqn:Q; [|congruence]. destruct (Far' _ _ Q) as [Z _]. exact (Z Ij).
Qed.

Lemma apart_same l j k x y : apart l -> gives l j x -> gives l k y -> is_prefix j k -> j = k /\ x = y.
Proof.
  intros Ap (n & I & <-) (m & I' & <-) P. apply in_split in I. destruct I as (a & b & ->).
  apply in_app_or in I'. destruct I' as [I'|[I'|I']].
  - apply in_split in I'. destruct I' as (a1 & a2 & ->). rewrite <- app_assoc in Ap. cbn [app] in Ap. destruct (Ap _ _ _ _ _ eq_refl) as [_ Z]. contradiction.
  - injection I' as <- <-. auto.
  - apply in_split in I'. destruct I' as (b1 & b2 & ->). destruct (Ap _ _ _ _ _ eq_refl) as [Z _]. contradiction.
Qed.

Lemma apart_perm l l' : Permutation l l' -> apart l -> apart l'.
Proof.
  assert (Sw : forall e e' : nibbles * val_or_hash, apart [e; e'] -> ~ is_prefix (nseq (fst e)) (nseq (fst e')) /\ ~ is_prefix (nseq (fst e')) (nseq (fst e))).
  { intros e e' H. exact (H [] e [] e' [] eq_refl). }
  assert (Cons : forall e l, apart (e :: l) <-> apart l /\ forall e', In e' l -> ~ is_prefix (nseq (fst e)) (nseq (fst e')) /\ ~ is_prefix (nseq (fst e')) (nseq (fst e))).
  { intros e m. split.
    - intros H. split; [intros a x b y c ->; exact (H (e :: a) x b y c eq_refl)|].
      intros e' I. apply in_split in I. destruct I as (b & c & ->). exact (H [] e b e' c eq_refl).
    - intros [H1 H2] [|z a] x b y c Q; cbn [app] in Q; injection Q as <- Q.
      + apply H2. rewrite Q. apply in_or_app. right. left. reflexivity.
      + exact (H1 a x b y c Q). }
  intros P. induction P as [|e m m' P IH|e e' m|m1 m2 m3 P1 IH1 P2 IH2]; intros H; auto.
  - apply Cons in H. destruct H as [H1 H2]. apply Cons. split; [auto|]. intros x I. apply H2. eapply Permutation_in; [apply Permutation_sym; exact P|exact I].
  - apply Cons in H. destruct H as [H1 H2]. apply Cons in H1. destruct H1 as [H1 H3]. apply Cons. split.
    + apply Cons. split; [exact H1|]. intros x I. apply H2. right. exact I.
    + intros x [<-|I]; [|exact (H3 x I)]. destruct (H2 e (or_introl eq_refl)). auto.
Qed.

Lemma gives_dec l k : (exists x, gives l k x) \/ ~ exists x, gives l k x.
Proof.
  induction l as [|[n v] l IH]; [right; intros (x & m & [] & _)|].
  destruct (key_eqb_spec (nseq n) k) as [E|E]; [left; exists v, n; split; [left; reflexivity|exact E]|].
  destruct IH as [(x & m & I & Em)|No]; [left; exists x, m; split; [right; exact I|exact Em]|].
  right. intros (x & m & [I|I] & Em); [congruence|]. apply No. exists x, m. auto.
Qed.

Lemma node_at_wf t k u : node_at t k u -> forall L, wf L t -> exists L', (L' <= L)%nat /\ wf L' u.
Proof.
  induction 1 as [t|ch v d k c u E N IH|n c k u N IH]; intros L W.
  - exists L. auto.
  - inversion W as [| |L0 ? ? Hl F| |]; subst. rewrite Forall_forall in F. destruct (IH L0 (F c (nth_error_In _ _ E))) as (L' & A & B). exists L'. split; [lia|exact B].
  - inversion W as [| | |L0 q ? Hq Wc|]; subst. destruct (IH L0 Wc) as (L' & A & B). exists L'. split; [lia|exact B].
Qed.
Lemma node_at_fits t k u : node_at t k u -> fits t -> fits u.
Proof.
  induction 1 as [t|ch v d k c u E N IH|n c k u N IH]; intros F; [exact F| |exact (IH F)].
  apply fits_branch in F. destruct F as (_ & _ & F). rewrite Forall_forall in F. exact (IH (F c (nth_error_In _ _ E))).
Qed.

(** What is left after hiding is described by its entries. *)
Lemma hides_part keccak t : forall t' k x, hides keccak t t' -> lk t' k = Some x -> part keccak t k x.
Proof.
  induction t as [|h|ch v IH|n c IH|n v] using node_ind'; intros t' k x H L; inversion H as [| |? ch' ? F|? ? c' F| |t0 N G]; subst; try (left; exact L);
    try (cbn [lk] in L; destruct k; [|discriminate]; injection L as <-; right; eexists; split; [apply na_here|split; [exact N|split; [exact G|reflexivity]]]).
  - destruct k as [|d k]; [left; exact L|]. cbn [lk] in L. rewrite at_child_nth in L. destruct (nth_error ch' (N.to_nat d)) as [c'|] eqn:E'; [|discriminate].
    assert (X : exists c, nth_error ch (N.to_nat d) = Some c /\ hides keccak c c').
    { clear - F E'. revert E'. generalize (N.to_nat d). induction F as [|a b l l' Hab F IHF]; intros [|i] E; cbn [nth_error] in *; try discriminate; eauto.
      injection E as <-. eauto. }
    destruct X as (c & Ec & Hc). rewrite Forall_forall in IH. destruct (IH c (nth_error_In _ _ Ec) c' k x Hc L) as [Z|(u & A & B & C & D)].
    + left. cbn [lk]. rewrite at_child_nth, Ec. exact Z.
    + right. exists u. split; [econstructor; eassumption|auto].
  - cbn [lk] in L. destruct (strip (nseq n) k) as [k'|] eqn:Es; [|discriminate]. apply strip_some in Es. subst k.
    destruct (IH c' k' x F L) as [Z|(u & A & B & C & D)].
    + left. cbn [lk]. rewrite strip_app. exact Z.
    + right. exists u. split; [constructor; assumption|auto].
Qed.
