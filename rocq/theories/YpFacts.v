(** The node structure of a canonical trie is the Yellow Paper structure of its contents. *)
From Verif Require Import Base Nibbles NibblesSpec NibblesFacts NibblesFacts2 Trie TrieSpec TrieFacts TrieInsert TrieGet TrieDelete TrieUnique TrieHist TrieObs Rlp YellowPaper Hashing HashSpec HashFacts.
Open Scope N_scope.


Lemma common_l a : forall b, is_prefix (common a b) a.
Proof.
  induction a as [|x a IH]; intros [|y b]; cbn [common]; try (eexists; reflexivity).
  destruct (N.eqb_spec x y); [|eexists; reflexivity]. destruct (IH b) as [r E]. exists r. cbn. congruence.
Qed.
Lemma common_r a : forall b, is_prefix (common a b) b.
Proof.
  induction a as [|x a IH]; intros [|y b]; cbn [common]; try (eexists; reflexivity).
  destruct (N.eqb_spec x y) as [->|]; [|eexists; reflexivity]. destruct (IH b) as [r E]. exists r. cbn. congruence.
Qed.
Lemma common_glb q : forall a b, is_prefix q a -> is_prefix q b -> is_prefix q (common a b).
Proof.
  induction q as [|x q IH]; intros a b [r ->] [s ->]; [eexists; reflexivity|]. cbn [app common]. rewrite N.eqb_refl.
  destruct (IH (q ++ r) (q ++ s)) as [u E]; [eexists; reflexivity..|]. exists u. cbn. congruence.
Qed.
Lemma is_prefix_trans a b c : is_prefix a b -> is_prefix b c -> is_prefix a c.
Proof. intros [r ->] [s ->]. exists (r ++ s). symmetry. apply app_assoc. Qed.

Lemma common_all_lb J k v : In (k, v) J -> is_prefix (common_all J) k.
Proof.
  induction J as [|[k0 v0] J IH]; intros H; [destruct H|]. cbn [common_all]. destruct J as [|e J'].
  - destruct H as [H|[]]. injection H as <- <-. apply prefix_refl.
  - destruct H as [H|H]; [injection H as <- <-; apply common_l|].
    eapply is_prefix_trans; [apply common_r|apply IH; exact H].
Qed.
Lemma common_all_glb q J : J <> [] -> (forall k v, In (k, v) J -> is_prefix q k) -> is_prefix q (common_all J).
Proof.
  induction J as [|[k0 v0] J IH]; intros N H; [congruence|]. cbn [common_all]. destruct J as [|e J'].
  - apply (H k0 v0). left. reflexivity.
  - apply common_glb; [apply (H k0 v0); left; reflexivity|]. apply IH; [discriminate|]. intros k v Hin. apply (H k v). right. exact Hin.
Qed.

Lemma in_sub d J k v : In (k, v) (sub d J) <-> In (d :: k, v) J.
Proof.
  induction J as [|[[|x k0] v0] J IH]; cbn [sub In]; [tauto| |].
  - rewrite IH. split; [tauto|]. intros [H|H]; [discriminate|exact H].
  - destruct (N.eqb_spec x d) as [->|Nx]; cbn [In]; rewrite IH.
    + split; intros [H|H]; [left; congruence|tauto|left; congruence|tauto].
    + split; [tauto|]. intros [H|H]; [congruence|exact H].
Qed.
Lemma nodup_sub d J : NoDup (map fst J) -> NoDup (map fst (sub d J)).
Proof.
  induction J as [|[[|x k0] v0] J IH]; cbn [sub map fst]; intros H; [constructor|inversion H; auto|].
  inversion H as [|? ? N1 N2]; subst. destruct (N.eqb_spec x d) as [->|Nx]; [|auto]. cbn [map fst]. constructor; [|auto].
  rewrite in_map_iff. intros ([k1 v1] & E & Hin). cbn [fst] in E. subst k1. apply N1. apply in_map_iff.
  exists (d :: k0, v1). split; [reflexivity|]. apply in_sub. exact Hin.
Qed.
Lemma val_at_in J v : NoDup (map fst J) -> In ([], v) J -> val_at J = v.
Proof.
  induction J as [|[[|x k0] v0] J IH]; cbn [val_at map fst]; intros H Hin; [destruct Hin| |].
  - destruct Hin as [E|Hin]; [congruence|]. inversion H as [|? ? N1 N2]; subst. exfalso. apply N1. apply in_map_iff. exists ([], v). auto.
  - destruct Hin as [E|Hin]; [discriminate|]. inversion H; subst. auto.
Qed.
Lemma val_at_none J : (forall v, ~ In ([], v) J) -> val_at J = [].
Proof.
  induction J as [|[[|x k0] v0] J IH]; cbn [val_at]; intros H; [reflexivity| |].
  - exfalso. apply (H v0). left. reflexivity.
  - apply IH. intros v Hin. apply (H v). right. exact Hin.
Qed.

Lemma lists_nil t J : wf 64 t \/ True -> shape t -> lists J t -> (J = [] <-> t = Empty).
Proof.
  intros _ Sh [_ H]. split.
  - intros ->. destruct t; try reflexivity; destruct (shape_stored _ Sh ltac:(discriminate)) as [k Sk]; unfold stored in Sk;
      destruct (lk _ k) as [e|] eqn:E; try congruence; apply H in E; destruct E as (v & _ & []).
  - intros ->. destruct J as [|[k v] J]; [reflexivity|]. assert (lk Empty k = Some (Val v)) by (apply H; exists v; split; [reflexivity|left; reflexivity]).
    discriminate.
Qed.

Lemma lists_sub J ch w d : lists J (Branch ch w) -> lists (sub d J) (child ch d).
Proof.
  intros [ND H]. split; [apply nodup_sub, ND|]. intros k e. rewrite <- (lk_branch ch w). rewrite H.
  split; intros (v & E & Hin); exists v; (split; [exact E|]); apply in_sub; exact Hin.
Qed.

Lemma lists_drop J p c : hexl p -> lists J (Extension (enc p) c) -> lists (drop (length p) J) c.
Proof.
  intros Hp [ND H].
  assert (G : forall k v, In (k, v) J -> exists k', k = p ++ k').
  { intros k v Hin. destruct (stored_ext_inv p c k Hp) as (k' & E & _); [|exists k'; exact E].
    unfold stored. assert (lk (Extension (enc p) c) k = Some (Val v)) by (apply H; eauto). congruence. }
  assert (I : forall k v, In (k, v) (drop (length p) J) <-> In (p ++ k, v) J).
  { intros k v. unfold drop. rewrite in_map_iff. split.
    - intros ([k0 v0] & E & Hin). cbn [fst snd] in E. destruct (G _ _ Hin) as [k' ->]. rewrite skipn_exact in E. congruence.
    - intros Hin. exists (p ++ k, v). cbn [fst snd]. rewrite skipn_exact. auto. }
  split.
  - unfold drop. rewrite map_map. cbn [fst]. clear I H. induction J as [|[k v] J IH]; cbn [map]; [constructor|].
    cbn [map fst] in ND. inversion ND as [|? ? N1 N2]; subst. constructor; [|apply IH; [exact N2|intros k0 v0 Hin; apply (G k0 v0); right; exact Hin]].
    rewrite in_map_iff. intros ([k1 v1] & E & Hin). cbn [fst] in E. apply N1. apply in_map_iff. exists (k1, v1). split; [|exact Hin].
    destruct (G k v ltac:(left; reflexivity)) as [a ->]. destruct (G k1 v1 ltac:(right; exact Hin)) as [b ->].
    rewrite !skipn_exact in E. cbn [fst]. congruence.
  - intros k e. rewrite <- (lk_in_ext p c k Hp), H. split; intros (v & E & Hin); exists v; (split; [exact E|]); apply I; exact Hin.
Qed.

Lemma lcp_cons x a b : lcp (x :: a) (x :: b) = S (lcp a b).
Proof. cbn [lcp]. rewrite N.eqb_refl. reflexivity. Qed.

Lemma list16 {A} (f : N -> A) ch (g : node -> A) : length ch = 16%nat -> (forall d, d < 16 -> f d = g (child ch d)) ->
  map f [0;1;2;3;4;5;6;7;8;9;10;11;12;13;14;15] = map g ch.
Proof.
  intros Hl H. do 16 (destruct ch as [|? ch]; [discriminate|]). destruct ch; [|discriminate]. cbn [map].
  rewrite !H by lia. reflexivity.
Qed.

Section H.
Variable keccak : list N -> list N.
Notation item := (item keccak).
Notation ref := (ref keccak).

Lemma yp_structure t : forall L J fuel, wf L t -> canon t -> lists J t -> t <> Empty ->
  (forall k v, In (k, v) J -> (length k < fuel)%nat) -> yp_c keccak fuel J = item t.
Proof.
  induction t as [|h|ch v IH|n c IH|n v] using node_ind'; intros L J fuel W C R NE HF.
  - congruence.
  - destruct R as [_ R]. exfalso. destruct (proj1 (R [] (HashV h)) eq_refl) as (v & E & _). discriminate.
  - (* branch *)
    assert (NJ : J <> []) by (intros ->; apply (lists_nil _ [] (or_intror I) (canon_shape _ C)) in R; destruct R as [R _]; specialize (R eq_refl); discriminate).
    assert (N1 : forall e, J <> [e]).
    { intros [k0 v0] ->. apply (branch_two L ch v k0 W C). intros i Si. unfold stored in Si. destruct R as [_ R].
      destruct (lk (Branch ch v) i) as [e|] eqn:E; [|congruence]. apply R in E. destruct E as (v1 & _ & [E|[]]). congruence. }
    assert (CJ : common_all J = []).
    { destruct (branch_div L ch v W C) as (k1 & k2 & S1 & S2 & _ & D). destruct (common_all J) as [|x p] eqn:E; [reflexivity|exfalso].
      assert (Q : forall k, stored (Branch ch v) k -> exists k', k = x :: k').
      { intros k Sk. unfold stored in Sk. destruct R as [_ R]. destruct (lk (Branch ch v) k) as [e|] eqn:El; [|congruence].
        apply R in El. destruct El as (v1 & _ & Hin). pose proof (common_all_lb J k v1 Hin) as [r Er]. rewrite E in Er. exists (p ++ r). exact Er. }
      destruct (Q k1 S1) as [a ->]. destruct (Q k2 S2) as [b ->]. rewrite lcp_cons in D. discriminate. }
    destruct fuel as [|f]; [exfalso; destruct J as [|[k0 v0] J']; [congruence|]; specialize (HF k0 v0 ltac:(left; reflexivity)); lia|].
    assert (EQ : yp_c keccak (S f) J = RList (map (fun d => yp_n keccak (yp_c keccak f) (sub d J)) [0;1;2;3;4;5;6;7;8;9;10;11;12;13;14;15] ++ [RStr (val_at J)])).
    { cbn [yp_c]. destruct J as [|[k0 v0] [|e J']]; [congruence|exfalso; eapply N1; reflexivity|]. rewrite CJ. reflexivity. }
    rewrite EQ, item_branch. f_equal. inversion W as [| |L0 ? ? Hlen Fw| |]; subst. inversion C as [| |? ? Fc O| |]; subst.
    f_equal.
    + apply list16; [exact Hlen|]. intros d Hd. pose proof (lists_sub J ch v d R) as Rd.
      destruct (child_in ch d) as [E0|I0].
      * rewrite E0 in *. apply (lists_nil Empty (sub d J) (or_intror I) sh_empty) in Rd. rewrite (proj2 Rd eq_refl). reflexivity.
      * rewrite Forall_forall in IH, Fw, Fc. specialize (IH _ I0 L0 (sub d J) f (Fw _ I0) (Fc _ I0) Rd).
        assert (Lf : forall k u, In (k, u) (sub d J) -> (length k < f)%nat).
        { intros k u Hin. apply in_sub in Hin. specialize (HF _ _ Hin). cbn [length] in HF. lia. }
        destruct (child ch d) as [|h|ch' v'|n' c'|n' v'] eqn:Ec;
          [apply (lists_nil Empty (sub d J) (or_intror I) sh_empty) in Rd; rewrite (proj2 Rd eq_refl); reflexivity
          |destruct Rd as [_ Rd]; exfalso; destruct (proj1 (Rd [] (HashV h)) eq_refl) as (u & E & _); discriminate| | |];
        (specialize (IH ltac:(discriminate) Lf);
         assert (NS : sub d J <> []) by (intros E; apply (lists_nil _ _ (or_intror I) (canon_shape _ (Fc _ I0)) Rd) in E; discriminate);
         unfold ref, shorten; rewrite <- IH; unfold yp_n; destruct (sub d J); [congruence|reflexivity]).
    + f_equal. f_equal. destruct R as [ND R]. destruct v as [|b v].
      * apply val_at_none. intros u Hin. assert (lk (Branch ch []) [] = Some (Val u)) by (apply R; eauto). discriminate.
      * apply val_at_in; [exact ND|]. destruct (proj1 (R [] (Val (b :: v))) eq_refl) as (u & E & Hin). congruence.
  - (* extension *)
    inversion W as [| | |L0 p c0 Hp Wc|]; subst. inversion C as [| | |? ? Np Bc Cc|]; subst. rewrite nseq_enc in Np by exact Hp.
    destruct c as [|h|ch w|n' c'|n' v']; try (destruct Bc; fail).
    { exfalso. destruct R as [_ R]. assert (E : lk (Extension (enc p) (Hash h)) p = Some (HashV h)).
      { rewrite <- (app_nil_r p) at 2. rewrite lk_in_ext by exact Hp. reflexivity. }
      apply R in E. destruct E as (u & E & _). discriminate. }
    pose proof (lists_drop J p (Branch ch w) Hp R) as Rd.
    assert (G : forall k v, In (k, v) J -> exists k', k = p ++ k' /\ stored (Branch ch w) k').
    { intros k v Hin. apply (stored_ext_inv p _ k Hp). destruct R as [_ R]. unfold stored.
      assert (lk (Extension (enc p) (Branch ch w)) k = Some (Val v)) by (apply R; eauto). congruence. }
    assert (NJ : J <> []) by (intros ->; apply (lists_nil _ [] (or_intror I) (canon_shape _ C)) in R; destruct R as [R _]; specialize (R eq_refl); discriminate).
    assert (N1 : forall e, J <> [e]).
    { intros [k0 v0] ->. destruct (G k0 v0 ltac:(left; reflexivity)) as (k0' & -> & _).
      apply (branch_two L0 ch w k0' Wc Cc). intros i Si. unfold stored in Si. destruct R as [_ R].
      destruct (lk (Branch ch w) i) as [e|] eqn:E; [|congruence]. rewrite <- (lk_in_ext p) in E by exact Hp. apply R in E.
      destruct E as (v1 & _ & [E|[]]). injection E as E1 _. apply app_inv_head in E1. congruence. }
    assert (CJ : common_all J = p).
    { destruct (common_all_glb p J NJ) as [r Er].
      { intros k u Hin. destruct (G k u Hin) as (k' & -> & _). exists k'. reflexivity. }
      destruct r as [|x r]; [rewrite app_nil_r in Er; exact Er|exfalso].
      destruct (branch_div L0 ch w Wc Cc) as (k1 & k2 & S1 & S2 & _ & D).
      assert (Q : forall k, stored (Branch ch w) k -> exists k', k = x :: k').
      { intros k Sk. unfold stored in Sk. destruct R as [_ R]. destruct (lk (Branch ch w) k) as [e|] eqn:El; [|congruence].
        rewrite <- (lk_in_ext p) in El by exact Hp. apply R in El. destruct El as (v1 & _ & Hin).
        pose proof (common_all_lb J _ v1 Hin) as [s Es]. rewrite Er, <- app_assoc in Es. apply app_inv_head in Es. exists (r ++ s). exact Es. }
      destruct (Q k1 S1) as [a ->]. destruct (Q k2 S2) as [b ->]. rewrite lcp_cons in D. discriminate. }
    destruct fuel as [|f]; [exfalso; destruct J as [|[k0 v0] J']; [congruence|]; specialize (HF k0 v0 ltac:(left; reflexivity)); lia|].
    assert (EQ : yp_c keccak (S f) J = RList [RStr (yp_hp p false); yp_n keccak (yp_c keccak f) (drop (length p) J)]).
    { cbn [yp_c]. destruct J as [|[k0 v0] [|e J']]; [congruence|exfalso; eapply N1; reflexivity|]. rewrite CJ. destruct p; [congruence|reflexivity]. }
    rewrite EQ, item_ext. rewrite nseq_enc by exact Hp. do 3 f_equal.
    assert (Lf : forall k u, In (k, u) (drop (length p) J) -> (length k < f)%nat).
    { intros k u Hin. unfold drop in Hin. apply in_map_iff in Hin. destruct Hin as ([k0 v0] & E & Hin). cbn [fst snd] in E.
      destruct (G _ _ Hin) as (k' & -> & _). rewrite skipn_exact in E. specialize (HF _ _ Hin). rewrite app_length in HF.
      assert (k' = k) by congruence. subst k'. destruct p; [congruence|]. cbn [length] in HF. lia. }
    specialize (IH L0 (drop (length p) J) f Wc Cc Rd ltac:(discriminate) Lf).
    assert (ND : drop (length p) J <> []) by (destruct J; [congruence|discriminate]).
    unfold ref, shorten. rewrite <- IH. unfold yp_n. destruct (drop (length p) J); [congruence|reflexivity].
  - (* leaf *)
    inversion W as [| | | |L0 l v0 Hl Ll]; subst. destruct R as [ND R].
    assert (E : lk (Leaf (enc l) v) l = Some (Val v)) by (rewrite lk_leaf_nseq, key_eqb_refl by exact Hl; reflexivity).
    apply R in E. destruct E as (u & E & Hin). assert (u = v) by congruence. subst u. clear E.
    assert (U : forall k w, In (k, w) J -> k = l).
    { intros k w H. apply (stored_leaf_inv l v k Hl). unfold stored. assert (lk (Leaf (enc l) v) k = Some (Val w)) by (apply R; eauto). congruence. }
    assert (J = [(l, v)]) as ->.
    { destruct J as [|[k0 v0] J]; [destruct Hin|]. destruct J as [|[k1 v1] J].
      - destruct Hin as [Hin|[]]. congruence.
      - exfalso. pose proof (U k0 v0 ltac:(left; reflexivity)). pose proof (U k1 v1 ltac:(right; left; reflexivity)). subst.
        inversion ND as [|? ? N1 _]; subst. apply N1. left. reflexivity. }
    destruct fuel as [|f]; [specialize (HF l v Hin); lia|]. cbn [yp_c HashSpec.item]. rewrite nseq_enc by exact Hl. reflexivity.
Qed.

Lemma max_len_in J k v : In (k, v) J -> (length k <= max_len J)%nat.
Proof.
  intros H. unfold max_len. assert (G : Forall (fun n => (n <= list_max (map (fun e : list N * list N => length (fst e)) J))%nat) (map (fun e : list N * list N => length (fst e)) J)) by (apply list_max_le; lia).
  rewrite Forall_forall in G. apply G. apply in_map_iff. exists (k, v). auto.
Qed.

Lemma root_yp t L J : wf L t -> canon t -> lists J t -> root keccak t = yp_root keccak J.
Proof.
  intros W C R. pose proof (lists_nil t J (or_intror I) (canon_shape _ C) R) as NJ. unfold yp_root, root. destruct t as [|h|ch v|n c|n v].
  - rewrite (proj2 NJ eq_refl). reflexivity.
  - exfalso. destruct R as [_ R]. destruct (proj1 (R [] (HashV h)) eq_refl) as (u & E & _). discriminate.
  - rewrite <- (yp_structure _ L J (S (max_len J)) W C R ltac:(discriminate)); [|intros k u Hin; apply max_len_in in Hin; lia].
    destruct J; [|reflexivity]. exfalso. destruct NJ as [NJ _]. specialize (NJ eq_refl). discriminate.
  - rewrite <- (yp_structure _ L J (S (max_len J)) W C R ltac:(discriminate)); [|intros k u Hin; apply max_len_in in Hin; lia].
    destruct J; [|reflexivity]. exfalso. destruct NJ as [NJ _]. specialize (NJ eq_refl). discriminate.
  - rewrite <- (yp_structure _ L J (S (max_len J)) W C R ltac:(discriminate)); [|intros k u Hin; apply max_len_in in Hin; lia].
    destruct J; [|reflexivity]. exfalso. destruct NJ as [NJ _]. specialize (NJ eq_refl). discriminate.
Qed.
End H.
