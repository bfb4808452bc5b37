(** When a delete in a trie with long keys panics. *)
From Verif Require Import Base Nibbles NibblesSpec NibblesFacts NibblesFacts2 NibblesFacts3 Trie TrieSpec TrieFacts TrieInsert TrieGet TrieDelete TrieUnique TrieObs LongSpec LongFacts.
Open Scope N_scope.

(** The part of the key in a leaf or extension. *)
Definition seg (t : node) : list N := match t with Extension n _ | Leaf n _ => nseq n | _ => [] end.

Lemma occ_none ch : (forall i, nth i ch Empty = Empty) -> occ ch = 0%nat.
Proof.
  unfold occ. induction ch as [|x ch IH]; intros H; [reflexivity|]. cbn [filter]. pose proof (H 0%nat) as H0. cbn [nth] in H0. subst x. apply IH.
  intros i. exact (H (S i)).
Qed.
Lemma occ_only ch d e : length ch = 16%nat -> d < 16 -> e < 16 -> d <> e -> child ch d <> Empty -> child ch e <> Empty ->
  (forall f, f <> d -> f <> e -> child ch f = Empty) -> occ ch = 2%nat.
Proof.
  intros L Hd He D Ed Ee O.
  pose proof (occ_set_empty ch (N.to_nat d) ltac:(lia) Ed) as O1.
  assert (E2 : child (set_child ch (N.to_nat d) Empty) e <> Empty)
    by (rewrite child_set by assumption; destruct (N.eqb_spec e d); congruence).
  pose proof (occ_set_empty (set_child ch (N.to_nat d) Empty) (N.to_nat e) ltac:(rewrite set_child_length; lia) E2) as O2.
  rewrite occ_none in O2; [lia|]. intros i. rewrite <- (Nat2N.id i).
  change (child (set_child (set_child ch (N.to_nat d) Empty) (N.to_nat e) Empty) (N.of_nat i) = Empty).
  rewrite !child_set by (rewrite ?set_child_length; assumption). destruct (N.eqb_spec (N.of_nat i) e); [reflexivity|]. destruct (N.eqb_spec (N.of_nat i) d); [reflexivity|]. auto.
Qed.

Lemma collapse_panics pr p c L : hexl p -> wf L c -> c <> Empty -> (length p + L <= 127)%nat -> (length p <= 64)%nat ->
  (collapse_ext_node_if_needed pr (enc p) c = Panic <-> (64 < length p + length (seg c))%nat).
Proof.
  intros Hp W NE HL Lp. destruct c as [|h|ch w|n c|n w]; try congruence; cbn [collapse_ext_node_if_needed seg].
  - split; [discriminate|cbn; lia].
  - split; [discriminate|cbn; lia].
  - inversion W as [| | |L0 l c0 Hl Wc|]; subst. rewrite nseq_enc by exact Hl. destruct (le_lt_dec (length p + length l) 64) as [H64|H64].
    + rewrite merge_nibbles_enc by (assumption || lia). split; [discriminate|lia].
    + rewrite merge_nibbles_panic by lia. tauto.
  - inversion W as [| | | |L0 l v0 Hl Ll]; subst. rewrite nseq_enc by exact Hl. destruct (le_lt_dec (length p + length l) 64) as [H64|H64].
    + rewrite merge_nibbles_enc by (assumption || lia). split; [discriminate|lia].
    + rewrite merge_nibbles_panic by lia. tauto.
Qed.

(** ** The code at a branch below the nibbles [p] *)
Lemma long_branch pr p ch d k v L :
  length ch = 16%nat -> Forall (wf L) ch -> Forall canon ch -> (2 <= occ ch)%nat -> hexl (p ++ d :: k) -> (length (p ++ d :: k) <= 127)%nat -> (length p + S L <= 127)%nat ->
  lk (child ch d) k = Some (Val v) ->
  (trie_delete pr (ext p (Branch ch [])) (enc (p ++ d :: k)) = Panic <->
   trie_delete pr (child ch d) (enc k) = Panic \/
   (exists n u, child ch d = Leaf n u) /\ exists i, i < 16 /\ i <> d /\ child ch i <> Empty /\ (forall f, f <> d -> f <> i -> child ch f = Empty) /\
     (64 < length p + 1 + length (seg (child ch i)))%nat).
Proof.
  intros L16 Fw Fc O2 Hk Lk HL Ek.
  assert (Hp : hexl p /\ hexl (d :: k)) by (apply hexl_app; exact Hk). destruct Hp as [Hp Hdk].
  assert (Hd : d < 16) by (inversion Hdk; assumption). assert (Hk' : hexl k) by (inversion Hdk; assumption).
  rewrite app_length in Lk. cbn [length] in Lk.
  assert (NEd : child ch d <> Empty) by (intros E; rewrite E in Ek; discriminate).
  pose proof (in_child ch d NEd) as Ind. rewrite Forall_forall in Fw, Fc.
  pose proof (delete_gen True pr (child ch d) L k (Fw _ Ind) (canon_shape _ (Fc _ Ind)) Hk' ltac:(lia) ltac:(lia) ltac:(auto)) as G.
  assert (Ee : eff (child ch d) k = k) by (apply (eff_self_aux _ L _ (Fw _ Ind) (canon_shape _ (Fc _ Ind))); left; unfold stored; congruence).
  assert (X : forall r, delete_intern pr (Branch ch []) (enc (d :: k)) = r ->
    trie_delete pr (ext p (Branch ch [])) (enc (p ++ d :: k)) =
    match p with
    | [] => r <- r ;; match r with None => Ok (ext p (Branch ch []), None) | Some (t', u) => t'' <- try_collapse_if_extension pr t' ;; Ok (t'', Some u) end
    | _ => r <- r ;; match r with None => Ok (ext p (Branch ch []), None)
                     | Some (t', u) => n <- collapse_ext_node_if_needed pr (enc p) t' ;; t'' <- try_collapse_if_extension pr n ;; Ok (t'', Some u) end
    end).
  { intros r <-. destruct p as [|x p]; [reflexivity|]. unfold trie_delete. cbn [ext].
    rewrite delete_ext_long by (assumption || (rewrite app_length; cbn [length] in *; lia)).
    destruct (delete_intern pr (Branch ch []) (enc (d :: k))) as [[[t' u]|]|]; cbn [bind]; try reflexivity.
    destruct (collapse_ext_node_if_needed pr (enc (x :: p)) t'); reflexivity. }
  rewrite delete_branch_cons in X by (assumption || cbn [length]; lia).
  unfold trie_delete at 2.
  destruct (delete_intern pr (child ch d) (enc k)) as [[[c' u]|]|]; cbn [bind] in X.
  - cbn [del_gen] in G. destruct G as (_ & _ & _ & _ & G5 & _). cbn [bind].
    destruct (node_is_empty c') eqn:Ec.
    + assert (c' = Empty) by (destruct c'; try discriminate; reflexivity). subst c'. destruct (proj1 G5 eq_refl) as (n & u' & El & En). cbn [andb] in X. rewrite num_occ in X.
      cbn [try_collapse_if_extension bind].
      destruct (Nat.leb_spec (occ ch) 2) as [O|O].
      * pose proof (get_other_spec ch d L16 Hd) as GO. destruct (get_other_non_empty_child 0 ch (N.to_nat d)) as [[i c]|].
        2: { exfalso. pose proof (occ_set_empty ch (N.to_nat d) ltac:(lia) NEd) as Q. rewrite occ_none in Q; [lia|]. intros j. rewrite <- (Nat2N.id j).
             change (child (set_child ch (N.to_nat d) Empty) (N.of_nat j) = Empty). rewrite child_set by assumption. destruct (N.eqb_spec (N.of_nat j) d); auto. }
        destruct GO as (Hi & Ni & Ei & NEi). rewrite from_nibble_enc in X by exact Hi. cbn [bind] in X. specialize (X _ eq_refl). rewrite X.
        assert (Wc : wf L c) by (rewrite <- Ei; apply Fw, in_child; rewrite Ei; exact NEi).
        assert (Hi1 : hexl [N.of_nat i]) by (constructor; [lia|constructor]).
        assert (P : match p with
                    | [] => t'' <- try_collapse_if_extension pr (Extension (enc [N.of_nat i]) c) ;; Ok (t'', Some u)
                    | _ => n <- collapse_ext_node_if_needed pr (enc p) (Extension (enc [N.of_nat i]) c) ;; t'' <- try_collapse_if_extension pr n ;; Ok (t'', Some u)
                    end = Panic <-> (64 < length p + 1 + length (seg c))%nat).
        { destruct p as [|x p].
          - cbn [try_collapse_if_extension]. rewrite <- (collapse_panics pr [N.of_nat i] c L Hi1 Wc NEi) by (cbn [length] in *; lia).
            destruct (collapse_ext_node_if_needed pr (enc [N.of_nat i]) c); cbn [bind]; split; congruence.
          - cbn [collapse_ext_node_if_needed]. destruct (le_lt_dec (length (x :: p) + 1) 64) as [H64|H64].
            + rewrite merge_nibbles_enc by (assumption || (cbn [length] in *; lia)). cbn [bind try_collapse_if_extension].
              replace (length (x :: p) + 1)%nat with (length ((x :: p) ++ [N.of_nat i])) in * by (rewrite app_length; reflexivity).
              rewrite <- (collapse_panics pr ((x :: p) ++ [N.of_nat i]) c L) by (try apply hexl_app; auto; rewrite app_length in *; cbn [length] in *; lia).
              destruct (collapse_ext_node_if_needed pr (enc ((x :: p) ++ [N.of_nat i])) c); cbn [bind]; split; congruence.
            + rewrite merge_nibbles_panic by (cbn [length] in *; lia). split; [lia|reflexivity]. }
        destruct p as [|x p]; (rewrite P; split;
          [intros Q; right; split; [eauto|]; exists (N.of_nat i); split; [lia|]; split; [congruence|]; rewrite Ei; split; [exact NEi|]; split; [|exact Q];
            assert (Q2 : child ch (N.of_nat i) <> Empty) by congruence; apply (occ_two ch d (N.of_nat i) L16 Hd ltac:(lia) ltac:(congruence) NEd Q2); lia
          |intros [Q|(_ & i' & Hi' & Ni' & NEi' & On & Q)]; [discriminate|];
           assert (i' = N.of_nat i) by (destruct (N.eq_dec (N.of_nat i) i') as [|Ne]; [congruence|]; exfalso; apply NEi; rewrite <- Ei; apply On; congruence); subst i'; rewrite Ei in Q; exact Q]).
      * cbn [try_collapse_if_extension bind] in X. specialize (X _ eq_refl). split.
        -- rewrite X. destruct p; discriminate.
        -- intros [Q|(_ & i & Hi & Ni & NEi & On & _)]; [discriminate|]. rewrite (occ_only ch d i) in O; auto; lia.
    + cbn [andb] in X. specialize (X _ eq_refl). rewrite X.
      assert (NL : forall n u0, child ch d <> Leaf n u0).
      { intros n u0 E. assert (c' = Empty); [|subst; discriminate]. apply G5. exists n, u0. split; [exact E|]. rewrite E in Ek. cbn [lk] in Ek.
        destruct (key_eqb_spec (nseq n) k); congruence. }
      destruct (try_collapse_if_extension pr c') as [c''|]; cbn [bind].
      * split; [destruct p; discriminate|]. intros [Q|((n & u0 & E) & _)]; [discriminate|]. exfalso. exact (NL n u0 E).
      * split; [auto|]. intros _. destruct p; reflexivity.
  - cbn [del_gen] in G. destruct G as (_ & _ & G). congruence.
  - specialize (X _ eq_refl). rewrite X. cbn [bind]. split; [auto|]. intros _. destruct p; reflexivity.
Qed.

(** ** The stored keys *)
Lemma prefix_cmp (c : list N) : forall a b, is_prefix a c -> is_prefix b c -> is_prefix a b \/ is_prefix b a.
Proof.
  induction c as [|x c IH]; intros [|y a] [|z b] [r Er] [s Es]; try (left; apply prefix_nil); try (right; apply prefix_nil); cbn [app] in *; try discriminate.
  injection Er as <- Er. injection Es as <- Es. destruct (IH a b (ex_intro _ r Er) (ex_intro _ s Es)) as [H|H]; [left|right]; apply prefix_cons, H.
Qed.
Lemma stored_ext_branch p ch j : hexl p -> stored (ext p (Branch ch [])) j <-> exists i j', j = p ++ i :: j' /\ stored (child ch i) j'.
Proof.
  intros Hp. unfold stored. rewrite lk_ext by exact Hp. split.
  - destruct (strip p j) as [j1|] eqn:E; [|congruence]. apply strip_some in E. subst j. intros H. destruct j1 as [|i j']; [cbn in H; congruence|].
    rewrite lk_branch in H. eauto.
  - intros (i & j' & -> & H). rewrite strip_app, lk_branch. exact H.
Qed.
Lemma other_child ch x : length ch = 16%nat -> (2 <= occ ch)%nat -> exists e, e < 16 /\ e <> x /\ child ch e <> Empty.
Proof.
  intros L O. destruct (N.lt_ge_cases x 16) as [Hx|Hx].
  - pose proof (get_other_spec ch x L Hx) as G. destruct (get_other_non_empty_child 0 ch (N.to_nat x)) as [[i c]|].
    + destruct G as (Hi & Ni & Ei & NE). exists (N.of_nat i). split; [lia|]. split; [congruence|congruence].
    + exfalso. destruct (node_is_empty (child ch x)) eqn:Ex.
      * rewrite occ_none in O; [lia|]. intros i. rewrite <- (Nat2N.id i). change (child ch (N.of_nat i) = Empty). destruct (N.eq_dec (N.of_nat i) x) as [->|N]; [|auto].
        destruct (child ch x); try discriminate; reflexivity.
      * assert (NE : child ch x <> Empty) by (intros E; rewrite E in Ex; discriminate). pose proof (occ_set_empty ch (N.to_nat x) ltac:(lia) NE) as Q.
        rewrite occ_none in Q; [lia|]. intros i. rewrite <- (Nat2N.id i). change (child (set_child ch (N.to_nat x) Empty) (N.of_nat i) = Empty).
        rewrite child_set by assumption. destruct (N.eqb_spec (N.of_nat i) x); auto.
  - assert (H : exists e, e < 16 /\ child ch e <> Empty).
    { pose proof (get_other_spec ch 0 L ltac:(lia)) as G. destruct (get_other_non_empty_child 0 ch (N.to_nat 0)) as [[i c]|].
      - destruct G as (Hi & Ni & Ei & NE). exists (N.of_nat i). split; [lia|congruence].
      - exists 0. split; [lia|]. intros E. rewrite occ_none in O; [lia|]. intros i. rewrite <- (Nat2N.id i). change (child ch (N.of_nat i) = Empty).
        destruct (N.eq_dec (N.of_nat i) 0) as [->|N]; auto. }
    destruct H as (e & He & NE). exists e. split; [exact He|]. split; [lia|exact NE].
Qed.
Lemma branch_fork ch w L x : wf (S L) (Branch ch w) -> canon (Branch ch w) -> exists j, stored (Branch ch w) j /\ ~ is_prefix [x] j.
Proof.
  intros W C. inversion W as [| |? ? ? L16 F| |]; subst. inversion C as [| |? ? Fc O| |]; subst. rewrite occupied_occ in O. destruct w as [|b w].
  - destruct (other_child ch x L16) as (e & He & Ne & NE); [lia|]. rewrite Forall_forall in Fc. destruct (shape_stored _ (canon_shape _ (Fc _ (in_child ch e NE))) NE) as (j & Hj).
    exists (e :: j). split; [apply stored_branch; exact Hj|]. intros [r Er]. cbn in Er. congruence.
  - exists []. split; [unfold stored; cbn; congruence|]. intros [r Er]. discriminate.
Qed.
Lemma seg_prefix t L j : wf L t -> stored t j -> is_prefix (seg t) j.
Proof.
  intros W H. destruct t as [|h|ch v|n c|n v]; cbn [seg]; try apply prefix_nil.
  - inversion W as [| | |L0 l c0 Hl Wc|]; subst. apply stored_ext_inv in H as (k' & -> & _); [|exact Hl]. rewrite nseq_enc by exact Hl. exists k'. reflexivity.
  - unfold stored in H. cbn [lk] in H. destruct (key_eqb_spec (nseq n) j) as [<-|]; [apply prefix_refl|congruence].
Qed.
Lemma seg_max t L q : wf L t -> canon t -> t <> Empty -> (forall j, stored t j -> is_prefix q j) -> (length q <= length (seg t))%nat.
Proof.
  intros W C NE H. assert (B : forall ch w L q, wf L (Branch ch w) -> canon (Branch ch w) -> (forall j, stored (Branch ch w) j -> is_prefix q j) -> q = []).
  { clear. intros ch w L q W C H. inversion W as [| |L0 ? ? L16 F| |]; subst. destruct q as [|x q]; [reflexivity|]. exfalso.
    destruct (branch_fork ch w L0 x W C) as (j & Hj & Nj). apply Nj. destruct (H j Hj) as [r ->]. exists (q ++ r). reflexivity. }
  destruct t as [|h|ch v|n c|n v]; [congruence|..]; cbn [seg].
  - destruct (H []) as [r Er]; [unfold stored; cbn; congruence|]. destruct q; [cbn; lia|discriminate].
  - rewrite (B ch v L q W C H). cbn. lia.
  - inversion W as [| | |L0 l c0 Hl Wc|]; subst. rewrite nseq_enc by exact Hl. inversion C as [| | |? ? _ Bh Cc|]; subst. destruct (le_lt_dec (length q) (length l)) as [|G]; [assumption|]. exfalso.
    assert (NEc : c <> Empty) by (destruct c; cbn in Bh; congruence). destruct (shape_stored c (canon_shape _ Cc) NEc) as (j0 & H0).
    assert (P : is_prefix l q).
    { destruct (prefix_cmp (l ++ j0) l q) as [Q|Q]; [exists j0; reflexivity|apply H, stored_ext; assumption|exact Q|]. apply is_prefix_len in Q. lia. }
    destruct P as [q' ->]. assert (Q : forall j, stored c j -> is_prefix q' j) by (intros j Hj; apply (prefix_app l), H, stored_ext; assumption).
    rewrite app_length in G. destruct c as [|h|ch w|n' c'|n' v']; cbn in Bh; try contradiction.
    + destruct (Q []) as [r Er]; [unfold stored; cbn; congruence|]. destruct q'; [cbn in G; lia|discriminate].
    + rewrite (B ch w L0 q' Wc Cc Q) in G. cbn in G. lia.
  - apply is_prefix_len, H. unfold stored. cbn [lk]. rewrite key_eqb_refl. congruence.
Qed.
Lemma single_leaf t L k v : wf L t -> canon t -> lk t k = Some (Val v) -> (forall j, stored t j -> j = k) -> exists n u, t = Leaf n u.
Proof.
  intros W C E H. assert (B : forall ch w L k, wf L (Branch ch w) -> canon (Branch ch w) -> (forall j, stored (Branch ch w) j -> j = k) -> False).
  { clear. intros ch w L k W C H. inversion W as [| |L0 ? ? L16 F| |]; subst. inversion C as [| |? ? Fc O| |]; subst. rewrite occupied_occ in O. rewrite Forall_forall in Fc.
    assert (G : forall e, child ch e <> Empty -> exists j, k = e :: j).
    { intros e NE. destruct (shape_stored _ (canon_shape _ (Fc _ (in_child ch e NE))) NE) as (j & Hj). exists j. symmetry. apply H. apply stored_branch. exact Hj. }
    destruct w as [|b w].
    - destruct (other_child ch 16 L16) as (e & He & _ & NE); [lia|]. destruct (other_child ch e L16) as (f & Hf & Nf & NEf); [lia|].
      destruct (G e NE) as [j ->], (G f NEf) as [j' Q]. congruence.
    - assert (K0 : [] = k) by (apply H; unfold stored; cbn; congruence). subst k. assert (O1 : exists e, child ch e <> Empty).
      { destruct (occ ch) eqn:Eo; [lia|]. pose proof (get_other_spec ch 0 L16 ltac:(lia)) as Go. destruct (get_other_non_empty_child 0 ch (N.to_nat 0)) as [[i c]|].
        - destruct Go as (Hi & Ni & Ei & NE). exists (N.of_nat i). congruence.
        - exists 0. intros E0. rewrite occ_none in Eo; [lia|]. intros i. rewrite <- (Nat2N.id i). change (child ch (N.of_nat i) = Empty).
          destruct (N.eq_dec (N.of_nat i) 0) as [->|N]; auto. }
      destruct O1 as (e & NE). destruct (G e NE) as [j Q]. discriminate. }
  destruct t as [|h|ch w|n c|n w]; [discriminate|..|eauto]; exfalso.
  - cbn [lk] in E. destruct k; discriminate.
  - exact (B ch w L k W C H).
  - inversion W as [| | |L0 l c0 Hl Wc|]; subst. inversion C as [| | |? ? _ Bh Cc|]; subst. rewrite lk_ext_nseq in E by exact Hl. destruct (strip l k) as [k'|] eqn:S; [|discriminate]. apply strip_some in S. subst k.
    destruct c as [|h|ch w|n' c'|n' v']; cbn in Bh; try contradiction.
    + cbn [lk] in E. destruct k'; discriminate.
    + apply (B ch w L0 k' Wc Cc). intros j Hj. apply (app_inv_head l), H, stored_ext; assumption.
Qed.

(** ** The gap at a branch below the nibbles [p] *)
Lemma gap_branch p ch d k v L :
  length ch = 16%nat -> Forall (wf L) ch -> Forall canon ch -> (2 <= occ ch)%nat -> hexl (p ++ d :: k) -> lk (child ch d) k = Some (Val v) ->
  (long_gap (ext p (Branch ch [])) (p ++ d :: k) <->
   long_gap (child ch d) k \/
   (exists n u, child ch d = Leaf n u) /\ exists i, i < 16 /\ i <> d /\ child ch i <> Empty /\ (forall f, f <> d -> f <> i -> child ch f = Empty) /\
     (64 < length p + 1 + length (seg (child ch i)))%nat).
Proof.
  intros L16 Fw Fc O2 Hk Ek. assert (Hp : hexl p /\ hexl (d :: k)) by (apply hexl_app; exact Hk). destruct Hp as [Hp Hdk].
  rewrite Forall_forall in Fw, Fc.
  assert (St : forall e, child ch e <> Empty -> exists j, stored (child ch e) j) by (intros e NE; apply shape_stored; [apply canon_shape, Fc, in_child, NE|exact NE]).
  split.
  - intros (p0 & q & P1 & P2 & P3 & P4 & P5 & (j1 & P6 & P6') & P7).
    assert (Q : is_prefix p0 p \/ exists y r, p0 = p ++ y :: r).
    { destruct (prefix_cmp _ p0 p P1) as [Q|[r Q]]; [exists (d :: k); reflexivity|left; exact Q|]. destruct r as [|y r]; [left; exists []; rewrite Q, !app_nil_r; reflexivity|eauto]. }
    destruct Q as [Q|Q]; [right|].
    + assert (A : forall i j, stored (child ch i) j -> p ++ i :: j <> p ++ d :: k -> is_prefix q (p ++ i :: j)).
      { intros i j Hj Nj. apply P7; [apply stored_ext_branch; eauto|exact Nj|]. destruct Q as [r ->]. exists (r ++ i :: j). rewrite <- app_assoc. reflexivity. }
      destruct (other_child ch d L16 O2) as (i & Hi & Ni & NEi). destruct (St i NEi) as (j0 & H0).
      assert (A0 : is_prefix q (p ++ i :: j0)) by (apply A; [exact H0|]; intros E; apply app_inv_head in E; congruence).
      assert (Eq : exists q', q = p ++ i :: q').
      { destruct (prefix_cmp _ q p A0) as [X|[r X]]; [exists (i :: j0); reflexivity| |].
        - exfalso. apply P3. destruct X as [r ->]. exists (r ++ d :: k). rewrite <- app_assoc. reflexivity.
        - subst q. apply (proj1 (prefix_app p _ _)) in A0. destruct r as [|y r]; [exfalso; apply P3; exists (d :: k); rewrite app_nil_r; reflexivity|].
          apply prefix_cons_inv in A0 as (b & Eb & _). injection Eb as <- _. eauto. }
      destruct Eq as [q' ->].
      assert (A' : forall e j, stored (child ch e) j -> p ++ e :: j <> p ++ d :: k -> e = i /\ is_prefix q' j).
      { intros e j Hj Nj. specialize (A e j Hj Nj). apply (proj1 (prefix_app p _ _)) in A. apply prefix_cons_inv in A as (b & Eb & Pb). injection Eb as -> ->. auto. }
      assert (NEd : child ch d <> Empty) by (intros E; rewrite E in Ek; discriminate). split.
      * apply (single_leaf (child ch d) L k v); [apply Fw, in_child, NEd|apply Fc, in_child, NEd|exact Ek|].
        intros j Hj. destruct (key_eqb_spec j k) as [E|N]; [exact E|]. exfalso. apply Ni. symmetry. apply (A' d j Hj). intros E. apply app_inv_head in E. congruence.
      * exists i. split; [exact Hi|]. split; [exact Ni|]. split; [exact NEi|]. split.
        -- intros f F1 F2. destruct (node_is_empty (child ch f)) eqn:Ef; [destruct (child ch f); try discriminate; reflexivity|]. exfalso. apply F2.
           destruct (St f) as (j & Hj); [intros E; rewrite E in Ef; discriminate|]. apply (A' f j Hj). intros E. apply app_inv_head in E. congruence.
        -- pose proof (seg_max (child ch i) L q' (Fw _ (in_child ch i NEi)) (Fc _ (in_child ch i NEi)) NEi) as M. rewrite app_length in P5. cbn [length] in P5.
           enough (length q' <= length (seg (child ch i)))%nat by lia. apply M. intros j Hj. apply (A' i j Hj). intros E. apply app_inv_head in E. congruence.
    + destruct Q as (y & r & ->).
      left. apply (proj1 (prefix_app p _ _)) in P1. apply prefix_cons_inv in P1 as (b & Eb & P1). injection Eb as <- <-. destruct P2 as [q1 ->]. rewrite <- app_assoc in *. cbn [app] in *.
        exists r, (r ++ q1). split; [exact P1|]. split; [exists q1; reflexivity|].
        split; [intros X; apply P3, prefix_app, prefix_cons, X|]. split; [intros X; apply P4, prefix_app, prefix_cons, X|].
        rewrite !app_length in *. cbn [length] in P5. rewrite app_length in P5. split; [lia|]. split.
        -- apply stored_ext_branch in P6 as (e & j' & -> & Hj); [|exact Hp]. apply (proj1 (prefix_app p _ _)) in P6'. apply prefix_cons_inv in P6' as (b & Eb & Pb). injection Eb as -> ->. eauto.
        -- intros j Hj Nj Pj. apply (prefix_cons d), (prefix_app p). apply P7; [apply stored_ext_branch; eauto| |apply prefix_app, prefix_cons, Pj].
           intros E. apply app_inv_head in E. congruence.
  - intros [(p0 & q & P1 & P2 & P3 & P4 & P5 & (j1 & P6 & P6') & P7)|((n & u & El) & i & Hi & Ni & NEi & On & G)].
    + exists (p ++ d :: p0), (p ++ d :: q). repeat match goal with |- _ /\ _ => split end.
      * apply prefix_app, prefix_cons, P1.
      * apply prefix_app, prefix_cons, P2.
      * intros X. apply P3, (prefix_cons d), (prefix_app p), X.
      * intros X. apply P4, (prefix_cons d), (prefix_app p), X.
      * rewrite !app_length. cbn [length]. lia.
      * exists (p ++ d :: j1). split; [apply stored_ext_branch; eauto|apply prefix_app, prefix_cons, P6'].
      * intros j Hj Nj Pj. apply stored_ext_branch in Hj as (e & j' & -> & Hj); [|exact Hp]. apply (proj1 (prefix_app p _ _)) in Pj. apply prefix_cons_inv in Pj as (b & Eb & Pb). injection Eb as -> ->.
        apply prefix_app, prefix_cons, P7; [exact Hj|congruence|exact Pb].
    + exists [], (p ++ i :: seg (child ch i)). repeat match goal with |- _ /\ _ => split end.
      * apply prefix_nil.
      * apply prefix_nil.
      * intros X. apply (proj1 (prefix_app p _ _)) in X. apply prefix_cons_inv in X as (b & Eb & _). congruence.
      * intros X. apply (proj1 (prefix_app p _ _)) in X. apply prefix_cons_inv in X as (b & Eb & _). congruence.
      * rewrite app_length. cbn [length]. lia.
      * destruct (St i NEi) as (j & Hj). exists (p ++ i :: j). split; [apply stored_ext_branch; eauto|]. apply prefix_app, prefix_cons, (seg_prefix _ L); [apply Fw, in_child, NEi|exact Hj].
      * intros j Hj Nj _. apply stored_ext_branch in Hj as (e & j' & -> & Hj); [|exact Hp].
        destruct (N.eq_dec e d) as [->|Ne].
        -- exfalso. apply Nj. do 2 f_equal. unfold stored in Hj. rewrite El in Ek, Hj. cbn [lk] in Ek, Hj. destruct (key_eqb_spec (nseq n) k), (key_eqb_spec (nseq n) j'); congruence.
        -- destruct (N.eq_dec e i) as [->|Ne']; [|rewrite (On e Ne Ne') in Hj; exfalso; apply Hj; reflexivity].
           apply prefix_app, prefix_cons, (seg_prefix _ L); [apply Fw, in_child, NEi|exact Hj].
Qed.

(** ** The theorem *)
Lemma gap_above t k : (forall j, stored t j -> is_prefix k j) -> ~ long_gap t k.
Proof.
  intros H (p & q & _ & _ & P3 & P4 & _ & (j & P6 & P6') & _). destruct (prefix_cmp j k q (H j P6) P6') as [Q|Q]; contradiction.
Qed.
Definition panics_iff (pr : profile) (t : node) : Prop := forall L k v,
  wf L t -> canon t -> (L <= 127)%nat -> hexl k -> (length k <= 127)%nat -> lk t k = Some (Val v) -> (forall p, stored t p -> ~ strict_prefix p k) ->
  (trie_delete pr t (enc k) = Panic <-> long_gap t k).
Lemma panics_base pr p ch w : Forall (panics_iff pr) ch -> forall L k v,
  hexl p -> wf L (Branch ch w) -> canon (Branch ch w) -> (length p + L <= 127)%nat -> hexl (p ++ k) -> (length (p ++ k) <= 127)%nat -> lk (Branch ch w) k = Some (Val v) ->
  (forall q, stored (Branch ch w) q -> ~ strict_prefix q k) ->
  (trie_delete pr (ext p (Branch ch w)) (enc (p ++ k)) = Panic <-> long_gap (ext p (Branch ch w)) (p ++ k)).
Proof.
  intros IH L k v Hp W C HL Hk Lk E NP. inversion W as [| |L0 ? ? L16 F| |]; subst. inversion C as [| |? ? Fc O| |]; subst. rewrite occupied_occ in O. destruct k as [|d k].
  - split.
    + destruct p as [|x p]; [discriminate|]. cbn [ext]. unfold trie_delete. rewrite delete_ext_long by assumption. rewrite delete_branch_nil. discriminate.
    + intros G. exfalso. revert G. apply gap_above. intros j Hj. rewrite app_nil_r. unfold stored in Hj. rewrite lk_ext in Hj by exact Hp.
      destruct (strip p j) as [j'|] eqn:S; [|congruence]. apply strip_some in S. exists j'. exact S.
  - assert (w = []). { destruct w as [|b w]; [reflexivity|]. exfalso. apply (NP []); [unfold stored; cbn; congruence|]. exists d, k. reflexivity. }
    subst w. rewrite lk_branch in E. rewrite (long_branch pr p ch d k v L0) by (assumption || lia). rewrite (gap_branch p ch d k v L0) by (assumption || lia).
    assert (NE : child ch d <> Empty) by (intros Q; rewrite Q in E; discriminate). pose proof (in_child ch d NE) as Ind. rewrite Forall_forall in IH, F, Fc.
    apply hexl_app in Hk as [_ Hk]. rewrite app_length in Lk. cbn [length] in Lk.
    rewrite (IH _ Ind L0 k v); [reflexivity|auto|auto|lia|inversion Hk; assumption|lia|exact E|].
    intros q Hq (x & c & ->). apply (NP (d :: q)); [apply stored_branch; exact Hq|]. exists x, c. reflexivity.
Qed.
Lemma delete_panics pr t : panics_iff pr t.
Proof.
  enough (H : panics_iff pr t /\ match t with Branch ch _ => Forall (panics_iff pr) ch | _ => True end) by apply H.
  induction t as [|h|ch w IH|n c IH|n w] using node_ind'.
  - split; [|exact I]. intros L k v _ _ _ _ _ E. discriminate.
  - split; [|exact I]. intros L k v _ _ _ _ _ E. cbn [lk] in E. destruct k; discriminate.
  - assert (F : Forall (panics_iff pr) ch) by (eapply Forall_impl; [|exact IH]; intros c [H _]; exact H). split; [|exact F].
    intros L k v W C HL Hk Lk E NP. apply (panics_base pr [] ch w F L k v); try assumption. constructor.
  - split; [|exact I]. destruct IH as [_ IH]. intros L k v W C HL Hk Lk E NP. inversion W as [| | |L0 l c0 Hl Wc|]; subst. inversion C as [| | |? ? Nn Bh Cc|]; subst.
    rewrite nseq_enc in Nn by exact Hl. pose proof E as E'. rewrite lk_ext_nseq in E by exact Hl. destruct (strip l k) as [k'|] eqn:S; [|discriminate]. apply strip_some in S. subst k.
    destruct c as [|h|ch w|n' c'|n' v']; cbn in Bh; try contradiction; [cbn [lk] in E; destruct k'; discriminate|].
    assert (X : Extension (enc l) (Branch ch w) = ext l (Branch ch w)) by (destruct l; [congruence|reflexivity]). rewrite X.
    apply (panics_base pr l ch w IH L0 k' v); try assumption. intros q Hq Pq. apply (NP (l ++ q)); [apply stored_ext; assumption|apply strict_prefix_app, Pq].
  - split; [|exact I]. intros L k v W C HL Hk Lk E NP. inversion W as [| | | |L0 l v0 Hl Ll]; subst. split.
    + unfold trie_delete. rewrite delete_leaf by assumption. destruct (key_eqb l k); discriminate.
    + intros G. exfalso. revert G. apply gap_above. intros j Hj. rewrite lk_leaf_nseq in E by exact Hl. unfold stored in Hj. rewrite lk_leaf_nseq in Hj by exact Hl.
      destruct (key_eqb_spec l k), (key_eqb_spec l j); try congruence. subst. apply prefix_refl.
Qed.
