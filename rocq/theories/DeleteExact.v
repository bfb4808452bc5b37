(** Deleting a stored key that is not [deletable]: exactly what happens. *)
From Verif Require Import Base Nibbles NibblesSpec NibblesFacts NibblesFacts2 NibblesFacts3 Trie TrieSpec TrieFacts TrieInsert TrieGet TrieDelete TrieUnique TrieIter TrieHistSpec TrieHist TrieObs AbsentFacts.
Open Scope N_scope.

(** What goes wrong at the stored strict prefix [p] of [k = p ++ d :: s]. *)
Definition del_bad (t : node) (k p : list N) (d : N) (v : list N) (r : res (option (node * list N))) : Prop :=
  stored t p /\ (forall r, stored t (p ++ d :: r) -> p ++ d :: r = k) /\
  ((forall e r, stored t (p ++ e :: r) -> e = d) /\ r = Panic \/
   (exists e, e <> d /\ (exists r, stored t (p ++ e :: r)) /\ (forall x r, stored t (p ++ x :: r) -> x = d \/ x = e)) /\
   exists t', r = Ok (Some (t', v)) /\ forall j, lk t' j = if key_eqb k j || key_eqb p j then None else lk t j).

Lemma key_eqb_cons d k e j : key_eqb (d :: k) (e :: j) = (d =? e) && key_eqb k j.
Proof.
  destruct (key_eqb_spec (d :: k) (e :: j)) as [E|N]; destruct (N.eqb_spec d e), (key_eqb_spec k j); cbn [andb]; congruence.
Qed.

Lemma key_eqb_app p k j : key_eqb (p ++ k) (p ++ j) = key_eqb k j.
Proof.
  destruct (key_eqb_spec (p ++ k) (p ++ j)) as [E|N], (key_eqb_spec k j) as [E'|N']; try congruence. apply app_inv_head in E. congruence.
Qed.

Lemma is_prefix_dec (p j : list N) : {is_prefix p j} + {~ is_prefix p j}.
Proof.
  revert j. induction p as [|x p IH]; intros j; [left; exists j; reflexivity|].
  destruct j as [|y j]; [right; intros [r Er]; discriminate|].
  destruct (N.eq_dec x y) as [->|N]; [|right; intros [r Er]; cbn in Er; congruence].
  destruct (IH j) as [H|H]; [left; destruct H as [r ->]; exists r; reflexivity|right; intros [r Er]; apply H; exists r; cbn in Er; congruence].
Defined.

Lemma del_unsafe pr t : forall L k v, wf L t -> (L <= 64)%nat -> canon t -> lk t k = Some (Val v) -> ~ safe_delete t k ->
  exists p d s, k = p ++ d :: s /\ del_bad t k p d v (delete_intern pr t (enc k)).
Proof.
  induction t as [|h|ch w IH|n c IH|n w] using node_ind'; intros L k v W HL C E NS; try (exfalso; apply NS; exact Logic.I).
  - inversion W as [| |L0 ? ? Hl F| |]; subst. inversion C as [| |? ? FC O| |]; subst.
    destruct k as [|d k]; [exfalso; apply NS; exact Logic.I|].
    assert (Hdk : hexl (d :: k) /\ (length (d :: k) <= S L0)%nat) by (destruct (stored_wf _ _ (d :: k) W ltac:(unfold stored; congruence)); auto).
    destruct Hdk as [Hdk Ldk]. cbn [length] in Ldk.
    assert (Hd : d < 16) by (inversion Hdk; assumption). assert (Hk : hexl k) by (inversion Hdk; assumption).
    rewrite lk_branch in E. rewrite safe_branch in NS.
    rewrite delete_branch_cons by (auto; cbn [length]; lia).
    assert (Wc : wf L0 (child ch d)) by (apply Forall_child; [constructor|exact F]).
    assert (Cc : canon (child ch d)) by (apply Forall_child; [constructor|exact FC]).
    pose proof (delete_spec pr (child ch d) L0 k Wc (canon_shape _ Cc) Hk ltac:(lia) ltac:(lia)) as G.
    assert (Rec : ~ safe_delete (child ch d) k -> exists p e s, k = p ++ e :: s /\ del_bad (child ch d) k p e v (delete_intern pr (child ch d) (enc k))).
    { intros Q. destruct (child_in ch d) as [E0|I0]; [rewrite E0 in E; discriminate|].
      rewrite Forall_forall in IH. apply (IH _ I0 L0 k v); auto; lia. }
    match goal with |- exists p d0 s, _ /\ del_bad _ _ _ _ _ ?R => set (res := R) end.
    assert (Down : ~ safe_delete (child ch d) k -> exists p e s, d :: k = p ++ e :: s /\ del_bad (Branch ch w) (d :: k) p e v res).
    { intros Q. destruct (Rec Q) as (p & e & s & Ek & S1 & S2 & S3). exists (d :: p), e, s.
      split; [rewrite Ek; reflexivity|]. split; [apply stored_branch; exact S1|].
      split; [intros r Sr; cbn [app] in Sr |- *; apply stored_branch in Sr; f_equal; apply S2; exact Sr|].
      destruct S3 as [[S3 P]|[(f & Nf & (r0 & Sf) & Of) (t' & R & K)]].
      - left. split; [intros x r Sr; cbn [app] in Sr; apply stored_branch in Sr; eapply S3, Sr|]. unfold res. rewrite P. reflexivity.
      - right. split.
        + exists f. split; [exact Nf|]. split; [exists r0; cbn [app]; apply stored_branch, Sf|].
          intros x r Sr. cbn [app] in Sr. apply stored_branch in Sr. eapply Of, Sr.
        + unfold res. rewrite R in *. cbn [bind]. cbn [del_post] in G. destruct G as (_ & _ & G3 & G4 & G5 & _).
          assert (NE : t' <> Empty).
          { intros A. apply G5 in A. destruct A as (n & u' & A & _). apply Q. rewrite A. exact Logic.I. }
          destruct (try_collapse_spec pr t' L0 G3 ltac:(lia) G4) as (c'' & Ec & _ & Kc & _).
          assert (Ne : node_is_empty t' = false) by (destruct t'; (reflexivity || congruence)). rewrite Ne, Ec. cbn [andb bind].
          exists (Branch (set_child ch (N.to_nat d) c'') w). split; [reflexivity|].
          intros [|x j]; [reflexivity|]. rewrite !lk_branch, child_set, !key_eqb_cons by assumption.
          rewrite (N.eqb_sym x d). destruct (d =? x) eqn:Ed; cbn [andb orb]; [|reflexivity].
          apply N.eqb_eq in Ed. subst x. rewrite Kc. apply K. }
    destruct (child ch d) as [| | | |n u] eqn:Ec; try (apply Down; exact NS).
    clear Down Rec. assert (En : nseq n = k).
    { cbn [lk] in E. destruct (key_eqb_spec (nseq n) k); congruence. }
    assert (u = v) by (cbn [lk] in E; destruct (key_eqb (nseq n) k); congruence). subst u.
    inversion Wc as [| | | |L1 p u' Hp Lp]; subst n. rewrite nseq_enc in En by exact Hp. subst p.
    unfold res; clear res. rewrite delete_leaf, key_eqb_refl by assumption. cbn [bind node_is_empty andb]. rewrite num_occ.
    destruct (le_lt_dec 3 (occ ch)) as [O3|O3]; [exfalso; apply NS; intros _; left; exact O3|].
    destruct (Nat.leb_spec (occ ch) 2) as [_|]; [|lia].
    exists [], d, k. split; [reflexivity|].
    assert (Hw : w <> []).
    { intros ->. apply NS. intros _. right. split; [|reflexivity]. rewrite occupied_occ in O. cbn [length] in O. lia. }
    split; [unfold stored; cbn [lk]; destruct w; congruence|].
    split.
    { intros r Sr. cbn [app] in *. apply stored_branch in Sr. rewrite Ec in Sr. unfold stored in Sr. cbn [lk] in Sr.
      rewrite nseq_enc in Sr by exact Hp. destruct (key_eqb_spec k r); congruence. }
    pose proof (get_other_spec ch d Hl Hd) as Ot.
    destruct (get_other_non_empty_child 0 ch (N.to_nat d)) as [[i c]|].
    + right. destruct Ot as (Hi & Hne & Ei & NEi). rewrite from_nibble_enc by exact Hi. cbn [bind].
      assert (Hi16 : N.of_nat i < 16) by lia.
      assert (Hi1 : hexl [N.of_nat i]) by (constructor; [exact Hi16|constructor]).
      destruct (occ_two ch d (N.of_nat i) Hl Hd Hi16 ltac:(congruence) ltac:(rewrite Ec; congruence) ltac:(congruence)) as [O2 Oo].
      specialize (Oo ltac:(lia)). split.
      * exists (N.of_nat i). split; [exact Hne|]. split.
        -- destruct (shape_stored (child ch (N.of_nat i))) as (r & Sr); [apply canon_shape, Forall_child; [constructor|exact FC]|congruence|].
           exists r. apply stored_branch, Sr.
        -- intros x r Sr. cbn [app] in Sr. apply stored_branch in Sr.
           destruct (N.eq_dec x d) as [|N1]; [left; assumption|]. destruct (N.eq_dec x (N.of_nat i)) as [|N2]; [right; assumption|].
           rewrite (Oo x N1 N2) in Sr. destruct (not_stored_empty _ Sr).
      * eexists. split; [reflexivity|]. intros [|x j].
        -- rewrite lk_ext_nseq by exact Hi1. cbn [key_eqb orb]. destruct (key_eqb_spec (d :: k) []); [discriminate|]. reflexivity.
        -- rewrite key_eqb_cons, lk_branch. destruct (key_eqb_spec [] (x :: j)) as [|_]; [discriminate|]. rewrite Bool.orb_false_r.
           destruct (N.eqb_spec x (N.of_nat i)) as [->|N1].
           ++ change (N.of_nat i :: j) with ([N.of_nat i] ++ j). rewrite lk_in_ext by exact Hi1.
              destruct (N.eqb_spec d (N.of_nat i)); [congruence|]. cbn [andb]. congruence.
           ++ assert (lk (Extension (enc [N.of_nat i]) c) (x :: j) = None) as ->.
              { destruct (lk (Extension (enc [N.of_nat i]) c) (x :: j)) eqn:El; [|reflexivity].
                destruct (stored_ext_inv _ _ _ Hi1 ltac:(unfold stored; rewrite El; discriminate)) as (k1 & Q & _). cbn in Q. congruence. }
              destruct (N.eqb_spec d x) as [->|N2]; cbn [andb].
              ** rewrite Ec. cbn [lk]. rewrite nseq_enc by exact Hp. destruct (key_eqb k j); reflexivity.
              ** rewrite (Oo x) by congruence. reflexivity.
    + left. split; [|reflexivity]. intros e r Sr. cbn [app] in Sr. apply stored_branch in Sr.
      destruct (N.eq_dec e d) as [|N1]; [assumption|]. rewrite (Ot e N1) in Sr. destruct (not_stored_empty _ Sr).
  - inversion W as [| | |L0 p c0 Hp Wc|]; subst. inversion C as [| | |? ? Hn B Cc|]; subst.
    destruct (stored_ext_inv p c k Hp ltac:(unfold stored; congruence)) as (k' & -> & Sk).
    assert (Hdk : hexl (p ++ k') /\ (length (p ++ k') <= length p + L0)%nat)
      by (destruct (stored_wf _ _ (p ++ k') W ltac:(unfold stored; congruence)); auto).
    destruct Hdk as [Hpk Lpk]. rewrite lk_in_ext in E by exact Hp.
    cbn [safe_delete] in NS. rewrite nseq_enc, strip_app in NS by exact Hp.
    rewrite delete_ext_long by (auto; lia).
    pose proof (proj1 (hexl_app p k') Hpk) as [_ Hk']. rewrite app_length in Lpk.
    pose proof (delete_spec pr c L0 k' Wc (canon_shape _ Cc) Hk' ltac:(lia) ltac:(lia)) as G.
    destruct (IH L0 k' v Wc ltac:(lia) Cc E NS) as (q & d & s & Ek & S1 & S2 & S3).
    exists (p ++ q), d, s. split; [rewrite Ek; apply app_assoc|].
    split; [apply stored_in_ext; assumption|].
    split; [intros r Sr; rewrite <- app_assoc, stored_in_ext in Sr by exact Hp; rewrite <- app_assoc; f_equal; apply S2, Sr|].
    destruct S3 as [[S3 P]|[(f & Nf & (r0 & Sf) & Of) (t' & R & K)]].
    + left. split; [intros x r Sr; rewrite <- app_assoc, stored_in_ext in Sr by exact Hp; eapply S3, Sr|]. rewrite P. reflexivity.
    + right. split.
      * exists f. split; [exact Nf|]. split; [exists r0; rewrite <- app_assoc; apply stored_in_ext; assumption|].
        intros x r Sr. rewrite <- app_assoc, stored_in_ext in Sr by exact Hp. eapply Of, Sr.
      * rewrite R in *. cbn [bind]. cbn [del_post] in G. destruct G as (_ & _ & G3 & G4 & G5 & _).
        assert (NE : t' <> Empty) by (intros A; apply G5 in A; destruct A as (n & u' & -> & _); contradiction).
        destruct (collapse_ext_spec pr p t' L0 Hp G3 NE HL) as (t1 & -> & _ & _ & K1 & _). cbn [bind].
        exists t1. split; [reflexivity|]. intros j. rewrite K1.
        destruct (is_prefix_dec p j) as [[j' ->]|NP].
        -- rewrite !lk_in_ext, !key_eqb_app by exact Hp. apply K.
        -- assert (Z : forall c, lk (Extension (enc p) c) j = None).
           { intros c1. destruct (lk (Extension (enc p) c1) j) eqn:El; [|reflexivity]. exfalso.
             destruct (stored_ext_inv _ _ _ Hp ltac:(unfold stored; rewrite El; discriminate)) as (k1 & -> & _). apply NP. exists k1. reflexivity. }
           rewrite !Z. destruct (_ || _); reflexivity.
Qed.

(** A deletion in a canonical trie that returns the empty value changes nothing; stored keys diverge where it happens. *)
Lemma two_lift_branch ch w d k : two (child ch d) k -> two (Branch ch w) (d :: k).
Proof. intros (x & y & r & s & D & A & B); exists x, y, r, s; cbn [app] in *; rewrite !stored_branch in *; auto. Qed.

Lemma two_lift_ext p c k : hexl p -> two c k -> two (Extension (enc p) c) (p ++ k).
Proof. intros Hp (x & y & r & s & D & A & B); exists x, y, r, s; rewrite <- !app_assoc in *; rewrite !stored_in_ext in * by assumption; auto. Qed.

Lemma del_empty_same pr t : forall L k t', wf L t -> (L <= 64)%nat -> canon t -> hexl k -> (length k <= 127)%nat ->
  delete_intern pr t (enc k) = Ok (Some (t', [])) -> t' = t /\ two t (eff t k).
Proof.
  induction t as [|h|ch w IH|n c IH|n w] using node_ind'; intros L k t' W HL C Hk Lk E.
  - discriminate.
  - discriminate.
  - inversion W as [| |L0 ? ? Hl F| |]; subst. inversion C as [| |? ? FC O| |]; subst.
    assert (FS : Forall shape ch) by (eapply Forall_impl; [|exact FC]; intros; apply canon_shape; assumption).
    destruct k as [|d k].
    + rewrite delete_branch_nil in E. assert (w = []) by congruence. subst w. split; [congruence|].
      rewrite occupied_occ in O. destruct (occ_two_ex ch Hl ltac:(lia)) as (d & e & _ & _ & D & NEd & NEe).
      assert (St : forall d, child ch d <> Empty -> exists r, stored (Branch ch []) (d :: r)).
      { intros x NE. destruct (shape_stored (child ch x)) as (r & Sr); [apply Forall_child; [constructor|exact FS]|exact NE|].
        exists r. apply stored_branch. exact Sr. }
      destruct (St d NEd) as (r & Sr). destruct (St e NEe) as (s & Ss). exists d, e, r, s. auto.
    + cbn [length] in Lk. rewrite delete_branch_cons in E by (auto; cbn [length]; lia).
      assert (exists c', delete_intern pr (child ch d) (enc k) = Ok (Some (c', []))) as (c' & E').
      { destruct (delete_intern pr (child ch d) (enc k)) as [[[c' u]|]|]; cbn [bind] in E; try discriminate.
        exists c'. do 4 f_equal. destruct (_ && _).
        - destruct (get_other_non_empty_child _ _ _) as [[i c]|]; [|discriminate]. destruct (from_nibble _); cbn in E; congruence.
        - destruct (try_collapse_if_extension pr c'); cbn in E; congruence. }
      destruct (child_in ch d) as [E0|I0]; [rewrite E0 in E'; discriminate|].
      rewrite Forall_forall in IH, F, FC.
      destruct (IH _ I0 L0 k c') as (-> & T); auto; [lia|inversion Hk; assumption|lia|].
      rewrite E' in E. cbn [bind] in E. assert (NE : node_is_empty (child ch d) = false).
      { destruct (child ch d); try reflexivity. cbn in E'. discriminate. }
      rewrite NE in E. cbn [andb] in E. rewrite try_collapse_canon in E by auto. cbn [bind] in E.
      unfold child in E. rewrite set_child_nth in E. split; [congruence|]. rewrite eff_branch. apply two_lift_branch, T.
  - inversion W as [| | |L0 p c0 Hp Wc|]; subst. inversion C as [| | |? ? Hn Bc Cc|]; subst.
    assert (Main : forall k0, hexl k0 -> (length k0 <= 127)%nat ->
      (r <- delete_intern pr c (enc k0) ;;
         match r with
         | None => Ok None
         | Some (c', deleted) => n <- collapse_ext_node_if_needed pr (enc p) c' ;; Ok (Some (n, deleted))
         end) = Ok (Some (t', [])) -> t' = Extension (enc p) c /\ two (Extension (enc p) c) (p ++ eff c k0)).
    { intros k0 Hk0 Lk0 E0. assert (exists c', delete_intern pr c (enc k0) = Ok (Some (c', []))) as (c' & E').
      { destruct (delete_intern pr c (enc k0)) as [[[c' u]|]|]; cbn [bind] in E0; try discriminate.
        exists c'. do 4 f_equal. destruct (collapse_ext_node_if_needed _ _ _); cbn in E0; congruence. }
      destruct (IH L0 k0 c') as (-> & T); auto; [lia|]. rewrite E' in E0. cbn [bind] in E0.
      split; [destruct c; cbn in Bc; try contradiction; cbn in E0; congruence|]. apply two_lift_ext; assumption. }
    destruct (compare_keys p k) as [->|y k' ->|x p' ->|q x p' y k' -> -> D].
    + assert (E' := E). rewrite <- (app_nil_r k) in E' at 2. rewrite delete_ext_long in E' by (rewrite app_nil_r; auto).
      destruct (Main [] ltac:(constructor) ltac:(cbn; lia) E') as (-> & T). split; [reflexivity|].
      replace (eff (Extension (enc k) c) k) with (k ++ eff c []); [exact T|]. rewrite <- eff_ext_long by assumption. rewrite app_nil_r. reflexivity.
    + rewrite delete_ext_long in E by auto. apply hexl_app in Hk as Hk'. rewrite app_length in Lk.
      destruct (Main (y :: k') ltac:(tauto) ltac:(lia) E) as (-> & T). split; [reflexivity|]. rewrite eff_ext_long by assumption. exact T.
    + assert (Lp : (length (k ++ x :: p') <= 127)%nat) by lia.
      rewrite delete_ext_short in E by assumption.
      destruct (Main [] ltac:(constructor) ltac:(cbn; lia) E) as (-> & T). split; [reflexivity|].
      rewrite eff_ext_short by assumption. destruct c; cbn in Bc; try contradiction; cbn [eff] in T; rewrite app_nil_r in T; exact T.
    + rewrite delete_ext_div in E by (auto; lia). discriminate.
  - inversion W as [| | | |L0 p w0 Hp Lp]; subst. inversion C as [| | | |? ? Hw]; subst.
    rewrite delete_leaf in E by assumption. destruct (key_eqb p k); [|discriminate]. congruence.
Qed.
