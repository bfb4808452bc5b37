(** Lookup of any key in canonical tries, both profiles. *)
From Verif Require Import Base Nibbles NibblesSpec NibblesFacts NibblesFacts2 NibblesFacts3 Trie TrieSpec TrieFacts TrieInsert TrieGet TrieDelete TrieUnique TrieHistSpec TrieHist TrieObs GetSpec.
Open Scope N_scope.

Lemma fork_branch ch w d q : fork (Branch ch w) (d :: q) <-> fork (child ch d) q.
Proof.
  unfold fork. split; (intros [(S & j & Sj & P)|(x & y & r & s & D & A & B)]; [left|right]).
  - apply strict_cons_inv in P. destruct P as (j' & -> & P). rewrite stored_branch in *. eauto.
  - exists x, y, r, s. cbn [app] in *. rewrite stored_branch in *. auto.
  - split; [apply stored_branch; exact S|]. exists (d :: j). rewrite stored_branch, strict_cons. auto.
  - exists x, y, r, s. cbn [app]. rewrite !stored_branch. auto.
Qed.

Lemma fork_ext p c q : hexl p -> fork (Extension (enc p) c) (p ++ q) <-> fork c q.
Proof.
  intros Hp. unfold fork. split; (intros [(S & j & Sj & P)|(x & y & r & s & D & A & B)]; [left|right]).
  - apply strict_app_inv in P. destruct P as (j' & -> & P). rewrite stored_in_ext in * by exact Hp. eauto.
  - exists x, y, r, s. rewrite <- app_assoc, stored_in_ext in * by exact Hp. auto.
  - split; [apply stored_in_ext; assumption|]. exists (p ++ j). rewrite stored_in_ext, strict_app by exact Hp. auto.
  - exists x, y, r, s. rewrite <- !app_assoc, !stored_in_ext by exact Hp. auto.
Qed.

(** All stored keys of an extension begin with its nibbles, so there is no fork before their end. *)
Lemma fork_ext_inv p c q : hexl p -> fork (Extension (enc p) c) q -> is_prefix p q.
Proof.
  intros Hp F.
  assert (P : forall j, stored (Extension (enc p) c) j -> is_prefix p j).
  { intros j S. destruct (stored_ext_inv _ _ _ Hp S) as (j' & -> & _). exists j'. reflexivity. }
  destruct F as [(S & _)|(x & y & r & s & D & A & B)]; [auto|].
  apply P in A, B. destruct A as [a A]. destruct B as [b B].
  destruct (compare_keys p q) as [->|z k' ->|z p' ->|o z p' u k' -> -> D'].
  - apply prefix_refl.
  - exists (z :: k'). reflexivity.
  - rewrite <- app_assoc in A, B. apply app_inv_head in A, B. cbn in A, B. congruence.
  - rewrite <- !app_assoc in A. apply app_inv_head in A. cbn in A. congruence.
Qed.

Lemma fork_root L ch w : wf L (Branch ch w) -> canon (Branch ch w) -> fork (Branch ch w) [].
Proof.
  intros W C. destruct (branch_div L ch w W C) as (a & b & Sa & Sb & D & Z).
  assert (G : forall x r, stored (Branch ch w) [] -> stored (Branch ch w) (x :: r) -> fork (Branch ch w) []).
  { intros x r S0 S1. left. split; [exact S0|]. exists (x :: r). split; [exact S1|exists x, r; reflexivity]. }
  destruct a as [|x a]; destruct b as [|y b]; [congruence|eauto|eauto|].
  right. exists x, y, a, b. cbn [app]. cbn [lcp] in Z. destruct (N.eqb_spec x y); [discriminate|auto].
Qed.

Lemma no_fork_empty q : ~ fork Empty q.
Proof. intros [(S & _)|(x & y & r & s & _ & S & _)]; exact (not_stored_empty _ S). Qed.
Lemma no_fork_hash h q : ~ fork (Hash h) q.
Proof.
  intros [(S & j & Sj & (x & r & P))|(x & y & r & s & _ & S & _)].
  - apply stored_hash_inv in S, Sj. subst. discriminate.
  - apply stored_hash_inv in S. destruct q; discriminate.
Qed.
Lemma no_fork_leaf p w q : hexl p -> ~ fork (Leaf (enc p) w) q.
Proof.
  intros Hp [(S & j & Sj & (x & r & P))|(x & y & r & s & D & S & S')].
  - apply stored_leaf_inv in S, Sj; auto. subst. apply (f_equal (@length N)) in P. rewrite app_length in P. cbn in P. lia.
  - apply stored_leaf_inv in S, S'; auto. rewrite <- S in S'. apply app_inv_head in S'. congruence.
Qed.

(** A stretch starts at the root exactly in extension nodes. *)
Lemma no_stretch_branch L ch w p : wf L (Branch ch w) -> canon (Branch ch w) -> ~ stretch (Branch ch w) [] p.
Proof.
  intros W C (_ & N & A & _). destruct p as [|z p]; [congruence|]. cbn [app] in A.
  destruct (branch_div L ch w W C) as (a & b & Sa & Sb & _ & Z).
  destruct (A a Sa (prefix_nil _)) as [r ->]. destruct (A b Sb (prefix_nil _)) as [s ->].
  cbn [app lcp] in Z. rewrite N.eqb_refl in Z. discriminate.
Qed.

Lemma stretch_branch L ch w d q p : wf L (Branch ch w) -> canon (Branch ch w) ->
  (stretch (Branch ch w) (d :: q) p <-> stretch (child ch d) q p).
Proof.
  intros W C. unfold stretch. cbn [app]. rewrite fork_branch, lk_branch.
  assert (Q : (d :: q = [] \/ exists q0 e, d :: q = q0 ++ [e] /\ fork (Branch ch w) q0) <-> (q = [] \/ exists q0 e, q = q0 ++ [e] /\ fork (child ch d) q0)).
  { split.
    - intros [?|(q0 & e & E & F)]; [discriminate|]. destruct q0 as [|x q0]; cbn in E; injection E as -> ->; [left; reflexivity|].
      right. exists q0, e. rewrite fork_branch in F. auto.
    - intros [->|(q0 & e & -> & F)]; right.
      + exists [], d. split; [reflexivity|]. eapply fork_root; eassumption.
      + exists (d :: q0), e. rewrite fork_branch. auto. }
  rewrite Q.
  assert (P : (forall j, stored (Branch ch w) j -> is_prefix (d :: q) j -> is_prefix (d :: q ++ p) j) <->
              (forall j, stored (child ch d) j -> is_prefix q j -> is_prefix (q ++ p) j)).
  { split; intros H j S J.
    - apply (prefix_cons d). apply H; [apply stored_branch; exact S|apply prefix_cons; exact J].
    - apply prefix_cons_inv in J. destruct J as (j' & -> & J). apply prefix_cons. apply H; [apply stored_branch in S; exact S|exact J]. }
  rewrite P. reflexivity.
Qed.

Lemma stretch_ext_root L0 p c : hexl p -> p <> [] -> branch_or_hash c -> wf L0 c -> canon c ->
  forall p', stretch (Extension (enc p) c) [] p' <-> p' = p.
Proof.
  intros Hp Hn B Wc Cc p'.
  assert (PP : forall j, stored (Extension (enc p) c) j -> is_prefix p j).
  { intros j S. destruct (stored_ext_inv _ _ _ Hp S) as (j' & -> & _). exists j'. reflexivity. }
  assert (FF : fork (Extension (enc p) c) p \/ exists h, lk (Extension (enc p) c) p = Some (HashV h)).
  { destruct c as [|h|ch w| |]; try contradiction.
    - right. exists h. rewrite <- (app_nil_r p) at 2. rewrite lk_in_ext by exact Hp. reflexivity.
    - left. rewrite <- (app_nil_r p) at 2. apply fork_ext; [exact Hp|]. eapply fork_root; eassumption. }
  split.
  - intros (_ & _ & A & F). cbn [app] in *.
    assert (P1 : is_prefix p p').
    { destruct F as [F|(h & F)]; [eapply fork_ext_inv; eassumption|]. apply PP. unfold stored. congruence. }
    assert (P2 : is_prefix p' p).
    { destruct FF as [[(S & _)|(x & y & r & s & D & S & S')]|(h & S)].
      - apply A; [exact S|apply prefix_nil].
      - apply A in S, S'; try apply prefix_nil. destruct P1 as [r1 ->]. apply prefix_app_inv in S. destruct S as (b & E & [b' ->]).
        apply app_inv_head in E. destruct S' as [a' E']. rewrite <- app_assoc in E'. apply app_inv_head in E'.
        destruct r1 as [|z r1]; [rewrite app_nil_r; apply prefix_refl|]. cbn in E, E'. congruence.
      - apply A; [unfold stored; congruence|apply prefix_nil]. }
    destruct P1 as [a ->]. destruct P2 as [b E]. rewrite <- app_assoc in E. rewrite <- (app_nil_r p) in E at 1. apply app_inv_head in E.
    destruct a; [apply app_nil_r|discriminate].
  - intros ->. split; [left; reflexivity|]. split; [exact Hn|]. cbn [app]. auto.
Qed.

Lemma stretch_ext L0 p c q p' : hexl p -> branch_or_hash c -> wf L0 c -> canon c ->
  (stretch (Extension (enc p) c) (p ++ q) p' <-> stretch c q p').
Proof.
  intros Hp B Wc Cc.
  assert (P : (forall j, stored (Extension (enc p) c) j -> is_prefix (p ++ q) j -> is_prefix ((p ++ q) ++ p') j) <->
              (forall j, stored c j -> is_prefix q j -> is_prefix (q ++ p') j)).
  { split; intros H j S J.
    - apply (prefix_app p). rewrite app_assoc. apply H; [apply stored_in_ext; assumption|apply prefix_app; exact J].
    - apply prefix_app_inv in J. destruct J as (j' & -> & J). rewrite <- app_assoc. apply prefix_app. apply H; [apply stored_in_ext in S; assumption|exact J]. }
  split.
  - intros (Q & N & A & F). rewrite P in A. rewrite <- app_assoc, fork_ext, lk_in_ext in F by exact Hp.
    split; [|auto]. destruct Q as [Q|(q0 & d & E & F0)]; [apply app_eq_nil in Q; left; tauto|].
    pose proof (fork_ext_inv _ _ _ Hp F0) as [r ->]. rewrite fork_ext in F0 by exact Hp. rewrite <- app_assoc in E. apply app_inv_head in E.
    right. exists r, d. auto.
  - intros (Q & N & A & F). pose proof A as A0. pose proof (proj2 P A) as A1. clear A. rename A1 into A. destruct Q as [->|(q0 & d & -> & F0)].
    + exfalso. destruct c as [|h|ch w| |]; try contradiction.
      * cbn [app] in *. destruct F as [F|(h' & F)]; [exact (no_fork_hash _ _ F)|]. destruct p'; [congruence|]. discriminate.
      * apply (no_stretch_branch L0 ch w p' Wc Cc). split; [left; reflexivity|]. auto.
    + split; [right; exists (p ++ q0), d; rewrite fork_ext by exact Hp; rewrite <- app_assoc; auto|].
      split; [exact N|]. split; [exact A|]. rewrite <- (app_assoc p), fork_ext, lk_in_ext by exact Hp. exact F.
Qed.

(** Every stretch of an extension starts at its root or below its end. *)
Lemma stretch_ext_inv p c q p' : hexl p -> stretch (Extension (enc p) c) q p' -> q = [] \/ is_prefix p q.
Proof.
  intros Hp ([->|(q0 & d & -> & F)] & _); [left; reflexivity|right].
  apply fork_ext_inv in F; [|exact Hp]. destruct F as [r ->]. exists (r ++ [d]). symmetry. apply app_assoc.
Qed.

Lemma get_exact t : forall L k, wf L t -> (L <= 64)%nat -> canon t -> hexl k -> (length k <= 127)%nat ->
  (exists q p, ends_in t k q p /\ (forall q' p', ends_in t k q' p' -> q' = q /\ p' = p) /\ trie_get Debug t (enc k) = Panic /\ trie_get Release t (enc k) = Ok (beyond t q p)) \/
  ((forall q p, ~ ends_in t k q p) /\ trie_get Release t (enc k) = trie_get Debug t (enc k) /\ trie_get Debug t (enc k) <> Panic).
Proof.
  induction t as [|h|ch w IH|n c IH|n w] using node_ind'; intros L k W HL C Hk Lk.
  - right. split; [|split; [reflexivity|discriminate]]. intros q p [(_ & _ & _ & [F|(h & F)]) _]; [exact (no_fork_empty _ F)|discriminate].
  - right. split; [|split; [reflexivity|discriminate]]. intros q p [(Q & N & A & [F|(h' & F)]) _]; [exact (no_fork_hash _ _ F)|].
    cbn in F. destruct (q ++ p) eqn:E; [|discriminate]. apply app_eq_nil in E. tauto.
  - inversion W as [| |L0 ? ? Hl F| |]; subst. inversion C as [| |? ? FC O| |]; subst. destruct k as [|d k].
    + right. split; [|split; [reflexivity|discriminate]]. intros q p [S (s & E & _)]. destruct q; [|discriminate].
      eapply no_stretch_branch; eassumption.
    + cbn [length] in Lk. rewrite !get_branch_cons by (auto; cbn [length]; lia).
      assert (T : forall q p, ends_in (Branch ch w) (d :: k) (d :: q) p <-> ends_in (child ch d) k q p).
      { intros q p. unfold ends_in. rewrite (stretch_branch (S L0)) by assumption. cbn [app].
        split; intros (S & s & E & Ls); (split; [exact S|]); exists s; (split; [congruence|exact Ls]). }
      assert (T' : forall q p, ends_in (Branch ch w) (d :: k) q p -> exists q', q = d :: q').
      { intros q p (S & s & E & Ls). destruct q as [|x q]; [exfalso; eapply no_stretch_branch; eassumption|].
        exists q. cbn in E. congruence. }
      destruct (child_in ch d) as [E0|I0].
      { rewrite E0. right. split; [|split; [reflexivity|discriminate]]. intros q p E. destruct (T' _ _ E) as (q' & ->).
        apply T in E. rewrite E0 in E. destruct E as [(_ & _ & _ & [E|(h & E)]) _]; [exact (no_fork_empty _ E)|discriminate]. }
      rewrite Forall_forall in IH, F, FC.
      destruct (IH _ I0 L0 k (F _ I0) ltac:(lia) (FC _ I0) ltac:(inversion Hk; assumption) ltac:(lia)) as [(q & p & A & U & B & D)|(A & B & D)].
      * left. exists (d :: q), p. rewrite T. split; [exact A|]. split.
        { intros q' p' E. destruct (T' _ _ E) as (q'' & ->). apply T in E. destruct (U _ _ E) as [-> ->]. auto. }
        split; [exact B|]. rewrite D. unfold beyond. cbn [app]. rewrite lk_branch. reflexivity.
      * right. split; [|auto]. intros q p E. destruct (T' _ _ E) as (q' & ->). apply T in E. exact (A _ _ E).
  - inversion W as [| | |L0 p c0 Hp Wc|]; subst. inversion C as [| | |? ? Hn B Cc|]; subst.
    rewrite nseq_enc in Hn by exact Hp. assert (Lp : (length p <= 127)%nat) by lia.
    destruct (le_lt_dec (length p) (length k)) as [Le|Lt].
    + assert (Root : forall p', ~ ends_in (Extension (enc p) c) k [] p').
      { intros p' (S & s & E & Ls). eapply stretch_ext_root in S; [|eassumption..]. subst. cbn in Le. lia. }
      destruct (strip p k) as [k'|] eqn:Es.
      * apply strip_some in Es. subst k. rewrite !get_ext_long by auto. apply hexl_app in Hk. rewrite app_length in Lk.
        assert (T : forall q p', ends_in (Extension (enc p) c) (p ++ k') (p ++ q) p' <-> ends_in c k' q p').
        { intros q p'. unfold ends_in. rewrite (stretch_ext L0) by assumption.
          split; intros (S & s & E & Ls); (split; [exact S|]); exists s; (split; [|exact Ls]);
            rewrite <- app_assoc in *; [apply app_inv_head in E; exact E|congruence]. }
        assert (T' : forall q p', ends_in (Extension (enc p) c) (p ++ k') q p' -> exists q', q = p ++ q').
        { intros q p' E. pose proof E as (S & _). apply stretch_ext_inv in S; [|exact Hp]. destruct S as [->|S]; [|exact S].
          exfalso. exact (Root _ E). }
        destruct (IH L0 k' Wc ltac:(lia) Cc ltac:(tauto) ltac:(lia)) as [(q & p' & A & U & B' & D)|(A & B' & D)].
        -- left. exists (p ++ q), p'. rewrite T. split; [exact A|]. split.
           { intros q' p'' E. destruct (T' _ _ E) as (q'' & ->). apply T in E. destruct (U _ _ E) as [-> ->]. auto. }
           split; [exact B'|]. rewrite D. unfold beyond.
           rewrite <- app_assoc, lk_in_ext by exact Hp. reflexivity.
        -- right. split; [|auto]. intros q p' E. destruct (T' _ _ E) as (q' & ->). apply T in E. exact (A _ _ E).
      * apply strip_none in Es. destruct (compare_keys p k) as [->|y k' ->|x p' ->|q x p' y k' -> -> D].
        -- exfalso. apply Es. apply prefix_refl.
        -- exfalso. apply Es. exists (y :: k'). reflexivity.
        -- exfalso. rewrite app_length in Le. cbn [length] in Le. lia.
        -- rewrite !get_ext_div by auto. right. split; [|split; [reflexivity|discriminate]].
           intros q' p'' E. pose proof E as (S & s & Ek & Ls). apply stretch_ext_inv in S; [|exact Hp]. destruct S as [->|[r ->]].
           ++ exact (Root _ E).
           ++ apply Es. exists (r ++ s). rewrite Ek. symmetry. apply app_assoc.
    + left. exists [], p. split; [|split; [|split]].
      * split; [eapply stretch_ext_root; eauto|]. exists k. auto.
      * intros q' p' (S & s & E & Ls). pose proof S as S0. apply stretch_ext_inv in S0; [|exact Hp]. destruct S0 as [->|[r ->]].
        -- eapply stretch_ext_root in S; eauto.
        -- exfalso. apply (f_equal (@length N)) in E. rewrite !app_length in E. lia.
      * apply get_ext_short_debug. exact Lt.
      * rewrite get_ext_short_release by assumption. unfold beyond. cbn [app]. destruct (key_eqb _ _); [|reflexivity].
        pose proof (lk_in_ext p c [] Hp) as E. rewrite app_nil_r in E. rewrite E.
        destruct c as [|h|ch w| |]; try contradiction; [reflexivity|]. rewrite get_branch_nil. cbn [lk]. destruct w; reflexivity.
  - inversion W as [| | | |L0 p w0 Hp Lp]; subst. rewrite !get_leaf by (assumption || lia). right.
    split; [|split; [reflexivity|discriminate]]. intros q p' [(_ & N & A & [F|(h & F)]) _]; [exact (no_fork_leaf _ _ _ Hp F)|].
    rewrite lk_leaf_nseq in F by exact Hp. destruct (key_eqb _ _); discriminate.
Qed.
