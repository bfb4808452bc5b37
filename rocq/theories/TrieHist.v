(** Histories of trie operations. *)
From Verif Require Import Base Nibbles NibblesSpec NibblesFacts NibblesFacts2 NibblesFacts3 Trie TrieSpec TrieHistSpec TrieFacts TrieInsert TrieGet TrieDelete TrieUnique TrieIter.
Open Scope N_scope.

Lemma kwf_ex k : kwf k -> exists l, k = enc l /\ nseq k = l /\ hexl l /\ (length l <= 64)%nat.
Proof.
  intros [H1 H2]. destruct (nwf_ex k) as (l & E & Hs & H & _ & C); [split; [exact H1|lia]|].
  exists l. repeat split; auto. lia.
Qed.

Lemma kwf_enc l : hexl l -> (length l <= 64)%nat -> kwf (enc l).
Proof. intros H L. split; [apply undigits_lt, H|cbn [enc count]; lia]. Qed.

(** ** Insert *)
Lemma tinsert pr t k v : wf 64 t -> shape t -> kwf k -> proper v ->
  (exists t', trie_insert pr t k v = Ok t' /\ ins_post 64 t (nseq k) v t' /\ ~ blocked t (nseq k) v) \/
  (trie_insert pr t k v = Panic /\ blocked t (nseq k) v).
Proof.
  intros W Sh Hk Pv. destruct (kwf_ex k Hk) as (l & E & Es & H & L). rewrite Es. rewrite E.
  destruct (insert_spec pr t 64 l v W Sh H L ltac:(lia) Pv) as [(t' & E' & P & _ & NB)|Q]; [left; eauto|right; exact Q].
Qed.

(** ** Delete *)
Definition tdel_post (t : node) (k : list N) (r : res (node * option (list N))) : Prop :=
  match r with
  | Panic => hash_on_path t (eff t k) \/ ~ safe_delete t k
  | Ok (t', None) => t' = t /\ ~ hash_on_path t (eff t k) /\ eff t k = k /\ lk t k = None
  | Ok (t', Some w) =>
      ~ hash_on_path t (eff t k) /\ lk t (eff t k) = val_opt w /\ wf 64 t' /\ shape t' /\
      (forall j, j <> eff t k -> ~ strict_prefix j (eff t k) -> lk t' j = lk t j) /\
      lk t' (eff t k) = None /\
      (safe_delete t k -> forall j, j <> eff t k -> lk t' j = lk t j) /\
      (canon t -> safe_delete t k -> keeps_canon t k -> canon t')
  end.

Lemma tdelete pr t k : wf 64 t -> shape t -> kwf k -> tdel_post t (nseq k) (trie_delete pr t k).
Proof.
  intros W Sh Hk. destruct (kwf_ex k Hk) as (l & E & Es & H & L). rewrite Es. rewrite E.
  pose proof (delete_spec pr t 64 l W Sh H ltac:(lia) (Nat.le_refl _)) as G. unfold trie_delete.
  destruct (delete_intern pr t (enc l)) as [[[t' w]|]|]; cbn [bind del_post tdel_post] in *.
  - destruct G as (G1 & G2 & G3 & G4 & G5 & G6 & G7 & G8 & G9 & _).
    destruct (try_collapse_spec pr t' 64 G3 (Nat.le_refl _) G4) as (t'' & Et & W' & K & S' & C' & _). rewrite Et. cbn [bind].
    split; [exact G1|]. split; [exact G2|]. split; [exact W'|]. split; [exact S'|].
    split; [intros j A B; rewrite K; apply G6; assumption|]. split; [rewrite K; exact G7|].
    split; [intros A j B; rewrite K; apply G8; assumption|]. intros C1 C2 C3. apply C', G9; assumption.
  - tauto.
  - exact G.
Qed.

(** ** Reachable tries *)
Lemma reach_valid pr t : reach pr t -> wf 64 t /\ shape t.
Proof.
  induction 1 as [t W C|t k v t' R [W Sh] Hk Pv E|t k t' w R [W Sh] Hk E].
  - split; [exact W|apply canon_shape, C].
  - destruct (tinsert pr t k v W Sh Hk Pv) as [(t1 & E1 & (P1 & P2 & _) & _)|[E1 _]]; [|congruence].
    assert (t1 = t') by congruence. subst t1. auto.
  - pose proof (tdelete pr t k W Sh Hk) as G. rewrite E in G. destruct w as [w|]; cbn [tdel_post] in G; [tauto|].
    destruct G as [-> _]. auto.
Qed.

(** ** Unsafe deletions *)
Lemma safe_dec t : forall k, safe_delete t k \/ ~ safe_delete t k.
Proof.
  induction t as [|h|ch w IH|n c IH|n w] using node_ind'; intros k; try (left; exact I).
  - destruct k as [|d k]; [left; exact I|]. rewrite safe_branch.
    destruct (child_in ch d) as [E0|I0]; [rewrite E0; left; exact I|].
    rewrite Forall_forall in IH. pose proof (IH _ I0 k) as G.
    destruct (child ch d) as [| | | |n u]; try exact G.
    destruct (key_eqb_spec (nseq n) k) as [Ek|Nk]; [|left; congruence].
    destruct (le_lt_dec 3 (occ ch)) as [O|O]; [left; intros _; left; exact O|].
    destruct (Nat.eq_dec (occ ch) 2) as [O2|O2], w as [|b w].
    + left. intros _. right. auto.
    + right. intros Q. destruct (Q Ek) as [Q'|[_ Q']]; [lia|discriminate].
    + right. intros Q. destruct (Q Ek) as [Q'|[Q' _]]; lia.
    + right. intros Q. destruct (Q Ek) as [Q'|[Q' _]]; lia.
  - cbn [safe_delete]. destruct (strip (nseq n) k); [apply IH|left; exact I].
Qed.

Lemma lk_in_ext p c j : hexl p -> lk (Extension (enc p) c) (p ++ j) = lk c j.
Proof. intros H. rewrite lk_ext_nseq, strip_app by exact H. reflexivity. Qed.

Lemma unsafe_delete pr t : forall L k v, wf L t -> (L <= 64)%nat -> canon t -> lk t k = Some (Val v) -> ~ safe_delete t k ->
  match delete_intern pr t (enc k) with
  | Panic => True
  | Ok None => False
  | Ok (Some (t', _)) => exists j, j <> k /\ stored t j /\ lk t' j = None
  end.
Proof.
  induction t as [|h|ch w IH|n c IH|n w] using node_ind'; intros L k v W HL C E NS; try (exfalso; apply NS; exact I).
  - inversion W as [| |L0 ? ? Hl F| |]; subst. inversion C as [| |? ? FC O| |]; subst.
    destruct k as [|d k]; [exfalso; apply NS; exact I|].
    assert (Hdk : hexl (d :: k) /\ (length (d :: k) <= S L0)%nat) by (destruct (stored_wf _ _ (d :: k) W ltac:(unfold stored; congruence)); auto).
    destruct Hdk as [Hdk Ldk]. cbn [length] in Ldk.
    assert (Hd : d < 16) by (inversion Hdk; assumption). assert (Hk : hexl k) by (inversion Hdk; assumption).
    rewrite lk_branch in E. rewrite safe_branch in NS.
    rewrite delete_branch_cons by (auto; cbn [length]; lia).
    assert (Wc : wf L0 (child ch d)) by (apply Forall_child; [constructor|exact F]).
    assert (Cc : canon (child ch d)) by (apply Forall_child; [constructor|exact FC]).
    pose proof (delete_spec pr (child ch d) L0 k Wc (canon_shape _ Cc) Hk ltac:(lia) ltac:(lia)) as G.
    assert (Rec : ~ safe_delete (child ch d) k ->
      match delete_intern pr (child ch d) (enc k) with
      | Panic => True
      | Ok None => False
      | Ok (Some (t', _)) => exists j, j <> k /\ stored (child ch d) j /\ lk t' j = None
      end).
    { intros Q. destruct (child_in ch d) as [E0|I0]; [rewrite E0 in E; discriminate|].
      rewrite Forall_forall in IH. apply (IH _ I0 L0 k v); auto; lia. }
    assert (Down : ~ safe_delete (child ch d) k ->
       match (r <- delete_intern pr (child ch d) (enc k) ;;
         match r with
         | None => Ok None
         | Some (c', deleted) =>
             if node_is_empty c' && (get_num_non_empty_children ch <=? 2)%nat then
               match get_other_non_empty_child 0 ch (N.to_nat d) with
               | None => Panic
               | Some (i, c) => n <- from_nibble (N.of_nat i) ;; Ok (Some (Extension n c, deleted))
               end
             else
               c'' <- try_collapse_if_extension pr c' ;;
               Ok (Some (Branch (set_child ch (N.to_nat d) c'') w, deleted))
         end) with
       | Panic => True
       | Ok None => False
       | Ok (Some (t', _)) => exists j, j <> d :: k /\ stored (Branch ch w) j /\ lk t' j = None
       end).
    { intros Q. specialize (Rec Q). destruct (delete_intern pr (child ch d) (enc k)) as [[[c' u]|]|]; cbn [bind]; [|exact Rec|exact I].
      cbn [del_post] in G. destruct G as (_ & _ & G3 & G4 & G5 & _).
      assert (NE : c' <> Empty).
      { intros A. apply G5 in A. destruct A as (n & u' & A & _). apply Q. rewrite A. exact I. }
      destruct c'; [congruence|..]; cbn [node_is_empty andb];
        (edestruct (try_collapse_spec pr _ L0 G3 ltac:(lia) G4) as (c'' & -> & _ & K & _); cbn [bind];
         destruct Rec as (j & Nj & Sj & Ej); exists (d :: j); split; [congruence|]; split;
         [unfold stored in *; rewrite lk_branch; exact Sj|
          rewrite lk_branch, child_set, N.eqb_refl by assumption; rewrite K; exact Ej]). }
    destruct (child ch d) as [| | | |n u] eqn:Ec; try (apply Down; exact NS).
    clear Down Rec. assert (En : nseq n = k).
    { cbn [lk] in E. destruct (key_eqb_spec (nseq n) k); congruence. }
    inversion Wc as [| | | |L1 p u' Hp Lp]; subst n. rewrite nseq_enc in En by exact Hp. subst p.
    rewrite delete_leaf, key_eqb_refl by assumption. cbn [bind node_is_empty andb]. rewrite num_occ.
    destruct (le_lt_dec 3 (occ ch)) as [O3|O3]; [exfalso; apply NS; intros _; left; exact O3|].
    destruct (Nat.leb_spec (occ ch) 2) as [_|]; [|lia].
    pose proof (get_other_spec ch d Hl Hd) as Ot.
    destruct (get_other_non_empty_child 0 ch (N.to_nat d)) as [[i c]|]; [|exact I].
    destruct Ot as (Hi & Hne & Ei & NEi). rewrite from_nibble_enc by exact Hi. cbn [bind].
    assert (Hi16 : N.of_nat i < 16) by lia.
    assert (Hi1 : hexl [N.of_nat i]) by (constructor; [exact Hi16|constructor]).
    destruct (occ_two ch d (N.of_nat i) Hl Hd Hi16 ltac:(congruence) ltac:(rewrite Ec; congruence) ltac:(congruence)) as [O2 _].
    assert (w <> []) by (intros ->; apply NS; intros _; right; split; [lia|reflexivity]).
    exists []. split; [discriminate|]. split; [unfold stored; cbn [lk]; destruct w; congruence|].
    rewrite lk_ext_nseq by exact Hi1. reflexivity.
  - inversion W as [| | |L0 p c0 Hp Wc|]; subst. inversion C as [| | |? ? Hn B Cc|]; subst.
    destruct (stored_ext_inv p c k Hp ltac:(unfold stored; congruence)) as (k' & -> & Sk).
    assert (Hdk : hexl (p ++ k') /\ (length (p ++ k') <= length p + L0)%nat)
      by (destruct (stored_wf _ _ (p ++ k') W ltac:(unfold stored; congruence)); auto).
    destruct Hdk as [Hpk Lpk]. rewrite lk_in_ext in E by exact Hp.
    cbn [safe_delete] in NS. rewrite nseq_enc, strip_app in NS by exact Hp.
    rewrite delete_ext_long by (auto; lia).
    pose proof (proj1 (hexl_app p k') Hpk) as [_ Hk']. rewrite app_length in Lpk.
    pose proof (delete_spec pr c L0 k' Wc (canon_shape _ Cc) Hk' ltac:(lia) ltac:(lia)) as G.
    specialize (IH L0 k' v Wc ltac:(lia) Cc E NS).
    destruct (delete_intern pr c (enc k')) as [[[c' u]|]|]; cbn [bind]; [|exact IH|exact I].
    cbn [del_post] in G. destruct G as (_ & _ & G3 & G4 & G5 & _).
    assert (NE : c' <> Empty) by (intros A; apply G5 in A; destruct A as (n & u' & -> & _); contradiction).
    destruct (collapse_ext_spec pr p c' L0 Hp G3 NE HL) as (t' & -> & _ & _ & K & _). cbn [bind].
    destruct IH as (j & Nj & Sj & Ej). exists (p ++ j). split; [intros A; apply app_inv_head in A; congruence|].
    split; [apply stored_ext; assumption|]. rewrite K, lk_in_ext by exact Hp. exact Ej.
Qed.

(** [safe_delete] in terms of the stored keys, the other direction. *)
Lemma occ_three_ex ch d : length ch = 16%nat -> d < 16 -> child ch d <> Empty -> (3 <= occ ch)%nat ->
  exists e f, e < 16 /\ f < 16 /\ e <> f /\ e <> d /\ f <> d /\ child ch e <> Empty /\ child ch f <> Empty.
Proof.
  intros L Hd NE O. pose proof (occ_set_empty ch (N.to_nat d) ltac:(lia) NE) as O1.
  destruct (occ_two_ex (set_child ch (N.to_nat d) Empty)) as (e & f & He & Hf & D & Ee & Ef); [rewrite set_child_length; exact L|lia|].
  rewrite child_set in Ee, Ef by assumption.
  destruct (N.eqb_spec e d); [congruence|]. destruct (N.eqb_spec f d); [congruence|]. exists e, f. auto 8.
Qed.


Lemma safe_obs_conv t : forall L k v, wf L t -> canon t -> lk t k = Some (Val v) -> safe_delete t k -> deletable t k.
Proof.
  unfold deletable.
  induction t as [|h|ch w IH|n c IH|n w] using node_ind'; intros L k v W C E S p d s Ek Sp.
  - discriminate.
  - cbn in E. destruct k; discriminate.
  - inversion W as [| |L0 ? ? Hl F| |]; subst. inversion C as [| |? ? FC O| |]; subst.
    assert (Tr : forall e j, stored (Branch ch w) (e :: j) <-> stored (child ch e) j) by (intros e j; unfold stored; rewrite lk_branch; reflexivity).
    assert (St : forall e, child ch e <> Empty -> exists r, stored (Branch ch w) (e :: r)).
    { intros e NE. destruct (shape_stored (child ch e)) as (r & Hr); [apply canon_shape, Forall_child; [constructor|exact FC]|exact NE|].
      exists r. apply Tr. exact Hr. }
    destruct p as [|e p].
    + cbn [app] in *. rewrite lk_branch in E. rewrite safe_branch in S.
      assert (Hd : d < 16) by (destruct (stored_wf _ _ (d :: s) W ltac:(unfold stored; rewrite lk_branch; congruence)) as [_ Hx]; inversion Hx; assumption).
      assert (NEd : child ch d <> Empty) by (intros A; rewrite A in E; discriminate).
      assert (Wc : wf L0 (child ch d)) by (apply Forall_child; [constructor|exact F]).
      assert (Cc : canon (child ch d)) by (apply Forall_child; [constructor|exact FC]).
      destruct (child ch d) as [|h|ch' w'|n c|n u] eqn:Ec.
      * congruence.
      * cbn in E. destruct s; discriminate.
      * left. destruct (branch_div L0 ch' w' Wc Cc) as (a & b & Sa & Sb & D & _).
        destruct (key_eqb_spec a s) as [->|Na].
        -- exists (d :: b). split; [congruence|]. split; [apply Tr; rewrite Ec; exact Sb|exists b; reflexivity].
        -- exists (d :: a). split; [congruence|]. split; [apply Tr; rewrite Ec; exact Sa|exists a; reflexivity].
      * left. inversion Wc as [| | |L1 q c1 Hq Wc1|]; subst. inversion Cc as [| | |? ? Hn B Cc1|]; subst.
        destruct c as [|h|ch' w'| |]; try contradiction.
        { exfalso. rewrite lk_ext_nseq in E by exact Hq. destruct (strip q s) as [[|]|]; discriminate. }
        destruct (branch_div L1 ch' w' Wc1 Cc1) as (a & b & Sa & Sb & D & _).
        destruct (key_eqb_spec (q ++ a) s) as [<-|Na].
        -- exists (d :: q ++ b). split; [intros A; injection A as A; apply app_inv_head in A; congruence|].
           split; [apply Tr; rewrite Ec; apply stored_ext; assumption|exists (q ++ b); reflexivity].
        -- exists (d :: q ++ a). split; [congruence|].
           split; [apply Tr; rewrite Ec; apply stored_ext; assumption|exists (q ++ a); reflexivity].
      * right. cbn [lk] in E. destruct (key_eqb_spec (nseq n) s) as [En|]; [|discriminate].
        destruct (S En) as [O3|[_ ->]]; [|exfalso; apply Sp; reflexivity].
        destruct (occ_three_ex ch d Hl Hd ltac:(congruence) O3) as (e & f & He & Hf & D1 & D2 & D3 & Ee & Ef).
        destruct (St e Ee) as (r1 & S1). destruct (St f Ef) as (r2 & S2). exists e, f, r1, r2. auto 8.
    + cbn [app] in *. rewrite lk_branch in E. rewrite safe_branch in S. rewrite Tr in Sp.
      destruct (child_in ch e) as [E0|I0]; [rewrite E0 in E; discriminate|].
      assert (Wc : wf L0 (child ch e)) by (apply Forall_child; [constructor|exact F]).
      assert (Cc : canon (child ch e)) by (apply Forall_child; [constructor|exact FC]).
      assert (S' : safe_delete (child ch e) (p ++ d :: s)).
      { destruct (child ch e); exact S || exact I. }
      rewrite Forall_forall in IH.
      destruct (IH _ I0 L0 (p ++ d :: s) v Wc Cc E S' p d s eq_refl Sp) as [(k' & N' & Sk & [r ->])|(d1 & d2 & r1 & r2 & D1 & D2 & D3 & S1 & S2)].
      * left. exists (e :: (p ++ [d]) ++ r). split; [congruence|]. split; [apply Tr; exact Sk|exists r; reflexivity].
      * right. exists d1, d2, r1, r2. cbn [app]. rewrite !Tr. auto 8.
  - inversion W as [| | |L0 q c0 Hq Wc|]; subst. inversion C as [| | |? ? Hn B Cc|]; subst.
    cbn [safe_delete] in S. rewrite nseq_enc in S by exact Hq.
    destruct (stored_ext_inv q c _ Hq Sp) as (p' & -> & Sp'). rewrite <- app_assoc in *.
    rewrite lk_in_ext in E by exact Hq. rewrite strip_app in S.
    assert (Tr : forall j, stored (Extension (enc q) c) (q ++ j) <-> stored c j).
    { intros j. unfold stored. rewrite lk_in_ext by exact Hq. reflexivity. }
    destruct (IH L0 _ v Wc Cc E S p' d s eq_refl Sp') as [(k' & N' & Sk & [r ->])|(d1 & d2 & r1 & r2 & D1 & D2 & D3 & S1 & S2)].
    + left. exists (q ++ (p' ++ [d]) ++ r). rewrite <- !app_assoc in *. split; [intros A; apply app_inv_head in A; congruence|].
      split; [apply Tr; exact Sk|exists r; rewrite <- !app_assoc; reflexivity].
    + right. exists d1, d2, r1, r2. rewrite <- !app_assoc. rewrite !Tr. auto 8.
  - cbn [lk] in *. unfold stored in Sp. cbn [lk] in Sp. destruct (key_eqb_spec (nseq n) k); [|discriminate].
    destruct (key_eqb_spec (nseq n) p); [|congruence]. exfalso.
    assert (Q : length p = length (p ++ d :: s)) by congruence. clear - Q. rewrite app_length in *. cbn [length] in *. lia.
Qed.

(** ** Deleting returns an empty value only at a branch *)
Lemma shape_below L ch w : wf L (Branch ch w) -> shape (Branch ch w) -> exists d j, stored (Branch ch w) (d :: j).
Proof.
  intros W Sh. inversion Sh as [| |? ? FS (c & Ic & NEc)| |]; subst. destruct (in_child_ex _ _ Ic) as (d & _ & Ed).
  rewrite Forall_forall in FS. destruct (shape_stored c (FS c Ic) NEc) as (j & Hj). exists d, j.
  unfold stored in *. rewrite lk_branch, Ed. exact Hj.
Qed.

Lemma delete_empty_val pr t : forall L k t', wf L t -> (L <= 64)%nat -> shape t -> hexl k -> (length k <= 127)%nat ->
  delete_intern pr t (enc k) = Ok (Some (t', [])) -> exists j, stored t j /\ strict_prefix k j.
Proof.
  induction t as [|h|ch w IH|n c IH|n w] using node_ind'; intros L k t' W HL Sh Hk Lk E.
  - discriminate.
  - discriminate.
  - destruct k as [|d k].
    + destruct (shape_below L ch w W Sh) as (d & j & Hj). exists (d :: j). split; [exact Hj|exists d, j; reflexivity].
    + inversion W as [| |L0 ? ? Hl F| |]; subst. inversion Sh as [| |? ? FS X| |]; subst. cbn [length] in Lk.
      rewrite delete_branch_cons in E by (auto; cbn [length]; lia).
      assert (exists c', delete_intern pr (child ch d) (enc k) = Ok (Some (c', []))) as (c' & E').
      { destruct (delete_intern pr (child ch d) (enc k)) as [[[c' u]|]|]; cbn [bind] in E; try discriminate.
        exists c'. do 4 f_equal. destruct (_ && _).
        - destruct (get_other_non_empty_child _ _ _) as [[i c]|]; [|discriminate]. destruct (from_nibble _); cbn in E; congruence.
        - destruct (try_collapse_if_extension pr c'); cbn in E; congruence. }
      destruct (child_in ch d) as [E0|I0]; [rewrite E0 in E'; discriminate|].
      rewrite Forall_forall in IH, F, FS.
      destruct (IH _ I0 L0 k c') as (j & Sj & (x & r & ->)); auto; [lia|inversion Hk; assumption|lia|].
      exists (d :: k ++ x :: r). split; [unfold stored in *; rewrite lk_branch; exact Sj|exists x, r; reflexivity].
  - inversion W as [| | |L0 p c0 Hp Wc|]; subst. inversion Sh as [| | |? ? Hn Bc Sc|]; subst.
    assert (Main : forall k0, hexl k0 -> (length k0 <= 127)%nat ->
      (r <- delete_intern pr c (enc k0) ;;
         match r with
         | None => Ok None
         | Some (c', deleted) => n <- collapse_ext_node_if_needed pr (enc p) c' ;; Ok (Some (n, deleted))
         end) = Ok (Some (t', [])) -> exists j, stored (Extension (enc p) c) (p ++ j) /\ strict_prefix k0 j).
    { intros k0 Hk0 Lk0 E0. assert (exists c', delete_intern pr c (enc k0) = Ok (Some (c', []))) as (c' & E').
      { destruct (delete_intern pr c (enc k0)) as [[[c' u]|]|]; cbn [bind] in E0; try discriminate.
        exists c'. do 4 f_equal. destruct (collapse_ext_node_if_needed _ _ _); cbn in E0; congruence. }
      destruct (IH L0 k0 c') as (j & Sj & Pj); auto; [lia|]. exists j. split; [apply stored_ext; assumption|exact Pj]. }
    destruct (compare_keys p k) as [->|y k' ->|x p' ->|q x p' y k' -> -> D].
    + assert (E' := E). rewrite <- (app_nil_r k) in E' at 2. rewrite delete_ext_long in E' by (rewrite app_nil_r; auto).
      destruct (Main [] ltac:(constructor) ltac:(cbn; lia) E') as (j & Sj & (x & r & ->)). exists (k ++ x :: r). split; [exact Sj|exists x, r; reflexivity].
    + rewrite delete_ext_long in E by auto. apply hexl_app in Hk. rewrite app_length in Lk.
      destruct (Main (y :: k') ltac:(tauto) ltac:(lia) E) as (j & Sj & Pj). exists (p ++ j). split; [exact Sj|apply strict_prefix_app, Pj].
    + assert (Lp : (length (k ++ x :: p') <= 127)%nat) by lia.
      rewrite delete_ext_short in E by assumption.
      destruct (Main [] ltac:(constructor) ltac:(cbn; lia) E) as (j & Sj & Pj). exists ((k ++ x :: p') ++ j). split; [exact Sj|].
      exists x, (p' ++ j). rewrite <- app_assoc. reflexivity.
    + rewrite delete_ext_div in E by (auto; lia). discriminate.
  - inversion W as [| | | |L0 p w0 Hp Lp]; subst. inversion Sh as [| | | |? ? Hw]; subst.
    rewrite delete_leaf in E by assumption. destruct (key_eqb p k); [|discriminate]. congruence.
Qed.

Lemma tdelete_empty_val pr t k t' : wf 64 t -> shape t -> kwf k -> trie_delete pr t k = Ok (t', Some []) ->
  exists j, stored t j /\ strict_prefix (nseq k) j.
Proof.
  intros W Sh Hk E. destruct (kwf_ex k Hk) as (l & El & Es & H & L). rewrite Es. rewrite El in E. unfold trie_delete in E.
  destruct (delete_intern pr t (enc l)) as [[[c' u]|]|] eqn:Ed; cbn [bind] in E; try discriminate.
  destruct (try_collapse_if_extension pr c'); cbn in E; [|discriminate]. assert (u = []) by congruence. subst u.
  eapply delete_empty_val; eauto; lia.
Qed.

(** ** Prefix-free histories *)
Definition inv (U : list N -> Prop) (t : node) (m : kvmap) : Prop :=
  wf 64 t /\ canon t /\ holds t m /\ forall k, m k <> None -> U k.

Lemma holds_stored t m k : holds t m -> (stored t k <-> m k <> None).
Proof. intros H. unfold stored. rewrite H. destruct (m k); cbn; split; congruence. Qed.

Lemma holds_no_hash t m k : holds t m -> ~ hash_on_path t k.
Proof. intros H (p & h & E & _). rewrite H in E. destruct (m p); discriminate. Qed.

Lemma inv_eff U t m k : prefix_free U -> inv U t m -> U k -> eff t k = k.
Proof.
  intros PF (W & C & H & HU) Uk. apply (eff_self_aux t 64 k W (canon_shape _ C)). right. left.
  intros j Sj. apply PF; [exact Uk|]. apply HU, (holds_stored t m j H), Sj.
Qed.

Lemma inv_insert pr U t m k v : prefix_free U -> inv U t m -> kwf k -> U (nseq k) -> v <> [] ->
  exists t', trie_insert pr t k (Val v) = Ok t' /\ inv U t' (kv_set m (nseq k) (Some v)).
Proof.
  intros PF I Hk Uk Hv. pose proof I as (W & C & H & HU). pose proof (inv_eff U t m _ PF I Uk) as Ee.
  destruct (tinsert pr t k (Val v) W (canon_shape _ C) Hk Hv) as [(t' & E & P & _)|[_ B]].
  - exists t'. split; [exact E|]. destruct P as (P1 & P2 & _ & P4 & P5). split; [exact P1|]. split; [exact (P4 C)|]. split.
    + intros j. rewrite P5, Ee. unfold kv_set. destruct (key_eqb (nseq k) j); [reflexivity|apply H].
    + intros j. unfold kv_set. destruct (key_eqb_spec (nseq k) j) as [<-|]; auto.
  - exfalso. destruct B as [B|[[] _]]. exact (holds_no_hash _ _ _ H B).
Qed.

Lemma inv_extend pr U l : forall t m, prefix_free U -> inv U t m ->
  Forall (fun e => kwf (fst e) /\ U (nseq (fst e)) /\ snd e <> []) l ->
  exists t', trie_extend pr t (map (fun e => (fst e, Val (snd e))) l) = Ok t' /\
    inv U t' (fold_left (fun m e => kv_set m (nseq (fst e)) (Some (snd e))) l m).
Proof.
  induction l as [|[k v] l IH]; intros t m PF I F; cbn [map trie_extend fold_left fst snd].
  - eauto.
  - inversion F as [|? ? (A & B & D) F']; subst. cbn [fst snd] in *.
    destruct (inv_insert pr U t m k v PF I A B D) as (t' & E & I'). rewrite E. cbn [bind]. apply IH; assumption.
Qed.

Lemma inv_delete pr U t m k : prefix_free U -> inv U t m -> kwf k -> U (nseq k) ->
  exists t', trie_delete pr t k = Ok (t', m (nseq k)) /\ inv U t' (kv_set m (nseq k) None).
Proof.
  intros PF I Hk Uk. pose proof I as (W & C & H & HU). pose proof (inv_eff U t m _ PF I Uk) as Ee.
  pose proof (tdelete pr t k W (canon_shape _ C) Hk) as G.
  assert (NoExt : forall j, stored t j -> ~ strict_prefix (nseq k) j)
    by (intros j Sj; apply PF; [exact Uk|]; apply HU, (holds_stored t m j H), Sj).
  assert (NoPre : forall p, stored t p -> ~ strict_prefix p (nseq k))
    by (intros j Sj; apply PF; [|exact Uk]; apply HU, (holds_stored t m j H), Sj).
  assert (SF : forall v, lk t (nseq k) = Some (Val v) -> safe_delete t (nseq k)).
  { intros v E. apply (safe_delete_obs t 64 _ v W C E). intros p d s Ep Sp. exfalso. apply (NoPre p Sp). exists d, s. exact Ep. }
  destruct (trie_delete pr t k) as [[t' [w|]]|] eqn:Ed; cbn [tdel_post] in G.
  - destruct G as (G1 & G2 & G3 & G4 & G5 & G6 & G7 & G8). rewrite Ee in *.
    destruct w as [|b w].
    { exfalso. destruct (tdelete_empty_val pr t k t' W (canon_shape _ C) Hk Ed) as (j & Sj & Pj). exact (NoExt j Sj Pj). }
    cbn [val_opt] in G2. pose proof (H (nseq k)) as Hm. rewrite G2 in Hm.
    exists t'. split; [do 2 f_equal; destruct (m (nseq k)); cbn in Hm; congruence|].
    split; [exact G3|]. split; [apply G8; [exact C|exact (SF _ G2)|]|].
    + apply (keeps_canon_obs t 64 _ W (canon_shape _ C)); [unfold stored; congruence|left; exact NoExt].
    + split.
      * intros j. unfold kv_set. destruct (key_eqb_spec (nseq k) j) as [<-|Nj]; [exact G6|].
        rewrite (G7 (SF _ G2)) by congruence. apply H.
      * intros j. unfold kv_set. destruct (key_eqb_spec (nseq k) j) as [<-|]; [congruence|auto].
  - destruct G as (-> & _ & _ & G). rewrite (H (nseq k)) in G. assert (Em : m (nseq k) = None) by (destruct (m (nseq k)); [discriminate|reflexivity]).
    exists t. rewrite Em. split; [reflexivity|]. split; [exact W|]. split; [exact C|]. split.
    + intros j. unfold kv_set. destruct (key_eqb_spec (nseq k) j) as [<-|Nj]; [rewrite H, Em; reflexivity|apply H].
    + intros j. unfold kv_set. destruct (key_eqb_spec (nseq k) j) as [<-|]; [congruence|auto].
  - exfalso. rewrite Ee in G. destruct G as [G|G]; [exact (holds_no_hash _ _ _ H G)|].
    destruct (m (nseq k)) as [v|] eqn:Em.
    + apply G. apply (SF v). rewrite H, Em. reflexivity.
    + destruct (kwf_ex k Hk) as (l & El & Es & Hl & Ll).
      (* nothing stored: delete cannot panic *)
      apply G. rewrite Es in *. clear - W C H Em NoPre.
      assert (E0 : lk t l = None) by (rewrite H, Em; reflexivity). clear H Em.
      revert l E0 NoPre. generalize 64%nat W C. clear W C.
      induction t as [|h|ch w IH|n c IH|n w] using node_ind'; intros L W C k E NoPre; try exact I.
      * destruct k as [|d k]; [exact I|]. rewrite safe_branch. rewrite lk_branch in E.
        destruct (child_in ch d) as [E0|I0]; [rewrite E0; exact I|].
        inversion W as [| |L0 ? ? Hl F| |]; subst. inversion C as [| |? ? FC O| |]; subst.
        assert (Q : safe_delete (child ch d) k).
        { rewrite Forall_forall in IH, F, FC. apply (IH _ I0 L0); auto.
          intros p Sp (x & r & ->). apply (NoPre (d :: p)); [unfold stored in *; rewrite lk_branch; exact Sp|exists x, r; reflexivity]. }
        destruct (child ch d) as [| | | |n u]; try exact Q. intros En. cbn [lk] in E. rewrite En, key_eqb_refl in E. discriminate.
      * cbn [safe_delete]. destruct (strip (nseq n) k) as [k'|] eqn:Es; [|exact I]. apply strip_some in Es. subst k.
        inversion W as [| | |L0 p c0 Hp Wc|]; subst. inversion C as [| | |? ? Hn B Cc|]; subst. rewrite nseq_enc in * by exact Hp.
        apply (IH L0); auto; [rewrite lk_in_ext in E by exact Hp; exact E|].
        intros j Sj Pj. apply (NoPre (p ++ j)); [apply stored_ext; assumption|apply strict_prefix_app, Pj].
Qed.

Lemma inv_get pr U t m k : prefix_free U -> inv U t m -> kwf k -> U (nseq k) -> (forall j, U j -> (length j <= length (nseq k))%nat) ->
  trie_get pr t k = Ok (m (nseq k)).
Proof.
  intros PF I Hk Uk HL. pose proof I as (W & C & H & HU). destruct (kwf_ex k Hk) as (l & El & Es & Hl & Ll). rewrite Es in *. rewrite El.
  assert (SU : forall j, stored t j -> U j) by (intros j Sj; apply HU, (holds_stored t m j H), Sj).
  rewrite (get_long pr t 64 l W (canon_shape _ C) Hl ltac:(lia) ltac:(lia)).
  - rewrite H. destruct (m l); reflexivity.
  - intros j Sj. apply HL, SU, Sj.
  - intros j v E. apply PF; [apply SU; unfold stored; congruence|exact Uk].
Qed.

Lemma inv_op pr U t m o : prefix_free U -> inv U t m -> op_ok U o ->
  exists t', trie_op pr t o = Ok (t', snd (spec_op m o)) /\ inv U t' (fst (spec_op m o)).
Proof.
  intros PF I O. destruct o as [k v|l|k|k]; cbn [op_ok trie_op spec_op fst snd] in *.
  - destruct O as (A & B & D). destruct (inv_insert pr U t m k v PF I A B D) as (t' & -> & I'). cbn [bind]. eauto.
  - destruct (inv_extend pr U l t m PF I O) as (t' & -> & I'). cbn [bind]. eauto.
  - destruct O as (A & B). destruct (inv_delete pr U t m k PF I A B) as (t' & -> & I'). cbn [bind]. eauto.
  - destruct O as (A & B & D). rewrite (inv_get pr U t m k PF I A B D). cbn [bind]. eauto.
Qed.

Lemma inv_ops pr U l : forall t m, prefix_free U -> inv U t m -> Forall (op_ok U) l ->
  exists t', trie_ops pr t l = Ok (t', snd (spec_ops m l)) /\ inv U t' (fst (spec_ops m l)).
Proof.
  induction l as [|o l IH]; intros t m PF I F; cbn [trie_ops spec_ops].
  - eauto.
  - inversion F as [|? ? Fo Fl]; subst. destruct (inv_op pr U t m o PF I Fo) as (t1 & E1 & I1).
    destruct (spec_op m o) as [m1 x]. cbn [fst snd] in *. rewrite E1. cbn [bind].
    destruct (IH t1 m1 PF I1 Fl) as (t2 & E2 & I2). rewrite E2. destruct (spec_ops m1 l). cbn [bind fst snd] in *. eauto.
Qed.

Lemma inv_empty U : inv U Empty kv_empty.
Proof. split; [constructor|]. split; [constructor|]. split; [intros j; reflexivity|]. intros k H. exfalso. apply H. reflexivity. Qed.

(** ** Absent keys *)
Lemma safe_absent t : forall L k, wf L t -> lk t k = None -> safe_delete t k.
Proof.
  induction t as [|h|ch w IH|n c IH|n w] using node_ind'; intros L k W E; try exact I.
  - destruct k as [|d k]; [exact I|]. rewrite safe_branch. rewrite lk_branch in E.
    destruct (child_in ch d) as [E0|I0]; [rewrite E0; exact I|].
    inversion W as [| |L0 ? ? Hl F| |]; subst.
    assert (Q : safe_delete (child ch d) k) by (rewrite Forall_forall in IH, F; apply (IH _ I0 L0); auto).
    destruct (child ch d) as [| | | |n u]; try exact Q. intros En. cbn [lk] in E. rewrite En, key_eqb_refl in E. discriminate.
  - cbn [safe_delete]. destruct (strip (nseq n) k) as [k'|] eqn:Es; [|exact I]. apply strip_some in Es. subst k.
    inversion W as [| | |L0 p c0 Hp Wc|]; subst. rewrite nseq_enc in * by exact Hp.
    apply (IH L0); auto. rewrite lk_in_ext in E by exact Hp. exact E.
Qed.

(** ** Lookups through a hash node *)
Lemma get_hash pr t : forall L p k h, wf L t -> (L <= 127)%nat -> lk t p = Some (HashV h) -> hexl (p ++ k) -> (length (p ++ k) <= 127)%nat ->
  trie_get pr t (enc (p ++ k)) = Ok None.
Proof.
  induction t as [|h0|ch w IH|n c IH|n w] using node_ind'; intros L p k h W HL E Hk Lk.
  - reflexivity.
  - reflexivity.
  - destruct p as [|d p]; [cbn in E; destruct w; discriminate|]. rewrite lk_branch in E. cbn [app] in *.
    inversion W as [| |L0 ? ? Hl F| |]; subst. rewrite get_branch_cons by assumption.
    destruct (child_in ch d) as [E0|I0]; [rewrite E0 in E; discriminate|].
    rewrite Forall_forall in IH, F. cbn [length] in Lk. apply (IH _ I0 L0 _ _ h); auto; [lia|inversion Hk; assumption|lia].
  - inversion W as [| | |L0 q c0 Hq Wc|]; subst.
    destruct (stored_ext_inv q c p Hq ltac:(unfold stored; congruence)) as (p' & -> & _).
    rewrite lk_in_ext in E by exact Hq. rewrite <- app_assoc in *. rewrite get_ext_long by assumption.
    apply hexl_app in Hk. rewrite app_length in Lk. apply (IH L0 _ _ h); auto; [lia|tauto|lia].
  - cbn [lk] in E. destruct (key_eqb _ _); discriminate.
Qed.
