(** Bounds for the number and the depth of nodes. *)
From Verif Require Import Base Nibbles NibblesSpec NibblesFacts NibblesFacts2 Trie TrieSpec TrieFacts TrieInsert TrieGet TrieDelete TrieUnique TrieHist TrieObs TrieIter Stats StatsSpec StatsFacts.
Open Scope N_scope.

Definition c_of (p : N * node -> bool) (t : node) : nat := length (filter p (subnodes 0 t)).
Definition any_depth (p : N * node -> bool) : Prop := forall a b x, p (a, x) = p (b, x).

Lemma c_branch p ch w : any_depth p ->
  c_of p (Branch ch w) = ((if p (0%N, Branch ch w) then 1 else 0) + list_sum (map (c_of p) ch))%nat.
Proof.
  intros D. unfold c_of. cbn [subnodes filter].
  assert (G : length (filter p (flat_map (subnodes (0 + 1)) ch)) = list_sum (map (fun t => length (filter p (subnodes 0 t))) ch)).
  { induction ch as [|c ch IH]; [reflexivity|]. cbn [flat_map map list_sum fold_right]. rewrite filter_app, app_length, IH, filter_shift by exact D. reflexivity. }
  destruct (p (0, Branch ch w)); cbn [length]; rewrite G; reflexivity.
Qed.
Lemma c_ext p n c : any_depth p -> c_of p (Extension n c) = ((if p (0%N, Extension n c) then 1 else 0) + c_of p c)%nat.
Proof.
  intros D. unfold c_of. cbn [subnodes filter]. destruct (p (0, Extension n c)); cbn [length]; rewrite filter_shift by exact D; reflexivity.
Qed.

Definition n_entries (t : node) : nat := (c_of is_leaf_node t + c_of is_hash_node t + c_of is_valued_branch t)%nat.

Lemma sum_le {A} (f g : A -> nat) l : (forall x, In x l -> (f x <= g x)%nat) -> (list_sum (map f l) <= list_sum (map g l))%nat.
Proof.
  induction l as [|x l IH]; intros H; [cbn; lia|]. cbn [map list_sum fold_right]. change (fold_right Nat.add 0%nat) with list_sum.
  pose proof (H x (or_introl eq_refl)). specialize (IH (fun y I => H y (or_intror I))). lia.
Qed.
Lemma sum_plus {A} (f g : A -> nat) l : list_sum (map (fun x => (f x + g x)%nat) l) = (list_sum (map f l) + list_sum (map g l))%nat.
Proof. induction l as [|x l IH]; [reflexivity|]. cbn [map list_sum fold_right]. change (fold_right Nat.add 0%nat) with list_sum. rewrite IH. lia. Qed.
Lemma occ_sum ch : occ ch = list_sum (map (fun c => match c with Empty => 0%nat | _ => 1%nat end) ch).
Proof. unfold occ. induction ch as [|c ch IH]; [reflexivity|]. cbn [filter map list_sum fold_right]. destruct c; cbn [length]; rewrite IH; reflexivity. Qed.

(** Every branch of a canonical trie adds an entry. *)
Lemma branches_entries t : canon t -> (c_of is_branch_node t + match t with Empty => 0 | _ => 1 end <= n_entries t)%nat.
Proof.
  induction t as [|h|ch w IH|n c IH|n w] using node_ind'; intros C; try (cbn; lia).
  - inversion C as [| |? ? FC O| |]; subst. rewrite occupied_occ, occ_sum in O. unfold n_entries.
    rewrite !c_branch by (intros a b x; reflexivity). cbn [is_branch_node is_leaf_node is_hash_node is_valued_branch snd].
    assert (S : (list_sum (map (fun c => c_of is_branch_node c + match c with Empty => 0 | _ => 1 end) ch) <= list_sum (map n_entries ch))%nat).
    { apply sum_le. intros c I. rewrite Forall_forall in IH, FC. apply IH; auto. }
    unfold n_entries in S. rewrite !sum_plus in S. destruct w; lia.
  - inversion C as [| | |? ? Hn B Cc|]; subst. specialize (IH Cc). unfold n_entries in *. rewrite !c_ext by (intros a b x; reflexivity).
    cbn [is_branch_node is_leaf_node is_hash_node is_valued_branch snd]. destruct c; cbn in B; try contradiction; lia.
Qed.

(** Every extension node is above a branch or a hash node. *)
Lemma extensions_below t : shape t -> (c_of is_extension_node t + match t with Branch _ _ | Hash _ => 1 | _ => 0 end <= c_of is_branch_node t + c_of is_hash_node t)%nat.
Proof.
  induction t as [|h|ch w IH|n c IH|n w] using node_ind'; intros C; try (cbn; lia).
  - inversion C as [| |? ? FC O| |]; subst.
    rewrite !c_branch by (intros a b x; reflexivity). cbn [is_branch_node is_extension_node is_hash_node snd].
    assert (S : (list_sum (map (c_of is_extension_node) ch) <= list_sum (map (fun c => (c_of is_branch_node c + c_of is_hash_node c)%nat) ch))%nat).
    { apply sum_le. intros c I. rewrite Forall_forall in IH, FC. specialize (IH c I (FC c I)). lia. }
    rewrite sum_plus in S. lia.
  - inversion C as [| | |? ? Hn B Cc|]; subst. specialize (IH Cc). rewrite !c_ext by (intros a b x; reflexivity).
    cbn [is_branch_node is_extension_node is_hash_node snd]. destruct c; cbn in B; try contradiction; lia.
Qed.

(** A node at some depth is on the way to a stored key of at least that length. *)
Lemma depth_stored t : forall L x, wf L t -> shape t -> t <> Empty -> In x (subnodes 0 t) -> exists j, stored t j /\ (N.to_nat (fst x) <= length j)%nat.
Proof.
  induction t as [|h|ch w IH|n c IH|n w] using node_ind'; intros L x W Sh NE I.
  - congruence.
  - destruct I as [<-|[]]. exists []. split; [unfold stored; cbn; discriminate|cbn; lia].
  - inversion W as [| |L0 ? ? Hl F| |]; subst. inversion Sh as [| |? ? FS (c0 & I0 & N0)| |]; subst.
    assert (Below : forall c, In c ch -> exists d, child ch d = c) by (intros c Ic; destruct (in_child_ex _ _ Ic) as (d & _ & E); eauto).
    rewrite Forall_forall in IH, F, FS.
    assert (One : exists d j, stored (Branch ch w) (d :: j)).
    { destruct (Below c0 I0) as (d & E). destruct (shape_stored c0 (FS c0 I0) N0) as (j & Sj). exists d, j. apply stored_branch. rewrite E. exact Sj. }
    cbn [subnodes In] in I. destruct I as [<-|I].
    + destruct One as (d & j & Sj). exists (d :: j). split; [exact Sj|cbn; lia].
    + apply in_flat_map in I. destruct I as (c & Ic & Ix). rewrite subnodes_shift in Ix. apply in_map_iff in Ix. destruct Ix as (y & <- & Iy). cbn [fst].
      destruct (node_is_empty c) eqn:Ec.
      * destruct c; try discriminate. cbn in Iy. destruct Iy as [<-|[]]. destruct One as (d & j & Sj). exists (d :: j). split; [exact Sj|cbn; lia].
      * assert (NEc : c <> Empty) by (intros ->; discriminate). destruct (IH c Ic L0 y (F c Ic) (FS c Ic) NEc Iy) as (j & Sj & Lj).
        destruct (Below c Ic) as (d & E). exists (d :: j). split; [apply stored_branch; rewrite E; exact Sj|cbn [length]; lia].
  - inversion W as [| | |L0 p c0 Hp Wc|]; subst. inversion Sh as [| | |? ? Hn B Sc|]; subst. rewrite nseq_enc in Hn by exact Hp.
    assert (NEc : c <> Empty) by (intros ->; exact B).
    cbn [subnodes In] in I. destruct I as [<-|I].
    + destruct (shape_stored _ Sh NE) as (j & Sj). exists j. split; [exact Sj|cbn; lia].
    + rewrite subnodes_shift in I. apply in_map_iff in I. destruct I as (y & <- & Iy). cbn [fst].
      destruct (IH L0 y Wc Sc NEc Iy) as (j & Sj & Lj). exists (p ++ j). split; [apply stored_in_ext; assumption|].
      rewrite app_length. destruct p; [congruence|]. cbn [length]. lia.
  - destruct I as [<-|[]]. destruct (shape_stored _ Sh NE) as (j & Sj). exists j. split; [exact Sj|cbn; lia].
Qed.
