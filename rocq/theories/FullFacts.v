(** In every trie that the operations make, whatever the keys, branches have 16 children. *)
From Verif Require Import Base Nibbles Trie TrieFacts Rlp Hashing Query Diff Serde DiffCache Subset SubsetFacts Cache CacheSpec CacheFacts ReloadFacts CacheFacts2 CacheFacts3.
Open Scope N_scope.

Notation is_full t := (full t = true).
Lemma full_branch ch v : is_full (Branch ch v) <-> length ch = 16%nat /\ Forall (fun c => is_full c) ch.
Proof. cbn [full]. unfold sixteen. rewrite andb_true_iff, Nat.eqb_eq, forallb_forall, Forall_forall. tauto. Qed.
Lemma set_child_len ch : forall i c, length (set_child ch i c) = length ch.
Proof. induction ch as [|x ch IH]; intros [|i] c; cbn [set_child length]; auto. Qed.
Lemma set_child_forall (P : node -> Prop) ch c : P c -> Forall P ch -> forall i, Forall P (set_child ch i c).
Proof. intros Pc F. induction F as [|x ch Hx F IH]; intros [|i]; cbn [set_child]; auto. Qed.
Lemma full_set ch i c v : length ch = 16%nat -> Forall (fun c => is_full c) ch -> is_full c -> is_full (Branch (set_child ch i c) v).
Proof. intros L F C. apply full_branch. rewrite set_child_len. split; [exact L|]. apply set_child_forall; assumption. Qed.
Lemma new_full : length new_branch_child_arr = 16%nat /\ Forall (fun c => is_full c) new_branch_child_arr.
Proof. split; [reflexivity|repeat constructor]. Qed.
Lemma with_child_in {A} (f : node -> res A) ch : forall i x, with_child f ch i = Ok x -> exists c, In c ch /\ f c = Ok x.
Proof.
  induction ch as [|c ch IH]; intros [|i] x E; cbn [with_child] in E; try discriminate; [exists c; split; [left; reflexivity|exact E]|].
  destruct (IH i x E) as (d & I & Ed). exists d. split; [right; exact I|exact Ed].
Qed.

Section Full.
Variable keccak : list N -> list N.
Variable pr : profile.

Lemma full_create k v : is_full (create_node_from_insert_val k v).
Proof. destruct v; cbn [create_node_from_insert_val]; [reflexivity|]. destruct (is_empty k); reflexivity. Qed.
Lemma full_ins_entry info k v i c : ins_entry_into_leaf_and_nibble pr info k v = Ok (i, c) -> is_full c.
Proof. unfold ins_entry_into_leaf_and_nibble. intros E. okbind E. okbind E. okbind E. injection E as _ <-. apply full_create. Qed.
Lemma full_place info e k v x : is_full e -> place_branch pr info e k v = Ok x -> is_full x.
Proof.
  unfold place_branch. intros Fe E. okbind E. injection E as <-.
  assert (G : is_full (match a with
      | BranchValue bv (nib, n) => Branch (set_child new_branch_child_arr (N.to_nat nib) n) bv
      | BothBranchChildren (n1, c1) (n2, c2) => Branch (set_child (set_child new_branch_child_arr (N.to_nat n1) c1) (N.to_nat n2) c2) []
      end)).
  { destruct new_full as [L F]. unfold check_placement in E0.
    assert (O : (if count (new_postfix info) =? 0 then
                 bv <- expect_val v ;; e0 <- get_nibble pr (existing_postfix info) 0 ;; Ok (BranchValue bv (e0, e))
               else e0 <- get_nibble pr (existing_postfix info) 0 ;;
                    c2 <- ins_entry_into_leaf_and_nibble pr info k v ;; Ok (BothBranchChildren (e0, e) c2)) = Ok a ->
              is_full (match a with
      | BranchValue bv (nib, n) => Branch (set_child new_branch_child_arr (N.to_nat nib) n) bv
      | BothBranchChildren (n1, c1) (n2, c2) => Branch (set_child (set_child new_branch_child_arr (N.to_nat n1) c1) (N.to_nat n2) c2) []
      end)).
    { intros E. destruct (count (new_postfix info) =? 0).
      - okbind E. okbind E. injection E as <-. apply full_set; assumption.
      - okbind E. okbind E. destruct a1 as [n2 c2]. injection E as <-. apply full_set; [rewrite set_child_len; exact L| |eapply full_ins_entry; eassumption].
        apply set_child_forall; assumption. }
    destruct (count (existing_postfix info) =? 0); [|apply O, E0]. destruct e; try (apply O, E0).
    okbind E0. destruct a0 as [i c]. injection E0 as <-. apply full_set; [exact L|exact F|]. eapply full_ins_entry; eassumption. }
  destruct (count (common_prefix info) =? 0); exact G.
Qed.

Lemma full_insert t : forall k v x, is_full t -> insert_rec pr t k v = Ok x -> is_full x.
Proof.
  induction t as [|h|ch w IH|n c IH|n w] using node_ind'; intros k v x F E; cbn [insert_rec] in E.
  - injection E as <-. apply full_create.
  - discriminate.
  - apply full_branch in F. destruct F as [L F]. destruct (count k =? 0).
    + destruct v; [|discriminate]. injection E as <-. apply full_branch. auto.
    + okbind E. destruct a as [nib k']. okbind E. injection E as <-. apply with_child_in in E1. destruct E1 as (c & I & Ec).
      apply full_set; [exact L|exact F|]. rewrite Forall_forall in IH, F. eapply IH; eauto.
  - okbind E. okbind E. destruct a0.
    + okbind E. okbind E. injection E as <-. cbn [full] in *. eapply IH; eauto.
    + okbind E. eapply full_place; [|exact E]. destruct (count a0 =? 0); exact F.
  - destruct (nib_eqb n k).
    + destruct v; [|discriminate]. injection E as <-. reflexivity.
    + okbind E. okbind E. okbind E. eapply full_place; [|exact E]. reflexivity.
Qed.
Lemma full_extend l : forall t x, is_full t -> trie_extend pr t l = Ok x -> is_full x.
Proof.
  induction l as [|[k v] l IH]; intros t x F E; cbn [trie_extend] in E; [congruence|]. okbind E.
  eapply IH; [|exact E]. eapply full_insert; eassumption.
Qed.

Lemma full_collapse n c x : is_full c -> collapse_ext_node_if_needed pr n c = Ok x -> is_full x.
Proof.
  intros F E. destruct c; cbn [collapse_ext_node_if_needed] in E; try discriminate; try (injection E as <-; exact F);
    okbind E; injection E as <-; [exact F|reflexivity].
Qed.
Lemma full_try_collapse t x : is_full t -> try_collapse_if_extension pr t = Ok x -> is_full x.
Proof.
  intros F E. destruct t; cbn [try_collapse_if_extension] in E; try (injection E as <-; exact F). eapply full_collapse; [|exact E]. exact F.
Qed.
Lemma other_in ch our : forall i j c, get_other_non_empty_child i ch our = Some (j, c) -> In c ch.
Proof.
  induction ch as [|c ch IH]; intros i j d E; cbn [get_other_non_empty_child] in E; [discriminate|].
  destruct (negb _ && negb _); [injection E as <- <-; left; reflexivity|right; eapply IH; eauto].
Qed.
Lemma full_delete_intern t : forall k x d, is_full t -> delete_intern pr t k = Ok (Some (x, d)) -> is_full x.
Proof.
  induction t as [|h|ch w IH|n c IH|n w] using node_ind'; intros k x d F E; cbn [delete_intern] in E; try discriminate.
  - apply full_branch in F. destruct F as [L F]. destruct (is_empty k).
    + injection E as <- <-. apply full_branch. auto.
    + okbind E. destruct a as [nib k']. okbind E. destruct a as [[c' d']|]; [|discriminate].
      apply with_child_in in E1. destruct E1 as (c & I & Ec). pose proof F as F'. rewrite Forall_forall in IH, F'.
      assert (C' : is_full c') by (eapply IH; eauto).
      destruct (node_is_empty c' && _).
      * destruct (get_other_non_empty_child 0 ch (N.to_nat nib)) as [[i c2]|] eqn:Eo; [|discriminate]. okbind E. injection E as <- <-.
        cbn [full]. apply F'. eapply other_in, Eo.
      * okbind E. injection E as <- <-. apply full_set; [exact L|exact F|]. eapply full_try_collapse; eassumption.
  - okbind E. destruct a; [|discriminate]. okbind E. okbind E. destruct a0 as [[c' d']|]; [|discriminate]. okbind E. injection E as <- <-.
    eapply full_collapse; [|eassumption]. eapply IH; eauto.
  - destruct (nib_eqb n k); [|discriminate]. injection E as <- <-. reflexivity.
Qed.
Lemma full_delete t k x d : is_full t -> trie_delete pr t k = Ok (x, d) -> is_full x.
Proof.
  intros F E. unfold trie_delete in E. okbind E. destruct a as [[y d']|].
  - okbind E. injection E as <- <-. eapply full_try_collapse; [|eassumption]. eapply full_delete_intern; eassumption.
  - injection E as <- <-. exact F.
Qed.

Lemma full_subtrie path : forall t x, is_full t -> subtrie t path = Ok x -> is_full x.
Proof.
  induction path as [|d path IH]; intros t x F E; [injection E as <-; exact F|]. destruct t; cbn [subtrie] in E; try discriminate.
  - okbind E. apply full_branch in F. destruct F as [_ F]. unfold the in E0. destruct (nth_error children d) as [c|] eqn:Ec; [|discriminate].
    injection E0 as <-. rewrite Forall_forall in F. eapply IH; [|exact E]. apply F. eapply nth_error_In, Ec.
  - eapply IH; [|exact E]. exact F.
Qed.

Lemma full_from_tracked t : forall tr x, tracks tr t -> is_full t -> create_from_tracked keccak pr tr = Ok x -> is_full x.
Proof.
  induction t as [|h|ch w IH|n c IH|n w] using node_ind'; intros tr x T F E; rewrite (create_eq' keccak pr) in E;
    assert (KP : forall x, keep_of keccak pr tr = Ok x -> is_full x);
    try (destruct (touched tr); [apply KP, E|]; okbind E; match goal with a : encoded_node |- _ => destruct a end; [apply KP, E|injection E as <-; reflexivity]);
    clear x E; intros x E; inversion T; subst; cbn [keep_of get_branch_value_expected get_nibbles_expected] in E.
  - injection E as <-. reflexivity.
  - injection E as <-. reflexivity.
  - okbind E. injection E as <-. apply full_branch. apply full_branch in F. destruct F as [L F].
    match goal with H : Forall2 tracks ?l ch |- _ => rename H into F2; rename l into trs end.
    assert (S : forall trs ch ns, Forall2 tracks trs ch -> Forall (fun c => is_full c) ch ->
       Forall (fun t => forall tr x, tracks tr t -> is_full t -> create_from_tracked keccak pr tr = Ok x -> is_full x) ch ->
       create_all keccak pr trs = Ok ns -> length ns = length ch /\ Forall (fun c => is_full c) ns).
    { clear. intros trs ch ns F2. revert ns. induction F2 as [|tr t trs ch T F2 IHF]; intros ns F IH E; cbn [create_all] in E.
      - injection E as <-. split; [reflexivity|constructor].
      - okbind E. okbind E. injection E as <-. inversion F; subst. inversion IH; subst. destruct (IHF a0) as [A B]; auto.
        split; [cbn [length]; congruence|]. constructor; [eauto|exact B]. }
    destruct (S trs ch a F2 F IH E0) as [A B]. split; [congruence|exact B].
  - cbn [bind] in E. okbind E. injection E as <-. cbn [full] in *. eapply IH; eauto.
  - cbn in E. injection E as <-. reflexivity.
Qed.
Lemma full_subset_intern t tr ks x tr' : tracks tr t -> is_full t -> create_trie_subset_intern keccak pr tr ks = Ok (ROk (x, tr')) ->
  is_full x /\ tracks tr' t.
Proof.
  intros T F E. unfold create_trie_subset_intern in E. okbind E. destruct a as [tr1|e]; [|discriminate]. okbind E. injection E as <- <-.
  assert (T' : tracks tr1 t) by (eapply mark_all_tracks; eassumption). split; [|exact T']. eapply full_from_tracked; eassumption.
Qed.
Lemma full_subsets_from t kss : forall tr xs, tracks tr t -> is_full t -> create_subsets_from keccak pr tr kss = Ok (ROk xs) -> Forall (fun x => is_full x) xs.
Proof.
  induction kss as [|ks kss IH]; intros tr xs T F E; cbn [create_subsets_from] in E; [injection E as <-; constructor|].
  okbind E. destruct a as [[x tr']|e]; [|discriminate]. okbind E. destruct a as [ys|e]; [|discriminate]. injection E as <-.
  destruct (full_subset_intern t tr ks x tr' T F E0) as [Fx T']. constructor; [exact Fx|]. eapply IH; [apply reset_tracks, T'|exact F|eassumption].
Qed.

Lemma full_step ts o ts' x : Forall (fun t => is_full t) ts -> vstep keccak pr ts o = Ok (ts', x) -> Forall (fun t => is_full t) ts'.
Proof.
  intros F E. assert (G : forall i t, the ts i = Ok t -> is_full t).
  { intros i t Et. unfold the in Et. destruct (nth_error ts i) eqn:En; [|discriminate]. injection Et as <-. rewrite Forall_forall in F.
    eapply F, nth_error_In, En. }
  assert (RP : forall i t, is_full t -> Forall (fun t => is_full t) (replace ts i t)).
  { intros i t Ft. clear - F Ft. revert i. induction F as [|u ts Hu F IH]; intros [|i]; cbn [replace]; auto. }
  assert (AP : forall t, is_full t -> Forall (fun t => is_full t) (ts ++ [t])).
  { intros t Ft. apply Forall_app. auto. }
  destruct o as [l|i k v|i l|i k|i k|i|i j|i|i path|i j|i ks|i kss|i|i j|p]; cbn [vstep] in E.
  - okbind E. injection E as <- <-. apply AP. eapply full_extend; [|eassumption]. reflexivity.
  - okbind E. okbind E. injection E as <- <-. apply RP. eapply full_insert; [|eassumption]. eauto.
  - okbind E. okbind E. injection E as <- <-. apply RP. eapply full_extend; [|eassumption]. eauto.
  - okbind E. okbind E. destruct a0 as [y d]. injection E as <- <-. apply RP. eapply full_delete; [|eassumption]. eauto.
  - okbind E. okbind E. injection E as <- <-. exact F.
  - okbind E. okbind E. injection E as <- <-. exact F.
  - okbind E. okbind E. injection E as <- <-. exact F.
  - okbind E. injection E as <- <-. eauto.
  - okbind E. okbind E. injection E as <- <-. apply AP. eapply full_subtrie; [|eassumption]. eauto.
  - okbind E. okbind E. injection E as <- <-. eauto.
  - okbind E. okbind E. destruct a0 as [y|e]; injection E as <- <-; [|exact F]. apply AP.
    unfold create_trie_subset in E1. okbind E1. destruct a0 as [[y' tr']|e]; [|discriminate]. injection E1 as <-.
    eapply (full_subset_intern a (track a)); [apply track_tracks|eauto|eassumption].
  - okbind E. okbind E. destruct a0 as [ys|e]; injection E as <- <-; [|exact F]. apply Forall_app. split; [exact F|].
    eapply (full_subsets_from a); [apply track_tracks|eauto|eassumption].
  - okbind E. okbind E. injection E as <- <-. apply AP. rewrite reload_eq in E1. destruct (full a) eqn:Fa; [|discriminate]. congruence.
  - okbind E. okbind E. okbind E. injection E as <- <-. exact F.
  - okbind E. injection E as <- <-. apply AP. destruct p as [|h|k v|k i|is v]; cbn [vmake] in E0; try (injection E0 as <-; reflexivity).
    + okbind E0. injection E0 as <-. cbn [full]. eauto.
    + destruct (Nat.eqb_spec (length is) 16) as [Li|]; [|discriminate]. okbind E0. injection E0 as <-. apply full_branch. rewrite <- Li.
      clear - G E. revert a0 E. induction is as [|i is IH]; intros l E; cbn [pick] in E; [injection E as <-; auto|].
      okbind E. okbind E. injection E as <-. destruct (IH _ eq_refl). cbn [length]. split; [congruence|]. constructor; eauto.
Qed.
Lemma full_run os : forall ts ts' xs, Forall (fun t => is_full t) ts -> vrun keccak pr ts os = Ok (ts', xs) -> Forall (fun t => is_full t) ts'.
Proof.
  induction os as [|o os IH]; intros ts ts' xs F E; cbn [vrun] in E; [injection E as <- <-; exact F|].
  okbind E. destruct a as [ts1 x]. okbind E. destruct a as [ts2 ys]. injection E as <- <-. eapply IH; [|eassumption]. eapply full_step; eassumption.
Qed.
End Full.
