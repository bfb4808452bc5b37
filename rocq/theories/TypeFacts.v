(** Results of the operations are values of the Rust types, if their arguments are. *)
From Verif Require Import Base Nibbles NibblesFacts Trie TrieSpec TrieFacts HashSpec Rlp Hashing Query Diff DiffCache Subset Cache CacheSpec CacheFacts Serde Json JsonSpec TypeSpec.
From Verif Require Import Trie TrieSpec.
Open Scope N_scope.

(** ** Keys *)
Lemma usub_type pr a b c : a < 2 ^ 64 -> b < 2 ^ 64 -> usub pr a b = Ok c -> c < 2 ^ 64.
Proof.
  unfold usub, usize_range. intros A B. destruct (N.leb_spec b a); [let H := fresh "Q" in intros H; injection H as <-; lia|]. destruct pr; [discriminate|]. intros [= <-].
  change (2 ^ 64) with 18446744073709551616 in *. lia.
Qed.
Lemma uadd_type pr a b c : uadd pr a b = Ok c -> c < 2 ^ 64.
Proof.
  unfold uadd. change (2 ^ 64) with usize_range. destruct (N.ltb_spec (a + b) usize_range); [let H := fresh "Q" in intros H; injection H as <-; lia|]. destruct pr; [discriminate|]. intros [= <-].
  apply N.mod_lt. discriminate.
Qed.
Lemma land_type a b : a < 2 ^ 512 -> N.land a b < 2 ^ 512.
Proof. intros H. eapply N.le_lt_trans; [apply land_le_l|exact H]. Qed.
Lemma shr_type a s : a < 2 ^ 512 -> u512_shr a s < 2 ^ 512.
Proof.
  intros H. unfold u512_shr. destruct (_ <=? _); [reflexivity|]. rewrite N.shiftr_div_pow2. eapply N.le_lt_trans; [|exact H].
  apply N.div_le_upper_bound; [apply N.pow_nonzero; discriminate|]. assert (2 ^ s <> 0) by (apply N.pow_nonzero; discriminate). nia.
Qed.
Lemma shl_type a s : u512_shl a s < 2 ^ 512.
Proof.
  unfold u512_shl. destruct (_ <=? _); [reflexivity|]. rewrite N.land_ones. apply N.mod_lt. discriminate.
Qed.
Lemma lor_type a b : a < 2 ^ 512 -> b < 2 ^ 512 -> N.lor a b < 2 ^ 512.
Proof.
  intros A B. rewrite <- (N.mod_small a (2 ^ 512)), <- (N.mod_small b (2 ^ 512)) by assumption.
  rewrite <- !N.land_ones, <- N.land_lor_distr_l, N.land_ones. apply N.mod_lt. discriminate.
Qed.

Ltac okb H := match type of H with bind ?m _ = Ok _ => let E := fresh "E" in destruct m as [?|] eqn:E; cbn [bind] in H; [|discriminate H] end.
Lemma trunc_type pr n k r : key_type n -> truncate_n_nibbles_front pr n k = Ok r -> key_type r.
Proof. unfold truncate_n_nibbles_front. intros [A B] E. repeat okb E. injection E as <-. split; cbn [count packed]; [lia|apply land_type, B]. Qed.
Lemma pop_type pr n x r : key_type n -> pop_next_nibble_front pr n = Ok (x, r) -> key_type r.
Proof. unfold pop_next_nibble_front. intros T E. repeat okb E. injection E as <- <-. eapply trunc_type; [|eassumption]; assumption. Qed.
Lemma merge_type pr a b r : key_type a -> key_type b -> merge_nibbles pr a b = Ok r -> key_type r.
Proof.
  unfold merge_nibbles. intros [A B] [C D] E. okb E. okb E. okb E. injection E as <-. split; cbn [count packed]; [eapply uadd_type; eassumption|].
  apply lor_type; [apply shl_type|exact D].
Qed.
Lemma one_type n r : from_nibble n = Ok r -> key_type r.
Proof.
  unfold from_nibble, assert. destruct (N.leb_spec n 15); cbn [bind]; [|discriminate]. let H := fresh "Q" in intros H; injection H as <-. split; cbn [count packed]; [reflexivity|].
  eapply N.le_lt_trans; [eassumption|reflexivity].
Qed.
Lemma diff_loop_type n : forall i m a b r, find_diff_loop n i m a b = Some r -> r < i + N.of_nat n.
Proof. induction n as [|n IH]; intros i m a b r E; cbn [find_diff_loop] in E; [discriminate|]. destruct (_ =? _); [apply IH in E; lia|]. injection E as <-. lia. Qed.
Lemma find_type pr a b r : key_type a -> find_diff pr a b = Ok r -> r < 2 ^ 64.
Proof.
  unfold find_diff. intros [A _] E. okb E. okb E.
  assert (C : count a0 = N.min (count a) (count b)).
  { unfold get_nibble_range in E0. destruct (usub pr (N.min (count a) (count b)) 0) as [c|] eqn:U; cbn [bind] in E0; [|discriminate]. repeat okb E0. injection E0 as <-. cbn [count].
    unfold usub in U. destruct (N.leb_spec 0 (N.min (count a) (count b))); [|lia]. rewrite N.sub_0_r in U. congruence. }
  unfold find_diff_equal, assert in E. destruct (_ =? _) in E; cbn [bind] in E; [|discriminate].
  destruct (count a0 =? 0); [injection E as <-; lia|]. okb E. destruct (find_diff_loop _ _ _ _ _) eqn:L in E; injection E as <-; [apply diff_loop_type in L; lia|lia].
Qed.
Lemma pre_type pr a b i : key_type a -> key_type b -> get_pre_and_postfixes pr a b = Ok i ->
  key_type (common_prefix i) /\ key_type (existing_postfix i) /\ key_type (new_postfix i).
Proof.
  unfold get_pre_and_postfixes. intros A B E. okb E. pose proof (find_type _ _ _ _ A E0) as X. okb E. destruct a1 as [c e]. okb E. injection E as <-.
  cbn [common_prefix existing_postfix new_postfix]. destruct A as [A1 A2], B as [B1 B2].
  unfold split_at_idx in E1. okb E1. okb E1. okb E1. injection E1 as <- <-. unfold split_at_idx_postfix in E2. okb E2. okb E2. okb E2. injection E2 as <-.
  repeat split; cbn [count packed]; try (eapply usub_type; [| |eassumption]; assumption); try assumption; try apply shr_type; apply land_type; assumption.
Qed.

(** ** Tries without cells *)
Definition children_type (l : list node) : Prop := length l = 16%nat /\ Forall node_type l.
Lemma branch_type ch v : children_type ch -> u8s v -> node_type (Branch ch v).
Proof. intros [L F] V. constructor; [exact L| |exact V]. intros c I. rewrite Forall_forall in F. auto. Qed.
Lemma branch_type_inv ch v : node_type (Branch ch v) -> children_type ch /\ u8s v.
Proof. intros T. inversion T; subst. split; [split; [assumption|apply Forall_forall; assumption]|assumption]. Qed.
Lemma set_length l : forall i c, length (set_child l i c) = length l.
Proof. induction l as [|x l IH]; intros [|i] c; cbn [set_child length]; auto. Qed.
Lemma set_type l i c : children_type l -> node_type c -> children_type (set_child l i c).
Proof.
  intros [L F] C. split; [rewrite set_length; exact L|]. clear L. revert i. induction F as [|x l X F IH]; intros [|i]; cbn [set_child]; constructor; auto.
Qed.
Lemma none_type : children_type new_branch_child_arr.
Proof. split; [reflexivity|]. apply Forall_forall. intros x I. apply repeat_spec in I as ->. constructor. Qed.
Lemma with_type {A} (f : node -> res A) (Q : A -> Prop) l : (forall c r, In c l -> f c = Ok r -> Q r) -> forall i r, with_child f l i = Ok r -> Q r.
Proof.
  induction l as [|c l IH]; intros H i r E; cbn [with_child] in E; [discriminate|]. destruct i; [apply (H c r); [left; reflexivity|exact E]|].
  apply (IH (fun c r I => H c r (or_intror I)) i r E).
Qed.
Lemma u8s_nil : u8s []. Proof. constructor. Qed.
Lemma create_type k v : key_type k -> val_type v -> node_type (create_node_from_insert_val k v).
Proof. intros K V. destruct v; cbn in *; [constructor; assumption|]. destruct (is_empty k); [constructor; exact V|]. constructor; [exact K|constructor; exact V]. Qed.
Lemma entry_type_ok pr i k v x c : key_type k -> val_type v -> ins_entry_into_leaf_and_nibble pr i k v = Ok (x, c) -> node_type c.
Proof. unfold ins_entry_into_leaf_and_nibble. intros K V E. repeat okb E. injection E as <- <-. apply create_type; [eapply trunc_type; [|eassumption]; assumption|exact V]. Qed.
Lemma place_type pr i e k v r : key_type (common_prefix i) -> node_type e -> key_type k -> val_type v -> place_branch pr i e k v = Ok r -> node_type r.
Proof.
  unfold place_branch. intros I T K V E. okb E. injection E as <-.
  assert (B : node_type (match a with BranchValue bv (nib, n) => Branch (set_child new_branch_child_arr (N.to_nat nib) n) bv
     | BothBranchChildren (n1, c1) (n2, c2) => Branch (set_child (set_child new_branch_child_arr (N.to_nat n1) c1) (N.to_nat n2) c2) [] end)).
  { unfold check_placement in E0.
    assert (O : forall p, (if count (new_postfix i) =? 0 then bv <- expect_val v ;; e0 <- get_nibble pr (existing_postfix i) 0 ;; Ok (BranchValue bv (e0, e))
      else e0 <- get_nibble pr (existing_postfix i) 0 ;; c2 <- ins_entry_into_leaf_and_nibble pr i k v ;; Ok (BothBranchChildren (e0, e) c2)) = Ok p ->
      node_type (match p with BranchValue bv (nib, n) => Branch (set_child new_branch_child_arr (N.to_nat nib) n) bv
       | BothBranchChildren (n1, c1) (n2, c2) => Branch (set_child (set_child new_branch_child_arr (N.to_nat n1) c1) (N.to_nat n2) c2) [] end)).
    { intros p H. destruct (_ =? _) in H.
      - okb H. okb H. injection H as <-. apply branch_type; [apply set_type; [apply none_type|exact T]|]. destruct v; [|discriminate]. injection E as <-. exact V.
      - okb H. okb H. destruct a1 as [x c]. injection H as <-. apply branch_type; [|apply u8s_nil]. apply set_type; [apply set_type; [apply none_type|exact T]|].
        eapply entry_type_ok; eassumption. }
    destruct (count (existing_postfix i) =? 0); [|apply O, E0]. destruct e; try (apply O, E0). okb E0. destruct a0 as [x c]. injection E0 as <-.
    inversion T; subst. apply branch_type; [apply set_type; [apply none_type|]|assumption]. eapply entry_type_ok; [exact K|exact V|exact E]. }
  destruct (count (common_prefix i) =? 0); [exact B|constructor; assumption].
Qed.
Lemma insert_type pr t : forall k v r, node_type t -> key_type k -> val_type v -> insert_rec pr t k v = Ok r -> node_type r.
Proof.
  induction t as [|h|ch w IH|n c IH|n w] using node_ind'; intros k v r T K V E; cbn [insert_rec] in E.
  - injection E as <-. apply create_type; assumption.
  - discriminate.
  - apply branch_type_inv in T as [Tc Tw]. destruct (count k =? 0).
    + destruct v; [|discriminate]. injection E as <-. apply branch_type; assumption.
    + okb E. destruct a as [x k']. okb E. injection E as <-. pose proof (pop_type _ _ _ _ K E0) as K'. apply branch_type; [apply set_type; [exact Tc|]|exact Tw].
      revert E1. apply with_type. intros c r I H. destruct Tc as [_ Tc]. rewrite Forall_forall in IH, Tc. eapply IH; eauto.
  - inversion T; subst. okb E. destruct (pre_type _ _ _ _ H1 K E0) as (P1 & P2 & P3). okb E. destruct a0.
    + okb E. okb E. injection E as <-. constructor; [assumption|]. eapply IH; [eassumption| |eassumption|eassumption]. eapply trunc_type; [|eassumption]; assumption.
    + okb E. eapply place_type; [exact P1| |exact K|exact V|exact E]. destruct (_ =? _); [assumption|]. constructor; [|assumption]. eapply trunc_type; [|eassumption]; assumption.
  - inversion T; subst. destruct (nib_eqb n k).
    + destruct v; [|discriminate]. injection E as <-. constructor; assumption.
    + okb E. destruct (pre_type _ _ _ _ H1 K E0) as (P1 & P2 & P3). okb E. okb E. eapply place_type; [exact P1| |exact K|exact V|exact E].
      constructor; [|assumption]. eapply trunc_type; [|eassumption]; assumption.
Qed.
Lemma extend_type pr l : forall t r, node_type t -> Forall entry_type l -> trie_extend pr t l = Ok r -> node_type r.
Proof.
  induction l as [|[k v] l IH]; intros t r T F E; cbn [trie_extend] in E; [congruence|]. inversion F as [|? ? [A B] F']; subst. okb E.
  eapply IH; [|exact F'|exact E]. eapply insert_type; eassumption.
Qed.
Lemma collapse_type pr n c r : key_type n -> node_type c -> collapse_ext_node_if_needed pr n c = Ok r -> node_type r.
Proof.
  intros K T E. destruct c as [|h|ch v|m c|m v]; cbn [collapse_ext_node_if_needed] in E.
  - discriminate.
  - injection E as <-. constructor; assumption.
  - injection E as <-. constructor; assumption.
  - okb E. injection E as <-. inversion T; subst. constructor; [|assumption]. eapply merge_type; [| |eassumption]; assumption.
  - okb E. injection E as <-. inversion T; subst. constructor; [|assumption]. eapply merge_type; [| |eassumption]; assumption.
Qed.
Lemma try_type pr t r : node_type t -> try_collapse_if_extension pr t = Ok r -> node_type r.
Proof. intros T E. destruct t; cbn [try_collapse_if_extension] in E; try (injection E as <-; exact T). inversion T; subst. eapply collapse_type; [| |eassumption]; assumption. Qed.
Lemma other_type l : forall i j r, get_other_non_empty_child i l j = Some r -> In (snd r) l.
Proof.
  induction l as [|c l IH]; intros i j r E; cbn [get_other_non_empty_child] in E; [discriminate|]. destruct (_ && _); [injection E as <-; left; reflexivity|]. right. eapply IH, E.
Qed.
Lemma delete_type pr t : forall k r d, node_type t -> key_type k -> delete_intern pr t k = Ok (Some (r, d)) -> node_type r.
Proof.
  induction t as [|h|ch w IH|n c IH|n w] using node_ind'; intros k r d T K E; cbn [delete_intern] in E; try discriminate.
  - apply branch_type_inv in T as [Tc Tw]. destruct (is_empty k).
    + injection E as <- <-. apply branch_type; [exact Tc|apply u8s_nil].
    + okb E. destruct a as [x k']. pose proof (pop_type _ _ _ _ K E0) as K'. okb E. destruct a as [[c' del]|]; [|discriminate].
      assert (T' : node_type c').
      { refine (with_type _ (fun r => match r with Some (u, _) => node_type u | None => True end) ch _ _ _ E1). intros c [[u z]|] I H; [|exact Logic.I].
        destruct Tc as [_ Tc]. rewrite Forall_forall in IH, Tc. eapply IH; eauto. }
      destruct (_ && _).
      * destruct (get_other_non_empty_child _ _ _) as [[i c]|] eqn:O; [|discriminate]. okb E. injection E as <- <-. constructor; [eapply one_type; eassumption|].
        apply other_type in O. destruct Tc as [_ Tc]. rewrite Forall_forall in Tc. apply Tc, O.
      * okb E. injection E as <- <-. apply branch_type; [apply set_type; [exact Tc|eapply try_type; eassumption]|exact Tw].
  - inversion T; subst. okb E. destruct a; [|discriminate]. okb E. okb E. destruct a0 as [[c' del]|]; [|discriminate]. okb E. injection E as <- <-.
    eapply collapse_type; [|  |eassumption]; [assumption|]. eapply IH; [eassumption| |eassumption]. eapply trunc_type; [|eassumption]; assumption.
  - destruct (nib_eqb n k); [|discriminate]. injection E as <- <-. constructor.
Qed.
Lemma trie_delete_type pr t k r d : node_type t -> key_type k -> trie_delete pr t k = Ok (r, d) -> node_type r.
Proof.
  unfold trie_delete. intros T K E. okb E. destruct a as [[u z]|]; [|injection E as <- <-; exact T]. okb E. injection E as <- <-.
  eapply try_type; [|eassumption]. eapply delete_type; eassumption.
Qed.
