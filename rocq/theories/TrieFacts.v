(** Basic facts about tries: contents, invariants and the equations of the operations on encoded keys. *)
From Verif Require Import Base Nibbles NibblesSpec NibblesFacts NibblesFacts2 NibblesFacts3 Trie TrieSpec.
Open Scope N_scope.

(** ** Induction on tries *)
Section node_ind.
  Context (P : node -> Prop).
  Context (HE : P Empty) (HH : forall h, P (Hash h))
          (HB : forall ch v, Forall P ch -> P (Branch ch v))
          (HX : forall n c, P c -> P (Extension n c))
          (HL : forall n v, P (Leaf n v)).
  Fixpoint node_ind' (t : node) : P t :=
    match t with
    | Empty => HE
    | Hash h => HH h
    | Branch ch v =>
        HB ch v ((fix go l : Forall P l := match l with [] => Forall_nil P | c :: l' => Forall_cons c (node_ind' c) (go l') end) ch)
    | Extension n c => HX n c (node_ind' c)
    | Leaf n v => HL n v
    end.
End node_ind.

(** ** Lists *)
Lemma strip_app p k : strip p (p ++ k) = Some k.
Proof. induction p as [|x p IH]; cbn [strip app]; [reflexivity|]. rewrite N.eqb_refl. exact IH. Qed.

Lemma strip_some p k k' : strip p k = Some k' <-> k = p ++ k'.
Proof.
  split; [|intros ->; apply strip_app].
  revert k. induction p as [|x p IH]; intros k E; cbn [strip app] in *; [congruence|].
  destruct k as [|y k]; [discriminate|]. destruct (N.eqb_spec x y); [|discriminate]. subst. f_equal. apply IH, E.
Qed.

Lemma strip_none p k : strip p k = None <-> ~ is_prefix p k.
Proof.
  split.
  - intros E [c ->]. rewrite strip_app in E. discriminate.
  - intros H. destruct (strip p k) as [k'|] eqn:E; [|reflexivity].
    exfalso. apply H. exists k'. apply strip_some, E.
Qed.

Lemma key_eqb_spec a b : reflect (a = b) (key_eqb a b).
Proof.
  revert b. induction a as [|x a IH]; intros [|y b]; cbn [key_eqb]; try (constructor; congruence).
  destruct (N.eqb_spec x y); cbn [andb].
  - destruct (IH b); constructor; congruence.
  - constructor. congruence.
Qed.

Lemma key_eqb_refl a : key_eqb a a = true.
Proof. destruct (key_eqb_spec a a); congruence. Qed.

Lemma key_eqb_neq a b : a <> b -> key_eqb a b = false.
Proof. destruct (key_eqb_spec a b); congruence. Qed.

(** The four ways two sequences compare. *)
Inductive cmp (a b : list N) : Prop :=
| cmp_eq : a = b -> cmp a b
| cmp_lt x c : b = a ++ x :: c -> cmp a b
| cmp_gt x c : a = b ++ x :: c -> cmp a b
| cmp_div p x a' y b' : a = p ++ x :: a' -> b = p ++ y :: b' -> x <> y -> cmp a b.

Lemma compare_keys a b : cmp a b.
Proof.
  destruct (lcp_decomp a b) as (p & a' & b' & -> & -> & _ & H).
  destruct a' as [|x a']; destruct b' as [|y b'].
  - apply cmp_eq. reflexivity.
  - apply cmp_lt with y b'. rewrite app_nil_r. reflexivity.
  - apply cmp_gt with x a'. rewrite app_nil_r. reflexivity.
  - eapply cmp_div; [reflexivity|reflexivity|exact H].
Qed.

Lemma lcp_div p x a y b : x <> y -> lcp (p ++ x :: a) (p ++ y :: b) = length p.
Proof. intros H. rewrite lcp_app. cbn [lcp]. destruct (N.eqb_spec x y); [congruence|]. lia. Qed.

Lemma skipn_exact {A} (p t : list A) : skipn (length p) (p ++ t) = t.
Proof. rewrite skipn_app, skipn_all, Nat.sub_diag. reflexivity. Qed.

Lemma skipn_S_exact {A} (p : list A) x t : skipn (S (length p)) (p ++ x :: t) = t.
Proof.
  replace (p ++ x :: t) with ((p ++ [x]) ++ t) by (rewrite <- app_assoc; reflexivity).
  replace (S (length p)) with (length (p ++ [x])) by (rewrite app_length; cbn [length]; lia). apply skipn_exact.
Qed.

Lemma strip_strict p x c : strip (p ++ x :: c) p = None.
Proof. apply strip_none. intros [d E]. apply (f_equal (@length N)) in E. rewrite !app_length in E. cbn [length] in E. lia. Qed.

Lemma strip_div p x a y b : x <> y -> strip (p ++ x :: a) (p ++ y :: b) = None.
Proof.
  intros H. induction p as [|z p IH]; cbn [app strip].
  - destruct (N.eqb_spec x y); congruence.
  - rewrite N.eqb_refl. exact IH.
Qed.

(** ** Children *)
Definition child (ch : list node) (d : N) : node := nth (N.to_nat d) ch Empty.

Lemma at_child_nth {A} (f : node -> A) d ch i : at_child f d ch i = match nth_error ch i with Some c => f c | None => d end.
Proof. revert i. induction ch as [|c ch IH]; intros [|i]; cbn [at_child nth_error]; try reflexivity. apply IH. Qed.

Lemma with_child_nth {A} (f : node -> res A) ch i :
  with_child f ch i = match nth_error ch i with Some c => f c | None => Panic end.
Proof. revert i. induction ch as [|c ch IH]; intros [|i]; cbn [with_child nth_error]; try reflexivity. apply IH. Qed.

Lemma nth_error_child ch d : length ch = 16%nat -> d < 16 -> nth_error ch (N.to_nat d) = Some (child ch d).
Proof. intros L H. apply nth_error_nth'. lia. Qed.

Lemma with_child_ok {A} (f : node -> res A) ch d :
  length ch = 16%nat -> d < 16 -> with_child f ch (N.to_nat d) = f (child ch d).
Proof. intros L H. rewrite with_child_nth, nth_error_child by assumption. reflexivity. Qed.

Lemma lk_branch ch v d k : lk (Branch ch v) (d :: k) = lk (child ch d) k.
Proof.
  cbn [lk]. rewrite at_child_nth. unfold child.
  destruct (nth_error ch (N.to_nat d)) as [c|] eqn:E.
  - rewrite (nth_error_nth _ _ Empty E). reflexivity.
  - apply nth_error_None in E. rewrite nth_overflow by exact E. reflexivity.
Qed.

Lemma set_child_length ch i c : length (set_child ch i c) = length ch.
Proof. revert i. induction ch as [|x ch IH]; intros [|i]; cbn [set_child length]; try reflexivity. rewrite IH. reflexivity. Qed.

Lemma nth_set_child ch i c j : (i < length ch)%nat ->
  nth j (set_child ch i c) Empty = if Nat.eqb j i then c else nth j ch Empty.
Proof.
  revert i j. induction ch as [|x ch IH]; intros i j L; cbn [length] in L; [lia|].
  destruct i as [|i]; destruct j as [|j]; cbn [set_child nth Nat.eqb]; try reflexivity. apply IH. lia.
Qed.

Lemma child_set ch d c e : length ch = 16%nat -> d < 16 ->
  child (set_child ch (N.to_nat d) c) e = if e =? d then c else child ch e.
Proof.
  intros L H. unfold child. rewrite nth_set_child by lia.
  destruct (Nat.eqb_spec (N.to_nat e) (N.to_nat d)); destruct (N.eqb_spec e d); reflexivity || lia.
Qed.

Lemma child_new d : child new_branch_child_arr d = Empty.
Proof.
  unfold child, new_branch_child_arr. destruct (le_lt_dec 16 (N.to_nat d)).
  - apply nth_overflow. rewrite repeat_length. lia.
  - apply nth_repeat.
Qed.

Lemma Forall_child (P : node -> Prop) ch d : P Empty -> Forall P ch -> P (child ch d).
Proof.
  intros HE H. unfold child. destruct (le_lt_dec (length ch) (N.to_nat d)).
  - rewrite nth_overflow by lia. exact HE.
  - rewrite Forall_forall in H. apply H, nth_In. lia.
Qed.

Lemma Forall_children (P : node -> Prop) ch : length ch = 16%nat -> (forall d, d < 16 -> P (child ch d)) -> Forall P ch.
Proof.
  intros L H. apply Forall_nth. intros i d Hi. rewrite (nth_indep _ d Empty) by exact Hi.
  specialize (H (N.of_nat i)). unfold child in H. rewrite Nat2N.id in H. apply H. lia.
Qed.

Lemma Forall_set_child (P : node -> Prop) ch i c : Forall P ch -> P c -> Forall P (set_child ch i c).
Proof.
  intros H Hc. revert i. induction H as [|x ch Hx H IH]; intros [|i]; cbn [set_child]; constructor; auto.
Qed.

Lemma Forall_new (P : node -> Prop) : P Empty -> Forall P new_branch_child_arr.
Proof. intros H. apply Forall_forall. intros x Hx. apply repeat_spec in Hx. subst. exact H. Qed.

Lemma new_length : length new_branch_child_arr = 16%nat.
Proof. reflexivity. Qed.

Lemma in_child ch d : child ch d <> Empty -> In (child ch d) ch.
Proof.
  unfold child. intros H. destruct (le_lt_dec (length ch) (N.to_nat d)).
  - rewrite nth_overflow in H by lia. congruence.
  - apply nth_In. lia.
Qed.

Lemma in_child_ex ch c : In c ch -> exists d, d < N.of_nat (length ch) /\ child ch d = c.
Proof.
  intros H. apply (In_nth _ _ Empty) in H. destruct H as (i & L & E).
  exists (N.of_nat i). split; [lia|]. unfold child. rewrite Nat2N.id. exact E.
Qed.

Lemma children_ext ch ch' : length ch = 16%nat -> length ch' = 16%nat ->
  (forall d, d < 16 -> child ch d = child ch' d) -> ch = ch'.
Proof.
  intros L L' H. apply (nth_ext _ _ Empty Empty); [congruence|].
  intros i Hi. specialize (H (N.of_nat i)). unfold child in H. rewrite Nat2N.id in H. apply H. lia.
Qed.

(** ** Invariants *)
Lemma wf_weaken L t : wf L t -> forall L', (L <= L')%nat -> wf L' t.
Proof.
  revert L. induction t as [|h|ch v IH|n c IH|n v] using node_ind'; intros L W L' H; inversion W; subst.
  - constructor.
  - constructor.
  - destruct L' as [|L']; [lia|]. constructor; [assumption|].
    rewrite Forall_forall in *. intros c Hc. eapply IH; eauto. lia.
  - replace L' with (length l + (L' - length l))%nat by lia. constructor; [assumption|].
    eapply IH; eauto. lia.
  - constructor; [assumption|lia].
Qed.

Lemma wf_child L ch v d : wf (S L) (Branch ch v) -> wf L (child ch d).
Proof. intros W. inversion W; subst. apply Forall_child; [constructor|assumption]. Qed.

Lemma canon_shape t : canon t -> shape t.
Proof.
  induction t as [|h|ch v IH|n c IH|n v] using node_ind'; intros C; inversion C; subst; constructor; auto.
  - rewrite Forall_forall in *. intros c Hc. auto.
  - unfold occupied in *. destruct (filter _ ch) as [|c l] eqn:E.
    + cbn [length] in *. destruct v; lia.
    + assert (I : In c (filter (fun c => match c with Empty => false | _ => true end) ch)) by (rewrite E; left; reflexivity).
      apply filter_In in I. exists c. split; [tauto|]. intros ->. destruct I. discriminate.
Qed.

Lemma shape_stored t : shape t -> t <> Empty -> exists k, stored t k.
Proof.
  unfold stored. induction t as [|h|ch v IH|n c IH|n v] using node_ind'; intros S NE; inversion S as [| |? ? F X|? ? Hn B C|]; subst.
  - congruence.
  - exists []. cbn. congruence.
  - destruct X as (c & I & Hc). rewrite Forall_forall in *. destruct (IH c I (F c I) Hc) as (k & Hk).
    destruct (in_child_ex _ _ I) as (d & _ & E). exists (d :: k). rewrite lk_branch, E. exact Hk.
  - destruct IH as (k & Hk); [assumption|intros ->; exact B|].
    exists (nseq n ++ k). cbn [lk]. rewrite strip_app. exact Hk.
  - exists (nseq n). cbn [lk]. rewrite key_eqb_refl. congruence.
Qed.

(** A stored key fits. *)
Lemma stored_wf t : forall L k, wf L t -> stored t k -> (length k <= L)%nat /\ hexl k.
Proof.
  unfold stored. induction t as [|h|ch v IH|n c IH|n v] using node_ind'; intros L k W S; inversion W; subst.
  - cbn in S. congruence.
  - cbn [lk] in S. destruct k; [|congruence]. split; [cbn; lia|constructor].
  - destruct k as [|d k]; [split; [cbn; lia|constructor]|].
    assert (D : d < 16).
    { destruct (N.ltb_spec d 16); [assumption|]. exfalso. apply S. cbn [lk]. rewrite at_child_nth.
      replace (nth_error ch (N.to_nat d)) with (@None node); [reflexivity|]. symmetry. apply nth_error_None. lia. }
    rewrite lk_branch in S.
    assert (NE : child ch d <> Empty) by (intros E; rewrite E in S; cbn in S; congruence).
    apply in_child in NE. rewrite Forall_forall in *.
    destruct (IH _ NE _ k (H3 _ NE) S). split; [cbn [length]; lia|constructor; assumption].
  - cbn [lk] in S. rewrite nseq_enc in S by assumption. destruct (strip l k) as [k'|] eqn:E; [|congruence].
    apply strip_some in E. subst k. destruct (IH _ k' H3 S). rewrite app_length. split; [lia|]. apply hexl_app. auto.
  - cbn [lk] in S. rewrite nseq_enc in S by assumption. destruct (key_eqb_spec l k); [subst; auto|congruence].
Qed.

(** ** Equations of [insert_rec] *)
Definition ext (q : list N) (b : node) : node := match q with [] => b | _ => Extension (enc q) b end.
Definition mk (k : list N) (v : val_or_hash) : node := create_node_from_insert_val (enc k) v.
Definition br1 (x : N) (c : node) (v : list N) : node := Branch (set_child new_branch_child_arr (N.to_nat x) c) v.
Definition br2 (x : N) (c : node) (y : N) (c' : node) : node :=
  Branch (set_child (set_child new_branch_child_arr (N.to_nat x) c) (N.to_nat y) c') [].

Lemma get_nibble_0 pr x l : hexl (x :: l) -> (length (x :: l) <= 128)%nat -> get_nibble pr (enc (x :: l)) 0 = Ok x.
Proof. intros H L. change 0 with (N.of_nat 0). apply get_nibble_enc; auto. Qed.

Lemma count_enc_0 l : (count (enc l) =? 0) = match l with [] => true | _ => false end.
Proof. rewrite count_enc. destruct l; reflexivity. Qed.

Lemma is_empty_enc l : is_empty (enc l) = match l with [] => true | _ => false end.
Proof. unfold is_empty. apply count_enc_0. Qed.

Lemma ext_if q b : (if count (enc q) =? 0 then b else Extension (enc q) b) = ext q b.
Proof. rewrite count_enc_0. destruct q; reflexivity. Qed.

Lemma pre_post_enc pr q a b x y :
  hexl (q ++ a) -> hexl (q ++ b) -> (length (q ++ a) <= 127)%nat -> (length (q ++ b) <= 127)%nat ->
  (a = [] \/ b = [] \/ hd_error a = Some x /\ hd_error b = Some y /\ x <> y) ->
  get_pre_and_postfixes pr (enc (q ++ a)) (enc (q ++ b)) = Ok (PrePost (enc q) (enc a) (enc b)).
Proof.
  intros Ha Hb La Lb D. unfold get_pre_and_postfixes. rewrite find_diff_enc by assumption. cbn [bind].
  assert (E : lcp (q ++ a) (q ++ b) = length q).
  { rewrite lcp_app. destruct D as [->|[->|(E1 & E2 & D)]]; [cbn; lia|rewrite lcp_comm; cbn; lia|].
    destruct a as [|x' a]; [discriminate|]. destruct b as [|y' b]; [discriminate|].
    cbn in E1, E2. injection E1 as ->. injection E2 as ->.
    cbn [lcp]. destruct (N.eqb_spec x y); [congruence|lia]. }
  rewrite E. rewrite split_at_idx_enc by (rewrite ?app_length in *; assumption || lia). cbn [bind].
  rewrite split_at_idx_postfix_enc by (rewrite ?app_length in *; assumption || lia). cbn [bind].
  rewrite firstn_exact, !skipn_exact. reflexivity.
Qed.

Lemma ins_entry_enc pr q e y k v :
  hexl (q ++ y :: k) -> (length (q ++ y :: k) <= 127)%nat ->
  ins_entry_into_leaf_and_nibble pr (PrePost (enc q) e (enc (y :: k))) (enc (q ++ y :: k)) v = Ok (y, mk k v).
Proof.
  intros H L. pose proof H as H'. apply hexl_app in H'. destruct H' as [Hq Hy].
  rewrite app_length in L. cbn [length] in L.
  unfold ins_entry_into_leaf_and_nibble. cbn [new_postfix common_prefix].
  rewrite get_nibble_0 by (assumption || cbn [length]; lia). cbn [bind].
  rewrite count_enc. rewrite uadd_ok by lia. cbn [bind].
  replace (N.of_nat (length q) + 1) with (N.of_nat (S (length q))) by lia.
  rewrite truncate_front_enc by (try assumption; rewrite app_length; cbn [length]; lia). cbn [bind].
  rewrite skipn_S_exact. reflexivity.
Qed.

Lemma place_branch_div pr q x p y k existing v :
  hexl (q ++ x :: p) -> hexl (q ++ y :: k) ->
  (length (q ++ x :: p) <= 127)%nat -> (length (q ++ y :: k) <= 127)%nat ->
  place_branch pr (PrePost (enc q) (enc (x :: p)) (enc (y :: k))) existing (enc (q ++ y :: k)) v =
  Ok (ext q (br2 x existing y (mk k v))).
Proof.
  intros H1 H2 L1 L2. unfold place_branch, check_placement. cbn [existing_postfix new_postfix common_prefix].
  rewrite !(count_enc_0 (_ :: _)).
  pose proof H1 as H1'. apply hexl_app in H1'. rewrite app_length in L1. cbn [length] in L1.
  rewrite get_nibble_0 by (tauto || cbn [length]; lia). cbn [bind].
  rewrite ins_entry_enc by assumption. cbn [bind]. rewrite ext_if. reflexivity.
Qed.

(** The inserted key ends where the existing one goes on. *)
Lemma place_branch_short pr q x p existing v :
  hexl (q ++ x :: p) -> (length (q ++ x :: p) <= 127)%nat ->
  place_branch pr (PrePost (enc q) (enc (x :: p)) (enc [])) existing (enc q) v =
  match v with Val w => Ok (ext q (br1 x existing w)) | HashV _ => Panic end.
Proof.
  intros H1 L1. unfold place_branch, check_placement. cbn [existing_postfix new_postfix common_prefix].
  rewrite (count_enc_0 (_ :: _)), (count_enc_0 []).
  pose proof H1 as H1'. apply hexl_app in H1'. rewrite app_length in L1. cbn [length] in L1.
  destruct v as [w|h]; cbn [expect_val bind]; [|reflexivity].
  rewrite get_nibble_0 by (tauto || cbn [length]; lia). cbn [bind]. rewrite ext_if. reflexivity.
Qed.

(** The existing leaf ends where the inserted key goes on. *)
Lemma place_branch_long pr q y k n w v :
  hexl (q ++ y :: k) -> (length (q ++ y :: k) <= 127)%nat ->
  place_branch pr (PrePost (enc q) (enc []) (enc (y :: k))) (Leaf n w) (enc (q ++ y :: k)) v =
  Ok (ext q (br1 y (mk k v) w)).
Proof.
  intros H1 L1. unfold place_branch, check_placement. cbn [existing_postfix new_postfix common_prefix].
  rewrite (count_enc_0 []). rewrite ins_entry_enc by assumption. cbn [bind]. rewrite ext_if. reflexivity.
Qed.

Lemma nib_eqb_enc a b : hexl a -> hexl b -> nib_eqb (enc a) (enc b) = key_eqb a b.
Proof.
  intros Ha Hb. unfold nib_eqb. destruct (key_eqb_spec a b) as [->|Hn].
  - rewrite !N.eqb_refl. reflexivity.
  - destruct (N.eqb_spec (count (enc a)) (count (enc b))) as [E1|]; [|reflexivity].
    destruct (N.eqb_spec (packed (enc a)) (packed (enc b))) as [E2|]; [|reflexivity].
    exfalso. apply Hn. apply enc_inj; auto. unfold enc in *. cbn [count packed] in *. congruence.
Qed.

Lemma insert_leaf_eq pr p w v :
  hexl p -> insert_rec pr (Leaf (enc p) w) (enc p) v = match v with Val u => Ok (Leaf (enc p) u) | HashV _ => Panic end.
Proof. intros H. cbn [insert_rec]. rewrite nib_eqb_enc, key_eqb_refl by assumption. destruct v; reflexivity. Qed.

Lemma insert_leaf_short pr k x p w v :
  hexl (k ++ x :: p) -> (length (k ++ x :: p) <= 127)%nat ->
  insert_rec pr (Leaf (enc (k ++ x :: p)) w) (enc k) v =
  match v with Val u => Ok (ext k (br1 x (Leaf (enc p) w) u)) | HashV _ => Panic end.
Proof.
  intros H L. pose proof H as H'. apply hexl_app in H'. destruct H' as [Hk Hx]. pose proof L as L'. rewrite app_length in L'. cbn [length] in L'.
  cbn [insert_rec]. rewrite nib_eqb_enc by assumption.
  rewrite key_eqb_neq by (intros E; apply (f_equal (@length N)) in E; rewrite app_length in E; cbn [length] in E; lia).
  replace (enc k) with (enc (k ++ [])) at 1 by (rewrite app_nil_r; reflexivity).
  rewrite (pre_post_enc pr k (x :: p) [] 0 0) by (rewrite ?app_nil_r; auto; lia). cbn [bind common_prefix].
  rewrite count_enc. rewrite uadd_ok by lia. cbn [bind].
  replace (N.of_nat (length k) + 1) with (N.of_nat (S (length k))) by lia.
  rewrite truncate_front_enc by assumption. cbn [bind]. rewrite skipn_S_exact.
  apply place_branch_short; assumption.
Qed.

Lemma insert_leaf_long pr p y k w v :
  hexl (p ++ y :: k) -> (length (p ++ y :: k) <= 127)%nat ->
  insert_rec pr (Leaf (enc p) w) (enc (p ++ y :: k)) v = Ok (ext p (br1 y (mk k v) w)).
Proof.
  intros H L. pose proof H as H'. apply hexl_app in H'. destruct H' as [Hk Hx]. pose proof L as L'. rewrite app_length in L'. cbn [length] in L'.
  cbn [insert_rec]. rewrite nib_eqb_enc by assumption.
  rewrite key_eqb_neq by (intros E; apply (f_equal (@length N)) in E; rewrite app_length in E; cbn [length] in E; lia).
  replace (enc p) with (enc (p ++ [])) at 1 by (rewrite app_nil_r; reflexivity).
  rewrite (pre_post_enc pr p [] (y :: k) 0 0) by (rewrite ?app_nil_r; auto; lia). cbn [bind common_prefix].
  rewrite count_enc. rewrite uadd_ok by lia. cbn [bind].
  replace (N.of_nat (length p) + 1) with (N.of_nat (S (length p))) by lia.
  rewrite truncate_front_enc by (assumption || lia). cbn [bind]. rewrite skipn_all2 by lia.
  apply place_branch_long; assumption.
Qed.

Lemma insert_leaf_div pr q x p y k w v :
  hexl (q ++ x :: p) -> hexl (q ++ y :: k) ->
  (length (q ++ x :: p) <= 127)%nat -> (length (q ++ y :: k) <= 127)%nat -> x <> y ->
  insert_rec pr (Leaf (enc (q ++ x :: p)) w) (enc (q ++ y :: k)) v =
  Ok (ext q (br2 x (Leaf (enc p) w) y (mk k v))).
Proof.
  intros H1 H2 L1 L2 D. pose proof L1 as L1'. rewrite app_length in L1'. cbn [length] in L1'.
  cbn [insert_rec]. rewrite nib_eqb_enc by assumption.
  rewrite key_eqb_neq by (intros E; apply app_inv_head in E; congruence).
  rewrite (pre_post_enc pr q (x :: p) (y :: k) x y) by (auto; cbn; auto). cbn [bind common_prefix].
  rewrite count_enc. rewrite uadd_ok by lia. cbn [bind].
  replace (N.of_nat (length q) + 1) with (N.of_nat (S (length q))) by lia.
  rewrite truncate_front_enc by assumption. cbn [bind]. rewrite skipn_S_exact.
  apply place_branch_div; assumption.
Qed.

Lemma identical_long pr p k : hexl (p ++ k) -> (length (p ++ k) <= 127)%nat ->
  identical_up_to_smallest pr (enc p) (enc (p ++ k)) = Ok true.
Proof.
  intros H L. pose proof H as H'. apply hexl_app in H'. rewrite app_length in L.
  rewrite identical_enc by (tauto || rewrite ?app_length; lia). f_equal. apply identical_prefix. left. exists k. reflexivity.
Qed.

Lemma identical_short pr p k : hexl (p ++ k) -> (length (p ++ k) <= 127)%nat ->
  identical_up_to_smallest pr (enc (p ++ k)) (enc p) = Ok true.
Proof.
  intros H L. pose proof H as H'. apply hexl_app in H'. rewrite app_length in L.
  rewrite identical_enc by (tauto || rewrite ?app_length; lia). f_equal. apply identical_prefix. right. exists k. reflexivity.
Qed.

Lemma identical_div pr q x p y k : hexl (q ++ x :: p) -> hexl (q ++ y :: k) ->
  (length (q ++ x :: p) <= 127)%nat -> (length (q ++ y :: k) <= 127)%nat -> x <> y ->
  identical_up_to_smallest pr (enc (q ++ x :: p)) (enc (q ++ y :: k)) = Ok false.
Proof.
  intros H1 H2 L1 L2 D. rewrite identical_enc by (assumption || lia). rewrite lcp_div by exact D.
  f_equal. apply Nat.leb_gt. rewrite !app_length. cbn [length]. lia.
Qed.

Lemma insert_ext_long pr p k c v :
  hexl (p ++ k) -> (length (p ++ k) <= 127)%nat ->
  insert_rec pr (Extension (enc p) c) (enc (p ++ k)) v =
  (c' <- insert_rec pr c (enc k) v ;; Ok (Extension (enc p) c')).
Proof.
  intros H L. pose proof H as H'. apply hexl_app in H'. destruct H' as [Hp Hk]. pose proof L as L'. rewrite app_length in L'.
  cbn [insert_rec].
  replace (enc p) with (enc (p ++ [])) at 1 by (rewrite app_nil_r; reflexivity).
  rewrite (pre_post_enc pr p [] k 0 0) by (rewrite ?app_nil_r; auto; lia). cbn [bind].
  rewrite identical_long by assumption. cbn [bind].
  rewrite count_enc, truncate_front_enc by assumption. cbn [bind]. rewrite skipn_exact. reflexivity.
Qed.

Lemma insert_ext_short pr k x p c v :
  hexl (k ++ x :: p) -> (length (k ++ x :: p) <= 127)%nat ->
  insert_rec pr (Extension (enc (k ++ x :: p)) c) (enc k) v =
  (c' <- insert_rec pr c (enc []) v ;; Ok (Extension (enc (k ++ x :: p)) c')).
Proof.
  intros H L. pose proof H as H'. apply hexl_app in H'. destruct H' as [Hp Hk]. pose proof L as L'. rewrite app_length in L'. cbn [length] in L'.
  cbn [insert_rec].
  replace (enc k) with (enc (k ++ [])) at 1 by (rewrite app_nil_r; reflexivity).
  rewrite (pre_post_enc pr k (x :: p) [] 0 0) by (rewrite ?app_nil_r; auto; lia). cbn [bind].
  rewrite identical_short by assumption. cbn [bind].
  rewrite count_enc, truncate_front_enc by (assumption || lia). cbn [bind].
  rewrite skipn_all2 by (rewrite app_length; cbn [length]; lia). reflexivity.
Qed.

Lemma insert_ext_div pr q x p y k c v :
  hexl (q ++ x :: p) -> hexl (q ++ y :: k) ->
  (length (q ++ x :: p) <= 127)%nat -> (length (q ++ y :: k) <= 127)%nat -> x <> y ->
  insert_rec pr (Extension (enc (q ++ x :: p)) c) (enc (q ++ y :: k)) v =
  Ok (ext q (br2 x (ext p c) y (mk k v))).
Proof.
  intros H1 H2 L1 L2 D. pose proof L1 as L1'. rewrite app_length in L1'. cbn [length] in L1'.
  pose proof H1 as H1'. apply hexl_app in H1'.
  cbn [insert_rec].
  rewrite (pre_post_enc pr q (x :: p) (y :: k) x y) by (auto; cbn; auto). cbn [bind].
  rewrite identical_div by assumption. cbn [bind existing_postfix].
  change 1 with (N.of_nat 1) at 1. rewrite truncate_front_enc by (tauto || cbn [length]; lia). cbn [bind skipn].
  rewrite ext_if. apply place_branch_div; assumption.
Qed.

Lemma insert_branch_nil pr ch w v :
  insert_rec pr (Branch ch w) (enc []) v = match v with Val u => Ok (Branch ch u) | HashV _ => Panic end.
Proof. destruct v; reflexivity. Qed.

Lemma insert_branch_cons pr ch w d k v :
  hexl (d :: k) -> (length (d :: k) <= 127)%nat -> length ch = 16%nat ->
  insert_rec pr (Branch ch w) (enc (d :: k)) v =
  (c' <- insert_rec pr (child ch d) (enc k) v ;; Ok (Branch (set_child ch (N.to_nat d) c') w)).
Proof.
  intros H L C. cbn [insert_rec]. rewrite count_enc_0. rewrite pop_front_enc by assumption. cbn [bind].
  rewrite with_child_ok by (inversion H; assumption). reflexivity.
Qed.

(** ** Equations of [trie_get] *)
Lemma get_leaf pr p w k : hexl p -> hexl k -> (length p <= 127)%nat -> (length k <= 127)%nat ->
  trie_get pr (Leaf (enc p) w) (enc k) =
  Ok (if Nat.leb (Nat.min (length p) (length k)) (lcp p k) then Some w else None).
Proof.
  intros. cbn [trie_get]. rewrite identical_enc by (assumption || lia). cbn [bind]. destruct (Nat.leb _ _); reflexivity.
Qed.

Lemma get_ext_long pr p k c : hexl (p ++ k) -> (length (p ++ k) <= 127)%nat ->
  trie_get pr (Extension (enc p) c) (enc (p ++ k)) = trie_get pr c (enc k).
Proof.
  intros H L. pose proof H as H'. apply hexl_app in H'. pose proof L as L'. rewrite app_length in L'.
  cbn [trie_get]. rewrite count_enc, pop_nibbles_front_enc by (assumption || rewrite ?app_length; lia). cbn [bind].
  rewrite firstn_exact, skipn_exact.
  pose proof (identical_long pr p []) as I. rewrite app_nil_r in I. rewrite I by (tauto || lia). reflexivity.
Qed.

Lemma get_ext_div pr q x p y k c : hexl (q ++ x :: p) -> hexl (q ++ y :: k) ->
  (length (q ++ x :: p) <= length (q ++ y :: k))%nat -> (length (q ++ y :: k) <= 127)%nat -> x <> y ->
  trie_get pr (Extension (enc (q ++ x :: p)) c) (enc (q ++ y :: k)) = Ok None.
Proof.
  intros H1 H2 L1 L2 D. cbn [trie_get].
  rewrite count_enc, pop_nibbles_front_enc by (assumption || lia). cbn [bind].
  rewrite identical_enc; [|apply hexl_firstn; assumption|assumption|rewrite firstn_length; lia|lia]. cbn [bind].
  rewrite !app_length in *. cbn [length] in *.
  assert (F : firstn (length q + S (length p)) (q ++ y :: k) = q ++ y :: firstn (length p) k).
  { rewrite firstn_app, firstn_all2 by lia. replace (length q + S (length p) - length q)%nat with (S (length p)) by lia. reflexivity. }
  rewrite F.
  rewrite lcp_div by congruence. rewrite !app_length. cbn [length].
  rewrite (proj2 (Nat.leb_gt _ _)) by lia. reflexivity.
Qed.

(** Too short a key at an extension: panics in Debug; in Release the missing nibbles count as zeros. *)
Lemma get_ext_short_debug p c k : (length k < length p)%nat ->
  trie_get Debug (Extension (enc p) c) (enc k) = Panic.
Proof. intros L. cbn [trie_get]. rewrite count_enc, pop_nibbles_front_short_debug by exact L. reflexivity. Qed.

Lemma enc_zeros n : enc (repeat 0 n) = Nib (N.of_nat n) 0.
Proof.
  unfold enc. rewrite repeat_length. f_equal. induction n as [|n IH]; [reflexivity|].
  cbn [repeat]. rewrite undigits_cons, IH. lia.
Qed.

Lemma hexl_zeros n : hexl (repeat 0 n).
Proof. apply Forall_forall. intros x H. apply repeat_spec in H. subst. lia. Qed.

Lemma get_ext_short_release p c k : hexl p -> hexl k -> (length k < length p)%nat -> (length p <= 127)%nat ->
  trie_get Release (Extension (enc p) c) (enc k) =
  if key_eqb p (repeat 0 (length p)) then trie_get Release c (enc []) else Ok None.
Proof.
  intros H1 H2 L1 L2. cbn [trie_get]. rewrite count_enc, pop_nibbles_front_short_release by assumption. cbn [bind].
  rewrite <- enc_zeros. rewrite identical_enc; [|apply hexl_zeros|assumption|rewrite repeat_length; lia|lia]. cbn [bind].
  rewrite repeat_length, Nat.min_id.
  destruct (key_eqb_spec p (repeat 0 (length p))) as [E|E].
  - rewrite <- E. rewrite lcp_refl, Nat.leb_refl. reflexivity.
  - destruct (Nat.leb_spec (length p) (lcp (repeat 0 (length p)) p)); [|reflexivity].
    exfalso. apply E. pose proof (lcp_firstn (repeat 0 (length p)) p) as F.
    pose proof (lcp_le (repeat 0 (length p)) p) as [_ G]. replace (lcp (repeat 0 (length p)) p) with (length p) in F by lia.
    rewrite !firstn_all2 in F by (rewrite ?repeat_length; lia). symmetry. exact F.
Qed.

Lemma get_branch_nil pr ch w : trie_get pr (Branch ch w) (enc []) = Ok (match w with [] => None | _ => Some w end).
Proof. reflexivity. Qed.

Lemma get_branch_cons pr ch w d k : hexl (d :: k) -> (length (d :: k) <= 127)%nat -> length ch = 16%nat ->
  trie_get pr (Branch ch w) (enc (d :: k)) = trie_get pr (child ch d) (enc k).
Proof.
  intros H L C. cbn [trie_get]. rewrite is_empty_enc. rewrite pop_front_enc by assumption. cbn [bind].
  rewrite with_child_ok by (inversion H; assumption). reflexivity.
Qed.

(** ** Equations of [delete_intern] *)
Lemma delete_leaf pr p w k : hexl p -> hexl k ->
  delete_intern pr (Leaf (enc p) w) (enc k) = Ok (if key_eqb p k then Some (Empty, w) else None).
Proof. intros. cbn [delete_intern]. rewrite nib_eqb_enc by assumption. destruct (key_eqb p k); reflexivity. Qed.

Lemma delete_ext_long pr p k c : hexl (p ++ k) -> (length (p ++ k) <= 127)%nat ->
  delete_intern pr (Extension (enc p) c) (enc (p ++ k)) =
  (r <- delete_intern pr c (enc k) ;;
   match r with
   | None => Ok None
   | Some (c', deleted) => n <- collapse_ext_node_if_needed pr (enc p) c' ;; Ok (Some (n, deleted))
   end).
Proof.
  intros H L. cbn [delete_intern]. rewrite identical_long by assumption. cbn [bind].
  rewrite count_enc, truncate_front_enc by assumption. cbn [bind]. rewrite skipn_exact. reflexivity.
Qed.

Lemma delete_ext_short pr k x p c : hexl (k ++ x :: p) -> (length (k ++ x :: p) <= 127)%nat ->
  delete_intern pr (Extension (enc (k ++ x :: p)) c) (enc k) =
  (r <- delete_intern pr c (enc []) ;;
   match r with
   | None => Ok None
   | Some (c', deleted) => n <- collapse_ext_node_if_needed pr (enc (k ++ x :: p)) c' ;; Ok (Some (n, deleted))
   end).
Proof.
  intros H L. pose proof H as H'. apply hexl_app in H'. pose proof L as L'. rewrite app_length in L'.
  cbn [delete_intern]. rewrite identical_short by assumption. cbn [bind].
  rewrite count_enc, truncate_front_enc by (tauto || lia). cbn [bind].
  rewrite skipn_all2 by (rewrite app_length; cbn [length]; lia). reflexivity.
Qed.

Lemma delete_ext_div pr q x p y k c :
  hexl (q ++ x :: p) -> hexl (q ++ y :: k) ->
  (length (q ++ x :: p) <= 127)%nat -> (length (q ++ y :: k) <= 127)%nat -> x <> y ->
  delete_intern pr (Extension (enc (q ++ x :: p)) c) (enc (q ++ y :: k)) = Ok None.
Proof. intros. cbn [delete_intern]. rewrite identical_div by assumption. reflexivity. Qed.

Lemma delete_branch_nil pr ch w : delete_intern pr (Branch ch w) (enc []) = Ok (Some (Branch ch [], w)).
Proof. reflexivity. Qed.

Lemma delete_branch_cons pr ch w d k : hexl (d :: k) -> (length (d :: k) <= 127)%nat -> length ch = 16%nat ->
  delete_intern pr (Branch ch w) (enc (d :: k)) =
  (r <- delete_intern pr (child ch d) (enc k) ;;
   match r with
   | None => Ok None
   | Some (c', deleted) =>
       if node_is_empty c' && (get_num_non_empty_children ch <=? 2)%nat then
         match get_other_non_empty_child 0 ch (N.to_nat d) with
         | None => Panic
         | Some (i, c) => n <- from_nibble (N.of_nat i) ;; Ok (Some (Extension n c, deleted))
         end
       else
         c'' <- try_collapse_if_extension pr c' ;;
         Ok (Some (Branch (set_child ch (N.to_nat d) c'') w, deleted))
   end).
Proof.
  intros H L C. cbn [delete_intern]. rewrite is_empty_enc. rewrite pop_front_enc by assumption. cbn [bind].
  rewrite with_child_ok by (inversion H; assumption). reflexivity.
Qed.
