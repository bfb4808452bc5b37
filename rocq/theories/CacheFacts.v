(** Facts about programs over the cells of [HashedPartialTrie]. *)
From Verif Require Import Base Nibbles Trie TrieFacts Rlp Hashing Subset Cache.
Open Scope N_scope.

Ltac okbind H :=
  match type of H with
  | bind ?m _ = Ok _ => let a := fresh "a" in let E := fresh "E" in destruct m as [a|] eqn:E; cbn [bind] in H; [|discriminate H]; cbn [lift pbind]
  end.

(** ** A program logic *)
(** [fst (V c)] is the one hash that may ever be written to cell [c], [snd (V c)] is a mark of the prover. *)
Definition ghost : Type := N -> option (list N) * bool.
Definition gset (V : ghost) (c : N) (x : option (list N) * bool) : ghost := fun y => if y =? c then x else V y.
Definition allowed (V : ghost) (c : N) (o : option (list N)) : Prop := o = None \/ o = fst (V c).
Definition ext (b : N) (V : ghost) (b' : N) (V' : ghost) : Prop := b <= b' /\ forall c, c < b -> V' c = V c.

(** [wp p b V Q]: run in any state with at least the cells below [b], while others only write allowed hashes, [p] does not
    fail, writes only allowed hashes, and returns [a] with [Q a]. *)
Fixpoint wp {A} (p : prog A) (b : N) (V : ghost) (Q : A -> N -> ghost -> Prop) {struct p} : Prop :=
  match p with
  | Ret a => Q a b V
  | Fail => False
  | Read c k => c < b /\ forall o, allowed V c o -> wp (k o) b V Q
  | Write c o p' => c < b /\ allowed V c o /\ wp p' b V Q
  | Alloc k => forall b' V', ext b V b' V' -> exists x, wp (k b') (b' + 1) (gset V' b' x) Q
  end.

Lemma gset_same V c x : gset V c x c = x.
Proof. unfold gset. rewrite N.eqb_refl. reflexivity. Qed.
Lemma gset_other V c x c' : c' <> c -> gset V c x c' = V c'.
Proof. unfold gset. destruct (N.eqb_spec c' c); [contradiction|reflexivity]. Qed.
Lemma ext_refl b V : ext b V b V.
Proof. split; [lia|auto]. Qed.
Lemma ext_trans b V b' V' b'' V'' : ext b V b' V' -> ext b' V' b'' V'' -> ext b V b'' V''.
Proof. intros [A B] [C D]. split; [lia|]. intros c Hc. rewrite D, B by lia. reflexivity. Qed.
Lemma ext_alloc b V x : ext b V (b + 1) (gset V b x).
Proof. split; [lia|]. intros c Hc. apply gset_other. lia. Qed.
Lemma wp_conseq {A} (p : prog A) : forall b V (Q Q' : A -> N -> ghost -> Prop),
  wp p b V Q -> (forall a b' V', ext b V b' V' -> Q a b' V' -> Q' a b' V') -> wp p b V Q'.
Proof.
  induction p as [a| |c k IH|c o p IH|k IH]; intros b V Q Q' W H; cbn [wp] in *.
  - apply H; [apply ext_refl|exact W].
  - exact W.
  - destruct W as [B W]. split; [exact B|]. intros o Ho. eapply IH; [apply W, Ho|exact H].
  - destruct W as (B & Ha & W). repeat split; auto. eapply IH; eauto.
  - intros b' V' E. destruct (W b' V' E) as [x W']. exists x. eapply IH; [exact W'|].
    intros a b'' V'' E'. apply H. eapply ext_trans; [exact E|]. eapply ext_trans; [apply ext_alloc|exact E'].
Qed.

Lemma wp_bind {A B} (p : prog A) (f : A -> prog B) : forall b V Q,
  wp p b V (fun a b' V' => wp (f a) b' V' Q) -> wp (pbind p f) b V Q.
Proof.
  induction p as [a| |c k IH|c o p IH|k IH]; intros b V Q W; cbn [wp pbind] in *; auto.
  - destruct W as [B' W]. split; auto.
  - destruct W as (B' & Ha & W). auto.
  - intros b' V' E. destruct (W b' V' E) as [x W']. exists x. auto.
Qed.

Definition monotone {A} (Q : A -> N -> ghost -> Prop) : Prop :=
  forall a b V b' V', ext b V b' V' -> Q a b V -> Q a b' V'.
Lemma wp_mono {A} (p : prog A) Q : monotone Q -> forall b V b' V', ext b V b' V' -> wp p b V Q -> wp p b' V' Q.
Proof.
  intros MQ. induction p as [a| |c k IH|c o p IH|k IH]; intros b V b' V' E W; cbn [wp] in *.
  - eapply MQ; eauto.
  - exact W.
  - destruct W as [B W]. destruct E as [E1 E2]. split; [lia|]. intros o Ho. eapply IH; [split; eauto|]. apply W.
    unfold allowed in *. rewrite E2 in Ho by exact B. exact Ho.
  - destruct W as (B & Ha & W). split; [destruct E; lia|]. split; [|eapply IH; eauto].
    unfold allowed in *. destruct E as [E1 E2]. rewrite E2 by exact B. exact Ha.
  - intros b'' V'' E'. apply W. eapply ext_trans; eauto.
Qed.

Lemma wp_lift {A} (r : res A) a b V (Q : A -> N -> ghost -> Prop) : r = Ok a -> Q a b V -> wp (lift r) b V Q.
Proof. intros -> H. exact H. Qed.

(** States that keep to [V]. *)
Definition keeps (b : N) (V : ghost) (s : store) : Prop := forall c, if c <? b then allowed V c (s c) else s c = None.

Lemma keeps_read b V s c : keeps b V s -> c < b -> allowed V c (s c).
Proof. intros K H. specialize (K c). destruct (N.ltb_spec c b); [exact K|lia]. Qed.
Lemma keeps_write b V s c o : keeps b V s -> c < b -> allowed V c o -> keeps b V (update s c o).
Proof.
  intros K H A c'. specialize (K c'). unfold update. destruct (N.eqb_spec c' c) as [->|Ne].
  - destruct (N.ltb_spec c b); [exact A|lia].
  - exact K.
Qed.
Lemma keeps_alloc b V s x : keeps b V s -> keeps (b + 1) (gset V b x) (update s b None).
Proof.
  intros K c. specialize (K c). unfold update, gset, allowed in *. destruct (N.eqb_spec c b) as [->|Ne].
  - destruct (N.ltb_spec b (b + 1)); [left; reflexivity|reflexivity].
  - destruct (N.ltb_spec c b), (N.ltb_spec c (b + 1)); try lia; exact K.
Qed.

Lemma exec_wp {A} (p : prog A) : forall b V s Q, wp p b V Q -> keeps b V s ->
  exists a s' b' V', exec p s b = Ok (a, s', b') /\ ext b V b' V' /\ keeps b' V' s' /\ Q a b' V'.
Proof.
  induction p as [a| |c k IH|c o p IH|k IH]; intros b V s Q W K; cbn [wp exec] in *.
  - exists a, s, b, V. repeat split; auto. lia.
  - destruct W.
  - destruct W as [B W]. eapply IH; [apply W|exact K]. eapply keeps_read; eauto.
  - destruct W as (B & Ha & W). eapply IH; [exact W|]. apply keeps_write; auto.
  - destruct (W b V (ext_refl b V)) as [x W'].
    destruct (IH b (b + 1) (gset V b x) (update s b None) Q W' (keeps_alloc b V s x K)) as (a & s' & b' & V' & E & X & K' & HQ).
    exists a, s', b', V'. repeat split; auto.
    + pose proof (proj1 X). lia.
    + apply (ext_trans _ _ _ _ _ _ (ext_alloc b V x) X).
Qed.

(** ** Nodes *)
Section hnode_ind.
  Variable P : hnode -> Prop.
  Hypotheses (HE : forall c, P (HEmpty c)) (HH : forall c h, P (HHash c h))
             (HB : forall c ch v, Forall P ch -> P (HBranch c ch v))
             (HX : forall c n t, P t -> P (HExtension c n t)) (HL : forall c n v, P (HLeaf c n v)).
  Fixpoint hnode_ind' (t : hnode) : P t :=
    match t with
    | HEmpty c => HE c
    | HHash c h => HH c h
    | HBranch c ch v =>
        HB c ch v ((fix go l : Forall P l := match l with [] => Forall_nil P | x :: l' => Forall_cons x (hnode_ind' x) (go l') end) ch)
    | HExtension c n t => HX c n t (hnode_ind' t)
    | HLeaf c n v => HL c n v
    end.
End hnode_ind.

Fixpoint nodes (t : hnode) : list hnode :=
  t :: match t with
       | HBranch _ ch _ => flat_map nodes ch
       | HExtension _ _ c => nodes c
       | _ => []
       end.
Definition below (t : hnode) : list hnode := tl (nodes t).
Lemma nodes_below t : nodes t = t :: below t.
Proof. destruct t; reflexivity. Qed.

Lemma erase_with_cell c t : erase (with_cell c t) = erase t.
Proof. destruct t; reflexivity. Qed.
Lemma below_with_cell c t : below (with_cell c t) = below t.
Proof. destruct t; reflexivity. Qed.
Lemma cell_with_cell c t : cell (with_cell c t) = c.
Proof. destruct t; reflexivity. Qed.

(** The hash that the cell of a node with these contents may hold. *)
Definition hashed_of (keccak : list N -> list N) (pr : profile) (t : node) : option (list N) :=
  match rlp_encode_and_hash_node keccak pr t with Ok (Hashed h) => Some h | _ => None end.

Section Coherence.
Variable pr : profile.
(** What may be in the cell of a node. *)
Variable hv : node -> option (list N) * bool -> Prop.

Definition ok_node (b : N) (V : ghost) (s : hnode) : Prop := cell s < b /\ hv (erase s) (V (cell s)).
Definition coh (b : N) (V : ghost) (t : hnode) : Prop := Forall (ok_node b V) (nodes t).
Definition kids (b : N) (V : ghost) (t : hnode) : Prop := Forall (ok_node b V) (below t).

Lemma ok_node_ext b V b' V' s : ext b V b' V' -> ok_node b V s -> ok_node b' V' s.
Proof. intros [E1 E2] [A B]. split; [lia|]. rewrite E2 by exact A. exact B. Qed.
Lemma coh_ext b V b' V' t : ext b V b' V' -> coh b V t -> coh b' V' t.
Proof. intros E. apply Forall_impl. intros s. apply ok_node_ext, E. Qed.
Lemma kids_ext b V b' V' t : ext b V b' V' -> kids b V t -> kids b' V' t.
Proof. intros E. apply Forall_impl. intros s. apply ok_node_ext, E. Qed.
Lemma cohs_ext b V b' V' l : ext b V b' V' -> Forall (coh b V) l -> Forall (coh b' V') l.
Proof. intros E. apply Forall_impl. intros s. apply coh_ext, E. Qed.
Lemma coh_kids b V t : coh b V t -> kids b V t.
Proof. unfold coh, kids. rewrite nodes_below. intros H. inversion H; assumption. Qed.
Lemma coh_iff b V t : coh b V t <-> ok_node b V t /\ kids b V t.
Proof. unfold coh, kids. rewrite nodes_below. split; [intros H; inversion H; auto|intros [A B]; constructor; auto]. Qed.
Lemma kids_with_cell b V c t : kids b V (with_cell c t) <-> kids b V t.
Proof. unfold kids. rewrite below_with_cell. tauto. Qed.
Lemma Forall_flat_map {A B} (P : B -> Prop) (f : A -> list B) l : Forall P (flat_map f l) <-> Forall (fun x => Forall P (f x)) l.
Proof.
  induction l as [|x l IH]; cbn [flat_map]; [split; constructor|]. rewrite Forall_app, IH.
  split; [intros [A1 A2]; constructor; auto|intros H; inversion H; auto].
Qed.
Lemma kids_branch b V c ch v : kids b V (HBranch c ch v) <-> Forall (coh b V) ch.
Proof. unfold kids. cbn [below nodes tl]. apply Forall_flat_map. Qed.
Lemma kids_extension b V c n t : kids b V (HExtension c n t) <-> coh b V t.
Proof. unfold kids. cbn [below nodes tl]. tauto. Qed.
Lemma kids_empty b V c : kids b V (HEmpty c). Proof. constructor. Qed.
Lemma kids_hash b V c h : kids b V (HHash c h). Proof. constructor. Qed.
Lemma kids_leaf b V c n v : kids b V (HLeaf c n v). Proof. constructor. Qed.

(** Creating a node, with any value for its cell. *)
Definition gpost (Q : hnode -> N -> ghost -> Prop) b V g x : Prop :=
  forall t b' V', ext b V b' V' -> kids b' V' t -> b <= cell t < b' -> V' (cell t) = g -> erase t = x -> Q t b' V'.
Lemma wp_new (mk : N -> hnode) g x b V (Q : hnode -> N -> ghost -> Prop) :
  (forall c, cell (mk c) = c) -> (forall c, erase (mk c) = x) -> (forall c, below (mk c) = below (mk 0)) ->
  kids b V (mk 0) -> gpost Q b V g x ->
  wp (Alloc (fun c => Ret (mk c))) b V Q.
Proof.
  intros C E B K H. cbn [wp]. intros b' V' X. exists g. apply H.
  - eapply ext_trans; [exact X|apply ext_alloc].
  - unfold kids. rewrite B. eapply (kids_ext _ _ _ _ (mk 0)); [|exact K].
    eapply ext_trans; [exact X|apply ext_alloc].
  - rewrite C. destruct X. lia.
  - rewrite C. apply gset_same.
  - apply E.
Qed.

Definition post (Q : hnode -> N -> ghost -> Prop) b V x : Prop :=
  forall t b' V', ext b V b' V' -> coh b' V' t -> erase t = x -> Q t b' V'.

Lemma wpg_hempty g b V Q : gpost Q b V g Empty -> wp hempty b V Q.
Proof. intros H. eapply (wp_new HEmpty g Empty); try reflexivity; [apply kids_empty|exact H]. Qed.
Lemma wpg_hhash g h b V Q : gpost Q b V g (Hash h) -> wp (hhash h) b V Q.
Proof. intros H. eapply (wp_new (fun c => HHash c h) g (Hash h)); try reflexivity; [apply kids_hash|exact H]. Qed.
Lemma wpg_hleaf g n v b V Q : gpost Q b V g (Leaf n v) -> wp (hleaf n v) b V Q.
Proof. intros H. eapply (wp_new (fun c => HLeaf c n v) g (Leaf n v)); try reflexivity; [apply kids_leaf|exact H]. Qed.
Lemma wpg_hextension g n t b V Q : coh b V t -> gpost Q b V g (Extension n (erase t)) -> wp (hextension n t) b V Q.
Proof. intros C H. eapply (wp_new (fun c => HExtension c n t) g (Extension n (erase t))); try reflexivity; [|exact H]. apply kids_extension, C. Qed.
Lemma wpg_hbranch g ch v b V Q : Forall (coh b V) ch -> gpost Q b V g (Branch (map erase ch) v) -> wp (hbranch ch v) b V Q.
Proof. intros C H. eapply (wp_new (fun c => HBranch c ch v) g (Branch (map erase ch) v)); try reflexivity; [|exact H]. apply kids_branch, C. Qed.

Hypothesis hv_ex : forall t, exists o, hv t o.
Lemma gpost_post Q b V x : post Q b V x -> exists g, gpost Q b V g x.
Proof.
  intros H. destruct (hv_ex x) as [g Hg]. exists g. intros t b' V' X K B E R. apply H; auto. apply coh_iff.
  split; [|exact K]. split; [lia|]. rewrite E, R. exact Hg.
Qed.

Lemma wp_hempty b V Q : post Q b V Empty -> wp hempty b V Q.
Proof. intros H. destruct (gpost_post _ _ _ _ H) as [g G]. eapply wpg_hempty, G. Qed.
Lemma wp_hhash h b V Q : post Q b V (Hash h) -> wp (hhash h) b V Q.
Proof. intros H. destruct (gpost_post _ _ _ _ H) as [g G]. eapply wpg_hhash, G. Qed.
Lemma wp_hleaf n v b V Q : post Q b V (Leaf n v) -> wp (hleaf n v) b V Q.
Proof. intros H. destruct (gpost_post _ _ _ _ H) as [g G]. eapply wpg_hleaf, G. Qed.
Lemma wp_hextension n t b V Q : coh b V t -> post Q b V (Extension n (erase t)) -> wp (hextension n t) b V Q.
Proof. intros C H. destruct (gpost_post _ _ _ _ H) as [g G]. eapply wpg_hextension; [exact C|exact G]. Qed.
Lemma wp_hbranch ch v b V Q : Forall (coh b V) ch -> post Q b V (Branch (map erase ch) v) -> wp (hbranch ch v) b V Q.
Proof. intros C H. destruct (gpost_post _ _ _ _ H) as [g G]. eapply wpg_hbranch; [exact C|exact G]. Qed.

Lemma post_ext Q b V b' V' x : ext b V b' V' -> post Q b V x -> post Q b' V' x.
Proof. intros E H t b'' V'' E'. apply H. eapply ext_trans; eauto. Qed.

Lemma wp_hempties n : forall b V (Q : list hnode -> N -> ghost -> Prop),
  (forall l b' V', ext b V b' V' -> Forall (coh b' V') l -> map erase l = repeat Empty n -> Q l b' V') -> wp (hempties n) b V Q.
Proof.
  induction n as [|n IH]; intros b V Q H; cbn [hempties].
  - apply H; [apply ext_refl|constructor|reflexivity].
  - apply wp_bind, wp_hempty. intros t b1 V1 E1 C1 R1. apply wp_bind, IH. intros l b2 V2 E2 C2 R2.
    apply H.
    + eapply ext_trans; eauto.
    + constructor; [eapply coh_ext; eauto|exact C2].
    + cbn [map repeat]. rewrite R1, R2. reflexivity.
Qed.

Lemma map_erase_set ch i t : map erase (set_hchild ch i t) = set_child (map erase ch) i (erase t).
Proof. revert i. induction ch as [|c ch IH]; intros [|i]; cbn [set_hchild map set_child]; [reflexivity..|]. rewrite IH. reflexivity. Qed.
Lemma Forall_set_hchild (P : hnode -> Prop) ch i t : Forall P ch -> P t -> Forall P (set_hchild ch i t).
Proof. intros F H. revert i. induction F as [|c ch Hc F IH]; intros [|i]; cbn [set_hchild]; auto. Qed.

Lemma with_child_map {A} (f : node -> res A) ch i x :
  with_child f (map erase ch) i = Ok x -> exists c, In c ch /\ f (erase c) = Ok x /\
    forall B (g : hnode -> prog B), with_hchild g ch i = g c.
Proof.
  revert i. induction ch as [|c ch IH]; intros [|i] E; cbn [map with_child] in E; try discriminate.
  - exists c. split; [left; reflexivity|]. split; [exact E|reflexivity].
  - destruct (IH i E) as (c' & I1 & E1 & G). exists c'. split; [right; exact I1|]. split; [exact E1|exact G].
Qed.

(** ** Insert *)
Lemma wp_create k v b V Q : post Q b V (create_node_from_insert_val k v) -> wp (hcreate_node_from_insert_val k v) b V Q.
Proof.
  intros H. destruct v as [v|h]; cbn [hcreate_node_from_insert_val create_node_from_insert_val] in *.
  - apply wp_hleaf, H.
  - destruct (is_empty k); [apply wp_hhash, H|]. apply wp_bind, wp_hhash. intros t b1 V1 E1 C1 R1.
    apply wp_hextension; [exact C1|]. rewrite R1. eapply post_ext; eauto.
Qed.


Lemma wp_ins_entry info k v first x b V (Q : N * hnode -> N -> ghost -> Prop) :
  ins_entry_into_leaf_and_nibble pr info k v = Ok (first, x) ->
  (forall t b' V', ext b V b' V' -> coh b' V' t -> erase t = x -> Q (first, t) b' V') ->
  wp (hins_entry_into_leaf_and_nibble pr info k v) b V Q.
Proof.
  unfold ins_entry_into_leaf_and_nibble, hins_entry_into_leaf_and_nibble. intros E H.
  okbind E. okbind E. okbind E. injection E as <- <-. cbn [lift pbind].
  apply wp_bind, wp_create. intros t b1 V1 X1 C1 R1. cbn [wp]. apply H; auto.
Qed.

Lemma wp_place info existing k v x b V Q :
  coh b V existing -> place_branch pr info (erase existing) k v = Ok x -> post Q b V x ->
  wp (hplace_branch pr info existing k v) b V Q.
Proof.
  unfold place_branch, hplace_branch. intros C E H. okbind E.
  apply wp_bind, wp_hempties. intros ch b0 V0 X0 C0 R0. cbn [wp].
  change (repeat Empty 16) with new_branch_child_arr in R0.
  assert (T : forall t b1 V1, ext b0 V0 b1 V1 -> coh b1 V1 t ->
              Ok (if count (common_prefix info) =? 0 then erase t else Extension (common_prefix info) (erase t)) = Ok x ->
              wp (if count (common_prefix info) =? 0 then Ret t else hextension (common_prefix info) t) b1 V1 Q).
  { intros t b1 V1 X1 C1 R. injection R as R. destruct (count (common_prefix info) =? 0).
    - cbn [wp]. apply H; [eapply ext_trans; eauto|exact C1|exact R].
    - apply wp_hextension; [exact C1|]. rewrite R. eapply post_ext; [|exact H]. eapply ext_trans; eauto. }
  assert (B1 : forall bv nib t, a = BranchValue bv (nib, erase t) -> forall b1 V1, ext b0 V0 b1 V1 -> coh b1 V1 t ->
     wp (bb <~ hbranch (set_hchild ch (N.to_nat nib) t) bv ;;
         (if count (common_prefix info) =? 0 then Ret bb else hextension (common_prefix info) bb)) b1 V1 Q).
  { intros bv nib t -> b1 V1 X1 C1. apply wp_bind, wp_hbranch.
    - apply Forall_set_hchild; [eapply cohs_ext; eauto|exact C1].
    - intros u b2 V2 X2 C2 R2. apply T; [eapply ext_trans; eauto|exact C2|].
      rewrite R2, map_erase_set, R0. exact E. }
  assert (O : (if count (new_postfix info) =? 0 then
                 bv <- expect_val v ;; e0 <- get_nibble pr (existing_postfix info) 0 ;; Ok (BranchValue bv (e0, erase existing))
               else e0 <- get_nibble pr (existing_postfix info) 0 ;;
                    c2 <- ins_entry_into_leaf_and_nibble pr info k v ;; Ok (BothBranchChildren (e0, erase existing) c2)) = Ok a ->
     wp (p <~ (if count (new_postfix info) =? 0 then
                 bv <~ lift (expect_val v) ;; e0 <~ lift (get_nibble pr (existing_postfix info) 0) ;;
                 Ret (HBranchValue bv (e0, existing))
               else e0 <~ lift (get_nibble pr (existing_postfix info) 0) ;;
                    c2 <~ hins_entry_into_leaf_and_nibble pr info k v ;; Ret (HBothBranchChildren (e0, existing) c2)) ;;
         bb <~ match p with
               | HBranchValue bv (nib, n) => hbranch (set_hchild ch (N.to_nat nib) n) bv
               | HBothBranchChildren (n1, c1) (n2, c2) =>
                   hbranch (set_hchild (set_hchild ch (N.to_nat n1) c1) (N.to_nat n2) c2) []
               end ;;
         (if count (common_prefix info) =? 0 then Ret bb else hextension (common_prefix info) bb)) b0 V0 Q).
  { intros EO. destruct (count (new_postfix info) =? 0).
    - okbind EO. okbind EO. injection EO as EO. cbn [lift pbind].
      apply (B1 a0 a1 existing (eq_sym EO)); [apply ext_refl|eapply coh_ext; eauto].
    - okbind EO. okbind EO. injection EO as EO. cbn [lift pbind]. destruct a1 as [n2 c2].
      apply wp_bind. apply wp_bind. eapply wp_ins_entry; [eassumption|]. intros t b1 V1 X1 C1 R1. cbn [wp].
      apply wp_bind, wp_hbranch.
      + apply Forall_set_hchild; [|exact C1]. apply Forall_set_hchild; [eapply cohs_ext; eauto|].
        eapply coh_ext; [|exact C]. eapply ext_trans; eauto.
      + intros u b2 V2 X2 C2 R2. apply T; [eapply ext_trans; eauto|exact C2|].
        rewrite R2, !map_erase_set, R0, R1. rewrite <- EO in E. exact E. }
  unfold check_placement, hcheck_placement in *. destruct (count (existing_postfix info) =? 0); [|apply O; assumption].
  destruct existing as [c|c h|c ch' v'|c n t'|c n v']; cbn [erase] in *; try (apply O; assumption).
  okbind E0. injection E0 as E0. destruct a0 as [nib n0].
  apply wp_bind. apply wp_bind. eapply wp_ins_entry; [eassumption|]. intros t b1 V1 X1 C1 R1. cbn [wp].
  apply (B1 v' nib t); [rewrite R1, E0; reflexivity|exact X1|exact C1].
Qed.

Lemma wp_hinsert_rec t : forall k v x b V Q,
  kids b V t -> insert_rec pr (erase t) k v = Ok x -> post Q b V x -> wp (hinsert_rec pr t k v) b V Q.
Proof.
  induction t as [c|c h|c ch val IH|c n t IH|c n val] using hnode_ind'; intros k v x b V Q K E H;
    cbn [hinsert_rec erase insert_rec] in *.
  - injection E as <-. apply wp_create, H.
  - discriminate.
  - apply kids_branch in K. destruct (count k =? 0).
    + destruct v as [v|h]; cbn in E |- *; [|discriminate]. injection E as <-. apply wp_hbranch; auto.
    + okbind E. destruct a as [nib k']. okbind E. injection E as <-. cbn [lift pbind].
      destruct (with_child_map _ _ _ _ E1) as (u & I & Eu & G). rewrite G.
      apply wp_bind. eapply (proj1 (Forall_forall _ _) IH u I); [|exact Eu|].
      * apply coh_kids. rewrite Forall_forall in K. auto.
      * intros t b1 V1 X1 C1 R1. apply wp_hbranch.
        -- apply Forall_set_hchild; [eapply cohs_ext; eauto|exact C1].
        -- rewrite map_erase_set, R1. eapply post_ext; eauto.
  - apply kids_extension in K. okbind E. okbind E. cbn [lift pbind]. destruct a0.
    + okbind E. okbind E. injection E as <-. cbn [lift pbind]. apply wp_bind. eapply IH; [apply coh_kids, K|eassumption|].
      intros u b1 V1 X1 C1 R1. apply wp_hextension; [exact C1|]. rewrite R1. eapply post_ext; eauto.
    + okbind E. cbn [lift pbind]. destruct (count a0 =? 0).
      * eapply wp_place; eauto.
      * apply wp_bind, wp_hextension; [exact K|]. intros u b1 V1 X1 C1 R1.
        eapply wp_place; [exact C1|rewrite R1; exact E|eapply post_ext; eauto].
  - destruct (nib_eqb n k).
    + destruct v as [v|h]; cbn in E |- *; [|discriminate]. injection E as <-. apply wp_hleaf, H.
    + okbind E. okbind E. okbind E. cbn [lift pbind]. apply wp_bind, wp_hleaf. intros u b1 V1 X1 C1 R1.
      eapply wp_place; [exact C1|rewrite R1; exact E|eapply post_ext; eauto].
Qed.

(** What operations on a handle guarantee: the contents, the cell, coherent inner nodes. *)
Definition hpost (Q : hnode -> N -> ghost -> Prop) b V c x : Prop :=
  forall t b' V', ext b V b' V' -> kids b' V' t -> cell t = c -> erase t = x -> Q t b' V'.

Lemma wp_htrie_insert t k v x b V Q :
  kids b V t -> trie_insert pr (erase t) k v = Ok x -> hpost Q b V (cell t) x -> wp (htrie_insert pr t k v) b V Q.
Proof.
  intros K E H. unfold htrie_insert. apply wp_bind. eapply wp_hinsert_rec; [exact K|exact E|].
  intros u b1 V1 X1 C1 R1. cbn [wp]. apply H; [exact X1|apply kids_with_cell, coh_kids, C1|apply cell_with_cell|].
  rewrite erase_with_cell. exact R1.
Qed.

Lemma wp_htrie_extend l : forall t x b V Q,
  kids b V t -> trie_extend pr (erase t) l = Ok x -> hpost Q b V (cell t) x -> wp (htrie_extend pr t l) b V Q.
Proof.
  induction l as [|[k v] l IH]; intros t x b V Q K E H; cbn [htrie_extend trie_extend] in *.
  - injection E as <-. apply H; auto. apply ext_refl.
  - okbind E. apply wp_bind. eapply wp_htrie_insert; [exact K|eassumption|]. intros u b1 V1 X1 K1 Ce1 R1.
    eapply IH; [exact K1|rewrite R1; exact E|]. rewrite Ce1. intros u' b2 V2 X2. apply H. eapply ext_trans; eauto.
Qed.

Lemma wp_hinsert t k v x b V Q :
  kids b V t -> cell t < b -> trie_insert pr (erase t) k v = Ok x -> hpost Q b V (cell t) x -> wp (hinsert pr t k v) b V Q.
Proof.
  intros K B E H. unfold hinsert. apply wp_bind. eapply wp_htrie_insert; [exact K|exact E|].
  intros u b1 V1 X1 K1 Ce1 R1. cbn [wp]. split; [pose proof (proj1 X1); lia|]. split; [left; reflexivity|]. apply H; auto.
Qed.
Lemma wp_hextend t l x b V Q :
  kids b V t -> cell t < b -> trie_extend pr (erase t) l = Ok x -> hpost Q b V (cell t) x -> wp (hextend pr t l) b V Q.
Proof.
  intros K B E H. unfold hextend. apply wp_bind. eapply wp_htrie_extend; [exact K|exact E|].
  intros u b1 V1 X1 K1 Ce1 R1. cbn [wp]. split; [pose proof (proj1 X1); lia|]. split; [left; reflexivity|]. apply H; auto.
Qed.

(** ** Delete *)
Lemma hnode_is_empty_erase t : hnode_is_empty t = node_is_empty (erase t).
Proof. destruct t; reflexivity. Qed.
Lemma num_children_erase ch : hget_num_non_empty_children ch = get_num_non_empty_children (map erase ch).
Proof.
  unfold hget_num_non_empty_children, get_num_non_empty_children. induction ch as [|c ch IH]; [reflexivity|].
  cbn [map filter]. rewrite hnode_is_empty_erase. destruct (negb _); cbn [length]; congruence.
Qed.
Lemma other_child_erase ch our : forall i, get_other_non_empty_child i (map erase ch) our =
  option_map (fun p => (fst p, erase (snd p))) (hget_other_non_empty_child i ch our).
Proof.
  induction ch as [|c ch IH]; intros i; cbn [map get_other_non_empty_child hget_other_non_empty_child]; [reflexivity|].
  rewrite hnode_is_empty_erase. destruct (negb _ && negb _); [reflexivity|apply IH].
Qed.
Lemma other_child_in ch our : forall i j c, hget_other_non_empty_child i ch our = Some (j, c) -> In c ch.
Proof.
  induction ch as [|c ch IH]; intros i j d E; cbn [hget_other_non_empty_child] in E; [discriminate|].
  destruct (negb _ && negb _); [injection E as <- <-; left; reflexivity|right; eapply IH; eauto].
Qed.

Lemma wp_collapse n t x b V Q :
  coh b V t -> collapse_ext_node_if_needed pr n (erase t) = Ok x -> post Q b V x ->
  wp (hcollapse_ext_node_if_needed pr n t) b V Q.
Proof.
  intros C E H. destruct t as [c|c h|c ch v|c m u|c m v]; cbn [hcollapse_ext_node_if_needed erase collapse_ext_node_if_needed] in *.
  - discriminate.
  - injection E as <-. apply wp_hextension; auto.
  - injection E as <-. apply wp_hextension; auto.
  - okbind E. injection E as <-. cbn [lift pbind]. apply wp_hextension; [|exact H].
    apply coh_kids, kids_extension in C. exact C.
  - okbind E. injection E as <-. cbn [lift pbind]. apply wp_hleaf, H.
Qed.
Lemma wp_try_collapse t x b V Q :
  coh b V t -> try_collapse_if_extension pr (erase t) = Ok x -> post Q b V x -> wp (htry_collapse_if_extension pr t) b V Q.
Proof.
  intros C E H. destruct t as [c|c h|c ch v|c m u|c m v]; cbn [htry_collapse_if_extension erase try_collapse_if_extension] in *;
    try (injection E as <-; apply H; [apply ext_refl|exact C|reflexivity]).
  eapply wp_collapse; [|exact E|exact H]. apply coh_kids, kids_extension in C. exact C.
Qed.

Lemma wp_hdelete_intern t : forall k r b V (Q : option (hnode * list N) -> N -> ghost -> Prop),
  kids b V t -> delete_intern pr (erase t) k = Ok r ->
  match r with
  | None => forall b' V', ext b V b' V' -> Q None b' V'
  | Some (x, d) => forall t b' V', ext b V b' V' -> coh b' V' t -> erase t = x -> Q (Some (t, d)) b' V'
  end -> wp (hdelete_intern pr t k) b V Q.
Proof.
  induction t as [c|c h|c ch val IH|c n t IH|c n val] using hnode_ind'; intros k r b V Q K E H;
    cbn [hdelete_intern erase delete_intern] in *.
  - injection E as <-. apply H, ext_refl.
  - discriminate.
  - apply kids_branch in K. destruct (is_empty k).
    + injection E as <-. apply wp_bind, wp_hbranch; [exact K|]. intros u b1 V1 X1 C1 R1. cbn [wp]. apply H; auto.
    + okbind E. destruct a as [nib k']. okbind E. cbn [lift pbind].
      destruct (with_child_map _ _ _ _ E1) as (u & I & Eu & G). rewrite G.
      apply wp_bind. eapply (proj1 (Forall_forall _ _) IH u I); [|exact Eu|].
      { apply coh_kids. rewrite Forall_forall in K. auto. }
      destruct a as [[x d]|].
      * intros u' b1 V1 X1 C1 R1. rewrite hnode_is_empty_erase, num_children_erase, R1.
        destruct (node_is_empty x && (get_num_non_empty_children (map erase ch) <=? 2)%nat).
        -- rewrite other_child_erase in E.
           destruct (hget_other_non_empty_child 0 ch (N.to_nat nib)) as [[i c']|] eqn:Ot; cbn [option_map fst snd] in E; [|discriminate].
           okbind E. injection E as <-. cbn [lift pbind]. apply wp_bind, wp_hextension.
           ++ apply other_child_in in Ot. rewrite Forall_forall in K. eapply coh_ext; [exact X1|]. auto.
           ++ intros w b2 V2 X2 C2 R2. cbn [wp]. apply H; auto. eapply ext_trans; eauto.
        -- okbind E. injection E as <-. apply wp_bind. eapply wp_try_collapse; [exact C1|rewrite R1; eassumption|].
           intros w b2 V2 X2 C2 R2. apply wp_bind, wp_hbranch.
           ++ apply Forall_set_hchild; [|exact C2]. eapply cohs_ext; [|exact K]. eapply ext_trans; eauto.
           ++ intros z b3 V3 X3 C3 R3. cbn [wp]. apply H; auto.
              ** eapply ext_trans; [exact X1|]. eapply ext_trans; eauto.
              ** rewrite R3, map_erase_set, R2. reflexivity.
      * injection E as <-. intros b1 V1 X1. cbn [wp]. apply H, X1.
  - apply kids_extension in K. okbind E. cbn [lift pbind]. destruct a.
    + okbind E. okbind E. cbn [lift pbind]. apply wp_bind. eapply IH; [apply coh_kids, K|eassumption|].
      destruct a0 as [[x d]|].
      * okbind E. injection E as <-. intros u b1 V1 X1 C1 R1. apply wp_bind.
        eapply wp_collapse; [exact C1|rewrite R1; eassumption|]. intros w b2 V2 X2 C2 R2. cbn [wp]. apply H; auto.
        eapply ext_trans; eauto.
      * injection E as <-. intros b1 V1 X1. cbn [wp]. apply H, X1.
    + injection E as <-. apply H, ext_refl.
  - destruct (nib_eqb n k); injection E as <-.
    + apply wp_bind, wp_hempty. intros u b1 V1 X1 C1 R1. cbn [wp]. apply H; auto.
    + apply H, ext_refl.
Qed.

Lemma wp_hdelete t k x d b V (Q : hnode * option (list N) -> N -> ghost -> Prop) :
  kids b V t -> cell t < b -> trie_delete pr (erase t) k = Ok (x, d) ->
  (forall t' b' V', ext b V b' V' -> kids b' V' t' -> cell t' = cell t -> erase t' = x -> Q (t', d) b' V') ->
  wp (hdelete pr t k) b V Q.
Proof.
  intros K B E H. unfold hdelete, htrie_delete. unfold trie_delete in E. okbind E.
  assert (T : forall t' d' b' V', ext b V b' V' -> Q (t', d') b' V' -> wp (Write (cell t) None (Ret (t', d'))) b' V' Q).
  { intros t' d' b' V' X HQ. cbn [wp]. split; [pose proof (proj1 X); lia|]. split; [left; reflexivity|exact HQ]. }
  apply wp_bind, wp_bind. eapply wp_hdelete_intern; [exact K|eassumption|]. destruct a as [[y d']|].
  - okbind E. injection E as <- <-. intros u b1 V1 X1 C1 R1. apply wp_bind.
    eapply wp_try_collapse; [exact C1|rewrite R1; eassumption|]. intros w b2 V2 X2 C2 R2.
    assert (X : ext b V b2 V2) by (eapply ext_trans; eauto). cbn [wp].
    apply T; [exact X|]. apply H; [exact X|apply kids_with_cell, coh_kids, C2|apply cell_with_cell|].
    rewrite erase_with_cell. exact R2.
  - injection E as <- <-. intros b1 V1 X1. cbn [wp]. apply T; [exact X1|]. apply H; auto. eapply kids_ext; eauto.
Qed.

End Coherence.

(** ** Hashing *)
Section Hashing.
Variable keccak : list N -> list N.
Variable pr : profile.
Notation hashed_of := (hashed_of keccak pr).
(** Inner nodes have the mark [false]. *)
Definition right_hash (t : node) (g : option (list N) * bool) : Prop := g = (hashed_of t, false).
Lemma right_hash_ex t : exists o, right_hash t o.
Proof. exists (hashed_of t, false). reflexivity. Qed.
Notation ok_node := (ok_node right_hash).
Notation coh := (coh right_hash).
Notation kids := (kids right_hash).

Lemma hash_intern_eq t : hash_intern keccak pr t =
  Read (cell t) (fun o => match o with
    | Some h => Ret (Hashed h)
    | None => r <~ encode_node keccak pr t ;; match r with Hashed h => Write (cell t) (Some h) (Ret r) | Raw _ => Ret r end
    end).
Proof. destruct t; reflexivity. Qed.

Definition good (b : N) (V : ghost) (t : hnode) : Prop := cell t < b /\ fst (V (cell t)) = hashed_of (erase t).
Lemma ok_good b V t : ok_node b V t -> good b V t.
Proof. intros [B O]. split; [exact B|]. unfold right_hash in O. rewrite O. reflexivity. Qed.
Lemma coh_good b V t : coh b V t -> good b V t /\ kids b V t.
Proof. intros C. apply coh_iff in C. destruct C as [O K]. split; [apply ok_good, O|exact K]. Qed.

Lemma allowed_hashed b V t h : good b V t -> allowed V (cell t) (Some h) -> rlp_encode_and_hash_node keccak pr (erase t) = Ok (Hashed h).
Proof.
  intros [_ O] [D|A]; [discriminate|]. rewrite O in A. unfold hashed_of in A.
  destruct (rlp_encode_and_hash_node keccak pr (erase t)) as [[r|h']|]; try discriminate. injection A as ->. reflexivity.
Qed.

Lemma wp_hash t : forall e b V (Q : encoded_node -> N -> ghost -> Prop), rlp_encode_and_hash_node keccak pr (erase t) = Ok e ->
  (kids b V t -> Q e b V -> wp (encode_node keccak pr t) b V Q) /\
  (good b V t -> kids b V t -> Q e b V -> wp (hash_intern keccak pr t) b V Q).
Proof.
  induction t as [c|c h|c ch val IH|c n t IH|c n val] using hnode_ind'; intros e b V Q E;
    match goal with |- _ /\ (good _ _ ?t -> _) =>
      assert (G : forall Q' : encoded_node -> N -> ghost -> Prop, kids b V t -> Q' e b V -> wp (encode_node keccak pr t) b V Q')
    end;
    try match goal with |- _ /\ _ =>
      split; [apply G|]; intros O K HQ; rewrite hash_intern_eq;
      cbn [wp]; split; [apply O|]; intros [h'|] A;
      [pose proof (allowed_hashed _ _ _ _ O A) as A'; rewrite E in A'; injection A' as ->; exact HQ|];
      apply wp_bind, G; [exact K|]; destruct e as [r|h']; cbn [wp]; [exact HQ|];
      split; [apply O|]; split; [|exact HQ]; right; destruct O as [_ O]; rewrite O; unfold hashed_of; rewrite E; reflexivity
    end; intros Q' K HQ; cbn [encode_node erase rlp_encode_and_hash_node] in *.
  - injection E as <-. exact HQ.
  - injection E as <-. exact HQ.
  - apply kids_branch in K. okbind E. okbind E. injection E as <-.
    assert (S : forall l s s', Forall (coh b V) l -> Forall (fun t => forall e b V (Q : encoded_node -> N -> ghost -> Prop),
        rlp_encode_and_hash_node keccak pr (erase t) = Ok e ->
        (kids b V t -> Q e b V -> wp (encode_node keccak pr t) b V Q) /\
        (good b V t -> kids b V t -> Q e b V -> wp (hash_intern keccak pr t) b V Q)) l ->
      (fix go (l : list node) (s : stream) {struct l} : res stream :=
         match l with [] => Ok s | c :: l' => e <- rlp_encode_and_hash_node keccak pr c ;; go l' (append_to_stream s e) end)
        (map erase l) s = Ok s' ->
      forall Q'' : stream -> N -> ghost -> Prop, Q'' s' b V -> wp (hash_children keccak pr l s) b V Q'').
    { clear. intros l. induction l as [|t l IHl]; intros s s' F FI E Q'' HQ; cbn [map] in E; cbn [hash_children].
      - injection E as <-. exact HQ.
      - inversion F; subst. inversion FI; subst. okbind E. apply wp_bind. apply (H3 _ _ _ _ eq_refl); [apply coh_good; assumption..|].
        eapply IHl; eauto. }
    apply wp_bind. eapply S; [exact K|exact IH|eassumption|]. cbn zeta. rewrite E1. cbn [lift pbind wp]. exact HQ.
  - apply kids_extension in K. okbind E. okbind E. okbind E. injection E as <-. cbn [lift pbind].
    apply wp_bind. apply (IH _ _ _ _ eq_refl); [apply coh_good, K..|]. rewrite E2. exact HQ.
  - okbind E. okbind E. injection E as <-. cbn [lift pbind]. exact HQ.
Qed.

(** [hash()], when the cell of the root has no hash or the right one. *)
Lemma wp_hhash_of t h b V (Q : list N -> N -> ghost -> Prop) :
  kids b V t -> cell t < b -> (forall h', fst (V (cell t)) = Some h' -> hashed_of (erase t) = Some h') ->
  hash_trie keccak pr (erase t) = Ok h -> Q h b V -> wp (hhash_of keccak pr t) b V Q.
Proof.
  intros K B R E HQ. unfold hhash_of. cbn [wp]. split; [exact B|]. unfold hash_trie in E. okbind E. injection E as E.
  intros [h'|] A.
  - destruct A as [A|A]; [discriminate|]. specialize (R h' (eq_sym A)). unfold hashed_of in R. rewrite E0 in R.
    destruct a as [r|h'']; [discriminate|]. injection R as ->. cbn [encoded_to_h256] in E. subst h'. exact HQ.
  - apply wp_bind. apply (proj1 (wp_hash t a b V _ E0) K). cbn [wp]. rewrite E. exact HQ.
Qed.
End Hashing.
