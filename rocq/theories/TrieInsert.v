(** Insertion. *)
From Verif Require Import Base Nibbles NibblesSpec NibblesFacts NibblesFacts2 NibblesFacts3 Trie TrieSpec TrieFacts.
Open Scope N_scope.

Lemma lk_ext q b k : hexl q -> lk (ext q b) k = match strip q k with Some k' => lk b k' | None => None end.
Proof. intros H. destruct q as [|x q]; [reflexivity|]. cbn [ext lk]. rewrite nseq_enc by exact H. reflexivity. Qed.

Lemma lk_mk k v j : hexl k -> lk (mk k v) j = if key_eqb k j then Some v else None.
Proof.
  intros H. unfold mk, create_node_from_insert_val. destruct v as [v|h].
  - cbn [lk]. rewrite nseq_enc by exact H. reflexivity.
  - rewrite is_empty_enc. destruct k as [|x k].
    + destruct j; reflexivity.
    + cbn [lk]. rewrite nseq_enc by exact H.
      destruct (key_eqb_spec (x :: k) j) as [<-|Hn].
      * replace (strip (x :: k) (x :: k)) with (Some (@nil N)); [reflexivity|].
        symmetry. apply strip_some. rewrite app_nil_r. reflexivity.
      * destruct (strip (x :: k) j) as [[|y j']|] eqn:E; try reflexivity.
        apply strip_some in E. rewrite app_nil_r in E. congruence.
Qed.

Lemma lk_br1_nil x c w : lk (br1 x c w) [] = match w with [] => None | _ => Some (Val w) end.
Proof. reflexivity. Qed.

Lemma lk_br1 x c w d k : x < 16 -> lk (br1 x c w) (d :: k) = if d =? x then lk c k else None.
Proof.
  intros H. unfold br1. rewrite lk_branch, child_set by (apply new_length || exact H).
  destruct (d =? x); [reflexivity|]. rewrite child_new. reflexivity.
Qed.

Lemma lk_br2 x c y c' d k : x < 16 -> y < 16 ->
  lk (br2 x c y c') (d :: k) = if d =? y then lk c' k else if d =? x then lk c k else None.
Proof.
  intros H H'. unfold br2. rewrite lk_branch, child_set by (rewrite ?set_child_length; apply new_length || assumption).
  destruct (d =? y); [reflexivity|]. rewrite child_set by (apply new_length || assumption).
  destruct (d =? x); [reflexivity|]. rewrite child_new. reflexivity.
Qed.

(** ** Well-formedness of the new nodes *)
Lemma wf_ext' q L b : hexl q -> wf L b -> wf (length q + L) (ext q b).
Proof. intros H W. destruct q; [exact W|]. apply wf_ext; assumption. Qed.

Lemma wf_mk k v L : hexl k -> (length k <= L)%nat -> wf L (mk k v).
Proof.
  intros H HL. unfold mk, create_node_from_insert_val. destruct v; [constructor; assumption|].
  rewrite is_empty_enc. destruct k; [constructor|].
  apply (wf_weaken (length (n :: k) + 0)); [|lia]. apply wf_ext; [assumption|constructor].
Qed.

Lemma wf_br1 x c w L : wf L c -> wf (S L) (br1 x c w).
Proof.
  intros W. constructor; [rewrite set_child_length; apply new_length|].
  apply Forall_set_child; [apply Forall_new; constructor|exact W].
Qed.

Lemma wf_br2 x c y c' L : wf L c -> wf L c' -> wf (S L) (br2 x c y c').
Proof.
  intros W W'. constructor; [rewrite !set_child_length; apply new_length|].
  apply Forall_set_child; [|exact W']. apply Forall_set_child; [apply Forall_new; constructor|exact W].
Qed.

Lemma shape_ext q b : hexl q -> shape b -> branch_or_hash b -> shape (ext q b).
Proof. intros H S B. destruct q; [exact S|]. constructor; [rewrite nseq_enc by exact H; congruence|exact B|exact S]. Qed.

Lemma canon_ext q b : hexl q -> canon b -> branch_or_hash b -> canon (ext q b).
Proof. intros H S B. destruct q; [exact S|]. constructor; [rewrite nseq_enc by exact H; congruence|exact B|exact S]. Qed.

Lemma canon_mk k v : hexl k -> proper v -> canon (mk k v).
Proof.
  intros H P. unfold mk, create_node_from_insert_val. destruct v; [constructor; exact P|].
  rewrite is_empty_enc. destruct k; [constructor|].
  constructor; [rewrite nseq_enc by exact H; congruence|exact I|constructor].
Qed.

Lemma mk_nonempty k v : mk k v <> Empty.
Proof. unfold mk, create_node_from_insert_val. destruct v; [|destruct (is_empty _)]; congruence. Qed.

Lemma ext_nonempty q b : b <> Empty -> ext q b <> Empty.
Proof. destruct q; [tauto|]. cbn [ext]. congruence. Qed.

Definition occ (ch : list node) : nat :=
  length (filter (fun c => match c with Empty => false | _ => true end) ch).

Lemma occ_set_new ch i c : (i < length ch)%nat -> nth i ch Empty = Empty -> c <> Empty ->
  occ (set_child ch i c) = S (occ ch).
Proof.
  unfold occ. revert i. induction ch as [|x ch IH]; intros i L E H; cbn [length] in L; [lia|].
  destruct i as [|i]; cbn [set_child nth filter] in *.
  - subst x. destruct c; [congruence|reflexivity..].
  - specialize (IH i ltac:(lia) E H). destruct x; cbn [length]; rewrite IH; reflexivity.
Qed.

Lemma occ_set_old ch i c : (i < length ch)%nat -> nth i ch Empty <> Empty -> c <> Empty ->
  occ (set_child ch i c) = occ ch.
Proof.
  unfold occ. revert i. induction ch as [|x ch IH]; intros i L E H; cbn [length] in L; [lia|].
  destruct i as [|i]; cbn [set_child nth filter] in *.
  - destruct c; [congruence|..]; destruct x; (congruence || reflexivity).
  - specialize (IH i ltac:(lia) E H). destruct x; cbn [length]; rewrite IH; reflexivity.
Qed.

Lemma occ_new : occ new_branch_child_arr = 0%nat.
Proof. reflexivity. Qed.

Lemma occ_br1 x c : x < 16 -> c <> Empty -> occ (set_child new_branch_child_arr (N.to_nat x) c) = 1%nat.
Proof.
  intros Hx Hc. rewrite occ_set_new, occ_new; [reflexivity|rewrite new_length; lia|apply child_new|exact Hc].
Qed.

Lemma occ_br2 x c y c' : x < 16 -> y < 16 -> x <> y -> c <> Empty -> c' <> Empty ->
  occ (set_child (set_child new_branch_child_arr (N.to_nat x) c) (N.to_nat y) c') = 2%nat.
Proof.
  intros Hx Hy Hn Hc Hc'. rewrite occ_set_new, occ_br1; auto.
  - rewrite set_child_length, new_length. lia.
  - change (child (set_child new_branch_child_arr (N.to_nat x) c) y = Empty).
    rewrite child_set by (apply new_length || exact Hx). destruct (N.eqb_spec y x); [congruence|apply child_new].
Qed.

Lemma occ_ex ch : (1 <= occ ch)%nat -> exists c, In c ch /\ c <> Empty.
Proof.
  unfold occ. destruct (filter _ ch) as [|c l] eqn:E; cbn [length]; [lia|]. intros _.
  assert (I : In c (filter (fun c => match c with Empty => false | _ => true end) ch)) by (rewrite E; left; reflexivity).
  apply filter_In in I. exists c. split; [tauto|]. intros ->. destruct I. discriminate.
Qed.

Lemma shape_br1 x c w : x < 16 -> shape c -> c <> Empty -> shape (br1 x c w).
Proof.
  intros H S NE. constructor; [apply Forall_set_child; [apply Forall_new; constructor|exact S]|].
  apply occ_ex. rewrite occ_br1 by assumption. lia.
Qed.

Lemma shape_br2 x c y c' : x < 16 -> y < 16 -> x <> y -> shape c -> shape c' -> c <> Empty -> c' <> Empty ->
  shape (br2 x c y c').
Proof.
  intros Hx Hy Hn S S' NE NE'. constructor.
  - repeat apply Forall_set_child; auto. apply Forall_new; constructor.
  - apply occ_ex. rewrite occ_br2 by assumption. lia.
Qed.

Lemma canon_br1 x c w : x < 16 -> canon c -> c <> Empty -> w <> [] -> canon (br1 x c w).
Proof.
  intros H S NE Hw. constructor; [apply Forall_set_child; [apply Forall_new; constructor|exact S]|].
  unfold occupied. change (2 <= occ (set_child new_branch_child_arr (N.to_nat x) c) + match w with [] => 0 | _ => 1 end)%nat.
  rewrite occ_br1 by assumption. destruct w; [congruence|lia].
Qed.

Lemma canon_br2 x c y c' : x < 16 -> y < 16 -> x <> y -> canon c -> canon c' -> c <> Empty -> c' <> Empty ->
  canon (br2 x c y c').
Proof.
  intros Hx Hy Hn S S' NE NE'. constructor.
  - repeat apply Forall_set_child; auto. apply Forall_new; constructor.
  - unfold occupied. change (2 <= occ (set_child (set_child new_branch_child_arr (N.to_nat x) c) (N.to_nat y) c') + 0)%nat.
    rewrite occ_br2 by assumption. lia.
Qed.

(** ** The effective key *)
Lemma eff_branch ch v d k : eff (Branch ch v) (d :: k) = d :: eff (child ch d) k.
Proof.
  cbn [eff]. f_equal. rewrite at_child_nth. unfold child.
  destruct (nth_error ch (N.to_nat d)) as [c|] eqn:E.
  - rewrite (nth_error_nth _ _ Empty E). reflexivity.
  - apply nth_error_None in E. rewrite nth_overflow by exact E. reflexivity.
Qed.

Lemma eff_ext_long p k c : hexl p -> eff (Extension (enc p) c) (p ++ k) = p ++ eff c k.
Proof. intros H. cbn [eff]. rewrite nseq_enc, strip_app by exact H. reflexivity. Qed.

Lemma eff_ext_short k x p c : hexl (k ++ x :: p) -> eff (Extension (enc (k ++ x :: p)) c) k = k ++ x :: p.
Proof. intros H. cbn [eff]. rewrite nseq_enc, strip_strict, strip_app by exact H. reflexivity. Qed.

Lemma eff_ext_div q x p y k c : hexl (q ++ x :: p) -> x <> y ->
  eff (Extension (enc (q ++ x :: p)) c) (q ++ y :: k) = q ++ y :: k.
Proof. intros H D. cbn [eff]. rewrite nseq_enc by exact H. rewrite !strip_div by congruence. reflexivity. Qed.

(** ** When insertion is blocked *)
Definition hash_on_path (t : node) (k : list N) : Prop := exists p h, lk t p = Some (HashV h) /\ is_prefix p k.
Definition extended (t : node) (k : list N) : Prop := exists j, stored t j /\ is_prefix k j.
Definition blocked (t : node) (k : list N) (v : val_or_hash) : Prop :=
  hash_on_path t (eff t k) \/ (match v with HashV _ => True | Val _ => False end /\ extended t k).

Lemma hop_branch_nil ch w : ~ hash_on_path (Branch ch w) [].
Proof. intros (p & h & E & c & P). destruct p; [|discriminate]. cbn in E. destruct w; discriminate. Qed.

Lemma hop_branch ch w d k : hash_on_path (Branch ch w) (d :: k) <-> hash_on_path (child ch d) k.
Proof.
  split.
  - intros (p & h & E & c & P). destruct p as [|d' p]; [cbn in E; destruct w; discriminate|].
    injection P as <- ->. rewrite lk_branch in E. exists p, h. split; [exact E|exists c; reflexivity].
  - intros (p & h & E & c & ->). exists (d :: p), h. rewrite lk_branch. split; [exact E|exists c; reflexivity].
Qed.

Lemma hop_ext p c k : hexl p -> hash_on_path (Extension (enc p) c) (p ++ k) <-> hash_on_path c k.
Proof.
  intros H. split.
  - intros (q & h & E & r & P). cbn [lk] in E. rewrite nseq_enc in E by exact H.
    destruct (strip p q) as [q'|] eqn:S; [|discriminate]. apply strip_some in S. subst q.
    rewrite <- app_assoc in P. apply app_inv_head in P. subst k. exists q', h. split; [exact E|exists r; reflexivity].
  - intros (q & h & E & r & ->). exists (p ++ q), h. cbn [lk]. rewrite nseq_enc, strip_app by exact H.
    split; [exact E|exists r; apply app_assoc].
Qed.

Lemma hop_ext_div q x p y k c : hexl (q ++ x :: p) -> x <> y -> ~ hash_on_path (Extension (enc (q ++ x :: p)) c) (q ++ y :: k).
Proof.
  intros H D (j & h & E & r & P). cbn [lk] in E. rewrite nseq_enc in E by exact H.
  destruct (strip _ j) as [j'|] eqn:S; [|discriminate]. apply strip_some in S. subst j.
  rewrite <- !app_assoc in P. apply app_inv_head in P. cbn [app] in P. congruence.
Qed.

Lemma hop_leaf n w k : ~ hash_on_path (Leaf n w) k.
Proof. intros (j & h & E & r & P). cbn [lk] in E. destruct (key_eqb _ _); discriminate. Qed.

Lemma ext_branch ch w d k : extended (Branch ch w) (d :: k) <-> extended (child ch d) k.
Proof.
  split.
  - intros (j & S & c & ->). exists (k ++ c). split; [|exists c; reflexivity].
    unfold stored in *. cbn [app] in S. rewrite lk_branch in S. exact S.
  - intros (j & S & c & ->). exists (d :: k ++ c). split; [|exists c; reflexivity].
    unfold stored. rewrite lk_branch. exact S.
Qed.

Lemma ext_ext p c k : hexl p -> extended (Extension (enc p) c) (p ++ k) <-> extended c k.
Proof.
  intros H. split.
  - intros (j & S & r & ->). exists (k ++ r). split; [|exists r; reflexivity].
    unfold stored in *. cbn [lk] in S. rewrite nseq_enc in S by exact H. rewrite <- app_assoc, strip_app in S. exact S.
  - intros (j & S & r & ->). exists (p ++ k ++ r). split; [|exists r; apply app_assoc].
    unfold stored. cbn [lk]. rewrite nseq_enc by exact H. rewrite strip_app. exact S.
Qed.

Lemma ext_ext_div q x p y k c : hexl (q ++ x :: p) -> x <> y -> ~ extended (Extension (enc (q ++ x :: p)) c) (q ++ y :: k).
Proof.
  intros H D (j & S & r & ->). unfold stored in S. cbn [lk] in S. rewrite nseq_enc in S by exact H.
  rewrite <- app_assoc in S. cbn [app] in S. rewrite strip_div in S by exact D. congruence.
Qed.

Lemma ext_leaf l w k : hexl l -> extended (Leaf (enc l) w) k <-> is_prefix k l.
Proof.
  intros H. unfold extended, stored. cbn [lk]. rewrite nseq_enc by exact H. split.
  - intros (j & S & P). destruct (key_eqb_spec l j); [subst; exact P|congruence].
  - intros P. exists l. rewrite key_eqb_refl. split; [congruence|exact P].
Qed.

Lemma is_prefix_len a b : is_prefix a b -> (length a <= length b)%nat.
Proof. intros [c ->]. rewrite app_length. lia. Qed.

Definition ins_post (L : nat) (t : node) (k : list N) (v : val_or_hash) (t' : node) : Prop :=
  wf L t' /\ shape t' /\ t' <> Empty /\ (canon t -> canon t') /\
  (forall j, lk t' j = if key_eqb (eff t k) j then Some v else lk t j).

Definition is_branch (t : node) : Prop := match t with Branch _ _ => True | _ => False end.

Lemma key_eqb_app p a b : key_eqb (p ++ a) (p ++ b) = key_eqb a b.
Proof. induction p as [|x p IH]; [reflexivity|]. cbn [app key_eqb]. rewrite N.eqb_refl. exact IH. Qed.

Lemma key_eqb_strip p a j : key_eqb (p ++ a) j = match strip p j with Some j' => key_eqb a j' | None => false end.
Proof.
  destruct (strip p j) as [j'|] eqn:E.
  - apply strip_some in E. subst j. apply key_eqb_app.
  - apply key_eqb_neq. intros <-. rewrite strip_app in E. discriminate.
Qed.

Lemma strip_app_two p a j : strip (p ++ a) j = match strip p j with Some j' => strip a j' | None => None end.
Proof.
  revert j. induction p as [|x p IH]; intros j; [reflexivity|]. cbn [app strip].
  destruct j as [|y j]; [reflexivity|]. destruct (x =? y); [apply IH|reflexivity].
Qed.

Lemma insert_spec pr t : forall L k v,
  wf L t -> shape t -> hexl k -> (length k <= L)%nat -> (L <= 127)%nat -> proper v ->
  (exists t', insert_rec pr t (enc k) v = Ok t' /\ ins_post L t k v t' /\ (is_branch t -> is_branch t') /\ ~ blocked t k v)
  \/ (insert_rec pr t (enc k) v = Panic /\ blocked t k v).
Proof.
  induction t as [|h|ch w IH|n c IH|n w] using node_ind'; intros L k v W Sh Hk Lk HL Pv.
  - (* Empty *)
    left. exists (mk k v). split; [reflexivity|]. split; [|split; [intros []|]].
    + split; [apply wf_mk; assumption|]. split; [apply canon_shape, canon_mk; assumption|].
      split; [apply mk_nonempty|]. split; [intros _; apply canon_mk; assumption|].
      intros j. rewrite lk_mk by assumption. reflexivity.
    + intros [(p & h & E & _)|(_ & j & E & _)]; [discriminate|apply E; reflexivity].
  - (* Hash *)
    right. split; [reflexivity|]. left. exists [], h. split; [reflexivity|exists (eff (Hash h) k); reflexivity].
  - (* Branch *)
    inversion W as [| |L0 ? ? Hl F| |]; subst. inversion Sh as [| |? ? FS X| |]; subst.
    destruct k as [|d k].
    + rewrite insert_branch_nil. destruct v as [u|h].
      * left. exists (Branch ch u). split; [reflexivity|]. split; [|split; [intros _; exact I|]].
        -- split; [constructor; assumption|]. split; [constructor; assumption|]. split; [congruence|]. split.
           ++ intros C. inversion C; subst. constructor; [assumption|]. unfold occupied in *.
              destruct u; [exfalso; apply Pv; reflexivity|]. destruct w; lia.
           ++ intros [|d j]; [|reflexivity]. cbn. destruct u; [exfalso; apply Pv; reflexivity|reflexivity].
        -- intros [B|(B & _)]; [|exact B]. revert B. apply hop_branch_nil.
      * right. split; [reflexivity|]. right. split; [exact I|]. destruct (shape_stored _ Sh) as (j & Hj); [congruence|].
        exists j. split; [exact Hj|exists j; reflexivity].
    + rewrite insert_branch_cons by (assumption || cbn [length] in *; lia).
      assert (Hd : d < 16) by (inversion Hk; assumption).
      assert (IHc : Forall (fun c => c = Empty \/ In c ch) [child ch d]).
      { constructor; [|constructor]. destruct (child ch d) eqn:E; [left; reflexivity|right; rewrite <- E; apply in_child; rewrite E; congruence..]. }
      assert (G : (exists t', insert_rec pr (child ch d) (enc k) v = Ok t' /\ ins_post L0 (child ch d) k v t' /\ ~ blocked (child ch d) k v)
                  \/ (insert_rec pr (child ch d) (enc k) v = Panic /\ blocked (child ch d) k v)).
      { assert (Hk' : hexl k) by (inversion Hk; assumption). cbn [length] in Lk.
        destruct (child ch d) eqn:E.
        1: { left. exists (mk k v). split; [reflexivity|]. split.
             - split; [apply wf_mk; [assumption|lia]|]. split; [apply canon_shape, canon_mk; assumption|].
               split; [apply mk_nonempty|]. split; [intros _; apply canon_mk; assumption|].
               intros j. rewrite lk_mk by assumption. reflexivity.
             - intros [(p & h & E' & _)|(_ & j & E' & _)]; [discriminate|apply E'; reflexivity]. }
        all: assert (I : In (child ch d) ch) by (apply in_child; rewrite E; congruence);
             rewrite Forall_forall in IH, F, FS;
             destruct (IH _ I L0 k v (F _ I) (FS _ I) Hk' ltac:(lia) ltac:(lia) Pv) as [(t' & H1 & H2 & _ & H3)|H];
             rewrite E in *; [left; exists t'; auto|right; assumption]. }
      destruct G as [(c' & E & (Wc & Sc & NE & Cc & Kc) & NB)|(E & B)]; rewrite E; cbn [bind].
      * left. eexists. split; [reflexivity|]. split; [|split; [intros _; exact I|]].
        -- split; [constructor; [rewrite set_child_length; exact Hl|apply Forall_set_child; assumption]|].
           split; [constructor; [apply Forall_set_child; assumption|]|].
           { exists c'. split; [|exact NE]. replace c' with (child (set_child ch (N.to_nat d) c') d) at 1.
             - apply in_child. rewrite child_set, N.eqb_refl by assumption. exact NE.
             - rewrite child_set, N.eqb_refl by assumption. reflexivity. }
           split; [congruence|]. split.
           ++ intros C. inversion C as [| |? ? FC O| |]; subst. constructor.
              ** apply Forall_set_child; [assumption|]. apply Cc. apply Forall_child; [constructor|assumption].
              ** unfold occupied in *. fold (occ ch) in O. fold (occ (set_child ch (N.to_nat d) c')).
                 destruct (child ch d) eqn:Ec.
                 1: rewrite occ_set_new; [destruct w; lia|lia|exact Ec|exact NE].
                 all: rewrite occ_set_old; [destruct w; lia|lia|unfold child in Ec; rewrite Ec; congruence|exact NE].
           ++ rewrite eff_branch. intros [|e j]; [reflexivity|].
              rewrite !lk_branch, child_set by assumption. cbn [key_eqb]. rewrite (N.eqb_sym d e).
              destruct (N.eqb_spec e d) as [->|]; [apply Kc|reflexivity].
        -- unfold blocked in *. rewrite eff_branch, hop_branch, ext_branch. exact NB.
      * right. split; [reflexivity|]. unfold blocked in *. rewrite eff_branch, hop_branch, ext_branch. exact B.
  - (* Extension *)
    inversion W as [| | |L0 p c0 Hp Wc|]; subst. inversion Sh as [| | |? ? Hn Bc Sc|]; subst.
    rewrite nseq_enc in Hn by exact Hp.
    destruct (compare_keys p k) as [->|y k' ->|x p' ->|q x p' y k' -> -> D].
    + (* key ends at the extension: continue with the empty key *)
      assert (E0 : insert_rec pr (Extension (enc k) c) (enc k) v = (c' <- insert_rec pr c (enc []) v ;; Ok (Extension (enc k) c'))).
      { rewrite <- (app_nil_r k) at 2. apply insert_ext_long; rewrite app_nil_r; auto; lia. }
      assert (E1 : eff (Extension (enc k) c) k = k ++ eff c []).
      { rewrite <- (app_nil_r k) at 2. apply eff_ext_long; assumption. }
      assert (E2 : extended (Extension (enc k) c) k <-> extended c []).
      { rewrite <- (ext_ext k c [] Hp), app_nil_r. reflexivity. }
      rewrite E0.
      destruct (IH L0 [] v Wc Sc ltac:(constructor) ltac:(cbn; lia) ltac:(lia) Pv) as [(c' & E & (Wc' & Sc' & NE & Cc & Kc) & Bb & NB)|(E & B)]; rewrite E; cbn [bind].
      * left. eexists. split; [reflexivity|].
        assert (Br : is_branch c') by (apply Bb; destruct c; try exact I; try (exfalso; exact Bc); discriminate).
        assert (Br' : branch_or_hash c') by (destruct c'; exact Br || exact I).
        split; [|split; [intros []|]].
        -- split; [apply wf_ext; assumption|]. split; [constructor; rewrite ?nseq_enc by exact Hp; assumption|].
           split; [congruence|]. split.
           ++ intros C. inversion C; subst. constructor; rewrite ?nseq_enc by exact Hp; auto.
           ++ intros j. rewrite E1, key_eqb_strip. cbn [lk]. rewrite nseq_enc by exact Hp.
              destruct (strip k j); [apply Kc|reflexivity].
        -- unfold blocked in *. rewrite E1. rewrite hop_ext by exact Hp.
           rewrite E2. exact NB.
      * right. split; [reflexivity|]. unfold blocked in *. rewrite E1. rewrite hop_ext by exact Hp.
        rewrite E2. exact B.
    + rewrite app_length in Lk. cbn [length] in Lk.
      rewrite insert_ext_long by (auto; rewrite app_length; cbn [length]; lia).
      assert (Hk' : hexl (y :: k')) by (apply hexl_app in Hk; tauto).
      pose proof (eff_ext_long p (y :: k') c Hp) as E1.
      destruct (IH L0 (y :: k') v Wc Sc Hk' ltac:(cbn [length]; lia) ltac:(lia) Pv) as [(c' & E & (Wc' & Sc' & NE & Cc & Kc) & Bb & NB)|(E & B)]; rewrite E; cbn [bind].
      * left. eexists. split; [reflexivity|].
        assert (Br : is_branch c') by (apply Bb; destruct c; try exact I; try (exfalso; exact Bc); discriminate).
        assert (Br' : branch_or_hash c') by (destruct c'; exact Br || exact I).
        split; [|split; [intros []|]].
        -- split; [apply wf_ext; assumption|]. split; [constructor; rewrite ?nseq_enc by exact Hp; assumption|].
           split; [congruence|]. split.
           ++ intros C. inversion C; subst. constructor; rewrite ?nseq_enc by exact Hp; auto.
           ++ intros j. rewrite E1, key_eqb_strip. cbn [lk]. rewrite nseq_enc by exact Hp.
              destruct (strip p j); [apply Kc|reflexivity].
        -- unfold blocked in *. rewrite E1. rewrite hop_ext, ext_ext by exact Hp. exact NB.
      * right. split; [reflexivity|]. unfold blocked in *. rewrite E1. rewrite hop_ext, ext_ext by exact Hp. exact B.
    + (* the key ends strictly inside the extension *)
      rewrite app_length in *. cbn [length] in *.
      rewrite insert_ext_short by (auto; rewrite app_length; cbn [length]; lia).
      pose proof (eff_ext_short k x p' c Hp) as E1.
      destruct c as [|h|ch w|n c|n w]; try (exfalso; exact Bc).
      * right. split; [reflexivity|]. left. rewrite E1. rewrite <- (app_nil_r (k ++ x :: p')) at 2.
        apply hop_ext; [exact Hp|]. exists [], h. split; [reflexivity|exists []; reflexivity].
      * rewrite insert_branch_nil. destruct v as [u|h]; cbn [bind].
        -- left. eexists. split; [reflexivity|].
           destruct (IH L0 [] (Val u) Wc Sc ltac:(constructor) ltac:(cbn; lia) ltac:(lia) Pv) as [(c' & E & (Wc' & Sc' & NE & Cc & Kc) & Bb & NB)|(E & B)]; [|discriminate].
           rewrite insert_branch_nil in E. injection E as <-.
           split; [|split; [intros []|]].
           ++ split; [replace (length k + S (length p') + L0)%nat with (length (k ++ x :: p') + L0)%nat by (rewrite app_length; cbn [length]; lia); apply wf_ext; assumption|].
              split; [constructor; rewrite ?nseq_enc by exact Hp; assumption|].
              split; [congruence|]. split.
              ** intros C. inversion C; subst. constructor; rewrite ?nseq_enc by exact Hp; auto.
              ** intros j. rewrite E1. rewrite <- (app_nil_r (k ++ x :: p')) at 2. rewrite key_eqb_strip.
                 change (lk (Extension (enc (k ++ x :: p')) (Branch ch u)) j) with
                   (match strip (nseq (enc (k ++ x :: p'))) j with Some k' => lk (Branch ch u) k' | None => None end).
                 change (lk (Extension (enc (k ++ x :: p')) (Branch ch w)) j) with
                   (match strip (nseq (enc (k ++ x :: p'))) j with Some k' => lk (Branch ch w) k' | None => None end).
                 rewrite nseq_enc by exact Hp. destruct (strip _ j); [apply Kc|reflexivity].
           ++ unfold blocked in *. rewrite E1. intros [B|[[] _]]. apply NB. left.
              rewrite <- (app_nil_r (k ++ x :: p')) in B at 2. apply hop_ext in B; [exact B|exact Hp].
        -- right. split; [reflexivity|]. right. split; [exact I|].
           destruct (shape_stored _ Sh) as (j & Hj); [congruence|].
           exists j. split; [exact Hj|]. unfold stored in Hj. cbn [lk] in Hj. rewrite nseq_enc in Hj by exact Hp.
           destruct (strip (k ++ x :: p') j) as [j'|] eqn:Es; [|congruence]. apply strip_some in Es. subst j.
           exists ((x :: p') ++ j'). rewrite <- app_assoc. reflexivity.
    + (* the key leaves the extension *)
      pose proof (eff_ext_div q x p' y k' c Hp D) as E1.
      rewrite !app_length in *. cbn [length] in *.
      rewrite insert_ext_div by (auto; rewrite ?app_length; cbn [length]; lia).
      left. eexists. split; [reflexivity|].
      pose proof Hp as Hp'. apply hexl_app in Hp'. destruct Hp' as [Hq Hx]. inversion Hx as [|? ? Hx1 Hx2]; subst.
      pose proof Hk as Hk'. apply hexl_app in Hk'. destruct Hk' as [_ Hy]. inversion Hy as [|? ? Hy1 Hy2]; subst.
      assert (NEc : c <> Empty) by (intros ->; exact Bc).
      split; [|split; [intros []|]].
      * split; [|split; [|split; [|split]]].
        -- replace (length q + S (length p') + L0)%nat with (length q + S (length p' + L0))%nat by lia.
           apply wf_ext'; [assumption|]. apply wf_br2; [apply wf_ext'; assumption|apply wf_mk; [assumption|lia]].
        -- apply shape_ext; [assumption| |exact I]. apply shape_br2; auto.
           ++ apply shape_ext; assumption.
           ++ apply canon_shape, canon_mk; assumption.
           ++ apply ext_nonempty; assumption.
           ++ apply mk_nonempty.
        -- apply ext_nonempty. unfold br2. congruence.
        -- intros C. inversion C; subst. apply canon_ext; [assumption| |exact I]. apply canon_br2; auto.
           ++ apply canon_ext; assumption.
           ++ apply canon_mk; assumption.
           ++ apply ext_nonempty; assumption.
           ++ apply mk_nonempty.
        -- intros j. rewrite E1. rewrite lk_ext by assumption. cbn [lk]. rewrite nseq_enc by exact Hp.
           rewrite key_eqb_strip, strip_app_two. destruct (strip q j) as [[|e j']|]; [reflexivity| |reflexivity].
           rewrite lk_br2 by assumption. cbn [key_eqb strip]. rewrite (N.eqb_sym y e), (N.eqb_sym x e).
           destruct (N.eqb_spec e y) as [->|].
           ++ destruct (N.eqb_spec y x); [congruence|]. cbn [andb]. rewrite lk_mk by assumption. destruct (key_eqb k' j'); reflexivity.
           ++ cbn [andb]. destruct (e =? x); [|reflexivity]. apply lk_ext. assumption.
      * unfold blocked. rewrite E1. intros [B|[_ B]]; revert B; [apply hop_ext_div|apply ext_ext_div]; assumption.
  - (* Leaf *)
    inversion W as [| | | |L0 p w0 Hp Lp]; subst. inversion Sh as [| | | |? ? Hw]; subst.
    assert (E1 : eff (Leaf (enc p) w) k = k) by reflexivity.
    assert (BL : blocked (Leaf (enc p) w) k v <-> match v with HashV _ => True | Val _ => False end /\ is_prefix k p).
    { unfold blocked. rewrite ext_leaf by assumption. split; [intros [B|B]; [exfalso; revert B; apply hop_leaf|exact B]|tauto]. }
    destruct (compare_keys p k) as [->|y k' ->|x p' ->|q x p' y k' -> -> D].
    + rewrite insert_leaf_eq by assumption. destruct v as [u|h].
      * left. eexists. split; [reflexivity|]. split; [|split; [intros []|rewrite BL; tauto]].
        split; [constructor; assumption|]. split; [constructor; exact Pv|]. split; [congruence|].
        split; [intros _; constructor; exact Pv|].
        intros j. rewrite E1. cbn [lk]. rewrite nseq_enc by assumption. destruct (key_eqb k j); reflexivity.
      * right. split; [reflexivity|]. rewrite BL. split; [exact I|exists []; rewrite app_nil_r; reflexivity].
    + pose proof Lk as Lk'. rewrite app_length in Lk'. cbn [length] in Lk'.
      rewrite insert_leaf_long by (auto; lia).
      pose proof Hk as Hk'. apply hexl_app in Hk'. destruct Hk' as [_ Hy]. inversion Hy as [|? ? Hy1 Hy2]; subst.
      left. eexists. split; [reflexivity|]. split; [|split; [intros []|]].
      * assert (C : canon (ext p (br1 y (mk k' v) w))).
        { apply canon_ext; [assumption| |exact I]. apply canon_br1; auto; [apply canon_mk; assumption|apply mk_nonempty]. }
        split; [|split; [|split; [|split]]].
        -- replace L with (length p + S (L - length p - 1))%nat by lia. apply wf_ext'; [assumption|].
           apply wf_br1. apply wf_mk; [assumption|lia].
        -- apply canon_shape, C.
        -- apply ext_nonempty. unfold br1. congruence.
        -- intros _. exact C.
        -- intros j. rewrite E1. rewrite lk_ext by assumption. cbn [lk]. rewrite nseq_enc by assumption.
           rewrite <- (app_nil_r p) at 3. rewrite !key_eqb_strip. destruct (strip p j) as [[|e j']|]; [|  |reflexivity].
           ++ cbn. destruct w; [congruence|reflexivity].
           ++ rewrite lk_br1 by assumption. cbn [key_eqb]. rewrite (N.eqb_sym y e).
              destruct (N.eqb_spec e y) as [->|]; [|reflexivity]. cbn [andb]. apply lk_mk. assumption.
      * rewrite BL. intros [_ B]. apply is_prefix_len in B. rewrite app_length in B. cbn [length] in B. lia.
    + pose proof Lp as Lp'. rewrite app_length in Lp'. cbn [length] in Lp'.
      rewrite insert_leaf_short by (auto; lia).
      pose proof Hp as Hp'. apply hexl_app in Hp'. destruct Hp' as [_ Hy]. inversion Hy as [|? ? Hy1 Hy2]; subst.
      destruct v as [u|h].
      * left. eexists. split; [reflexivity|]. split; [|split; [intros []|rewrite BL; tauto]].
        assert (C : canon (ext k (br1 x (Leaf (enc p') w) u))).
        { apply canon_ext; [assumption| |exact I]. apply canon_br1; auto; [constructor; assumption|congruence]. }
        split; [|split; [|split; [|split]]].
        -- replace L with (length k + S (L - length k - 1))%nat by lia. apply wf_ext'; [assumption|].
           apply wf_br1. constructor; [assumption|lia].
        -- apply canon_shape, C.
        -- apply ext_nonempty. unfold br1. congruence.
        -- intros _. exact C.
        -- intros j. rewrite E1. rewrite lk_ext by assumption. cbn [lk]. rewrite nseq_enc by assumption.
           rewrite <- (app_nil_r k) at 2. rewrite !key_eqb_strip. destruct (strip k j) as [[|e j']|]; [|  |reflexivity].
           ++ cbn. destruct u; [exfalso; apply Pv; reflexivity|reflexivity].
           ++ rewrite lk_br1 by assumption. cbn [key_eqb]. rewrite (N.eqb_sym x e).
              destruct (N.eqb_spec e x) as [->|]; [|reflexivity]. cbn [andb lk]. rewrite nseq_enc by assumption. reflexivity.
      * right. split; [reflexivity|]. rewrite BL. split; [exact I|exists (x :: p'); reflexivity].
    + pose proof Lp as Lp'. rewrite app_length in Lp'. cbn [length] in Lp'.
      pose proof Lk as Lk'. rewrite app_length in Lk'. cbn [length] in Lk'.
      rewrite insert_leaf_div by (auto; lia).
      pose proof Hp as Hp'. apply hexl_app in Hp'. destruct Hp' as [Hq Hx]. inversion Hx as [|? ? Hx1 Hx2]; subst.
      pose proof Hk as Hk'. apply hexl_app in Hk'. destruct Hk' as [_ Hy]. inversion Hy as [|? ? Hy1 Hy2]; subst.
      left. eexists. split; [reflexivity|]. split; [|split; [intros []|]].
      * assert (C : canon (ext q (br2 x (Leaf (enc p') w) y (mk k' v)))).
        { apply canon_ext; [assumption| |exact I]. apply canon_br2; auto; [constructor; assumption|apply canon_mk; assumption|congruence|apply mk_nonempty]. }
        split; [|split; [|split; [|split]]].
        -- replace L with (length q + S (L - length q - 1))%nat by lia. apply wf_ext'; [assumption|].
           apply wf_br2; [constructor; [assumption|lia]|apply wf_mk; [assumption|lia]].
        -- apply canon_shape, C.
        -- apply ext_nonempty. unfold br2. congruence.
        -- intros _. exact C.
        -- intros j. rewrite E1. rewrite lk_ext by assumption. cbn [lk]. rewrite nseq_enc by assumption.
           rewrite !key_eqb_strip. destruct (strip q j) as [[|e j']|]; [reflexivity| |reflexivity].
           rewrite lk_br2 by assumption. cbn [key_eqb]. rewrite (N.eqb_sym y e), (N.eqb_sym x e).
           destruct (N.eqb_spec e y) as [->|].
           ++ destruct (N.eqb_spec y x); [congruence|]. cbn [andb]. rewrite lk_mk by assumption. destruct (key_eqb k' j'); reflexivity.
           ++ cbn [andb]. destruct (N.eqb_spec e x); [|reflexivity]. cbn [lk andb]. rewrite nseq_enc by assumption. reflexivity.
      * rewrite BL. intros [_ [r B]]. rewrite <- app_assoc in B. apply app_inv_head in B. cbn [app] in B. congruence.
Qed.
