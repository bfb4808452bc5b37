(** Deletion. *)
From Verif Require Import Base Nibbles NibblesSpec NibblesFacts NibblesFacts2 NibblesFacts3 Trie TrieSpec TrieFacts TrieInsert TrieGet.
Open Scope N_scope.

Lemma num_occ ch : get_num_non_empty_children ch = occ ch.
Proof. unfold get_num_non_empty_children, occ. f_equal. apply filter_ext. intros []; reflexivity. Qed.

Lemma occupied_nil ch : occupied ch [] = occ ch.
Proof. unfold occupied. fold (occ ch). lia. Qed.

Lemma occupied_occ ch w : occupied ch w = (occ ch + match w with [] => 0 | _ => 1 end)%nat.
Proof. reflexivity. Qed.

Lemma occ_set_empty ch i : (i < length ch)%nat -> nth i ch Empty <> Empty -> S (occ (set_child ch i Empty)) = occ ch.
Proof.
  unfold occ. revert i. induction ch as [|x ch IH]; intros i L E; cbn [length] in L; [lia|].
  destruct i as [|i]; cbn [set_child nth filter] in *.
  - destruct x; [congruence|reflexivity..].
  - specialize (IH i ltac:(lia) E). destruct x; cbn [length]; rewrite <- IH; reflexivity.
Qed.

Lemma occ_zero ch : occ ch = 0%nat -> forall i, nth i ch Empty = Empty.
Proof.
  unfold occ. induction ch as [|x ch IH]; intros E i; [destruct i; reflexivity|].
  cbn [filter] in E. destruct x; cbn [length] in E; [|lia..]. destruct i; [reflexivity|]. apply IH, E.
Qed.

Lemma occ_pos ch d : length ch = 16%nat -> d < 16 -> child ch d <> Empty -> (1 <= occ ch)%nat.
Proof. intros L H E. pose proof (occ_set_empty ch (N.to_nat d) ltac:(lia) E). lia. Qed.

Lemma occ_two ch d e : length ch = 16%nat -> d < 16 -> e < 16 -> d <> e -> child ch d <> Empty -> child ch e <> Empty ->
  (2 <= occ ch)%nat /\ (occ ch = 2%nat -> forall f, f <> d -> f <> e -> child ch f = Empty).
Proof.
  intros L Hd He D Ed Ee.
  pose proof (occ_set_empty ch (N.to_nat d) ltac:(lia) Ed) as O1.
  assert (E2 : child (set_child ch (N.to_nat d) Empty) e <> Empty)
    by (rewrite child_set by assumption; destruct (N.eqb_spec e d); congruence).
  pose proof (occ_set_empty (set_child ch (N.to_nat d) Empty) (N.to_nat e) ltac:(rewrite set_child_length; lia) E2) as O2.
  split; [lia|]. intros O f F1 F2.
  assert (Z : occ (set_child (set_child ch (N.to_nat d) Empty) (N.to_nat e) Empty) = 0%nat) by lia.
  pose proof (occ_zero _ Z (N.to_nat f)) as G.
  change (child (set_child (set_child ch (N.to_nat d) Empty) (N.to_nat e) Empty) f = Empty) in G.
  rewrite !child_set in G by (rewrite ?set_child_length; assumption).
  destruct (N.eqb_spec f e); [congruence|]. destruct (N.eqb_spec f d); [congruence|]. exact G.
Qed.

Lemma occ_one ch d : length ch = 16%nat -> d < 16 -> child ch d <> Empty ->
  occ ch = 1%nat -> forall f, f <> d -> child ch f = Empty.
Proof.
  intros L H E O f Hf. pose proof (occ_set_empty ch (N.to_nat d) ltac:(lia) E) as O1.
  assert (Z : occ (set_child ch (N.to_nat d) Empty) = 0%nat) by lia.
  pose proof (occ_zero _ Z (N.to_nat f)) as G. change (child (set_child ch (N.to_nat d) Empty) f = Empty) in G.
  rewrite child_set in G by assumption. destruct (N.eqb_spec f d); [congruence|]. exact G.
Qed.

Lemma get_other_gen ch : forall i0 nib,
  match get_other_non_empty_child i0 ch nib with
  | Some (i, c) => (i0 <= i)%nat /\ (i - i0 < length ch)%nat /\ i <> nib /\ nth (i - i0) ch Empty = c /\ c <> Empty
  | None => forall j, (j < length ch)%nat -> (i0 + j)%nat <> nib -> nth j ch Empty = Empty
  end.
Proof.
  induction ch as [|x ch IH]; intros i0 nib; cbn [get_other_non_empty_child length].
  - intros j H. lia.
  - destruct (Nat.eqb_spec i0 nib) as [E|E]; cbn [negb andb].
    + specialize (IH (S i0) nib). destruct (get_other_non_empty_child (S i0) ch nib) as [[i c]|].
      * destruct IH as (H1 & H2 & H3 & H4 & H5). split; [lia|]. split; [lia|]. split; [exact H3|]. split; [|exact H5].
        replace (i - i0)%nat with (S (i - S i0)) by lia. exact H4.
      * intros [|j] H1 H2; [lia|]. apply IH; lia.
    + destruct x; cbn [node_is_empty negb].
      1: { specialize (IH (S i0) nib). destruct (get_other_non_empty_child (S i0) ch nib) as [[i c]|].
           - destruct IH as (H1 & H2 & H3 & H4 & H5). split; [lia|]. split; [lia|]. split; [exact H3|]. split; [|exact H5].
             replace (i - i0)%nat with (S (i - S i0)) by lia. exact H4.
           - intros [|j] H1 H2; [reflexivity|]. apply IH; lia. }
      all: rewrite Nat.sub_diag; cbn [nth]; repeat split; try lia; congruence.
Qed.

Lemma get_other_spec ch d : length ch = 16%nat -> d < 16 ->
  match get_other_non_empty_child 0 ch (N.to_nat d) with
  | Some (i, c) => (i < 16)%nat /\ N.of_nat i <> d /\ child ch (N.of_nat i) = c /\ c <> Empty
  | None => forall e, e <> d -> child ch e = Empty
  end.
Proof.
  intros L H. pose proof (get_other_gen ch 0 (N.to_nat d)) as G.
  destruct (get_other_non_empty_child 0 ch (N.to_nat d)) as [[i c]|].
  - destruct G as (_ & H2 & H3 & H4 & H5). rewrite Nat.sub_0_r in *. unfold child. rewrite Nat2N.id. repeat split; try lia; assumption.
  - intros e He. unfold child. destruct (le_lt_dec (length ch) (N.to_nat e)); [apply nth_overflow; assumption|].
    apply G; lia.
Qed.

Lemma from_nibble_enc i : (i < 16)%nat -> from_nibble (N.of_nat i) = Ok (enc [N.of_nat i]).
Proof.
  intros H. unfold from_nibble, assert. destruct (N.leb_spec (N.of_nat i) 15); [|lia]. cbn [bind].
  unfold enc. rewrite undigits_one. reflexivity.
Qed.

(** ** Collapsing *)
Definition good_ext (P : node -> Prop) (t : node) : Prop :=
  exists n c, t = Extension n c /\ nseq n <> [] /\ P c /\ c <> Empty.

Lemma collapse_ext_gen (big : Prop) pr p c L : hexl p -> wf L c -> c <> Empty -> (length p + L <= 127)%nat -> ((64 < length p + L)%nat -> big) ->
  (exists t', collapse_ext_node_if_needed pr (enc p) c = Ok t' /\ wf (length p + L) t' /\ t' <> Empty /\
  (forall j, lk t' j = lk (Extension (enc p) c) j) /\
  (p <> [] -> shape c -> shape t') /\ (p <> [] -> canon c -> canon t') /\
  (p <> [] -> good_ext shape c -> good_ext shape t') /\ (p <> [] -> good_ext canon c -> good_ext canon t')) \/
  (collapse_ext_node_if_needed pr (enc p) c = Panic /\ big).
Proof.
  intros Hp W NE HL Big. destruct c as [|h|ch w|n c|n w]; try congruence; cbn [collapse_ext_node_if_needed].
  - left. exists (Extension (enc p) (Hash h)). split; [reflexivity|]. split; [apply wf_ext; assumption|]. split; [congruence|].
    split; [reflexivity|]. repeat split.
    + intros Hn S. constructor; [rewrite nseq_enc by exact Hp; exact Hn|exact I|constructor].
    + intros Hn S. constructor; [rewrite nseq_enc by exact Hp; exact Hn|exact I|constructor].
    + intros _ (n & c & E & _). discriminate.
    + intros _ (n & c & E & _). discriminate.
  - left. exists (Extension (enc p) (Branch ch w)). split; [reflexivity|]. split; [apply wf_ext; assumption|]. split; [congruence|].
    split; [reflexivity|]. repeat split.
    + intros Hn S. constructor; [rewrite nseq_enc by exact Hp; exact Hn|exact I|exact S].
    + intros Hn S. constructor; [rewrite nseq_enc by exact Hp; exact Hn|exact I|exact S].
    + intros _ (n & c & E & _). discriminate.
    + intros _ (n & c & E & _). discriminate.
  - inversion W as [| | |L0 l c0 Hl Wc|]; subst. destruct (le_lt_dec (length p + length l) 64) as [H64|H64];
      [left|right; rewrite merge_nibbles_panic by lia; split; [reflexivity|apply Big; lia]].
    rewrite merge_nibbles_enc by (assumption || lia). cbn [bind].
    eexists. split; [reflexivity|].
    assert (Hpl : hexl (p ++ l)) by (apply hexl_app; auto).
    assert (Hnn : p <> [] -> nseq (enc (p ++ l)) <> []) by (intros Hn; rewrite nseq_enc by exact Hpl; destruct p; [congruence|discriminate]).
    split; [rewrite Nat.add_assoc, <- app_length; apply wf_ext; assumption|]. split; [congruence|].
    split; [|repeat split].
    + intros j. rewrite !lk_ext_nseq by assumption. rewrite strip_app_two. destruct (strip p j); [|reflexivity].
      rewrite lk_ext_nseq by assumption. reflexivity.
    + intros Hn S. inversion S; subst. constructor; auto.
    + intros Hn S. inversion S; subst. constructor; auto.
    + intros Hn (n' & c' & E & _ & Sc & NEc). injection E as _ <-. eexists _, _. split; [reflexivity|]. auto.
    + intros Hn (n' & c' & E & _ & Sc & NEc). injection E as _ <-. eexists _, _. split; [reflexivity|]. auto.
  - inversion W as [| | | |L0 l v0 Hl Ll]; subst. destruct (le_lt_dec (length p + length l) 64) as [H64|H64];
      [left|right; rewrite merge_nibbles_panic by lia; split; [reflexivity|apply Big; lia]].
    rewrite merge_nibbles_enc by (assumption || lia). cbn [bind].
    eexists. split; [reflexivity|].
    assert (Hpl : hexl (p ++ l)) by (apply hexl_app; auto).
    split; [constructor; [exact Hpl|rewrite app_length; lia]|]. split; [congruence|].
    split; [|repeat split].
    + intros j. rewrite lk_ext_nseq by assumption. rewrite lk_leaf_nseq by assumption. rewrite key_eqb_strip.
      destruct (strip p j); [|reflexivity]. rewrite lk_leaf_nseq by assumption. reflexivity.
    + intros Hn S. inversion S; subst. constructor; auto.
    + intros Hn S. inversion S; subst. constructor; auto.
    + intros Hn (n' & c' & E & _). discriminate.
    + intros Hn (n' & c' & E & _). discriminate.
Qed.

Lemma collapse_ext_spec pr p c L : hexl p -> wf L c -> c <> Empty -> (length p + L <= 64)%nat ->
  exists t', collapse_ext_node_if_needed pr (enc p) c = Ok t' /\ wf (length p + L) t' /\ t' <> Empty /\
  (forall j, lk t' j = lk (Extension (enc p) c) j) /\
  (p <> [] -> shape c -> shape t') /\ (p <> [] -> canon c -> canon t') /\
  (p <> [] -> good_ext shape c -> good_ext shape t') /\ (p <> [] -> good_ext canon c -> good_ext canon t').
Proof.
  intros Hp W NE HL. destruct (collapse_ext_gen False pr p c L Hp W NE) as [H|[_ []]]; [lia|lia|exact H].
Qed.

Definition pre (P : node -> Prop) (t : node) : Prop := P t \/ good_ext P t.

Lemma try_collapse_gen (big : Prop) pr t L : wf L t -> (L <= 127)%nat -> ((64 < L)%nat -> big) -> pre shape t ->
  (exists t', try_collapse_if_extension pr t = Ok t' /\ wf L t' /\ (forall j, lk t' j = lk t j) /\ shape t' /\
  (pre canon t -> canon t') /\ (t' = Empty <-> t = Empty)) \/
  (try_collapse_if_extension pr t = Panic /\ big).
Proof.
  intros W HL Big P. destruct t as [|h|ch w|n c|n w].
  4: { inversion W as [| | |L0 p c0 Hp Wc|]; subst. cbn [try_collapse_if_extension].
       assert (A : nseq (enc p) <> [] /\ shape c /\ c <> Empty).
       { destruct P as [S|(n & c' & E & Hn & Sc & NEc)].
         - inversion S; subst. split; [assumption|]. split; [assumption|]. intros ->. contradiction.
         - injection E as <- <-. auto. }
       destruct A as (Hn & Sc & NEc). rewrite nseq_enc in Hn by exact Hp.
       destruct (collapse_ext_gen big pr p c L0 Hp Wc NEc HL Big) as [(t' & E & W' & NE & K & S1 & S2 & _)|Q]; [left|right; exact Q].
       exists t'. split; [exact E|]. split; [exact W'|]. split; [exact K|]. split; [auto|]. split.
       - intros [C|(n & c' & E' & _ & Cc & _)]; apply S2; auto.
         + inversion C; subst. assumption.
         + injection E' as _ <-. exact Cc.
       - split; intros; congruence. }
  all: left; eexists; split; [reflexivity|]; split; [exact W|]; split; [reflexivity|];
       split; [destruct P as [P|(n' & c' & E & _)]; [exact P|discriminate]|];
       split; [intros [P'|(n' & c' & E & _)]; [exact P'|discriminate]|reflexivity].
Qed.

Lemma try_collapse_spec pr t L : wf L t -> (L <= 64)%nat -> pre shape t ->
  exists t', try_collapse_if_extension pr t = Ok t' /\ wf L t' /\ (forall j, lk t' j = lk t j) /\ shape t' /\
  (pre canon t -> canon t') /\ (t' = Empty <-> t = Empty).
Proof.
  intros W HL P. destruct (try_collapse_gen False pr t L W ltac:(lia) ltac:(lia) P) as [H|[_ []]]. exact H.
Qed.

Definition val_opt (w : list N) : option val_or_hash := match w with [] => None | _ => Some (Val w) end.

Lemma safe_branch ch w d k : safe_delete (Branch ch w) (d :: k) <->
  match child ch d with
  | Leaf n _ => nseq n = k -> (3 <= occ ch \/ occ ch = 2 /\ w = [])%nat
  | c => safe_delete c k
  end.
Proof.
  cbn [safe_delete]. rewrite at_child_nth. unfold child. rewrite !occupied_occ.
  destruct (nth_error ch (N.to_nat d)) as [c|] eqn:E.
  - rewrite (nth_error_nth _ _ Empty E). destruct c; try reflexivity.
    rewrite !Nat.add_0_r. split; intros H Q; specialize (H Q); destruct w; intuition (auto || lia || discriminate).
  - apply nth_error_None in E. rewrite nth_overflow by exact E. reflexivity.
Qed.

Lemma keeps_branch ch w d k : keeps_canon (Branch ch w) (d :: k) <-> keeps_canon (child ch d) k.
Proof.
  cbn [keeps_canon]. rewrite at_child_nth. unfold child.
  destruct (nth_error ch (N.to_nat d)) as [c|] eqn:E.
  - rewrite (nth_error_nth _ _ Empty E). reflexivity.
  - apply nth_error_None in E. rewrite nth_overflow by exact E. reflexivity.
Qed.

Definition del_post (L : nat) (t : node) (k : list N) (r : res (option (node * list N))) : Prop :=
  match r with
  | Panic => hash_on_path t (eff t k) \/ ~ safe_delete t k
  | Ok None => ~ hash_on_path t (eff t k) /\ eff t k = k /\ lk t k = None
  | Ok (Some (t', w)) =>
      ~ hash_on_path t (eff t k) /\ lk t (eff t k) = val_opt w /\ wf L t' /\ pre shape t' /\
      (t' = Empty <-> exists n u, t = Leaf n u /\ nseq n = k) /\
      (forall j, j <> eff t k -> ~ strict_prefix j (eff t k) -> lk t' j = lk t j) /\
      lk t' (eff t k) = None /\
      (safe_delete t k -> forall j, j <> eff t k -> lk t' j = lk t j) /\
      (canon t -> safe_delete t k -> keeps_canon t k -> pre canon t') /\
      (is_branch t -> is_branch t' \/ good_ext shape t')
  end.

Definition del_gen (big : Prop) (L : nat) (t : node) (k : list N) (r : res (option (node * list N))) : Prop :=
  match r with
  | Panic => hash_on_path t (eff t k) \/ ~ safe_delete t k \/ big
  | Ok None => ~ hash_on_path t (eff t k) /\ eff t k = k /\ lk t k = None
  | Ok (Some (t', w)) =>
      ~ hash_on_path t (eff t k) /\ lk t (eff t k) = val_opt w /\ wf L t' /\ pre shape t' /\
      (t' = Empty <-> exists n u, t = Leaf n u /\ nseq n = k) /\
      (forall j, j <> eff t k -> ~ strict_prefix j (eff t k) -> lk t' j = lk t j) /\
      lk t' (eff t k) = None /\
      (safe_delete t k -> forall j, j <> eff t k -> lk t' j = lk t j) /\
      (canon t -> safe_delete t k -> keeps_canon t k -> pre canon t') /\
      (is_branch t -> is_branch t' \/ good_ext shape t')
  end.

Lemma strict_prefix_app p a b : strict_prefix a b -> strict_prefix (p ++ a) (p ++ b).
Proof. intros (x & c & ->). exists x, c. rewrite app_assoc. reflexivity. Qed.

Lemma delete_gen (big : Prop) pr t : forall L k,
  wf L t -> shape t -> hexl k -> (length k <= 127)%nat -> (L <= 127)%nat -> ((64 < L)%nat -> big) ->
  del_gen big L t k (delete_intern pr t (enc k)).
Proof.
  induction t as [|h|ch w IH|n c IH|n w] using node_ind'; intros L k W Sh Hk Lk HL Big.
  - (* Empty *)
    cbn. split; [|auto]. intros (p & h & E & _). discriminate.
  - (* Hash *)
    cbn. left. exists [], h. split; [reflexivity|exists k; reflexivity].
  - (* Branch *)
    inversion W as [| |L0 ? ? Hl F| |]; subst. inversion Sh as [| |? ? FS X| |]; subst.
    destruct k as [|d k].
    + rewrite delete_branch_nil. cbn [del_gen eff].
      split; [apply hop_branch_nil|]. split; [reflexivity|]. split; [constructor; assumption|].
      split; [left; constructor; assumption|]. split; [split; [discriminate|intros (n & u & E & _); discriminate]|].
      split; [intros [|e j] Hj _; [congruence|reflexivity]|]. split; [reflexivity|].
      split; [intros _ [|e j] Hj; [congruence|reflexivity]|]. split; [|intros _; left; exact I].
      intros C _ K. left. inversion C; subst. constructor; [assumption|]. exact K.
    + assert (Hd : d < 16) by (inversion Hk; assumption). assert (Hk' : hexl k) by (inversion Hk; assumption).
      cbn [length] in Lk.
      rewrite delete_branch_cons by (auto; cbn [length]; lia).
      assert (G : del_gen big L0 (child ch d) k (delete_intern pr (child ch d) (enc k))).
      { destruct (child_in ch d) as [Ec|In0].
        - rewrite Ec. cbn. split; [|auto]. intros (p & h & E & _). discriminate.
        - rewrite Forall_forall in IH, F, FS. apply (IH _ In0); auto; (lia || (intros; apply Big; lia)). }
      assert (Hopb : hash_on_path (Branch ch w) (eff (Branch ch w) (d :: k)) <-> hash_on_path (child ch d) (eff (child ch d) k))
        by (rewrite eff_branch; apply hop_branch).
      destruct (delete_intern pr (child ch d) (enc k)) as [[(c', u)|]|]; cbn [bind].
      * (* something deleted below *)
        cbn [del_gen] in G. destruct G as (G1 & G2 & G3 & G4 & G5 & G6 & G6' & G7 & G8 & _).
        assert (NEd : child ch d <> Empty).
        { intros Ec. rewrite Ec in *. destruct (val_opt u) eqn:Eu; [discriminate G2|].
          assert (A : c' <> Empty) by (intros A; apply G5 in A; destruct A as (? & ? & A & _); discriminate).
          destruct G4 as [S'|(n' & c'' & E & Hn & Sc & NEc)].
          - destruct (shape_stored c' S' A) as (j & Hj). unfold stored in Hj.
            destruct (key_eqb_spec j (eff Empty k)) as [->|Nj]; [congruence|].
            rewrite (G7 I j Nj) in Hj. cbn in Hj. congruence.
          - subst c'. destruct (shape_stored c'' Sc NEc) as (j & Hj). unfold stored in Hj.
            destruct (key_eqb_spec (nseq n' ++ j) (eff Empty k)) as [Ej|Nj].
            + rewrite <- Ej in G6'. cbn [lk] in G6'. rewrite strip_app in G6'. congruence.
            + pose proof (G7 I _ Nj) as Q. cbn [lk] in Q. rewrite strip_app in Q. congruence. }
        pose proof (occ_pos ch d Hl Hd NEd) as OP.
        rewrite num_occ.
        assert (Hcase : (node_is_empty c' && (occ ch <=? 2)%nat) = true \/ (node_is_empty c' && (occ ch <=? 2)%nat) = false)
          by (destruct (node_is_empty c' && (occ ch <=? 2)%nat); auto).
        destruct Hcase as [Hcase|Hcase]; rewrite Hcase.
        -- (* the branch collapses *)
           apply andb_true_iff in Hcase. destruct Hcase as [Hce Hoc]. apply Nat.leb_le in Hoc.
           assert (c' = Empty) by (destruct c'; congruence || discriminate). subst c'. clear Hce.
           destruct (proj1 G5 eq_refl) as (n & u' & Ec & En). rewrite Ec in *.
           pose proof (get_other_spec ch d Hl Hd) as O.
           assert (E1 : eff (Branch ch w) (d :: k) = d :: k) by (rewrite eff_branch, Ec; reflexivity).
           assert (Esafe : safe_delete (Branch ch w) (d :: k) <-> (occ ch = 2%nat /\ w = [])).
           { rewrite safe_branch, Ec. split; [intros Q; destruct (Q En); [lia|assumption]|intros Q _; right; exact Q]. }
           destruct (get_other_non_empty_child 0 ch (N.to_nat d)) as [[i c]|].
           ++ destruct O as (Hi & Hne & Ei & NEi).
              rewrite from_nibble_enc by exact Hi. cbn [bind].
              assert (Hi16 : N.of_nat i < 16) by lia.
              assert (NEi' : child ch (N.of_nat i) <> Empty) by congruence.
              destruct (occ_two ch d (N.of_nat i) Hl Hd Hi16 ltac:(congruence) ltac:(rewrite Ec; congruence) NEi') as [O2 Oth].
              assert (O2' : occ ch = 2%nat) by lia. specialize (Oth O2').
              assert (Hi1 : hexl [N.of_nat i]) by (constructor; [exact Hi16|constructor]).
              assert (Inc : In c ch) by (rewrite <- Ei; apply in_child; exact NEi').
              assert (Lkx : forall e j, lk (Extension (enc [N.of_nat i]) c) (e :: j) = if e =? N.of_nat i then lk c j else None).
              { intros e j. rewrite lk_ext_nseq by exact Hi1. cbn [strip]. rewrite N.eqb_sym. destruct (e =? N.of_nat i); reflexivity. }
              assert (Lk0 : lk (Extension (enc [N.of_nat i]) c) [] = None) by (rewrite lk_ext_nseq by exact Hi1; reflexivity).
              assert (Oth' : forall e j, e <> d -> lk (Branch ch w) (e :: j) = if e =? N.of_nat i then lk c j else None).
              { intros e j He. rewrite lk_branch. destruct (N.eqb_spec e (N.of_nat i)) as [->|Hne']; [rewrite Ei; reflexivity|].
                rewrite Oth by assumption. reflexivity. }
              assert (OthD : forall j, j <> k -> lk (Branch ch w) (d :: j) = None).
              { intros j Hj. rewrite lk_branch, Ec. cbn [lk]. rewrite En. rewrite key_eqb_neq by congruence. reflexivity. }
              cbn [del_gen]. rewrite E1. split; [rewrite <- E1, Hopb; exact G1|].
              split; [rewrite lk_branch, Ec; exact G2|].
              split; [change (S L0) with (length [N.of_nat i] + L0)%nat; apply wf_ext; [exact Hi1|rewrite Forall_forall in F; auto]|].
              split; [right; exists (enc [N.of_nat i]), c; rewrite nseq_enc by exact Hi1; rewrite Forall_forall in FS; repeat split; auto; discriminate|].
              split; [split; [discriminate|intros (? & ? & E & _); discriminate]|].
              split; [|split; [|split; [|split]]].
              ** intros [|e j] H1 H2; [exfalso; apply H2; exists d, k; reflexivity|].
                 rewrite Lkx. destruct (N.eqb_spec e d) as [->|He].
                 --- destruct (N.eqb_spec d (N.of_nat i)); [congruence|]. symmetry. apply OthD. congruence.
                 --- rewrite Oth' by exact He. reflexivity.
              ** rewrite Lkx. destruct (N.eqb_spec d (N.of_nat i)); [congruence|reflexivity].
              ** intros Sf. apply Esafe in Sf. destruct Sf as [_ ->]. intros [|e j] H1; [exact Lk0|].
                 rewrite Lkx. destruct (N.eqb_spec e d) as [->|He].
                 --- destruct (N.eqb_spec d (N.of_nat i)); [congruence|]. symmetry. apply OthD. congruence.
                 --- rewrite Oth' by exact He. reflexivity.
              ** intros C _ _. inversion C as [| |? ? FC _| |]; subst. right. exists (enc [N.of_nat i]), (child ch (N.of_nat i)).
                 rewrite nseq_enc by exact Hi1. rewrite Forall_forall in FC. repeat split; auto; discriminate.
              ** intros _. right. exists (enc [N.of_nat i]), c. rewrite nseq_enc by exact Hi1. rewrite Forall_forall in FS. repeat split; auto; discriminate.
           ++ cbn [del_gen]. right. left. rewrite Esafe. intros [O2 _].
              assert (A : occ ch = 1%nat); [|lia].
              pose proof (occ_set_empty ch (N.to_nat d) ltac:(lia) ltac:(change (child ch d <> Empty); rewrite Ec; exact NEd)) as O1.
              assert (Z : occ (set_child ch (N.to_nat d) Empty) = 0%nat); [|lia].
              unfold occ. apply length_zero_iff_nil.
              destruct (filter _ (set_child ch (N.to_nat d) Empty)) as [|x l] eqn:Ef; [reflexivity|]. exfalso.
              assert (Ix : In x (filter (fun c => match c with Empty => false | _ => true end) (set_child ch (N.to_nat d) Empty))) by (rewrite Ef; left; reflexivity).
              apply filter_In in Ix. destruct Ix as [Ix NEx]. destruct (in_child_ex _ _ Ix) as (e & _ & Ee).
              rewrite child_set in Ee by assumption. destruct (N.eqb_spec e d) as [He|He]; [subst; discriminate|].
              rewrite (O e He) in Ee. subst. discriminate.
        -- (* the branch stays *)
           destruct (try_collapse_gen big pr c' L0 G3 ltac:(lia) ltac:(intros; apply Big; lia) G4) as [(c'' & E & W'' & K & S'' & C'' & Em)|[E B]];
             [|rewrite E; cbn [bind del_gen]; right; right; exact B]. rewrite E. cbn [bind].
           set (ch' := set_child ch (N.to_nat d) c'').
           assert (Hl' : length ch' = 16%nat) by (unfold ch'; rewrite set_child_length; exact Hl).
           assert (Occ' : (2 <= occ ch)%nat -> (2 <= occ ch')%nat).
           { intros O2. apply andb_false_iff in Hcase. unfold ch'. destruct c''.
             1: { destruct Hcase as [Hc|Hc].
                  - exfalso. rewrite (proj1 Em eq_refl) in Hc. discriminate.
                  - apply Nat.leb_gt in Hc. pose proof (occ_set_empty ch (N.to_nat d) ltac:(lia) NEd). lia. }
             all: rewrite occ_set_old; [exact O2|lia|exact NEd|congruence]. }
           assert (Occ1 : (1 <= occ ch')%nat).
           { apply andb_false_iff in Hcase. unfold ch'. destruct c''.
             1: { destruct Hcase as [Hc|Hc].
                  - exfalso. rewrite (proj1 Em eq_refl) in Hc. discriminate.
                  - apply Nat.leb_gt in Hc. pose proof (occ_set_empty ch (N.to_nat d) ltac:(lia) NEd). lia. }
             all: rewrite occ_set_old; [exact OP|lia|exact NEd|congruence]. }
           assert (Sf : safe_delete (Branch ch w) (d :: k) -> safe_delete (child ch d) k).
           { rewrite safe_branch. destruct (child ch d); try tauto. intros _. exact I. }
           cbn [del_gen]. rewrite eff_branch. split; [rewrite <- (eff_branch ch w), Hopb; exact G1|].
           split; [rewrite lk_branch; exact G2|].
           split; [constructor; [exact Hl'|apply Forall_set_child; assumption]|].
           split; [left; constructor; [apply Forall_set_child; assumption|apply occ_ex; exact Occ1]|].
           split; [split; [discriminate|intros (? & ? & E' & _); discriminate]|].
           split; [|split; [|split; [|split]]].
           ++ intros [|e j] H1 H2; [reflexivity|]. rewrite !lk_branch. unfold ch'. rewrite child_set by assumption.
              destruct (N.eqb_spec e d) as [->|He]; [|reflexivity]. rewrite K. apply G6; [congruence|].
              intros (x & r & Ex). apply H2. exists x, r. cbn [app]. congruence.
           ++ rewrite lk_branch. unfold ch'. rewrite child_set, N.eqb_refl by assumption. rewrite K. exact G6'.
           ++ intros Hs [|e j] H1; [reflexivity|]. rewrite !lk_branch. unfold ch'. rewrite child_set by assumption.
              destruct (N.eqb_spec e d) as [->|He]; [|reflexivity]. rewrite K. apply G7; [auto|congruence].
           ++ intros C Hs Hkc. left. inversion C as [| |? ? FC OC| |]; subst. constructor.
              ** apply Forall_set_child; [assumption|]. apply C''. apply G8; [|auto|apply keeps_branch in Hkc; exact Hkc].
                 apply Forall_child; [constructor|assumption].
              ** rewrite occupied_occ in *. destruct w; [|lia]. specialize (Occ' ltac:(lia)). lia.
           ++ intros _. left. exact I.
      * cbn [del_gen] in *. rewrite eff_branch, lk_branch. rewrite <- (eff_branch ch w). rewrite Hopb.
        destruct G as (G1 & G2 & G3). rewrite eff_branch, G2 in *. auto.
      * cbn [del_gen] in *. rewrite Hopb. destruct G as [G|[G|G]]; [left; exact G|right; left|right; right; exact G].
        rewrite safe_branch. destruct (child ch d); try exact G. exfalso. apply G. exact I.
  - (* Extension *)
    inversion W as [| | |L0 p c0 Hp Wc|]; subst. inversion Sh as [| | |? ? Hn Bc Sc|]; subst.
    rewrite nseq_enc in Hn by exact Hp.
    assert (Main : forall k0, hexl k0 -> (length k0 <= 127)%nat ->
      eff (Extension (enc p) c) k = p ++ eff c k0 ->
      (safe_delete (Extension (enc p) c) k -> safe_delete c k0) ->
      (keeps_canon (Extension (enc p) c) k -> keeps_canon c k0) ->
      (delete_intern pr c (enc k0) = Ok None -> k = p ++ k0) ->
      (~ safe_delete c k0 -> ~ safe_delete (Extension (enc p) c) k) ->
      delete_intern pr (Extension (enc p) c) (enc k) =
        (r <- delete_intern pr c (enc k0) ;;
         match r with
         | None => Ok None
         | Some (c', deleted) => n <- collapse_ext_node_if_needed pr (enc p) c' ;; Ok (Some (n, deleted))
         end) ->
      del_gen big (length p + L0) (Extension (enc p) c) k (delete_intern pr (Extension (enc p) c) (enc k))).
    { intros k0 Hk0 Lk0 E1 Sf Kc NoneK NS Eq. rewrite Eq.
      pose proof (IH L0 k0 Wc Sc Hk0 Lk0 ltac:(lia) ltac:(intros; apply Big; lia)) as G.
      assert (Hop : hash_on_path (Extension (enc p) c) (eff (Extension (enc p) c) k) <-> hash_on_path c (eff c k0))
        by (rewrite E1; apply hop_ext; exact Hp).
      assert (Brc : is_branch c \/ exists h, c = Hash h) by (destruct c; try (exfalso; exact Bc); [right; eauto|left; exact I]).
      destruct (delete_intern pr c (enc k0)) as [[(c', u)|]|] eqn:Ed; cbn [bind].
      - cbn [del_gen] in G. destruct G as (G1 & G2 & G3 & G4 & G5 & G6 & G6' & G7 & G8 & G9).
        assert (Br : is_branch c) by (destruct Brc as [B|(h & ->)]; [exact B|cbn in Ed; discriminate]).
        assert (NE' : c' <> Empty) by (intros A; apply G5 in A; destruct A as (? & ? & -> & _); exact Br).
        destruct (collapse_ext_gen big pr p c' L0 Hp G3 NE' HL Big) as [(t' & E & W' & NEt & K & S1 & S2 & S3 & S4)|[E B]];
          [|rewrite E; cbn [bind del_gen]; right; right; exact B].
        rewrite E. cbn [bind del_gen]. rewrite E1.
        split; [rewrite <- E1, Hop; exact G1|].
        split; [rewrite lk_ext_nseq, strip_app by exact Hp; exact G2|].
        split; [exact W'|].
        split; [destruct G4 as [G4|G4]; [left; auto|right; auto]|].
        split; [split; [intros; congruence|intros (? & ? & E' & _); discriminate]|].
        split; [|split; [|split; [|split]]].
        + intros j H1 H2. rewrite K, !lk_ext_nseq by exact Hp. destruct (strip p j) as [j'|] eqn:Es; [|reflexivity].
          apply strip_some in Es. subst j. apply G6; [congruence|]. intros Q. apply H2. apply strict_prefix_app, Q.
        + rewrite K, lk_ext_nseq, strip_app by exact Hp. exact G6'.
        + intros Hs j H1. rewrite K, !lk_ext_nseq by exact Hp. destruct (strip p j) as [j'|] eqn:Es; [|reflexivity].
          apply strip_some in Es. subst j. apply G7; [auto|congruence].
        + intros C Hs Hkc. inversion C; subst. destruct (G8 ltac:(assumption) (Sf Hs) (Kc Hkc)) as [Q|Q]; [left; auto|right; auto].
        + intros [].
      - cbn [del_gen] in *. destruct G as (G1 & G2 & G3). specialize (NoneK eq_refl). rewrite Hop.
        split; [exact G1|]. rewrite E1, G2. split; [congruence|]. rewrite NoneK, lk_ext_nseq, strip_app by exact Hp. exact G3.
      - cbn [del_gen] in *. rewrite Hop. destruct G as [G|[G|G]]; [left; exact G|right; left; apply NS; exact G|right; right; exact G]. }
    destruct (compare_keys p k) as [->|y k' ->|x p' ->|q x p' y k' -> -> D].
    + apply (Main []); [constructor|cbn [length]; lia|..].
      * rewrite <- (app_nil_r k) at 2. apply eff_ext_long; exact Hp.
      * cbn [safe_delete]. rewrite nseq_enc by exact Hp. rewrite <- (app_nil_r k) at 2. rewrite strip_app. auto.
      * cbn [keeps_canon]. rewrite nseq_enc by exact Hp. rewrite <- (app_nil_r k) at 2. rewrite strip_app. auto.
      * intros _. rewrite app_nil_r. reflexivity.
      * intros Q. cbn [safe_delete]. rewrite nseq_enc by exact Hp. rewrite <- (app_nil_r k) at 2. rewrite strip_app. exact Q.
      * rewrite <- (app_nil_r k) at 2. apply delete_ext_long; rewrite app_nil_r; auto.
    + pose proof Hk as Hk'. apply hexl_app in Hk'. destruct Hk' as [_ Hy]. pose proof Lk as Lk'. rewrite app_length in Lk'.
      apply (Main (y :: k')); try (assumption || lia).
      * apply eff_ext_long; exact Hp.
      * cbn [safe_delete]. rewrite nseq_enc, strip_app by exact Hp. auto.
      * cbn [keeps_canon]. rewrite nseq_enc, strip_app by exact Hp. auto.
      * reflexivity.
      * intros Q. cbn [safe_delete]. rewrite nseq_enc, strip_app by exact Hp. exact Q.
      * apply delete_ext_long; assumption.
    + pose proof (eff_ext_short k x p' c Hp) as E1.
      assert (Lp : (length (k ++ x :: p') <= 127)%nat) by lia.
      apply (Main []); [constructor|cbn [length]; lia|..].
      * rewrite E1. destruct c; try contradiction; cbn; rewrite app_nil_r; reflexivity.
      * intros _. destruct c; try contradiction; exact I.
      * cbn [keeps_canon]. rewrite nseq_enc, strip_strict by exact Hp. auto.
      * destruct c; try contradiction; discriminate.
      * intros Q. exfalso. apply Q. destruct c; try contradiction; exact I.
      * apply delete_ext_short; assumption.
    + cbn [del_gen]. rewrite delete_ext_div by (auto; lia). cbn [del_gen]. rewrite eff_ext_div by assumption.
      split; [apply hop_ext_div; assumption|]. split; [reflexivity|].
      rewrite lk_ext_nseq by exact Hp. rewrite strip_div by exact D. reflexivity.
  - (* Leaf *)
    inversion W as [| | | |L0 p w0 Hp Lp]; subst. inversion Sh as [| | | |? ? Hw]; subst.
    rewrite delete_leaf by assumption. destruct (key_eqb_spec p k) as [->|Hn]; cbn [del_gen].
    + change (eff (Leaf (enc k) w) k) with k. rewrite lk_leaf_nseq, key_eqb_refl by assumption.
      split; [apply hop_leaf|]. split; [destruct w; [congruence|reflexivity]|]. split; [constructor|].
      split; [left; constructor|]. split; [split; [intros _; exists (enc k), w; rewrite nseq_enc by exact Hp; auto|reflexivity]|].
      split; [|split; [reflexivity|split; [|split]]].
      * intros j H1 _. rewrite lk_leaf_nseq, key_eqb_neq by (assumption || congruence). reflexivity.
      * intros _ j H1. rewrite lk_leaf_nseq, key_eqb_neq by (assumption || congruence). reflexivity.
      * intros _ _ _. left. constructor.
      * intros [].
    + split; [apply hop_leaf|]. split; [reflexivity|]. rewrite lk_leaf_nseq, key_eqb_neq by (assumption || congruence). reflexivity.
Qed.

Lemma delete_spec pr t : forall L k,
  wf L t -> shape t -> hexl k -> (length k <= 127)%nat -> (L <= 64)%nat ->
  del_post L t k (delete_intern pr t (enc k)).
Proof.
  intros L k W Sh Hk Lk HL. pose proof (delete_gen False pr t L k W Sh Hk Lk ltac:(lia) ltac:(lia)) as G.
  destruct (delete_intern pr t (enc k)) as [[[t' w]|]|]; cbn [del_gen del_post] in *; tauto.
Qed.
