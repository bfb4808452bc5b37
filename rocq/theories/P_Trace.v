(** Property C54: logging. *)
From Coq Require Import String.
From Verif Require Import Base Nibbles NibblesSpec NibblesFacts NibblesFacts2 Trie TrieSpec TrieHistSpec TrieFacts TrieInsert TrieGet TrieHist Query Diff Text TextSpec QuerySpec
  Trace TraceSpec TraceFacts P_Trie P_Diff.
Open Scope N_scope.
Open Scope list_scope.

(** * C54: logging shows what happens and changes nothing *)
(** With the trace level off the operations write nothing, and they are the operations of the other theorems. *)
Theorem C54_off : forall pr t k v l,
  lget false pr t k = ([], trie_get pr t k) /\ linsert false pr t k v = ([], trie_insert pr t k v) /\
  lextend false pr t l = ([], trie_extend pr t l) /\ ldelete false pr t k = ([], trie_delete pr t k).
Proof.
  intros pr t k v l. assert (P : forall A (m : logged A) r, fst m = [] -> snd m = r -> m = ([], r)) by (intros A [a b] r; cbn; congruence).
  repeat split; apply P; auto using lget_off, linsert_off, lextend_off, ldelete_off.
  - apply (lget_snd false pr t 0). left. reflexivity.
  - apply (linsert_snd false pr t 0); left; reflexivity.
  - apply lextend_snd; [left; reflexivity|]. apply Forall_forall. intros. left. reflexivity.
  - apply (ldelete_snd false pr t 0); left; reflexivity.
Qed.

(** With the level on they do the same, panics included, in both build profiles. *)
Theorem C54_same : forall pr t k, wf 64 t -> kwf k ->
  snd (lget true pr t k) = trie_get pr t k /\ (forall v, snd (linsert true pr t k v) = trie_insert pr t k v) /\ snd (ldelete true pr t k) = trie_delete pr t k.
Proof.
  intros pr t k W Hk. assert (F : fine true 64 t) by (right; split; [exact W|lia]). assert (Fk : finek true k) by (right; exact Hk).
  split; [eapply lget_snd, F|]. split; [intros v; eapply linsert_snd; eauto|eapply ldelete_snd; eauto].
Qed.
Theorem C54_same_extend : forall pr t l, wf 64 t -> Forall (fun e => kwf (fst e)) l -> snd (lextend true pr t l) = trie_extend pr t l.
Proof.
  intros pr t l W F. apply lextend_snd; [right; split; [exact W|lia]|]. eapply Forall_impl; [|exact F]. intros e H. right. exact H.
Qed.
(** That covers every trie that operations build. *)
Theorem C54_reachable : forall pr t k, reach pr t -> kwf k ->
  snd (lget true pr t k) = trie_get pr t k /\ (forall v, snd (linsert true pr t k v) = trie_insert pr t k v) /\ snd (ldelete true pr t k) = trie_delete pr t k.
Proof. intros pr t k R. apply C54_same. apply (reach_valid pr t R). Qed.

(** It needs a well-formed key: with a key of more nibbles than fit, [delete] and [insert] panic when, and only when, they are logged. *)
Theorem C54_malformed_refuted : forall pr, exists k,
  trie_delete pr Empty k = Ok (Empty, None) /\ snd (ldelete true pr Empty k) = Panic /\
  trie_insert pr Empty k (Val [1]) = Ok (Leaf k [1]) /\ snd (linsert true pr Empty k (Val [1])) = Panic.
Proof. intros pr. exists (Nib 129 0). destruct pr; repeat split; vm_compute; reflexivity. Qed.

(** The trail is the way from the root that the key describes. *)
Theorem C54_trail : forall t k, map fst (trail t k) = visited t k.
Proof.
  induction t as [|h|ch w IH|n c IH|n w] using node_ind'; intros k; cbn [trail visited map fst]; try reflexivity; f_equal.
  - destruct k as [|d k]; [reflexivity|]. generalize (N.to_nat d). induction ch as [|c ch IHc]; intros [|i]; cbn [at_child]; try reflexivity; inversion IH; subst; auto.
  - destruct (strip (nseq n) k); [apply IH|reflexivity].
Qed.

(** Each operation writes one line for each node on the way, in order. The key must not end inside an extension node; that holds in
    particular if no stored key is longer. *)
Theorem C54_get_lines : forall pr t k, wf 64 t -> kwf k -> covers t (nseq k) -> fst (lget true pr t k) = path_lines "Get" t (nseq k).
Proof. intros pr t k W Hk C. destruct (kwf_ex k Hk) as (q & -> & E & Hq & Lq). rewrite E in *. apply (lget_lines pr t 64); auto. Qed.
Theorem C54_insert_lines : forall pr t k v, wf 64 t -> kwf k -> covers t (nseq k) ->
  fst (linsert true pr t k v) = insert_line (nseq k) v :: path_lines "Insert" t (nseq k).
Proof.
  intros pr t k v W Hk C. destruct (kwf_ex k Hk) as (q & -> & E & Hq & Lq). rewrite E in *. unfold linsert, entry_debug. rewrite key_debug_enc by (assumption || lia). cbn [bind].
  erewrite lbind_say by reflexivity. f_equal; [|apply (linsert_rec_lines pr t 64); auto]. unfold insert_line. rewrite value_shown, <- !app_assoc. reflexivity.
Qed.
(** [delete] may add lines about the nodes that it merges on the way back; it adds none if nothing is deleted. *)
Theorem C54_delete_lines : forall pr t k, wf 64 t -> kwf k -> covers t (nseq k) ->
  exists back, fst (ldelete true pr t k) = delete_line (nseq k) :: path_lines "Delete" t (nseq k) ++ back /\
    (trie_delete pr t k = Ok (t, None) \/ (exists h r, In (Hash h, r) (trail t (nseq k))) -> back = []).
Proof.
  intros pr t k W Hk C. destruct (kwf_ex k Hk) as (q & -> & E & Hq & Lq). rewrite E in *. unfold ldelete, trie_delete. rewrite key_text_enc by (assumption || lia). cbn [bind].
  erewrite lbind_say by reflexivity. destruct (ldelete_intern_lines pr t 64 q W ltac:(lia) Hq Lq C) as (b1 & E1 & N1 & P1).
  assert (Sc : snd (ldelete_intern true pr t (enc q)) = delete_intern pr t (enc q)) by (apply (ldelete_intern_snd true pr _ 64); right; split; [exact W|lia]).
  match goal with |- context [fst (lbind ?m ?f)] => destruct (fst_lbind_app m f) as (b2 & E2 & K2 & Q2) end. cbv beta in *. rewrite Sc in K2, Q2.
  rewrite E2, E1. exists (b1 ++ b2). split; [rewrite <- app_assoc; reflexivity|]. intros H.
  assert (Hc : delete_intern pr t (enc q) = Ok None \/ (exists h r, In (Hash h, r) (trail t q))).
  { destruct H as [H|H]; [left|right; exact H]. destruct (delete_intern pr t (enc q)) as [[[c1 x]|]|]; cbn [bind] in H; [|reflexivity|discriminate].
    destruct (try_collapse_if_extension pr c1); discriminate. }
  rewrite (N1 Hc). destruct Hc as [Hc|Hc]; [rewrite (K2 None Hc); reflexivity|rewrite (Q2 (P1 Hc)); reflexivity].
Qed.
Theorem C54_covers : forall t L k, wf L t -> shape t -> (forall j, stored t j -> (length j <= length k)%nat) -> covers t k.
Proof.
  unfold covers. induction t as [|h|ch w IH|n c IH|n w] using node_ind'; intros L k W Sh H; inversion W; subst; cbn [trail]; constructor; cbn [fst snd]; auto.
  - destruct k as [|d k]; [constructor|]. rewrite at_child_nth. destruct (nth_error ch (N.to_nat d)) as [c|] eqn:E; [|constructor].
    pose proof (nth_error_In _ _ E) as I. assert (Wc : wf L0 c) by (match goal with F : Forall (wf L0) ch |- _ => rewrite Forall_forall in F; apply F, I end).
    assert (Sc : shape c) by (inversion Sh as [| |? ? Fs ?| |]; subst; eapply Forall_forall in Fs; eauto).
    rewrite Forall_forall in IH. apply (IH c I L0 k Wc Sc).
    intros j Sj. specialize (H (d :: j)). unfold stored in H. rewrite lk_branch in H. unfold child in H. rewrite (nth_error_nth _ _ _ E) in H. specialize (H Sj). cbn [length] in H. lia.
  - inversion Sh as [| | |? ? Hn B Sc|]; subst. rewrite nseq_enc by assumption. destruct (shape_stored c Sc) as (j & Hj); [intros ->; exact B|].
    specialize (H (l ++ j)). unfold stored in H. rewrite lk_ext_nseq, strip_app in H by assumption. specialize (H Hj). rewrite app_length in H. lia.
  - inversion Sh as [| | |? ? Hn B Sc|]; subst. rewrite nseq_enc by assumption. destruct (strip l k) as [k'|] eqn:Es; [|constructor]. apply strip_some in Es. subst k.
    apply (IH L0); auto. intros j Sj. specialize (H (l ++ j)). unfold stored in H. rewrite lk_ext_nseq, strip_app in H by assumption. specialize (H Sj). rewrite !app_length in H. lia.
Qed.

(** Example: a branch below an extension, a leaf, and an empty slot. *)
Definition ex_entries : list (nibbles * val_or_hash) := [(K 4 0x1234, Val [1]); (K 4 0x1256, Val [2; 3]); (K 4 0x7890, Val [4])].
Definition ex_trie : node := okn (from_iter Debug ex_entries).
Example C54_hypotheses : wf 64 ex_trie /\ kwf (K 4 0x1234) /\ covers ex_trie (nseq (K 4 0x1234)).
Proof.
  split; [|split].
  - assert (R : reach Debug ex_trie) by (unfold ex_trie; reach_tac ex_entries). apply (reach_valid _ _ R).
  - split; vm_compute; congruence.
  - vm_compute. repeat constructor.
Qed.
Definition same_text (a : list (list N)) (b : list string) : bool := if list_eq_dec (list_eq_dec N.eq_dec) a (map txt b) then true else false.
Example C54_example :
  same_text (fst (lget true Debug ex_trie (K 4 0x1234)))
    ["Get traversed Branch (nibble: 1)"; "Get traversed Extension (nibbles: Nibbles { count: 1, packed: ""0x2"" })";
     "Get traversed Branch (nibble: 3)"; "Get traversed Leaf (nibbles: Nibbles { count: 1, packed: ""0x4"" })"]%string = true /\
  same_text (fst (linsert true Debug ex_trie (K 4 0xa000) (Val [10; 200])))
    ["Inserting new node InsertEntry { nibbles: Nibbles { count: 4, packed: ""0xa000"" }, v: Val([10, 200]) }...";
     "Insert traversed Branch (nibble: a)"; "Insert traversed Empty"]%string = true /\
  same_text (fst (ldelete true Debug ex_trie (K 4 0x1299)))
    ["Deleting a leaf node with key 0x1299 if it exists"; "Delete traversed Branch nibble 1";
     "Delete traversed Extension (nibbles: Nibbles { count: 1, packed: ""0x2"" })"; "Delete traversed Branch nibble 9"; "Delete traversed Empty"]%string = true /\
  length (fst (ldelete true Debug ex_trie (K 4 0x1234))) = 9%nat.
Proof. repeat split; vm_compute; reflexivity. Qed.

Print Assumptions C54_off.
Print Assumptions C54_same.
Print Assumptions C54_same_extend.
Print Assumptions C54_reachable.
Print Assumptions C54_malformed_refuted.
Print Assumptions C54_trail.
Print Assumptions C54_get_lines.
Print Assumptions C54_insert_lines.
Print Assumptions C54_delete_lines.
Print Assumptions C54_covers.
