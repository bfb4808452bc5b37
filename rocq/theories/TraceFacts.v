(** Facts about the logging operations. *)
From Coq Require Import String.
From Verif Require Import Base Nibbles NibblesSpec NibblesFacts NibblesFacts2 NibblesFacts3 Trie TrieSpec TrieFacts TrieInsert TrieGet TrieDelete TrieHist InsertWf Query Diff Text TextSpec TextFacts Trace TraceSpec.
Open Scope N_scope.
Open Scope list_scope.

Lemma snd_lbind {A B} (m : logged A) (f : A -> logged B) : snd (lbind m f) = bind (snd m) (fun a => snd (f a)).
Proof. unfold lbind, bind. destruct (snd m); reflexivity. Qed.
Lemma snd_lres {A} (m : res A) : snd (lres m) = m.
Proof. reflexivity. Qed.
Lemma bind_ext {A B} (m : res A) (f g : A -> res B) : (forall a, m = Ok a -> f a = g a) -> bind m f = bind m g.
Proof. intros H. destruct m; [apply H; reflexivity|reflexivity]. Qed.
Lemma with_child_log_snd {A} (f : node -> logged A) (g : node -> res A) ch : (forall c, In c ch -> snd (f c) = g c) ->
  forall i, snd (with_child_log f ch i) = with_child g ch i.
Proof.
  intros H. induction ch as [|c ch IH]; intros [|i]; cbn [with_child_log with_child]; try reflexivity; [apply H; left; reflexivity|].
  apply IH. intros d I. apply H. right. exact I.
Qed.

Lemma key_text_enc pr l : hexl l -> (length l <= 128)%nat -> key_text pr (enc l) = Ok (shown_key l).
Proof. intros H L. unfold key_text. rewrite as_hex_str_enc by assumption. reflexivity. Qed.
Lemma key_debug_enc pr l : hexl l -> (length l <= 128)%nat -> key_debug pr (enc l) = Ok (debug_key l).
Proof. intros H L. unfold key_debug. rewrite key_text_enc by assumption. cbn [bind]. rewrite count_enc. reflexivity. Qed.

Lemma say_ok on m : (on = false \/ exists x, m = Ok x) -> snd (say on m) = Ok tt.
Proof. intros [->|(x & ->)]; [reflexivity|destruct on; reflexivity]. Qed.
Lemma say_off m : say false m = ([], Ok tt).
Proof. reflexivity. Qed.

(** ** Results *)
Section Results.
Variable on : bool.
Variable pr : profile.
Definition fine (L : nat) (t : node) : Prop := on = false \/ (wf L t /\ (L <= 64)%nat).
Definition finek (k : nibbles) : Prop := on = false \/ kwf k.

Lemma fine_branch L ch w : fine L (Branch ch w) -> exists L', forall c, In c ch -> fine L' c.
Proof.
  intros [F|[W HL]]; [exists O; left; exact F|]. inversion W as [| |L0 ? ? Hlen Fw| |]; subst. exists L0. intros c I. right.
  rewrite Forall_forall in Fw. split; [apply Fw, I|lia].
Qed.
Lemma fine_ext L n c : fine L (Extension n c) -> exists L', fine L' c.
Proof. intros [F|[W HL]]; [exists O; left; exact F|]. inversion W; subst. exists L0. right. split; [assumption|lia]. Qed.
Lemma fine_say_ext L pre n c : fine L (Extension n c) -> snd (say_nibbles on pr pre n) = Ok tt.
Proof.
  intros F. apply say_ok. destruct F as [F|[W HL]]; [left; exact F|right]. inversion W; subst. rewrite key_debug_enc by (assumption || lia). eexists. reflexivity.
Qed.
Lemma fine_say_leaf L pre n v : fine L (Leaf n v) -> snd (say_nibbles on pr pre n) = Ok tt.
Proof.
  intros F. apply say_ok. destruct F as [F|[W HL]]; [left; exact F|right]. inversion W; subst. rewrite key_debug_enc by (assumption || lia). eexists. reflexivity.
Qed.
Lemma say_Ok x : snd (say on (Ok x)) = Ok tt.
Proof. apply say_ok. right. exists x. reflexivity. Qed.

Lemma lget_snd t : forall L k, fine L t -> snd (lget on pr t k) = trie_get pr t k.
Proof.
  induction t as [|h|ch w IH|n c IH|n w] using node_ind'; intros L k F; cbn [lget trie_get].
  - rewrite snd_lbind, say_Ok. reflexivity.
  - rewrite snd_lbind, say_Ok. reflexivity.
  - destruct (is_empty k); [reflexivity|]. rewrite snd_lbind, snd_lres. apply bind_ext. intros [nib k'] _. rewrite snd_lbind, say_Ok. cbn [bind].
    destruct (fine_branch _ _ _ F) as (L' & Fc). apply with_child_log_snd. intros c I. rewrite Forall_forall in IH. apply (IH c I L'), Fc, I.
  - rewrite snd_lbind, (fine_say_ext _ _ _ _ F). cbn [bind]. rewrite snd_lbind, snd_lres. apply bind_ext. intros [r k'] _.
    rewrite snd_lbind, snd_lres. apply bind_ext. intros [] _; [|reflexivity]. destruct (fine_ext _ _ _ F) as (L' & Fc). eapply IH, Fc.
  - rewrite snd_lbind, (fine_say_leaf _ _ _ _ F). cbn [bind]. rewrite snd_lbind, snd_lres. apply bind_ext. intros [] _; reflexivity.
Qed.

Lemma linsert_rec_snd t : forall L k v, fine L t -> snd (linsert_rec on pr t k v) = insert_rec pr t k v.
Proof.
  induction t as [|h|ch w IH|n c IH|n w] using node_ind'; intros L k v F; cbn [linsert_rec insert_rec].
  - rewrite snd_lbind, say_Ok. reflexivity.
  - rewrite snd_lbind, say_Ok. reflexivity.
  - destruct (count k =? 0); [rewrite snd_lbind, say_Ok; reflexivity|]. rewrite snd_lbind, snd_lres. apply bind_ext. intros [nib k'] _.
    rewrite snd_lbind, say_Ok. cbn [bind]. destruct (fine_branch _ _ _ F) as (L' & Fc). rewrite snd_lbind.
    rewrite (with_child_log_snd _ (fun c => insert_rec pr c k' v)); [reflexivity|]. intros c I. rewrite Forall_forall in IH. apply (IH c I L'), Fc, I.
  - rewrite snd_lbind, (fine_say_ext _ _ _ _ F). cbn [bind]. rewrite snd_lbind, snd_lres. apply bind_ext. intros info _.
    rewrite snd_lbind, snd_lres. apply bind_ext. intros [] _.
    + rewrite snd_lbind, snd_lres. apply bind_ext. intros k' _. destruct (fine_ext _ _ _ F) as (L' & Fc). rewrite snd_lbind, (IH L') by exact Fc. reflexivity.
    + rewrite snd_lbind, snd_lres. apply bind_ext. intros k' _. reflexivity.
  - rewrite snd_lbind, (fine_say_leaf _ _ _ _ F). cbn [bind]. destruct (nib_eqb n k); [reflexivity|].
    rewrite snd_lbind, snd_lres. apply bind_ext. intros info _. rewrite snd_lbind, snd_lres. apply bind_ext. intros n1 _. rewrite snd_lbind, snd_lres. reflexivity.
Qed.

Lemma entry_ok k v : finek k -> snd (say on (d <- entry_debug pr k v ;; Ok (txt "Inserting new node " ++ d ++ txt "..."))) = Ok tt.
Proof.
  intros F. apply say_ok. destruct F as [F|H]; [left; exact F|right]. destruct (kwf_ex k H) as (q & -> & _ & Hq & Lq).
  unfold entry_debug. rewrite key_debug_enc by (assumption || lia). eexists. reflexivity.
Qed.
Lemma linsert_snd t L k v : fine L t -> finek k -> snd (linsert on pr t k v) = trie_insert pr t k v.
Proof. intros F Fk. unfold linsert. rewrite snd_lbind, entry_ok by exact Fk. apply (linsert_rec_snd t L), F. Qed.
Lemma lextend_snd l : forall t, fine 64 t -> Forall (fun e => finek (fst e)) l -> snd (lextend on pr t l) = trie_extend pr t l.
Proof.
  induction l as [|[k v] l IH]; intros t F Fl; cbn [lextend trie_extend]; [reflexivity|]. inversion Fl as [|? ? Fk Fl']; subst. cbn [fst] in Fk.
  rewrite snd_lbind, (linsert_snd t 64 k v F Fk). apply bind_ext. intros t' E. apply IH; [|exact Fl'].
  destruct F as [F|[W _]]; [left; exact F|]. destruct Fk as [F|Hk]; [left; exact F|]. right. split; [eapply tinsert_wf; eauto|lia].
Qed.

Lemma lcollapse_snd ext child : on = false \/ (exists l, ext = enc l /\ hexl l /\ (length l <= 64)%nat) ->
  snd (lcollapse_ext_node_if_needed on pr ext child) = collapse_ext_node_if_needed pr ext child.
Proof.
  intros F. unfold lcollapse_ext_node_if_needed. rewrite snd_lbind, say_ok; [reflexivity|]. destruct F as [F|(l & -> & H & L)]; [left; exact F|right].
  rewrite key_text_enc by (assumption || lia). eexists. reflexivity.
Qed.
Lemma ltry_collapse_snd L t : fine L t -> snd (ltry_collapse_if_extension on pr t) = try_collapse_if_extension pr t.
Proof.
  intros F. destruct t as [| | |n c|]; cbn [ltry_collapse_if_extension try_collapse_if_extension]; try reflexivity. apply lcollapse_snd.
  destruct F as [F|[W HL]]; [left; exact F|right]. inversion W; subst. exists l. repeat split; [assumption|lia].
Qed.

Lemma collapse_wf p c L r : hexl p -> wf L c -> (length p + L <= 64)%nat -> collapse_ext_node_if_needed pr (enc p) c = Ok r -> wf (length p + L) r.
Proof.
  intros Hp W HL E. destruct c as [|h|ch w|n c|n w]; cbn [collapse_ext_node_if_needed] in E; try discriminate.
  - injection E as <-. constructor; assumption.
  - injection E as <-. constructor; assumption.
  - inversion W; subst. rewrite merge_nibbles_enc in E by (assumption || lia). cbn [bind] in E. injection E as <-.
    rewrite Nat.add_assoc, <- app_length. constructor; [apply Forall_app; split; assumption|assumption].
  - inversion W; subst. rewrite merge_nibbles_enc in E by (assumption || lia). cbn [bind] in E. injection E as <-.
    constructor; [apply Forall_app; split; assumption|]. rewrite app_length. lia.
Qed.
Lemma try_collapse_wf t L r : wf L t -> (L <= 64)%nat -> try_collapse_if_extension pr t = Ok r -> wf L r.
Proof.
  intros W HL E. destruct t as [|h|ch w|n c|n w]; cbn [try_collapse_if_extension] in E; try (injection E as <-; exact W).
  inversion W; subst. eapply collapse_wf; eauto.
Qed.
Lemma get_other_in ch : forall i nib j c, get_other_non_empty_child i ch nib = Some (j, c) -> In c ch /\ (i <= j < i + length ch)%nat.
Proof.
  induction ch as [|x ch IH]; intros i nib j c E; cbn [get_other_non_empty_child] in E; [discriminate|].
  destruct (negb (Nat.eqb i nib) && negb (node_is_empty x)).
  - injection E as <- <-. cbn [length]. split; [left; reflexivity|lia].
  - apply IH in E. destruct E as [I B]. cbn [length]. split; [right; exact I|lia].
Qed.
Lemma with_child_In {A} (f : node -> res A) ch : forall i x, with_child f ch i = Ok x -> exists c, In c ch /\ f c = Ok x.
Proof.
  induction ch as [|c ch IH]; intros [|i] x E; cbn [with_child] in E; try discriminate; [exists c; split; [left; reflexivity|exact E]|].
  destruct (IH i x E) as (d & I & Ed). exists d. split; [right; exact I|exact Ed].
Qed.
Lemma delete_intern_wf t : forall L k r w, wf L t -> (L <= 64)%nat -> delete_intern pr t k = Ok (Some (r, w)) -> wf L r.
Proof.
  induction t as [|h|ch u IH|n c IH|n u] using node_ind'; intros L k r w W HL E; cbn [delete_intern] in E; try discriminate.
  - inversion W as [| |L0 ? ? Hlen Fw| |]; subst. destruct (is_empty k); [injection E as <- <-; constructor; assumption|].
    destruct (pop_next_nibble_front pr k) as [[nib k']|]; [|discriminate]. cbn [bind] in E.
    destruct (with_child _ ch (N.to_nat nib)) as [[[c1 x]|]|] eqn:E1; cbn [bind] in E; try discriminate.
    apply with_child_In in E1. destruct E1 as (c & I & E1). rewrite Forall_forall in IH, Fw.
    assert (W1 : wf L0 c1) by (eapply IH; eauto; lia).
    destruct (node_is_empty c1 && (get_num_non_empty_children ch <=? 2)%nat).
    + destruct (get_other_non_empty_child 0 ch (N.to_nat nib)) as [[i c2]|] eqn:E2; [|discriminate]. apply get_other_in in E2. destruct E2 as [I2 B].
      rewrite from_nibble_enc in E by lia. cbn [bind] in E. injection E as <- <-. change (S L0) with (length [N.of_nat i] + L0)%nat.
      constructor; [|apply Fw, I2]. repeat constructor. lia.
    + destruct (try_collapse_if_extension pr c1) as [c2|] eqn:E2; [|discriminate]. cbn [bind] in E. injection E as <- <-.
      constructor; [rewrite set_child_length; exact Hlen|]. apply Forall_set_child; [apply Forall_forall; exact Fw|]. eapply try_collapse_wf; eauto. lia.
  - inversion W; subst. destruct (identical_up_to_smallest pr _ k) as [[]|]; cbn [bind] in E; try discriminate.
    destruct (truncate_n_nibbles_front pr k _) as [k'|]; [|discriminate]. cbn [bind] in E.
    destruct (delete_intern pr c k') as [[[c1 x]|]|] eqn:E1; cbn [bind] in E; try discriminate.
    destruct (collapse_ext_node_if_needed pr (enc l) c1) as [c2|] eqn:E2; [|discriminate]. cbn [bind] in E. injection E as <- <-.
    apply (collapse_wf l c1 L0); [assumption|eapply IH; eauto; lia|exact HL|exact E2].
  - destruct (nib_eqb n k); [|discriminate]. injection E as <- <-. constructor.
Qed.

Lemma fine_delete t L k r w : fine L t -> delete_intern pr t k = Ok (Some (r, w)) -> fine L r.
Proof. intros [F|[W HL]] E; [left; exact F|right]. split; [eapply delete_intern_wf; eauto|exact HL]. Qed.

Lemma ldelete_intern_snd t : forall L k, fine L t -> snd (ldelete_intern on pr t k) = delete_intern pr t k.
Proof.
  induction t as [|h|ch u IH|n c IH|n u] using node_ind'; intros L k F; cbn [ldelete_intern delete_intern].
  - rewrite snd_lbind, say_Ok. reflexivity.
  - reflexivity.
  - destruct (is_empty k); [reflexivity|]. rewrite snd_lbind, snd_lres. apply bind_ext. intros [nib k'] _. rewrite snd_lbind, say_Ok. cbn [bind].
    destruct (fine_branch _ _ _ F) as (L' & Fc). rewrite Forall_forall in IH. rewrite snd_lbind.
    rewrite (with_child_log_snd _ (fun c => delete_intern pr c k')) by (intros c I; apply (IH c I L'), Fc, I).
    apply bind_ext. intros [[c1 x]|] E1; [|reflexivity]. apply with_child_In in E1. destruct E1 as (c & I & E1).
    destruct (node_is_empty c1 && (get_num_non_empty_children ch <=? 2)%nat).
    + destruct (get_other_non_empty_child 0 ch (N.to_nat nib)) as [[i c2]|]; [|reflexivity]. rewrite snd_lbind, say_Ok. cbn [bind].
      rewrite snd_lbind, snd_lres. reflexivity.
    + rewrite snd_lbind, (ltry_collapse_snd L' c1); [reflexivity|]. eapply fine_delete; [apply Fc, I|exact E1].
  - rewrite snd_lbind, (fine_say_ext _ _ _ _ F). cbn [bind]. rewrite snd_lbind, snd_lres. apply bind_ext. intros [] _; [|reflexivity].
    rewrite snd_lbind, snd_lres. apply bind_ext. intros k' _. destruct (fine_ext _ _ _ F) as (L' & Fc). rewrite snd_lbind, (IH L') by exact Fc.
    apply bind_ext. intros [[c1 x]|] _; [|reflexivity]. rewrite snd_lbind, lcollapse_snd; [reflexivity|].
    destruct F as [F|[W HL]]; [left; exact F|right]. inversion W; subst. eexists. repeat split; [assumption|lia].
  - rewrite snd_lbind, (fine_say_leaf _ _ _ _ F). cbn [bind]. destruct (nib_eqb n k); [|reflexivity]. rewrite snd_lbind, say_ok; [reflexivity|].
    destruct F as [F|[W HL]]; [left; exact F|right]. inversion W; subst. rewrite key_text_enc by (assumption || lia). eexists. reflexivity.
Qed.
Lemma ldelete_snd t L k : fine L t -> finek k -> snd (ldelete on pr t k) = trie_delete pr t k.
Proof.
  intros F Fk. unfold ldelete, trie_delete. rewrite snd_lbind, say_ok.
  - cbn [bind]. rewrite snd_lbind, (ldelete_intern_snd t L) by exact F. apply bind_ext. intros [[t1 x]|] E; [|reflexivity].
    rewrite snd_lbind, (ltry_collapse_snd L t1); [reflexivity|]. eapply fine_delete; eauto.
  - destruct Fk as [F'|H]; [left; exact F'|right]. destruct (kwf_ex k H) as (q & -> & _ & Hq & Lq). rewrite key_text_enc by (assumption || lia). eexists. reflexivity.
Qed.
End Results.

(** ** Nothing is written when logging is off *)
Section Off.
Variable pr : profile.
Lemma off_bind {A B} (m : logged A) (f : A -> logged B) : fst m = [] -> (forall a, fst (f a) = []) -> fst (lbind m f) = [].
Proof. intros E F. unfold lbind. destruct (snd m); cbn [fst]; rewrite E; [apply F|reflexivity]. Qed.
Lemma with_child_off {A} (f : node -> logged A) ch : (forall c, In c ch -> fst (f c) = []) -> forall i, fst (with_child_log f ch i) = [].
Proof.
  intros H. induction ch as [|c ch IH]; intros [|i]; cbn [with_child_log]; try reflexivity; [apply H; left; reflexivity|]. apply IH. intros d I. apply H. right. exact I.
Qed.
Ltac off := repeat first [reflexivity | apply off_bind; [reflexivity|intros ?] | match goal with |- context [match ?x with _ => _ end] => destruct x end].
Lemma lget_off t : forall k, fst (lget false pr t k) = [].
Proof.
  induction t as [|h|ch w IH|n c IH|n w] using node_ind'; intros k; cbn [lget]; try solve [off].
  - destruct (is_empty k); [reflexivity|]. apply off_bind; [reflexivity|]. intros [nib k']. apply off_bind; [reflexivity|]. intros _.
    rewrite Forall_forall in IH. apply with_child_off. intros c I. apply IH, I.
  - apply off_bind; [reflexivity|]. intros _. apply off_bind; [reflexivity|]. intros [r k']. apply off_bind; [reflexivity|]. intros []; [apply IH|reflexivity].
Qed.
Lemma linsert_rec_off t : forall k v, fst (linsert_rec false pr t k v) = [].
Proof.
  induction t as [|h|ch w IH|n c IH|n w] using node_ind'; intros k v; cbn [linsert_rec]; try solve [off].
  - destruct (count k =? 0); [off|]. apply off_bind; [reflexivity|]. intros [nib k']. apply off_bind; [reflexivity|]. intros _.
    rewrite Forall_forall in IH. apply off_bind; [|off]. apply with_child_off. intros c I. apply IH, I.
  - apply off_bind; [reflexivity|]. intros _. apply off_bind; [reflexivity|]. intros info. apply off_bind; [reflexivity|]. intros []; [|off].
    apply off_bind; [reflexivity|]. intros k'. apply off_bind; [apply IH|off].
Qed.
Lemma linsert_off t k v : fst (linsert false pr t k v) = [].
Proof. unfold linsert. apply off_bind; [reflexivity|]. intros _. apply linsert_rec_off. Qed.
Lemma lextend_off l : forall t, fst (lextend false pr t l) = [].
Proof. induction l as [|[k v] l IH]; intros t; cbn [lextend]; [reflexivity|]. apply off_bind; [apply linsert_off|apply IH]. Qed.
Lemma ltry_off t : fst (ltry_collapse_if_extension false pr t) = [].
Proof. destruct t; reflexivity. Qed.
Lemma ldelete_intern_off t : forall k, fst (ldelete_intern false pr t k) = [].
Proof.
  induction t as [|h|ch w IH|n c IH|n w] using node_ind'; intros k; cbn [ldelete_intern]; try solve [off].
  - destruct (is_empty k); [off|]. apply off_bind; [reflexivity|]. intros [nib k']. apply off_bind; [reflexivity|]. intros _.
    rewrite Forall_forall in IH. apply off_bind; [apply with_child_off; intros c I; apply IH, I|]. intros [[c1 x]|]; [|reflexivity].
    destruct (node_is_empty c1 && (get_num_non_empty_children ch <=? 2)%nat); [off|]. apply off_bind; [apply ltry_off|off].
  - apply off_bind; [reflexivity|]. intros _. apply off_bind; [reflexivity|]. intros []; [|off].
    apply off_bind; [reflexivity|]. intros k'. apply off_bind; [apply IH|]. intros [[c1 x]|]; off.
Qed.
Lemma ldelete_off t k : fst (ldelete false pr t k) = [].
Proof.
  unfold ldelete. apply off_bind; [reflexivity|]. intros _. apply off_bind; [apply ldelete_intern_off|]. intros [[t1 x]|]; [|reflexivity].
  apply off_bind; [apply ltry_off|off].
Qed.
End Off.

(** ** The lines *)
Lemma fst_lbind_ok {A B} (m : logged A) (f : A -> logged B) x a : m = (x, Ok a) -> fst (lbind m f) = x ++ fst (f a).
Proof. intros ->. reflexivity. Qed.
Lemma lbind_res {A B} (m : res A) (f : A -> logged B) a : m = Ok a -> lbind (lres m) f = f a.
Proof. intros ->. unfold lbind, lres. cbn [fst snd]. destruct (f a). reflexivity. Qed.
Lemma lbind_say {B} (f : unit -> logged B) m x : m = Ok x -> fst (lbind (say true m) f) = x :: fst (f tt).
Proof. intros ->. reflexivity. Qed.
Lemma with_child_log_ok {A} (f : node -> logged A) ch d : length ch = 16%nat -> d < 16 -> with_child_log f ch (N.to_nat d) = f (child ch d).
Proof.
  intros HL Hd. unfold child. assert (Hi : (N.to_nat d < length ch)%nat) by lia. revert Hi. generalize (N.to_nat d). clear HL Hd d.
  induction ch as [|c ch IH]; intros [|i] Hi; cbn [length with_child_log nth] in *; try lia; [reflexivity|]. apply IH. lia.
Qed.
Lemma nibble_text_hex d : d < 16 -> nibble_text d = [hex_char false d].
Proof.
  intros H. assert (C : In d (map N.of_nat (seq 0 16))) by (apply in_map_iff; exists (N.to_nat d); rewrite in_seq; lia).
  cbn in C. repeat (destruct C as [<-|C]; [reflexivity|]). destruct C.
Qed.
Lemma trail_branch ch w d k : length ch = 16%nat -> d < 16 -> trail (Branch ch w) (d :: k) = (Branch ch w, d :: k) :: trail (child ch d) k.
Proof.
  intros HL Hd. cbn [trail]. f_equal. rewrite at_child_nth. rewrite nth_error_child by assumption. reflexivity.
Qed.
Lemma h256_shown h : h256_debug h = txt "0x" ++ shown_bytes h.
Proof. unfold h256_debug. rewrite hex_text_eq. reflexivity. Qed.
Lemma elems_join l : elems_debug l = join (txt ", ") (map dec l).
Proof.
  induction l as [|x l IH]; [reflexivity|]. cbn [elems_debug map join]. destruct l as [|y l]; [reflexivity|]. rewrite IH. reflexivity.
Qed.
Lemma value_shown v : value_debug v = debug_value v.
Proof. destruct v; cbn [value_debug debug_value]; [rewrite elems_join; reflexivity|]. rewrite h256_shown, <- app_assoc. reflexivity. Qed.
Lemma covers_tail t k x r : trail t k = x :: r -> covers t k -> Forall (fun e => match fst e with Extension n _ => (length (nseq n) <= length (snd e))%nat | _ => True end) r.
Proof. intros E C. unfold covers in C. rewrite E in C. inversion C; assumption. Qed.

Lemma say_ext_line pr pre l : hexl l -> (length l <= 128)%nat ->
  (d <- key_debug pr (enc l) ;; Ok (pre ++ txt " (nibbles: " ++ d ++ txt ")")) = Ok (pre ++ txt " (nibbles: " ++ debug_key (nseq (enc l)) ++ txt ")").
Proof. intros H L. rewrite key_debug_enc, nseq_enc by assumption. reflexivity. Qed.

Section Lines.
Variable pr : profile.
Lemma lget_lines t : forall L k, wf L t -> (L <= 64)%nat -> hexl k -> (length k <= 64)%nat -> covers t k ->
  fst (lget true pr t (enc k)) = path_lines "Get" t k.
Proof.
  induction t as [|h|ch w IH|n c IH|n w] using node_ind'; intros L k W HL Hk Lk C; unfold path_lines.
  - reflexivity.
  - cbn [lget]. erewrite lbind_say by reflexivity. cbn [node_debug]. rewrite h256_shown, <- !app_assoc. reflexivity.
  - inversion W as [| |L0 ? ? Hlen Fw| |]; subst. destruct k as [|d k]; [reflexivity|].
    assert (Hd : d < 16) by (inversion Hk; assumption). assert (Hk' : hexl k) by (inversion Hk; assumption). cbn [length] in Lk.
    pose proof (trail_branch ch w d k Hlen Hd) as T. apply (covers_tail _ _ _ _ T) in C. rewrite T. cbn [lget flat_map].
    rewrite is_empty_enc. rewrite (lbind_res _ _ (d, enc k)) by (apply pop_front_enc; [assumption|cbn [length]; lia]).
    erewrite lbind_say by reflexivity. rewrite with_child_log_ok by assumption. rewrite nibble_text_hex by exact Hd.
    cbn [app step_line fst snd]. f_equal. destruct (child_in ch d) as [E|I]; [rewrite E in *; reflexivity|].
    rewrite Forall_forall in IH, Fw. apply (IH _ I L0); [apply Fw, I|lia|assumption|lia|exact C].
  - inversion W; subst. assert (Hs : (length l <= length k)%nat).
    { unfold covers in C. cbn [trail] in C. inversion C as [|? ? C1 _]; subst. cbn [fst snd] in C1. rewrite nseq_enc in C1 by assumption. exact C1. }
    cbn [lget]. unfold say_nibbles. erewrite lbind_say by (apply say_ext_line; [assumption|lia]).
    rewrite count_enc. rewrite (lbind_res _ _ (enc (firstn (length l) k), enc (skipn (length l) k))) by (apply pop_nibbles_front_enc; (assumption || lia)).
    rewrite identical_enc by (first [assumption | apply hexl_firstn; assumption | rewrite firstn_length; lia | lia]). erewrite lbind_res by reflexivity.
    unfold covers in C. cbn [trail flat_map] in *. inversion C as [|? ? _ C']; subst. rewrite nseq_enc in * by assumption.
    cbn [app step_line fst snd]. rewrite nseq_enc by assumption. f_equal.
    replace (Nat.min (length (firstn (length l) k)) (length l)) with (length l) by (rewrite firstn_length; lia). destruct (strip l k) as [k'|] eqn:Es.
    + apply strip_some in Es. subst k. rewrite firstn_exact, skipn_exact, lcp_refl, Nat.leb_refl. apply hexl_app in Hk. rewrite app_length in Lk.
      apply (IH L0); [assumption|lia|tauto|lia|exact C'].
    + destruct (Nat.leb_spec (length l) (lcp (firstn (length l) k) l)) as [Hl|Hl]; [|reflexivity]. exfalso. apply strip_none in Es. apply Es.
      pose proof (lcp_le (firstn (length l) k) l) as Le. rewrite lcp_comm in Hl, Le. assert (P : is_prefix l (firstn (length l) k)) by (apply lcp_full_prefix; lia).
      destruct P as (x & P). exists (x ++ skipn (length l) k). rewrite app_assoc, <- P. symmetry. apply firstn_skipn.
  - inversion W; subst. cbn [lget]. unfold say_nibbles. erewrite lbind_say by (apply say_ext_line; [assumption|lia]).
    rewrite identical_enc by (assumption || lia). erewrite lbind_res by reflexivity.
    cbn [trail flat_map app step_line fst snd]. f_equal. destruct (Nat.leb _ _); reflexivity.
Qed.

Lemma linsert_rec_lines t : forall L k v, wf L t -> (L <= 64)%nat -> hexl k -> (length k <= 64)%nat -> covers t k ->
  fst (linsert_rec true pr t (enc k) v) = path_lines "Insert" t k.
Proof.
  induction t as [|h|ch w IH|n c IH|n w] using node_ind'; intros L k v W HL Hk Lk C; unfold path_lines.
  - reflexivity.
  - cbn [linsert_rec]. erewrite lbind_say by reflexivity. cbn [node_debug]. rewrite h256_shown, <- !app_assoc. reflexivity.
  - inversion W as [| |L0 ? ? Hlen Fw| |]; subst. destruct k as [|d k]; [reflexivity|].
    assert (Hd : d < 16) by (inversion Hk; assumption). assert (Hk' : hexl k) by (inversion Hk; assumption). cbn [length] in Lk.
    pose proof (trail_branch ch w d k Hlen Hd) as T. apply (covers_tail _ _ _ _ T) in C. rewrite T. cbn [linsert_rec flat_map].
    rewrite count_enc_0. rewrite (lbind_res _ _ (d, enc k)) by (apply pop_front_enc; [assumption|cbn [length]; lia]).
    erewrite lbind_say by reflexivity. rewrite with_child_log_ok by assumption. rewrite nibble_text_hex by exact Hd.
    cbn [app step_line fst snd]. f_equal. transitivity (fst (linsert_rec true pr (child ch d) (enc k) v)).
    { unfold lbind. destruct (snd _); cbn [fst lret]; rewrite ?app_nil_r; reflexivity. }
    destruct (child_in ch d) as [E|I]; [rewrite E in *; reflexivity|].
    rewrite Forall_forall in IH, Fw. apply (IH _ I L0); [apply Fw, I|lia|assumption|lia|exact C].
  - inversion W; subst. assert (Hs : (length l <= length k)%nat).
    { unfold covers in C. cbn [trail] in C. inversion C as [|? ? C1 _]; subst. cbn [fst snd] in C1. rewrite nseq_enc in C1 by assumption. exact C1. }
    cbn [linsert_rec]. unfold say_nibbles. erewrite lbind_say by (apply say_ext_line; [assumption|lia]).
    assert (G : exists info, get_pre_and_postfixes pr (enc l) (enc k) = Ok info) .
    { destruct (lcp_decomp l k) as (q & a & b & -> & -> & _ & D). exists (PrePost (enc q) (enc a) (enc b)). apply (pre_post_enc pr q a b (hd 0 a) (hd 0 b)); try (assumption || lia).
      destruct a as [|x a]; [left; reflexivity|]. destruct b as [|y b]; [right; left; reflexivity|]. right. right. cbn [hd hd_error]. auto. }
    destruct G as (info & G). rewrite G. erewrite lbind_res by reflexivity.
    unfold covers in C. cbn [trail flat_map] in *. inversion C as [|? ? _ C']; subst. rewrite nseq_enc in * by assumption.
    cbn [app step_line fst snd]. rewrite nseq_enc by assumption. f_equal.
    rewrite identical_enc by (assumption || lia). erewrite lbind_res by reflexivity.
    replace (Nat.min (length l) (length k)) with (length l) by lia. destruct (strip l k) as [k'|] eqn:Es.
    + apply strip_some in Es. subst k. rewrite lcp_app_l, Nat.leb_refl. rewrite count_enc, truncate_front_enc by (assumption || lia).
      erewrite lbind_res by reflexivity. rewrite skipn_exact. apply hexl_app in Hk. rewrite app_length in Lk.
      transitivity (fst (linsert_rec true pr c (enc k') v)).
      { unfold lbind. destruct (snd _); cbn [fst lret]; rewrite ?app_nil_r; reflexivity. }
      apply (IH L0); [assumption|lia|tauto|lia|exact C'].
    + destruct (Nat.leb_spec (length l) (lcp l k)) as [Hl|Hl].
      * exfalso. apply strip_none in Es. apply Es. apply lcp_full_prefix. pose proof (lcp_le l k). lia.
      * unfold lbind. destruct (snd _); reflexivity.
  - inversion W; subst. cbn [linsert_rec]. unfold say_nibbles. erewrite lbind_say by (apply say_ext_line; [assumption|lia]).
    cbn [trail flat_map app step_line fst snd]. f_equal. destruct (nib_eqb (enc l) (enc k)); [reflexivity|].
    repeat match goal with |- fst (lbind (lres ?m) _) = _ => destruct m; [erewrite lbind_res by reflexivity|reflexivity] | |- fst (lres _) = _ => reflexivity end.
Qed.

(** Deletion writes the lines of its way down; what it writes on the way back up comes after them. *)
Lemma fst_lbind_app {A B} (m : logged A) (f : A -> logged B) : exists r, fst (lbind m f) = fst m ++ r /\ (forall a, snd m = Ok a -> r = fst (f a)) /\ (snd m = Panic -> r = []).
Proof. unfold lbind. destruct (snd m) as [a|]; cbn [fst]; eexists; (split; [|split; [intros b E; try injection E as <-; try discriminate E; reflexivity|]]); try reflexivity; try discriminate. rewrite app_nil_r. reflexivity. Qed.
Lemma ldelete_intern_lines t : forall L k, wf L t -> (L <= 64)%nat -> hexl k -> (length k <= 64)%nat -> covers t k ->
  exists back, fst (ldelete_intern true pr t (enc k)) = path_lines "Delete" t k ++ back /\
    (delete_intern pr t (enc k) = Ok None \/ (exists h r, In (Hash h, r) (trail t k)) -> back = []) /\
    ((exists h r, In (Hash h, r) (trail t k)) -> delete_intern pr t (enc k) = Panic).
Proof.
  induction t as [|h|ch w IH|n c IH|n w] using node_ind'; intros L k W HL Hk Lk C; unfold path_lines.
  - exists []. split; [reflexivity|]. split; [reflexivity|]. intros (h & r & [I|[]]). discriminate.
  - exists []. split; [reflexivity|]. split; reflexivity.
  - inversion W as [| |L0 ? ? Hlen Fw| |]; subst. destruct k as [|d k].
    { exists []. split; [reflexivity|]. split; [reflexivity|]. intros (h & r & [I|[]]). discriminate. }
    assert (Hd : d < 16) by (inversion Hk; assumption). assert (Hk' : hexl k) by (inversion Hk; assumption). cbn [length] in Lk.
    pose proof (trail_branch ch w d k Hlen Hd) as T. apply (covers_tail _ _ _ _ T) in C. rewrite T. rewrite delete_branch_cons by (assumption || (cbn [length]; lia)).
    cbn [ldelete_intern flat_map].
    rewrite is_empty_enc. rewrite (lbind_res _ _ (d, enc k)) by (apply pop_front_enc; [assumption|cbn [length]; lia]).
    erewrite lbind_say by reflexivity. rewrite with_child_log_ok by assumption. rewrite nibble_text_hex by exact Hd.
    assert (Ic : exists back, fst (ldelete_intern true pr (child ch d) (enc k)) = path_lines "Delete" (child ch d) k ++ back /\
      (delete_intern pr (child ch d) (enc k) = Ok None \/ (exists h r, In (Hash h, r) (trail (child ch d) k)) -> back = []) /\
      ((exists h r, In (Hash h, r) (trail (child ch d) k)) -> delete_intern pr (child ch d) (enc k) = Panic)).
    { destruct (child_in ch d) as [E|I].
      - rewrite E. exists []. split; [reflexivity|]. split; [reflexivity|]. intros (h & r & [I|[]]). discriminate.
      - rewrite Forall_forall in IH, Fw. apply (IH _ I L0); [apply Fw, I|lia|assumption|lia|exact C]. }
    assert (Sc : snd (ldelete_intern true pr (child ch d) (enc k)) = delete_intern pr (child ch d) (enc k)).
    { apply (ldelete_intern_snd true pr _ L0). right. split; [|lia]. destruct (child_in ch d) as [E|I]; [rewrite E; constructor|]. rewrite Forall_forall in Fw. apply Fw, I. }
    destruct Ic as (b1 & E1 & N1 & P1).
    match goal with |- context [fst (lbind ?m ?f)] => destruct (fst_lbind_app m f) as (b2 & E2 & K2 & Q2) end. cbv beta in *. rewrite Sc in K2, Q2.
    rewrite E2, E1. exists (b1 ++ b2). split; [|split].
    + cbn [app step_line fst snd]. rewrite <- app_assoc. reflexivity.
    + intros H. assert (Hc : delete_intern pr (child ch d) (enc k) = Ok None \/ (exists h r, In (Hash h, r) (trail (child ch d) k))).
      { destruct H as [H|(h & r & [H|H])]; [left|discriminate|right; exists h, r; exact H].
        destruct (delete_intern pr (child ch d) (enc k)) as [[[c1 x]|]|]; cbn [bind] in H; [|reflexivity|discriminate].
        destruct (node_is_empty c1 && (get_num_non_empty_children ch <=? 2)%nat).
        - destruct (get_other_non_empty_child 0 ch (N.to_nat d)) as [[i c2]|]; [|discriminate]. destruct (from_nibble (N.of_nat i)); discriminate.
        - destruct (try_collapse_if_extension pr c1); discriminate. }
      rewrite (N1 Hc). destruct Hc as [Hc|Hc]; [rewrite (K2 None Hc); reflexivity|rewrite (Q2 (P1 Hc)); reflexivity].
    + intros (h & r & [H|H]); [discriminate|]. rewrite P1 by (exists h, r; exact H). reflexivity.
  - inversion W; subst. assert (Hs : (length l <= length k)%nat).
    { unfold covers in C. cbn [trail] in C. inversion C as [|? ? C1 _]; subst. cbn [fst snd] in C1. rewrite nseq_enc in C1 by assumption. exact C1. }
    unfold covers in C. cbn [trail flat_map] in *. inversion C as [|? ? _ C']; subst. rewrite nseq_enc in * by assumption.
    cbn [ldelete_intern]. unfold say_nibbles. erewrite lbind_say by (apply say_ext_line; [assumption|lia]).
    cbn [app step_line fst snd]. rewrite nseq_enc by assumption.
    rewrite identical_enc by (assumption || lia). erewrite lbind_res by reflexivity.
    replace (Nat.min (length l) (length k)) with (length l) by lia. destruct (strip l k) as [k'|] eqn:Es.
    + apply strip_some in Es. subst k. rewrite delete_ext_long by (assumption || lia). rewrite lcp_app_l, Nat.leb_refl. rewrite count_enc, truncate_front_enc by (assumption || lia).
      erewrite lbind_res by reflexivity. rewrite skipn_exact. apply hexl_app in Hk. rewrite app_length in Lk.
      assert (Sc : snd (ldelete_intern true pr c (enc k')) = delete_intern pr c (enc k')) by (apply (ldelete_intern_snd true pr _ L0); right; split; [assumption|lia]).
      destruct (IH L0 k' ltac:(assumption) ltac:(lia) ltac:(tauto) ltac:(lia) C') as (b1 & E1 & N1 & P1).
      match goal with |- context [fst (lbind ?m ?f)] => destruct (fst_lbind_app m f) as (b2 & E2 & K2 & Q2) end. cbv beta in *. rewrite Sc in K2, Q2.
      rewrite E2, E1. exists (b1 ++ b2). split; [|split].
      * cbn [app]. rewrite <- app_assoc. reflexivity.
      * intros H. assert (Hc : delete_intern pr c (enc k') = Ok None \/ (exists h r, In (Hash h, r) (trail c k'))).
        { destruct H as [H|(h & r & [H|H])]; [left|discriminate|right; exists h, r; exact H].
          destruct (delete_intern pr c (enc k')) as [[[c1 x]|]|]; cbn [bind] in H; [|reflexivity|discriminate].
          destruct (collapse_ext_node_if_needed pr (enc l) c1); discriminate. }
        rewrite (N1 Hc). destruct Hc as [Hc|Hc]; [rewrite (K2 None Hc); reflexivity|rewrite (Q2 (P1 Hc)); reflexivity].
      * intros (h & r & [H|H]); [discriminate|]. rewrite P1 by (exists h, r; exact H). reflexivity.
    + destruct (Nat.leb_spec (length l) (lcp l k)) as [Hl|Hl].
      * exfalso. apply strip_none in Es. apply Es. apply lcp_full_prefix. pose proof (lcp_le l k). lia.
      * exists []. split; [reflexivity|]. split; [reflexivity|]. intros (h & r & [I|[]]). discriminate.
  - inversion W; subst. cbn [ldelete_intern]. unfold say_nibbles. erewrite lbind_say by (apply say_ext_line; [assumption|lia]).
    cbn [trail flat_map app step_line fst snd]. rewrite delete_leaf by assumption.
    destruct (nib_eqb (enc l) (enc k)) eqn:Ek; rewrite nib_eqb_enc in Ek by assumption; rewrite Ek.
    + eexists. split; [reflexivity|]. split; [intros [H|(h & r & [H|[]])]; discriminate|intros (h & r & [H|[]]); discriminate].
    + exists []. split; [reflexivity|]. split; [reflexivity|]. intros (h & r & [H|[]]). discriminate.
Qed.
End Lines.
