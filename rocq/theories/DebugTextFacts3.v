(** The [Debug] output of the reports of the debug tools and of errors. *)
From Coq Require Import String.
From Verif Require Import Base Nibbles NibblesSpec NibblesFacts NibblesFacts2 NibblesFacts3 Trie TrieSpec TrieFacts Query Diff P_Query Text TextSpec TextFacts.
From Verif Require Import Rlp Hashing Subset Cache CacheFacts DebugText DebugTextSpec DebugTextFacts DebugTextFacts2.
From Verif Require Import Trie TrieSpec Cache Query Diff.
Open Scope N_scope.
Open Scope list_scope.

Definition dk (n : nibbles) : dbg := dkey (nseq n).
Lemma dk_ok n : dok (dk n).
Proof. apply dok_key, nseq_hexl. Qed.
Lemma dk_inj a b : exact a -> exact b -> dk a = dk b -> a = b.
Proof. intros A B E. apply dkey_inj in E; [|apply nseq_hexl|apply nseq_hexl]. rewrite <- (enc_nseq a A), <- (enc_nseq b B), E. reflexivity. Qed.
Lemma put_dk n : put false (dk n) = line_key n.
Proof. apply put_key, nseq_hexl. Qed.

(** ** Pieces *)
Definition dseg (s : segment) : dbg :=
  match s with
  | SEmpty => DWord (txt "Empty")
  | SHash => DWord (txt "Hash")
  | SBranch nib => DTuple (txt "Branch") [num_dbg nib]
  | SExtension n => DTuple (txt "Extension") [dk n]
  | SLeaf n => DTuple (txt "Leaf") [dk n]
  end.
Definition dpath (p : list segment) : dbg := DTuple (txt "NodePath") [DList (map dseg p)].
Lemma path_dbg_ok pr p : Forall short (path_keys p) -> path_dbg pr p = Ok (dpath p).
Proof.
  intros K. unfold path_dbg. assert (E : segments_dbg pr p = Ok (map dseg p)); [|rewrite E; reflexivity].
  induction p as [|s p IH]; [reflexivity|]. cbn [segments_dbg map]. unfold path_keys in *. cbn [flat_map] in K. apply Forall_app in K as [K1 K2].
  rewrite IH by exact K2. destruct s; cbn [segment_dbg dseg] in *; try reflexivity; inversion K1; subst; rewrite key_dbg_ok by assumption; reflexivity.
Qed.
Lemma dseg_ok s : dok (dseg s).
Proof. destruct s; cbn [dseg]; [constructor; wl_tac|constructor; wl_tac| | |]; (apply dok_one; [wl_tac|]); [apply dok_num|apply dk_ok|apply dk_ok]. Qed.
Lemma dpath_ok p : dok (dpath p).
Proof. apply dok_one; [wl_tac|]. constructor. apply Forall_map, Forall_forall. intros s _. apply dseg_ok. Qed.
Lemma dpath_inj p : forall q, Forall exact (path_keys p) -> Forall exact (path_keys q) -> dpath p = dpath q -> p = q.
Proof.
  unfold path_keys. intros q Kp Kq E. assert (E' : map dseg p = map dseg q) by (unfold dpath in E; congruence). clear E.
  revert q Kq E'. induction p as [|s p IH]; intros [|s' q] Kq E; try discriminate E; [reflexivity|]. cbn [flat_map map] in *.
  apply Forall_app in Kp as [Kp1 Kp2], Kq as [Kq1 Kq2]. injection E as E1 E2. f_equal; [|apply IH; assumption].
  destruct s, s'; cbn [dseg] in E1; try discriminate E1; try reflexivity; f_equal.
  - apply num_inj. congruence.
  - inversion Kp1; inversion Kq1; subst. apply dk_inj; try assumption. congruence.
  - inversion Kp1; inversion Kq1; subst. apply dk_inj; try assumption. congruence.
Qed.
Ltac putters := repeat (first [rewrite put_struct by discriminate | rewrite put_tuple by discriminate | rewrite put_list |
  progress unfold commas, field_text, line_struct, commas | progress cbn [map join fst snd]]).
Lemma put_dpath p : put false (dpath p) = line_path p.
Proof.
  unfold dpath, line_path. putters. rewrite map_map. rewrite (map_ext _ line_segment); [rewrite <- !app_assoc; reflexivity|].
  intros s. destruct s; cbn [dseg line_segment]; try reflexivity; putters; rewrite ?put_dk; reflexivity.
Qed.

Lemma params_ok ps : dok (params_dbg ps).
Proof.
  constructor; [wl_tac|discriminate| |]; repeat (constructor; [first [wl_tac|apply dok_bool]|]); constructor.
Qed.
Lemma bool_inj a b : bool_dbg a = bool_dbg b -> a = b.
Proof. destruct a, b; intros E; try discriminate E; reflexivity. Qed.
Lemma params_inj a b : params_dbg a = params_dbg b -> a = b.
Proof.
  destruct a as [a1 a2 a3], b as [b1 b2 b3]. intros E. unfold params_dbg in E. cbn [include_key_piece include_node_type include_values] in E.
  assert (bool_dbg a1 = bool_dbg b1 /\ bool_dbg a2 = bool_dbg b2 /\ bool_dbg a3 = bool_dbg b3) as (A & B & C) by (repeat split; congruence).
  apply bool_inj in A, B, C. congruence.
Qed.
Lemma put_params ps : put false (params_dbg ps) = line_params ps.
Proof. unfold params_dbg, line_params. putters. rewrite <- !app_assoc. reflexivity. Qed.

Definition dquery (k : nibbles) (ps : query_params) : dbg := DStruct (txt "DebugQuery") [(txt "k", dk k); (txt "params", params_dbg ps)].
Lemma query_dbg_ok pr k ps : short k -> query_dbg pr k ps = Ok (dquery k ps).
Proof. intros S. unfold query_dbg. rewrite key_dbg_ok by exact S. reflexivity. Qed.
Lemma dquery_ok k ps : dok (dquery k ps).
Proof. apply dok_node2; [wl_tac|wl_tac|apply dk_ok|wl_tac|apply params_ok]. Qed.
Lemma dquery_inj k ps k' ps' : exact k -> exact k' -> dquery k ps = dquery k' ps' -> k = k' /\ ps = ps'.
Proof. intros A B E. unfold dquery in E. split; [apply dk_inj; auto; congruence|apply params_inj; congruence]. Qed.
Lemma put_dquery k ps : put false (dquery k ps) = line_query k ps.
Proof. unfold dquery, line_query. putters. rewrite put_dk, put_params, <- !app_assoc. reflexivity. Qed.

Definition dextra : option extra_info -> dbg := option_dbg extra_dbg.
Lemma dextra_ok e : match e with Some (XHash h) => bytesl h | _ => True end -> dok (dextra e).
Proof.
  destruct e as [[h|m|v]|]; cbn; intros B; [| | |constructor; wl_tac]; (apply dok_one; [wl_tac|]).
  - apply dok_one; [wl_tac|apply dok_hash, B].
  - apply dok_node1; [wl_tac|wl_tac|apply dok_num].
  - apply dok_node1; [wl_tac|wl_tac|apply dok_bytes].
Qed.
Lemma dextra_inj e e' : match e with Some (XHash h) => bytesl h | _ => True end -> match e' with Some (XHash h) => bytesl h | _ => True end ->
  dextra e = dextra e' -> e = e'.
Proof.
  destruct e as [[h|m|v]|], e' as [[h'|m'|v']|]; intros A B E; try discriminate E; try reflexivity; unfold dextra, option_dbg, extra_dbg in E; do 2 f_equal.
  - apply hash_inj; try assumption. congruence.
  - apply num_inj. congruence.
  - apply bytes_inj. congruence.
Qed.
Lemma put_dextra e : put false (dextra e) = line_option line_extra e.
Proof.
  destruct e as [[h|m|v]|]; unfold dextra, option_dbg, extra_dbg; cbn [line_option line_extra]; putters; rewrite ?put_hash, ?put_bytes, <- ?app_assoc; reflexivity.
Qed.

Definition doutput (out : query_output) (ps : query_params) : dbg :=
  DStruct (txt "DebugQueryOutput") [(txt "k", dk (q_key out)); (txt "node_path", dpath (node_path out)); (txt "extra_node_info", DList (map dextra (extra_node_info out)));
                                    (txt "node_found", bool_dbg (node_found out)); (txt "params", params_dbg ps)].
Lemma output_dbg_ok pr out ps : Forall short (output_keys out) -> output_dbg pr out ps = Ok (doutput out ps).
Proof. intros S. inversion S; subst. unfold output_dbg. rewrite key_dbg_ok by assumption. cbn [bind]. rewrite path_dbg_ok by assumption. reflexivity. Qed.
Lemma hashes_extras l : Forall bytesl (flat_map (fun e => match e with Some (XHash h) => [h] | _ => [] end) l) <->
  Forall (fun e => match e with Some (XHash h) => bytesl h | _ => True end) l.
Proof.
  rewrite Forall_flat. split; apply Forall_impl; intros [[h|m|v]|]; auto. intros H. inversion H. assumption.
Qed.
Lemma doutput_ok out ps : Forall bytesl (output_hashes out) -> dok (doutput out ps).
Proof.
  intros B. constructor; [wl_tac|discriminate| |].
  - repeat (constructor; [wl_tac|]). constructor.
  - constructor; [apply dk_ok|]. constructor; [apply dpath_ok|]. constructor; [|constructor; [apply dok_bool|]; constructor; [apply params_ok|constructor]].
    cbn [snd]. constructor. apply Forall_map. apply hashes_extras in B. eapply Forall_impl; [|exact B]. intros e. apply dextra_ok.
Qed.
Lemma map_inj_on {A B} (P : A -> Prop) (f : A -> B) : (forall x y, P x -> P y -> f x = f y -> x = y) -> forall l m, Forall P l -> Forall P m -> map f l = map f m -> l = m.
Proof.
  intros I. induction l as [|x l IH]; intros [|y m] L M E; try discriminate; [reflexivity|]. inversion L; inversion M; subst. injection E as E1 E2. f_equal; auto.
Qed.
Lemma doutput_inj out ps out' ps' : Forall exact (output_keys out) -> Forall exact (output_keys out') -> Forall bytesl (output_hashes out) -> Forall bytesl (output_hashes out') ->
  doutput out ps = doutput out' ps' -> out = out' /\ ps = ps'.
Proof.
  destruct out as [k p x f], out' as [k' p' x' f']. unfold output_keys, output_hashes, doutput. cbn [q_key node_path extra_node_info node_found].
  intros K K' B B' E. inversion K; inversion K'; subst.
  assert (k = k') by (apply dk_inj; auto; congruence). assert (p = p') by (apply dpath_inj; auto; congruence).
  assert (x = x').
  { assert (Em : map dextra x = map dextra x') by congruence. revert Em. apply (map_inj_on (fun e => match e with Some (XHash h) => bytesl h | _ => True end));
      [intros e e'; apply dextra_inj|apply hashes_extras, B|apply hashes_extras, B']. }
  assert (f = f') by (apply bool_inj; congruence). assert (ps = ps') by (apply params_inj; congruence). subst. auto.
Qed.
Lemma put_doutput out ps : put false (doutput out ps) = line_output out ps.
Proof.
  unfold doutput, line_output. putters. rewrite put_dk, put_dpath, put_params, map_map, (map_ext _ _ put_dextra). unfold commas. rewrite <- !app_assoc. reflexivity.
Qed.

(** ** Differences *)
Definition dinfo (i : node_info) : dbg :=
  DStruct (txt "NodeInfo") [(txt "key", dk (i_key i)); (txt "value", option_dbg bytes_dbg (i_value i)); (txt "node_type", type_dbg (i_type i)); (txt "hash", h256_dbg (i_hash i))].
Definition dpoint (p : diff_point) : dbg :=
  DStruct (txt "DiffPoint") [(txt "depth", num_dbg (d_depth p)); (txt "path", dpath (d_path p)); (txt "key", dk (d_key p)); (txt "a_info", dinfo (a_info p)); (txt "b_info", dinfo (b_info p))].
Definition ddiff (d : option diff_point) : dbg := DStruct (txt "TrieDiff") [(txt "latest_diff_res", option_dbg dpoint d)].
Lemma diff_dbg_ok pr d : Forall short (diff_keys d) -> diff_dbg pr d = Ok (ddiff d).
Proof.
  destruct d as [p|]; [|reflexivity]. cbn [diff_keys]. intros S. inversion S as [|? ? S1 S']; subst. inversion S' as [|? ? S2 S'']; subst. inversion S'' as [|? ? S3 S4]; subst.
  unfold diff_dbg, point_dbg, info_dbg. rewrite path_dbg_ok by assumption. cbn [bind]. rewrite !key_dbg_ok by assumption. reflexivity.
Qed.
Lemma dvalue_ok v : dok (option_dbg bytes_dbg v).
Proof. destruct v as [v|]; [apply dok_one; [wl_tac|apply dok_bytes]|constructor; wl_tac]. Qed.
Lemma dtype_ok ty : dok (type_dbg ty).
Proof. destruct ty; constructor; wl_tac. Qed.
Lemma dinfo_ok i : bytesl (i_hash i) -> dok (dinfo i).
Proof.
  intros B. constructor; [wl_tac|discriminate|repeat (constructor; [wl_tac|]); constructor|].
  constructor; [apply dk_ok|]. constructor; [apply dvalue_ok|]. constructor; [apply dtype_ok|]. constructor; [apply dok_hash, B|constructor].
Qed.
Lemma ddiff_ok d : Forall bytesl (diff_hashes d) -> dok (ddiff d).
Proof.
  intros B. apply dok_node1; [wl_tac|wl_tac|]. destruct d as [p|]; [|constructor; wl_tac]. apply dok_one; [wl_tac|]. cbn [diff_hashes] in B. inversion B as [|? ? B1 B']; subst.
  inversion B'; subst. constructor; [wl_tac|discriminate|repeat (constructor; [wl_tac|]); constructor|].
  constructor; [apply dok_num|]. constructor; [apply dpath_ok|]. constructor; [apply dk_ok|]. constructor; [apply dinfo_ok; assumption|]. constructor; [apply dinfo_ok; assumption|constructor].
Qed.
Lemma dinfo_inj i j : exact (i_key i) -> exact (i_key j) -> bytesl (i_hash i) -> bytesl (i_hash j) -> dinfo i = dinfo j -> i = j.
Proof.
  destruct i as [k v ty h], j as [k' v' ty' h']. cbn [i_key i_hash]. intros K K' B B' E. unfold dinfo in E. cbn [i_key i_value i_type i_hash] in E.
  assert (k = k') by (apply dk_inj; auto; congruence). assert (h = h') by (apply hash_inj; auto; congruence).
  assert (v = v').
  { assert (Ev : option_dbg bytes_dbg v = option_dbg bytes_dbg v') by congruence. destruct v, v'; try discriminate Ev; [|reflexivity]. f_equal. apply bytes_inj. unfold option_dbg in Ev. congruence. }
  assert (ty = ty').
  { assert (Et : type_dbg ty = type_dbg ty') by congruence. destruct ty, ty'; try reflexivity; discriminate Et. }
  subst. reflexivity.
Qed.
Lemma ddiff_inj d e : Forall exact (diff_keys d) -> Forall exact (diff_keys e) -> Forall bytesl (diff_hashes d) -> Forall bytesl (diff_hashes e) -> ddiff d = ddiff e -> d = e.
Proof.
  intros K K' B B' E. assert (E' : option_dbg dpoint d = option_dbg dpoint e) by (unfold ddiff in E; congruence). clear E.
  destruct d as [[n p k a b]|], e as [[n' p' k' a' b']|]; try discriminate E'; [|reflexivity].
  cbn [diff_keys diff_hashes d_key a_info b_info d_path] in *.
  repeat match goal with H : Forall _ (_ :: _) |- _ => inversion H; subst; clear H end.
  assert (E : dpoint (DiffPoint n p k a b) = dpoint (DiffPoint n' p' k' a' b')) by (unfold option_dbg in E'; congruence).
  unfold dpoint in E. cbn [d_depth d_path d_key a_info b_info] in E.
  assert (n = n') by (apply num_inj; congruence). assert (p = p') by (apply dpath_inj; auto; congruence). assert (k = k') by (apply dk_inj; auto; congruence).
  assert (a = a') by (apply dinfo_inj; auto; congruence). assert (b = b') by (apply dinfo_inj; auto; congruence). subst. reflexivity.
Qed.
Lemma put_dinfo i : put false (dinfo i) = line_info i.
Proof.
  unfold dinfo, line_info. putters. rewrite put_dk, put_hash.
  assert (Ev : put false (option_dbg bytes_dbg (i_value i)) = line_option line_bytes (i_value i)).
  { destruct (i_value i); [|reflexivity]. cbn [option_dbg line_option]. putters. rewrite put_bytes. reflexivity. }
  rewrite Ev. assert (Et : put false (type_dbg (i_type i)) = type_name (i_type i)) by (destruct (i_type i); reflexivity). rewrite Et, <- !app_assoc. reflexivity.
Qed.
Lemma put_ddiff d : put false (ddiff d) = line_diff d.
Proof.
  unfold ddiff, line_diff. putters.
  assert (E : put false (option_dbg dpoint d) = line_option line_point d); [|rewrite E; reflexivity].
  destruct d as [p|]; [|reflexivity]. cbn [option_dbg line_option]. putters. unfold dpoint at 1. unfold line_point. putters.
  rewrite put_dk, put_dpath, !put_dinfo, <- !app_assoc. reflexivity.
Qed.

(** ** Values and errors *)
Definition value_bytes (v : val_or_hash) : Prop := match v with HashV h => bytesl h | Val _ => True end.
Lemma value_ok v : value_bytes v -> dok (value_dbg v).
Proof. destruct v; cbn; intros B; (apply dok_one; [wl_tac|]); [apply dok_bytes|apply dok_hash, B]. Qed.
Lemma value_inj v w : value_bytes v -> value_bytes w -> value_dbg v = value_dbg w -> v = w.
Proof. destruct v, w; cbn [value_bytes value_dbg]; intros A B E; try discriminate E; f_equal; [apply bytes_inj; congruence|apply hash_inj; auto; congruence]. Qed.
Lemma put_value v : put false (value_dbg v) = line_value v.
Proof. destruct v; cbn [value_dbg line_value]; putters; rewrite ?put_bytes, ?put_hash; reflexivity. Qed.

Lemma bytes_error_ok e : dok (bytes_error_dbg e).
Proof. destruct e; [constructor; wl_tac|apply dok_one; [wl_tac|apply dok_num]]. Qed.
Lemma bytes_error_inj e f : bytes_error_dbg e = bytes_error_dbg f -> e = f.
Proof. destruct e, f; intros E; try discriminate E; [reflexivity|]. f_equal. apply num_inj. cbn [bytes_error_dbg] in E. congruence. Qed.
Lemma hp_error_ok e : match e with TooLong hex _ => words hex | _ => True end -> dok (hp_error_dbg e).
Proof.
  destruct e as [f|hex len]; cbn [hp_error_dbg]; intros W; [apply dok_one; [wl_tac|apply dok_num]|].
  constructor; [wl_tac|discriminate|]. constructor; [|constructor; [apply dok_num|constructor]]. constructor. exact (free_words 10 _ eq_refl W).
Qed.
Lemma hp_error_inj e f : hp_error_dbg e = hp_error_dbg f -> e = f.
Proof.
  destruct e, f; intros E; try discriminate E; cbn [hp_error_dbg] in E; f_equal; try (apply num_inj; congruence). congruence.
Qed.
