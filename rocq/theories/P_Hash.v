(** Properties C19-C21, C27, C28, C39, C40: root hashes and partial tries. [keccak] is any function with 32-byte outputs;
    concrete values use the executable [keccak256]. *)
From Verif Require Import Base Nibbles NibblesSpec NibblesFacts NibblesFacts2 NibblesFacts3 Trie TrieSpec TrieHistSpec TrieFacts TrieInsert TrieGet TrieDelete TrieUnique TrieIter TrieHist TrieObs InsertWf Rlp YellowPaper Hashing Keccak HashSpec HideSpec HashFacts YpFacts RlpFacts HashBind KeccakFacts HideFacts HideBind HideDelete HideExact P_Trie.
Open Scope N_scope.

Definition ok_hash (r : res (list N)) : N := match r with Ok h => hexval h | Panic => 0 end.
Lemma keccak256_hash32 : hash32 keccak256.
Proof. exact keccak256_32. Qed.

(** * C19: the root hash is the Ethereum root hash *)
Theorem C19_canonical : forall keccak pr t J,
  hash32 keccak -> wf 64 t -> canon t -> fits t -> lists J t ->
  hash_trie keccak pr t = Ok (yp_root keccak J).
Proof.
  intros keccak pr t J K W C F HJ. rewrite (hash_trie_ok keccak K pr t W F). f_equal. apply (root_yp keccak t 64 J W C HJ).
Qed.

(** The values of an operation are byte strings of less than 2^31 bytes. *)
Definition op_bytes (o : op) : Prop :=
  match o with
  | OInsert _ v => bytesl v /\ len v < 2147483648
  | OExtend l => Forall (fun e => bytesl (snd e) /\ len (snd e) < 2147483648) l
  | _ => True
  end.

Lemma ops_fits pr l : forall t t' o, fits t -> Forall op_bytes l -> trie_ops pr t l = Ok (t', o) -> fits t'.
Proof.
  induction l as [|a l IH]; intros t t' o Ft F E; cbn [trie_ops] in E; [injection E as <- _; exact Ft|].
  inversion F as [|? ? Fa Fl]; subst. destruct (trie_op pr t a) as [[t1 x]|] eqn:E1; [|discriminate]. cbn [bind] in E.
  destruct (trie_ops pr t1 l) as [[t2 xs]|] eqn:E2; [|discriminate]. cbn [bind] in E. injection E as <- _. apply (IH t1 t2 xs); [|exact Fl|exact E2].
  destruct a as [k v|m|k|k]; cbn [trie_op op_bytes] in *.
  - destruct (trie_insert pr t k (Val v)) as [t3|] eqn:E3; [|discriminate]. cbn [bind] in E1. injection E1 as <- _. exact (insert_fits pr t k (Val v) t3 Ft Fa E3).
  - destruct (trie_extend pr t _) as [t3|] eqn:E3; [|discriminate]. cbn [bind] in E1. injection E1 as <- _. apply (extend_fits pr _ t t3 Ft) in E3; [exact E3|].
    rewrite Forall_map. exact Fa.
  - destruct (trie_delete pr t k) as [[t3 w]|] eqn:E3; [|discriminate]. cbn [bind] in E1. injection E1 as <- _. exact (tdelete_fits pr t k t3 w Ft E3).
  - destruct (trie_get pr t k); [|discriminate]. cbn [bind] in E1. injection E1 as <- _. exact Ft.
Qed.

(** [J] lists a key/value map. *)
Definition lists_map (J : pairs) (m : kvmap) : Prop := NoDup (map fst J) /\ forall k v, m k = Some v <-> In (k, v) J.

Lemma lists_holds J t m : lists_map J m -> holds t m -> lists J t.
Proof.
  intros [ND HJ] H. split; [exact ND|]. intros k e. rewrite H. split.
  - destruct (m k) as [v|] eqn:E; cbn [option_map]; [|discriminate]. intros [= <-]. exists v. split; [reflexivity|]. apply HJ, E.
  - intros (v & -> & Hin). apply HJ in Hin. rewrite Hin. reflexivity.
Qed.

(** After any history over prefix-free keys, whatever was inserted, overwritten and deleted, the hash is the Yellow Paper
    root of the contents that a plain map has after this history. *)
Theorem C19_history : forall keccak pr U ops J,
  hash32 keccak -> prefix_free U -> Forall (op_ok U) ops -> Forall op_bytes ops ->
  lists_map J (fst (spec_ops kv_empty ops)) ->
  exists t, trie_ops pr Empty ops = Ok (t, snd (spec_ops kv_empty ops)) /\ hash_trie keccak pr t = Ok (yp_root keccak J).
Proof.
  intros keccak pr U ops J K PF F FB HJ. destruct (inv_ops pr U ops Empty kv_empty PF (inv_empty _) F) as (t & E & (W & C & H & _)).
  exists t. split; [exact E|]. apply C19_canonical; auto.
  - apply (ops_fits pr ops Empty t (snd (spec_ops kv_empty ops))); [exact I|exact FB|exact E].
  - eapply lists_holds; eauto.
Qed.

Theorem C19_fixed_length : forall keccak pr n ops J,
  hash32 keccak -> Forall (op_fixed n) ops -> Forall op_bytes ops ->
  lists_map J (fst (spec_ops kv_empty ops)) ->
  exists t, trie_ops pr Empty ops = Ok (t, snd (spec_ops kv_empty ops)) /\ hash_trie keccak pr t = Ok (yp_root keccak J).
Proof.
  intros keccak pr n ops J K F FB HJ. apply (C19_history keccak pr (fun k => length k = N.to_nat n)); auto.
  - apply fixed_pf.
  - eapply Forall_impl; [|exact F]. intros o. apply fixed_ok.
Qed.

(** The same in terms of what [items] returns: if it only returns values, the hash is the Yellow Paper root of the items. *)
Theorem C19_items : forall keccak pr t fuel l (J : list (nibbles * list N)),
  hash32 keccak -> wf 64 t -> canon t -> fits t ->
  (nsize t + 1 < fuel)%nat -> trie_items fuel pr t = Some (Ok l) -> l = map (fun e => (fst e, Val (snd e))) J ->
  hash_trie keccak pr t = Ok (yp_root keccak (map (fun e => (nseq (fst e), snd e)) J)).
Proof.
  intros keccak pr t fuel l J K W C F Hf E EJ. apply C19_canonical; auto.
  rewrite (items_spec pr t W (canon_shape _ C) fuel Hf) in E. injection E as E. rewrite EJ in E. clear EJ l.
  assert (ES : entries t = map (fun e => (nseq (fst e), Val (snd e))) J).
  { assert (R : map (fun e => (nseq (fst e), snd e)) (map item_of (entries t)) = entries t).
    { rewrite map_map. rewrite <- (map_id (entries t)) at 2. apply map_ext_in. intros [k e] Hin. unfold item_of. cbn [fst snd]. apply entries_lk in Hin.
      destruct (stored_wf t 64 k W ltac:(unfold stored; congruence)) as [_ Hk]. rewrite nseq_enc by exact Hk. reflexivity. }
    rewrite <- R, E, map_map. reflexivity. }
  split.
  - pose proof (entries_nodup t) as ND. rewrite ES, map_map in ND. rewrite map_map. exact ND.
  - intros k e. rewrite <- entries_lk, ES. rewrite in_map_iff. split.
    + intros ([k0 v] & [= <- <-] & Hin). exists v. split; [reflexivity|]. apply in_map_iff. exists (k0, v). auto.
    + intros (v & -> & Hin). apply in_map_iff in Hin. destruct Hin as ([k0 v0] & [= <- <-] & Hin). exists (k0, v0). auto.
Qed.

(** The test vector "dogs" of the Ethereum test suite (keys do, dog, doge, horse), by the specification and by the code. *)
Definition kb (b : list N) : list N := flat_map (fun x => [x / 16; x mod 16]) b.
Definition dogs : pairs :=
  [(kb [100;111], [118;101;114;98]); (kb [100;111;103], [112;117;112;112;121]); (kb [100;111;103;101], [99;111;105;110]);
   (kb [104;111;114;115;101], [115;116;97;108;108;105;111;110])].
Definition dogs_trie : node := okn (from_iter Debug (map (fun e => (enc (fst e), Val (snd e))) dogs)).
Example C19_dogs :
  hexval (yp_root keccak256 dogs) = 0x5991bb8c6514148a29db676a14ac506cd2cd5775ace63c30a4fe457715e9ac84 /\
  ok_hash (hash_trie keccak256 Debug dogs_trie) = 0x5991bb8c6514148a29db676a14ac506cd2cd5775ace63c30a4fe457715e9ac84 /\
  wf 64 dogs_trie /\ canon dogs_trie /\ fits dogs_trie.
Proof.
  split; [vm_compute; reflexivity|]. split; [vm_compute; reflexivity|].
  assert (E : from_iter Debug (map (fun e => (enc (fst e), Val (snd e))) dogs) = Ok dogs_trie) by (vm_compute; reflexivity).
  apply and_assoc; split.
  - apply (extend_canon Debug (map (fun e => (enc (fst e), Val (snd e))) dogs) Empty dogs_trie); [constructor|constructor| |exact E].
    repeat constructor; cbn; try (vm_compute; (reflexivity || (intro; discriminate))).
  - apply (extend_fits Debug (map (fun e => (enc (fst e), Val (snd e))) dogs) Empty dogs_trie); [exact I| |exact E].
    repeat constructor; cbn; try (vm_compute; (reflexivity || (intro; discriminate))).
Qed.

Example C19_history_example : Forall (op_fixed 4) ex_ops /\ Forall op_bytes ex_ops /\
  lists_map [([1;2;5;6], [2]); ([0;0;0;1], [3])] (fst (spec_ops kv_empty ex_ops)).
Proof.
  split; [apply C10_example|]. split; [repeat constructor; cbn; try (vm_compute; (reflexivity || (intro; discriminate)))|]. split.
  - repeat constructor; cbn; intuition discriminate.
  - intros k v. cbn [spec_ops spec_op fold_left fst snd ex_ops]. unfold kv_set, kv_empty.
    change (nseq (K 4 0x1234)) with [1;2;3;4]. change (nseq (K 4 0x1256)) with [1;2;5;6]. change (nseq (K 4 0x0001)) with [0;0;0;1].
    destruct (key_eqb_spec [1;2;3;4] k) as [<-|]; [cbn; split; intuition congruence|].
    destruct (key_eqb_spec [0;0;0;1] k) as [<-|]; [cbn; split; intuition congruence|].
    destruct (key_eqb_spec [1;2;5;6] k) as [<-|]; [cbn; split; intuition congruence|].
    cbn. split; [discriminate|]. intuition congruence.
Qed.

(** Outside the scope of the property (keys that are prefixes of other keys, with deletion) the hash can be wrong: after
    inserting 1, 12 and deleting 1 the branch is not merged. *)
Theorem C19_prefix_keys_refuted : forall pr, exists t1 t2 t3 w,
  trie_insert pr Empty (K 1 1) (Val [1]) = Ok t1 /\ trie_insert pr t1 (K 2 0x12) (Val [2]) = Ok t2 /\
  trie_delete pr t2 (K 1 1) = Ok (t3, w) /\ lists [([1;2], [2])] t3 /\
  hash_trie keccak256 pr t3 <> Ok (yp_root keccak256 [([1;2], [2])]).
Proof.
  intros pr. exists (okn (trie_insert pr Empty (K 1 1) (Val [1]))).
  exists (okn (trie_insert pr (okn (trie_insert pr Empty (K 1 1) (Val [1]))) (K 2 0x12) (Val [2]))).
  exists (okd (trie_delete pr (okn (trie_insert pr (okn (trie_insert pr Empty (K 1 1) (Val [1]))) (K 2 0x12) (Val [2]))) (K 1 1))), (Some [1]).
  split; [destruct pr; vm_compute; reflexivity|]. split; [destruct pr; vm_compute; reflexivity|]. split; [destruct pr; vm_compute; reflexivity|].
  split; [|destruct pr; vm_compute; discriminate].
  set (t3 := okd _). assert (E : t3 = Extension (enc [1]) (Branch (set_child new_branch_child_arr 2 (Leaf (enc []) [2])) [])) by (destruct pr; vm_compute; reflexivity).
  rewrite E. split; [repeat constructor; auto|]. intros k e. rewrite <- entries_lk. cbn. change (nseq (enc [1])) with [1]. change (nseq (enc [])) with (@nil N). cbn.
  split.
  - intros [[= <- <-]|[]]. exists [2]. auto.
  - intros (v & -> & [[= <- <-]|[]]). auto.
Qed.

(** * C20: hash nodes stand for subtrees *)
Theorem C20_hiding_keeps_root : forall keccak pr t t',
  hash32 keccak -> wf 64 t -> fits t -> hides keccak t t' -> hash_trie keccak pr t' = hash_trie keccak pr t.
Proof.
  intros keccak pr t t' K W F H.
  rewrite (hash_trie_ok keccak K pr t W F), (hash_trie_ok keccak K pr t' (hides_wf keccak t 64 t' H W) (hides_fits keccak K t t' H F)).
  rewrite (hides_root keccak t t' H). reflexivity.
Qed.

(** A trie of three leaves with 40-byte values. *)
Definition big (x : N) : list N := repeat x 40.
Definition big_list : list (nibbles * val_or_hash) := [(K 4 0x1234, Val (big 1)); (K 4 0x5678, Val (big 2)); (K 4 0x5699, Val (big 3))].
Definition ex_big : node := okn (from_iter Debug big_list).
Lemma ex_big_ok : from_iter Debug big_list = Ok ex_big /\
  wf 64 ex_big /\ canon ex_big /\ fits ex_big.
Proof.
  assert (E : from_iter Debug big_list = Ok ex_big) by (vm_compute; reflexivity). split; [exact E|].
  apply and_assoc; split.
  - apply (extend_canon Debug big_list Empty ex_big); [constructor|constructor| |exact E].
    repeat constructor; cbn; try (vm_compute; (reflexivity || (intro; discriminate))).
  - apply (extend_fits Debug big_list Empty ex_big) in E; [exact E|exact I|]. repeat constructor; cbn; try (vm_compute; (reflexivity || (intro; discriminate))).
Qed.
(** [ex_big] with the child under nibble [d] hidden. *)
Definition hide_child (d : N) (t : node) : node :=
  match t with
  | Branch ch v => Branch (set_child ch (N.to_nat d) (Hash (keccak256 (RLP (item keccak256 (nth (N.to_nat d) ch Empty)))))) v
  | _ => t
  end.
Lemma hide_child_ok d ch v : d < 16 -> length ch = 16%nat -> not_hash (child ch d) -> 32 <= len (RLP (item keccak256 (child ch d))) ->
  hides keccak256 (Branch ch v) (hide_child d (Branch ch v)).
Proof.
  intros Hd L NH G. cbn [hide_child]. constructor. fold (child ch d).
  replace (Forall2 (hides keccak256) ch) with (Forall2 (hides keccak256) (set_child ch (N.to_nat d) (child ch d))).
  - apply hides_set; [apply Forall2_self, Forall_forall; intros c _; apply hides_refl|]. constructor; assumption.
  - f_equal. apply children_ext; [rewrite set_child_length; exact L|exact L|]. intros e He. rewrite child_set by assumption. destruct (N.eqb_spec e d); congruence.
Qed.
Example C20_example : hides keccak256 ex_big (hide_child 1 ex_big) /\ hides keccak256 ex_big (hide_child 5 ex_big) /\
  hide_child 1 ex_big <> ex_big /\ hide_child 5 ex_big <> ex_big.
Proof.
  assert (E : ex_big = Branch (match ex_big with Branch ch _ => ch | _ => [] end) []) by (vm_compute; reflexivity).
  split; [|split].
  - rewrite E. apply hide_child_ok; vm_compute; try reflexivity; try exact I; intro; discriminate.
  - rewrite E. apply hide_child_ok; vm_compute; try reflexivity; try exact I; intro; discriminate.
  - split; vm_compute; discriminate.
Qed.

(** For a subtree with a smaller encoding the root hash changes: a leaf with a one-byte value. *)
Theorem C20_small_subtree : forall pr, exists ch v t',
  wf 64 (Branch ch v) /\ canon (Branch ch v) /\ fits (Branch ch v) /\ len (RLP (item keccak256 (child ch 1))) < 32 /\
  t' = Branch (set_child ch 1 (Hash (keccak256 (RLP (item keccak256 (child ch 1)))))) v /\
  hash_trie keccak256 pr t' <> hash_trie keccak256 pr (Branch ch v).
Proof.
  intros pr. set (l := [(K 4 0x1234, Val [1]); (K 4 0x5678, Val [2])]).
  exists (match okn (from_iter Debug l) with Branch ch _ => ch | _ => [] end), [].
  assert (E : from_iter Debug l = Ok (Branch (match okn (from_iter Debug l) with Branch ch _ => ch | _ => [] end) [])) by (vm_compute; reflexivity).
  eexists. apply and_assoc; split; [|split; [|split; [vm_compute; reflexivity|split; [reflexivity|destruct pr; vm_compute; discriminate]]]].
  - apply (extend_canon Debug l Empty); [constructor|constructor| |exact E]. repeat constructor; cbn; try (vm_compute; (reflexivity || (intro; discriminate))).
  - apply (extend_fits Debug l Empty) in E; [exact E|exact I|]. repeat constructor; cbn; try (vm_compute; (reflexivity || (intro; discriminate))).
Qed.

(** * C21: the root hash binds the contents *)
Theorem C21_binding : forall keccak pr1 pr2 t1 t2,
  hash32 keccak -> wf 64 t1 -> wf 64 t2 -> fits t1 -> fits t2 -> hash_free t1 -> hash_free t2 ->
  hash_trie keccak pr1 t1 = hash_trie keccak pr2 t2 ->
  t1 = t2 \/ collision keccak (encodings keccak t1) (encodings keccak t2).
Proof.
  intros keccak pr1 pr2 t1 t2 K W1 W2 F1 F2 H1 H2 E.
  rewrite (hash_trie_ok keccak K pr1 t1 W1 F1), (hash_trie_ok keccak K pr2 t2 W2 F2) in E. injection E as E.
  apply (binding keccak K t1 64 64 t2); auto.
  pose proof (hash_free_not_hash _ H1) as N1. pose proof (hash_free_not_hash _ H2) as N2. unfold root in E.
  destruct t1; try destruct N1; destruct t2; try destruct N2; exact E.
Qed.

Lemma ex_trie_fits : fits ex_trie.
Proof.
  destruct ex_trie_ok as (E & _). apply (extend_fits Debug ex_list Empty) in E; [exact E|exact I|]. repeat constructor; cbn; try (vm_compute; (reflexivity || (intro; discriminate))).
Qed.
Lemma entries_hash_free t : Forall (fun e => match snd e with Val _ => True | HashV _ => False end) (entries t) -> hash_free t.
Proof. intros F k h E. apply entries_lk in E. rewrite Forall_forall in F. apply (F _ E). Qed.
Example C21_example : wf 64 ex_trie /\ fits ex_trie /\ hash_free ex_trie /\ wf 64 ex_big /\ fits ex_big /\ hash_free ex_big /\
  hash_trie keccak256 Debug ex_trie <> hash_trie keccak256 Debug ex_big.
Proof.
  split; [apply ex_trie_ok|]. split; [exact ex_trie_fits|]. split; [apply entries_hash_free; vm_compute; repeat constructor|].
  destruct ex_big_ok as (_ & Wb & _ & Fb). split; [exact Wb|]. split; [exact Fb|]. split; [apply entries_hash_free; vm_compute; repeat constructor|].
  vm_compute. discriminate.
Qed.

(** * C40: a partial trie with the right root hash is sound *)
Theorem C40_partial_trie_binding : forall keccak pr1 pr2 t t',
  hash32 keccak -> wf 64 t -> wf 64 t' -> fits t -> fits t' -> hash_free t ->
  hash_trie keccak pr1 t = hash_trie keccak pr2 t' ->
  hides keccak t t' \/ hash_trie keccak pr1 t = Ok (root keccak t) /\ t' = Hash (root keccak t) \/
  collision keccak (encodings keccak t) (encodings keccak t').
Proof.
  intros keccak pr1 pr2 t t' K W1 W2 F1 F2 H1 E. pose proof (hash_trie_ok keccak K pr1 t W1 F1) as Ht.
  rewrite Ht, (hash_trie_ok keccak K pr2 t' W2 F2) in E. injection E as E.
  destruct (not_hash_dec t') as [N2|[h ->]]; [|right; left; split; [exact Ht|rewrite E; reflexivity]].
  assert (N1 : not_hash t) by (apply hash_free_not_hash, H1).
  assert (E' : keccak (RLP (item keccak t)) = keccak (RLP (item keccak t')))
    by (unfold root in E; destruct t; try destruct N1; destruct t'; try destruct N2; exact E).
  destruct (hide_binding keccak K t 64 64 t' W1 W2 (le_n _) (le_n _) F1 F2 H1 N2 E') as [Q|Q]; [left; exact Q|right; right; exact Q].
Qed.

(** What [get] finds in a partial trie is what it finds in the full trie with this root hash. *)
Theorem C40_get_sound : forall keccak pr1 pr2 pr t t' k v,
  hash32 keccak -> wf 64 t -> wf 64 t' -> fits t -> fits t' -> hash_free t ->
  hash_trie keccak pr1 t = hash_trie keccak pr2 t' ->
  trie_get pr t' k = Ok (Some v) ->
  trie_get pr t k = Ok (Some v) \/ collision keccak (encodings keccak t) (encodings keccak t').
Proof.
  intros keccak pr1 pr2 pr t t' k v K W1 W2 F1 F2 H1 E G.
  destruct (C40_partial_trie_binding keccak pr1 pr2 t t' K W1 W2 F1 F2 H1 E) as [Q|[[_ ->]|Q]]; [left| |right; exact Q].
  - destruct (hides_get keccak pr t t' k Q) as [R|R]; congruence.
  - discriminate G.
Qed.

(** The contents under a key are those of the full trie, unless a hash node is on the way. *)
Theorem C40_contents : forall keccak pr1 pr2 t t' k,
  hash32 keccak -> wf 64 t -> wf 64 t' -> fits t -> fits t' -> hash_free t ->
  hash_trie keccak pr1 t = hash_trie keccak pr2 t' ->
  lk t' k = lk t k \/ (exists p h, lk t' p = Some (HashV h) /\ is_prefix p k) \/
  collision keccak (encodings keccak t) (encodings keccak t').
Proof.
  intros keccak pr1 pr2 t t' k K W1 W2 F1 F2 H1 E.
  destruct (C40_partial_trie_binding keccak pr1 pr2 t t' K W1 W2 F1 F2 H1 E) as [Q|[[_ ->]|Q]]; [|right; left|right; right; exact Q].
  - destruct (hides_lk keccak t t' k Q); auto.
  - exists [], (root keccak t). split; [reflexivity|apply prefix_nil].
Qed.
Example C40_example : hash_free ex_big /\ wf 64 (hide_child 5 ex_big) /\ fits (hide_child 5 ex_big) /\ hide_child 5 ex_big <> ex_big /\
  hash_trie keccak256 Debug ex_big = hash_trie keccak256 Debug (hide_child 5 ex_big) /\
  trie_get Debug (hide_child 5 ex_big) (K 4 0x1234) = Ok (Some (big 1)).
Proof.
  split; [apply C21_example|]. destruct C20_example as (_ & H & _ & N). destruct ex_big_ok as (_ & W & _ & F).
  split; [exact (hides_wf _ _ _ _ H W)|]. split; [exact (hides_fits _ keccak256_32 _ _ H F)|]. split; [exact N|].
  split; [symmetry; apply C20_hiding_keeps_root; auto using keccak256_32|]. vm_compute. reflexivity.
Qed.

(** * C27: inserting in a partial trie *)
Theorem C27_insert : forall keccak pr t t' k v r',
  hash32 keccak -> wf 64 t -> fits t -> hides keccak t t' -> kwf k -> fits_val v ->
  trie_insert pr t' k v = Ok r' ->
  exists r, trie_insert pr t k v = Ok r /\ hides keccak r r' /\ hash_trie keccak pr r' = hash_trie keccak pr r.
Proof.
  intros keccak pr t t' k v r' K W F H Hk Fv E. destruct (kwf_ex k Hk) as (q & Eq & _ & Hq & Lq).
  rewrite Eq in E. destruct (hides_insert keccak pr t 64 t' q v r' H W (le_n _) Hq Lq E) as (r & Er & Hr).
  rewrite <- Eq in Er. change (trie_insert pr t k v = Ok r) in Er.
  exists r. split; [exact Er|]. split; [exact Hr|]. apply C20_hiding_keeps_root; auto.
  - exact (tinsert_wf pr t k v r W Hk Er).
  - exact (insert_fits pr t k v r F Fv Er).
Qed.

Theorem C27_extend : forall keccak pr t t' l r',
  hash32 keccak -> wf 64 t -> fits t -> hides keccak t t' ->
  Forall (fun e => kwf (fst e)) l -> Forall (fun e => fits_val (snd e)) l ->
  trie_extend pr t' l = Ok r' ->
  exists r, trie_extend pr t l = Ok r /\ hides keccak r r' /\ hash_trie keccak pr r' = hash_trie keccak pr r.
Proof.
  intros keccak pr t t' l r' K W F H Fl Fv E.
  destruct (hides_extend keccak pr l t t' r' H W Fl E) as (r & Er & Hr).
  exists r. split; [exact Er|]. split; [exact Hr|]. apply C20_hiding_keeps_root; auto.
  - exact (textend_wf pr l t r W Fl Er).
  - exact (extend_fits pr l t r F Fv Er).
Qed.

(** [get] on the partial trie gives the value of the full trie, or nothing. *)
Theorem C27_get : forall keccak pr t t' k,
  hides keccak t t' -> trie_get pr t' k = trie_get pr t k \/ trie_get pr t' k = Ok None.
Proof. intros keccak pr t t' k H. apply (hides_get keccak pr t t' k H). Qed.

Example C27_example : exists r', trie_insert Debug (hide_child 5 ex_big) (K 4 0x1299) (Val [9]) = Ok r' /\
  trie_insert Debug (hide_child 5 ex_big) (K 4 0x5699) (Val [9]) = Panic.
Proof. exists (okn (trie_insert Debug (hide_child 5 ex_big) (K 4 0x1299) (Val [9]))). split; vm_compute; reflexivity. Qed.

(** * C28: deleting in a partial trie *)
(** False as stated: when the branch above the deleted leaf is merged into its only other child and that child is a hash
    node, the code makes an extension node above the hash node, where the full trie has a merged leaf. *)
Theorem C28_refuted : forall pr, exists t t' k w r r',
  wf 64 t /\ canon t /\ fits t /\ hides keccak256 t t' /\ kwf k /\
  trie_delete pr t k = Ok (r, Some w) /\ trie_delete pr t' k = Ok (r', Some w) /\
  hash_trie keccak256 pr r' <> hash_trie keccak256 pr r.
Proof.
  intros pr. set (l := [(K 4 0x1234, Val (big 1)); (K 4 0x5678, Val (big 2))]). set (t := okn (from_iter Debug l)).
  exists t, (hide_child 5 t), (K 4 0x1234), (big 1), (okd (trie_delete pr t (K 4 0x1234))), (okd (trie_delete pr (hide_child 5 t) (K 4 0x1234))).
  assert (E : from_iter Debug l = Ok t) by (vm_compute; reflexivity).
  apply and_assoc; split; [|split; [|split; [|split; [kwf_tac|]]]].
  - apply (extend_canon Debug l Empty); [constructor|constructor| |exact E]. repeat constructor; cbn; try (vm_compute; (reflexivity || (intro; discriminate))).
  - apply (extend_fits Debug l Empty) in E; [exact E|exact I|]. repeat constructor; cbn; try (vm_compute; (reflexivity || (intro; discriminate))).
  - assert (Eb : t = Branch (match t with Branch ch _ => ch | _ => [] end) []) by (vm_compute; reflexivity).
    rewrite Eb. apply hide_child_ok; vm_compute; try reflexivity; try exact I; intro; discriminate.
  - destruct pr; repeat split; vm_compute; (reflexivity || discriminate).
Qed.

(** Proved: whenever such a merge does not meet a hidden leaf or extension, deleting in the partial trie returns the same
    value and gives the same root hash as deleting in the full trie. *)
Theorem C28_delete_partial : forall keccak pr t t' k r' w,
  hash32 keccak -> wf 64 t -> shape t -> fits t -> hides keccak t t' -> kwf k -> merge_visible t t' (nseq k) ->
  trie_delete pr t' k = Ok (r', w) ->
  exists r, trie_delete pr t k = Ok (r, w) /\ hides keccak r r' /\ hash_trie keccak pr r' = hash_trie keccak pr r.
Proof.
  intros keccak pr t t' k r' w K W Sh F H Hk MV E. destruct (kwf_ex k Hk) as (q & Eq & Es & Hq & Lq). rewrite Es in MV.
  assert (G : exists r, trie_delete pr t k = Ok (r, w) /\ hides keccak r r').
  { rewrite Eq in *. unfold trie_delete in *. destruct (delete_intern pr t' (enc q)) as [o'|] eqn:E1; [|discriminate]. cbn [bind] in E.
    pose proof (hides_delete keccak pr t 64 t' q o' H W (le_n _) Sh Hq Lq MV E1) as Q. destruct o' as [[t1' d]|].
    - destruct Q as (t1 & -> & H1 & V1). cbn [bind]. destruct (try_collapse_if_extension pr t1') as [t2'|] eqn:E2; [|discriminate]. cbn [bind] in E. injection E as <- <-.
      destruct (hides_try_collapse keccak pr t1 t1' t2' H1 (delete_not_hash _ _ _ _ _ E1) V1 E2) as (t2 & -> & H2). cbn [bind]. eauto.
    - rewrite Q. cbn [bind]. injection E as <- <-. eauto. }
  destruct G as (r & Er & Hr). exists r. split; [exact Er|]. split; [exact Hr|]. apply C20_hiding_keeps_root; auto.
  - pose proof (tdelete pr t k W Sh Hk) as P. rewrite Er in P. destruct w; cbn [tdel_post] in P; [tauto|]. destruct P as [-> _]. exact W.
  - exact (tdelete_fits pr t k r w F Er).
Qed.
Example C28_example : hides keccak256 ex_big (hide_child 1 ex_big) /\ merge_visible ex_big (hide_child 1 ex_big) (nseq (K 4 0x5678)) /\
  exists r', trie_delete Debug (hide_child 1 ex_big) (K 4 0x5678) = Ok (r', Some (big 2)).
Proof.
  split; [apply C20_example|]. split.
  - change (nseq (K 4 0x5678)) with [5;6;7;8]. vm_compute. split; [|intros _; exact I]. split; [exact I|]. intros _ _ i Hi.
    do 17 (destruct i as [|i]; [exact I|]). exact I.
  - exists (okd (trie_delete Debug (hide_child 1 ex_big) (K 4 0x5678))). vm_compute. reflexivity.
Qed.

(** The condition is exact: in a trie without hash nodes of its own, deleting in the partial trie always returns the value
    that deleting in the full trie returns, and the root hashes agree exactly when the merge is visible, unless there is a
    collision of the hash function between the encodings of the two results. *)
Theorem C28_exact_partial : forall keccak pr t t' k r' w,
  hash32 keccak -> wf 64 t -> shape t -> fits t -> hash_free t -> hides keccak t t' -> kwf k ->
  trie_delete pr t' k = Ok (r', w) ->
  exists r, trie_delete pr t k = Ok (r, w) /\
    (merge_visible t t' (nseq k) -> hash_trie keccak pr r' = hash_trie keccak pr r) /\
    (hash_trie keccak pr r' = hash_trie keccak pr r ->
     merge_visible t t' (nseq k) \/ collision keccak (encodings keccak r) (encodings keccak r')).
Proof.
  intros keccak pr t t' k r' w K W Sh F HF H Hk E. pose proof Hk as Hk'. destruct (kwf_ex k Hk) as (q & Eq & Es & Hq & Lq).
  pose proof E as E'. rewrite Eq in E'. destruct (hides_trie_delete_or keccak pr t t' q r' w H W Sh Hq Lq E') as [MV|(r & Er & ND & NH)].
  - rewrite <- Es in MV. destruct (C28_delete_partial keccak pr t t' k r' w K W Sh F H Hk MV E) as (r & Er & _ & Eh).
    exists r. split; [exact Er|]. split; [intros _; exact Eh|]. intros _. left. exact MV.
  - rewrite <- Eq in Er. exists r. split; [exact Er|]. split.
    + intros MV. destruct (C28_delete_partial keccak pr t t' k r' w K W Sh F H Hk MV E) as (r2 & Er2 & _ & Eh). congruence.
    + intros Eh. right. symmetry in Eh.
      pose proof (tdelete pr t k W Sh Hk) as P. rewrite Er in P.
      assert (Wr : wf 64 r) by (destruct w; cbn [tdel_post] in P; [tauto|destruct P as [-> _]; exact W]).
      pose proof (tdelete pr t' k (hides_wf keccak t 64 t' H W) (hides_shape keccak t t' H Sh) Hk) as P'. rewrite E in P'.
      assert (Wr' : wf 64 r') by (destruct w; cbn [tdel_post] in P'; [tauto|destruct P' as [-> _]; exact (hides_wf keccak t 64 t' H W)]).
      pose proof (nohash_free r (nohash_trie_delete pr t k r w Er (free_nohash t 64 W HF))) as HFr.
      destruct (C40_partial_trie_binding keccak pr pr r r' K Wr Wr' (tdelete_fits pr t k r w F Er) (tdelete_fits pr t' k r' w (hides_fits keccak K t t' H F) E) HFr Eh)
        as [Q|[[_ ->]|Q]]; [contradiction|destruct NH|exact Q].
Qed.
Example C28_exact_example : let t := okn (from_iter Debug [(K 4 0x1234, Val (big 1)); (K 4 0x5678, Val (big 2))]) in
  hash_free ex_big /\ merge_visible ex_big (hide_child 1 ex_big) (nseq (K 4 0x5678)) /\
  ~ merge_visible t (hide_child 5 t) (nseq (K 4 0x1234)) /\ exists r', trie_delete Debug (hide_child 5 t) (K 4 0x1234) = Ok (r', Some (big 1)).
Proof.
  cbv zeta. split; [apply C21_example|]. split; [apply C28_example|]. split.
  - change (nseq (K 4 0x1234)) with [1;2;3;4]. intros H. vm_compute in H. destruct H as [_ H]. refine (H _ eq_refl 5%nat _); [lia|discriminate].
  - eexists. vm_compute. reflexivity.
Qed.

(** * C39: the empty trie *)
Definition empty_root : N := 0x56e81f171bcc55a6ff8345e692c0f86e5b48e01b996cadc001622fb5e363b421.

Theorem C39_empty_hash : forall pr, ok_hash (hash_trie keccak256 pr Empty) = empty_root /\
  forall keccak, hash_trie keccak pr Empty = Ok (keccak (RLP (RStr []))).
Proof. intros pr. split; [destruct pr; vm_compute; reflexivity|]. intros keccak. reflexivity. Qed.

Lemma holds_empty t : shape t -> holds t kv_empty -> t = Empty.
Proof.
  intros Sh H. destruct t; [reflexivity|..]; exfalso; destruct (shape_stored _ Sh ltac:(discriminate)) as [k S]; apply S; rewrite H; reflexivity.
Qed.

(** Every history over keys of one length that ends with no entries gives the empty trie and this hash. *)
Theorem C39_history : forall pr n ops,
  Forall (op_fixed n) ops -> (forall k, fst (spec_ops kv_empty ops) k = None) ->
  exists t, trie_ops pr Empty ops = Ok (t, snd (spec_ops kv_empty ops)) /\ ok_hash (hash_trie keccak256 pr t) = empty_root.
Proof.
  intros pr n ops F H.
  destruct (inv_ops pr (fun k => length k = N.to_nat n) ops Empty kv_empty (fixed_pf n) (inv_empty _)) as (t & E & (W & C & Ho & _)).
  - eapply Forall_impl; [|exact F]. intros o. apply fixed_ok.
  - exists t. split; [exact E|]. assert (t = Empty) as ->.
    { apply holds_empty; [apply canon_shape, C|]. intros j. rewrite Ho, H. reflexivity. }
    apply C39_empty_hash.
Qed.
(** The same for keys of different lengths, none of which is a prefix of another; and for any keys whatsoever: a trie that successful calls of
    insert and delete lead to and that holds no entry has this hash. *)
Theorem C39_prefix_free : forall pr U ops, prefix_free U ->
  Forall (op_ok U) ops -> (forall k, fst (spec_ops kv_empty ops) k = None) ->
  exists t, trie_ops pr Empty ops = Ok (t, snd (spec_ops kv_empty ops)) /\ ok_hash (hash_trie keccak256 pr t) = empty_root.
Proof.
  intros pr U ops PF F H. destruct (inv_ops pr U ops Empty kv_empty PF (inv_empty _) F) as (t & E & (W & C & Ho & _)). exists t. split; [exact E|]. assert (t = Empty) as ->.
  { apply holds_empty; [apply canon_shape, C|]. intros j. rewrite Ho, H. reflexivity. }
  apply C39_empty_hash.
Qed.
Theorem C39_any_keys : forall pr t, reach pr t -> (forall k, lk t k = None) -> ok_hash (hash_trie keccak256 pr t) = empty_root.
Proof. intros pr t R H. destruct (reach_valid pr t R) as [_ Sh]. rewrite (holds_empty t Sh H). apply C39_empty_hash. Qed.
(** And a trie without hash nodes that has this hash holds no entries, or its encoding is a second preimage. *)
Theorem C39_only_empty : forall keccak pr t, hash32 keccak -> wf 64 t -> fits t -> hash_free t -> hash_trie keccak pr t = hash_trie keccak pr Empty ->
  t = Empty \/ collision keccak (encodings keccak t) (encodings keccak Empty).
Proof.
  intros keccak pr t H32 W F HF E. apply (C21_binding keccak pr pr t Empty H32 W (wf_empty 64) F Logic.I HF); [|exact E]. intros k h. discriminate.
Qed.
Definition ex_empty_ops : list op :=
  [OInsert (K 4 0x1234) [1]; OInsert (K 4 0x1256) [2]; ODelete (K 4 0x1234); OInsert (K 4 0x0001) [3]; ODelete (K 4 0x1256); ODelete (K 4 0x0001)].
Example C39_example : Forall (op_fixed 4) ex_empty_ops /\ forall k, fst (spec_ops kv_empty ex_empty_ops) k = None.
Proof.
  split; [repeat constructor; cbn; try (vm_compute; (reflexivity || (intro; discriminate)))|].
  intros k. cbn [spec_ops spec_op fold_left fst snd ex_empty_ops]. unfold kv_set, kv_empty.
  change (nseq (K 4 0x1234)) with [1;2;3;4]. change (nseq (K 4 0x1256)) with [1;2;5;6]. change (nseq (K 4 0x0001)) with [0;0;0;1].
  destruct (key_eqb [0;0;0;1] k); [reflexivity|]. destruct (key_eqb [1;2;5;6] k); [reflexivity|]. destruct (key_eqb [1;2;3;4] k); reflexivity.
Qed.

Print Assumptions C19_canonical.
Print Assumptions C19_history.
Print Assumptions C19_fixed_length.
Print Assumptions C19_items.
Print Assumptions C19_prefix_keys_refuted.
Print Assumptions C20_hiding_keeps_root.
Print Assumptions C20_small_subtree.
Print Assumptions C21_binding.
Print Assumptions C40_partial_trie_binding.
Print Assumptions C40_get_sound.
Print Assumptions C40_contents.
Print Assumptions C27_insert.
Print Assumptions C27_extend.
Print Assumptions C27_get.
Print Assumptions C28_refuted.
Print Assumptions C28_delete_partial.
Print Assumptions C28_exact_partial.
Print Assumptions C39_empty_hash.
Print Assumptions C39_prefix_free.
Print Assumptions C39_any_keys.
Print Assumptions C39_only_empty.
Print Assumptions C39_history.
