(** Property C66: tries received as text. *)
From Coq Require Import String.
From Verif Require Import Base Nibbles NibblesSpec NibblesFacts NibblesFacts2 NibblesFacts3 Trie TrieSpec TrieHistSpec TrieFacts TrieInsert TrieGet TrieDelete TrieUnique TrieIter TrieHist TrieObs InsertWf YellowPaper Hashing Keccak HashSpec HideSpec HashFacts HashBind KeccakFacts HideFacts HideBind HideDelete JoinFacts P_Trie P_Hash P_Join Subset SubsetSpec SubsetFacts SubsetFacts2 P_Subset ReplaySpec ReplayFacts P_Replay NeighbourSpec NeighbourFacts P_Neighbour PartialSpec P_Partial Cache CacheSpec CacheFacts Serde ReloadFacts Text P_Serde Json JsonSpec JsonFacts JsonFacts2 TypeSpec TypeFacts TypeFacts2 P_Json JsonText JsonTextSpec JsonTextFacts JsonTextFacts2 JsonTextFacts3 P_JsonText WitnessSpec.
From Verif Require Import Trie TrieSpec HashSpec Json JsonSpec JsonText JsonTextSpec.
Open Scope N_scope.
Open Scope list_scope.

Lemma clean_ex n L : clean n = true -> count n <= N.of_nat L -> (L <= 64)%nat -> exists l, n = enc l /\ hexl l /\ count n = N.of_nat (length l).
Proof.
  intros C Q H. unfold clean in C. apply N.ltb_lt in C. destruct (nwf_ex n) as (l & E & _ & Hl & _ & Cn); [split; [exact C|lia]|]. eauto.
Qed.
Lemma checked_wf t : forall L, (L <= 64)%nat -> node_type t -> (checked (N.of_nat L) t = true <-> wf L t /\ fits t).
Proof.
  induction t as [|h|ch v IH|n c IH|n v] using node_ind'; intros L HL T; cbn [checked].
  - split; [|reflexivity]. intros _. split; [constructor|exact I].
  - split; [|reflexivity]. intros _. split; [constructor|]. inversion T as [|? [A B]| | |]; subst. split; [exact B|]. unfold len. rewrite A. reflexivity.
  - inversion T as [| |? ? H16 Tc Tv| |]; subst. rewrite !andb_true_iff, forallb_forall, N.ltb_lt. unfold short. rewrite N.ltb_lt. destruct L as [|L].
    + split; [intros [[A _] _]; lia|]. intros [W _]. inversion W.
    + replace (N.of_nat (S L) - 1) with (N.of_nat L) by lia. rewrite Forall_forall in IH. rewrite fits_branch, !Forall_forall. split.
      * intros [[_ Sv] Fc]. assert (G : forall c, In c ch -> wf L c /\ fits c) by (intros c J; apply (IH c J L); [lia|exact (Tc c J)|exact (Fc c J)]).
        split; [constructor; [exact H16|apply Forall_forall; intros c J; apply G, J]|]. split; [exact Tv|]. split; [exact Sv|]. intros c J. apply G, J.
      * intros [W (_ & Sv & Fc)]. inversion W as [| |? ? ? _ Fw| |]; subst. rewrite Forall_forall in Fw. split; [split; [lia|exact Sv]|].
        intros c J. apply (IH c J L); [lia|exact (Tc c J)|]. split; [exact (Fw c J)|exact (Fc c J)].
  - inversion T as [| | |? ? Tn Tc|]; subst. rewrite !andb_true_iff, N.leb_le. cbn [fits]. split.
    + intros [[A B] C]. destruct (clean_ex n L B A HL) as (l & -> & Hl & Cn). rewrite Cn in *.
      replace (N.of_nat L - N.of_nat (length l)) with (N.of_nat (L - length l)) in C by lia. apply (IH (L - length l)%nat) in C; [|lia|exact Tc].
      split; [|apply C]. replace L with (length l + (L - length l))%nat by lia. constructor; [exact Hl|apply C].
    + intros [W F]. inversion W as [| | |L0 l c0 Hl Wc|]; subst. cbn [enc count]. unfold clean. cbn [enc count packed].
      replace (N.of_nat (length l + L0) - N.of_nat (length l)) with (N.of_nat L0) by lia. split; [split; [lia|apply N.ltb_lt, undigits_lt, Hl]|].
      apply (IH L0); [lia|exact Tc|]. auto.
  - inversion T as [| | | |? ? Tn Tv]; subst. rewrite !andb_true_iff, N.leb_le. unfold short. rewrite N.ltb_lt. cbn [fits]. split.
    + intros [[A B] C]. destruct (clean_ex n L B A HL) as (l & -> & Hl & Cn). rewrite Cn in *. split; [constructor; [exact Hl|lia]|]. split; [exact Tv|exact C].
    + intros [W [_ F]]. inversion W as [| | | |L0 l v0 Hl Ll]; subst. cbn [enc count]. unfold clean. cbn [enc count packed].
      split; [split; [lia|apply N.ltb_lt, undigits_lt, Hl]|exact F].
Qed.
Lemma shaped_shape t : shaped t = true <-> shape t.
Proof.
  induction t as [|h|ch v IH|n c IH|n v] using node_ind'; cbn [shaped].
  - split; [constructor|reflexivity].
  - split; [constructor|reflexivity].
  - rewrite andb_true_iff, existsb_exists, forallb_forall. rewrite Forall_forall in IH. split.
    + intros [(c & J & Ne) F]. constructor; [apply Forall_forall; intros x X; apply (IH x X), (F x X)|]. exists c. split; [exact J|]. intros ->. discriminate.
    + intros S. inversion S as [| |? ? F (c & J & Ne)| |]; subst. rewrite Forall_forall in F. split; [exists c; split; [exact J|destruct c; congruence]|]. intros x X. apply (IH x X), (F x X).
  - rewrite !andb_true_iff, negb_true_iff, N.eqb_neq, IH.
    assert (B : match c with Branch _ _ | Hash _ => true | _ => false end = true <-> branch_or_hash c) by (destruct c; cbn; intuition discriminate). rewrite B.
    assert (Z : count n <> 0 <-> nseq n <> []).
    { split; intros A Q; apply A; [apply (f_equal (@length N)) in Q; rewrite nseq_length in Q; cbn in Q; lia|].
      apply length_zero_iff_nil. rewrite nseq_length. lia. }
    rewrite Z. split; [intros [[A C] D]; constructor; assumption|]. intros S. inversion S; subst; auto.
  - split; [intros A; constructor; intros ->; discriminate|]. intros S. inversion S; subst. destruct v; congruence.
Qed.

(** ** What the check is good for *)
(** Whatever the text, if what is loaded passes the check and has the root hash of a full trie, then every value that [get] finds in it is the value of the
    full trie. *)
Theorem C66_get_partial : forall keccak pr1 pr2 pr limit x t t' k v,
  hash32 keccak -> wf 64 t -> fits t -> hash_free t ->
  load_text limit x = Some t' -> checked 64 t' = true -> hash_trie keccak pr1 t = hash_trie keccak pr2 t' ->
  trie_get pr t' k = Ok (Some v) ->
  trie_get pr t k = Ok (Some v) \/ collision keccak (encodings keccak t) (encodings keccak t').
Proof.
  intros keccak pr1 pr2 pr limit x t t' k v K W F HF L C E G. apply C62_loaded in L as [T _]. apply (checked_wf t' 64 (le_n _) T) in C as [W' F'].
  apply (C40_get_sound keccak pr1 pr2 pr t t' k v); auto.
Qed.
(** The entry it has under a key (or its lack of one) is that of the full trie, unless a hash node is on the way to the key. *)
Theorem C66_contents_partial : forall keccak pr1 pr2 limit x t t' k,
  hash32 keccak -> wf 64 t -> fits t -> hash_free t ->
  load_text limit x = Some t' -> checked 64 t' = true -> hash_trie keccak pr1 t = hash_trie keccak pr2 t' ->
  lk t' k = lk t k \/ (exists p h, lk t' p = Some (HashV h) /\ is_prefix p k) \/ collision keccak (encodings keccak t) (encodings keccak t').
Proof.
  intros keccak pr1 pr2 limit x t t' k K W F HF L C E. apply C62_loaded in L as [T _]. apply (checked_wf t' 64 (le_n _) T) in C as [W' F'].
  apply (C40_contents keccak pr1 pr2 t t' k); auto.
Qed.
(** Writes that succeed on it without a collapse meeting a hash node have the effect they have on the full trie. *)
Theorem C66_replay_partial : forall keccak pr1 pr2 pr limit x t t' ops r' xs,
  hash32 keccak -> wf 64 t -> shape t -> fits t -> hash_free t ->
  load_text limit x = Some t' -> checked 64 t' = true -> hash_trie keccak pr1 t = hash_trie keccak pr2 t' ->
  Forall op_write ops -> collapses_visible pr t' ops -> trie_ops pr t' ops = Ok (r', xs) ->
  (exists r, trie_ops pr t ops = Ok (r, xs) /\ hash_trie keccak pr r' = hash_trie keccak pr r) \/ collision keccak (encodings keccak t) (encodings keccak t').
Proof.
  intros keccak pr1 pr2 pr limit x t t' ops r' xs K W Sh F HF L C E V CV X. apply C62_loaded in L as [T _]. apply (checked_wf t' 64 (le_n _) T) in C as [W' F'].
  destruct (C40_partial_trie_binding keccak pr1 pr2 t t' K W W' F F' HF E) as [Q|[[Er ->]|Q]]; [left| |right; exact Q].
  - destruct (C28_history_partial keccak pr ops t t' r' xs K W Sh F Q V CV X) as (r & Xr & _ & Q'). eauto.
  - left. pose proof (bare_ops pr _ ops r' xs V X) as [-> A]. rewrite (empty_extends pr _ ops A) in X. injection X as <-. exists t. split; [apply empty_extends, A|].
    rewrite (hash_trie_ok keccak K pr _ W' F'), (hash_trie_ok keccak K pr t W F). reflexivity.
Qed.
(** The check is exactly that: it holds of what is loaded if and only if that is a well-formed trie with values of less than 2^31 bytes. *)
Theorem C66_check : forall limit x t, load_text limit x = Some t -> (checked 64 t = true <-> wf 64 t /\ fits t) /\ (shaped t = true <-> shape t).
Proof. intros limit x t L. apply C62_loaded in L as [T _]. split; [apply (checked_wf t 64 (le_n _) T)|apply shaped_shape]. Qed.

(** ** The honest text *)
(** Build a trie by any history over keys of [n] nibbles, take the subset for some keys, write it as text: the text is read back, passes the checks and has the
    right root hash, and on what is read any further history on those keys gives the outputs of the map and, if each deleted key has a neighbour among them, the
    Yellow Paper root of the final map. The default reader accepts it if it has less than 128 nested brackets. *)
Theorem C66_honest : forall keccak pr n ops0 ks,
  hash32 keccak -> Forall (op_fixed n) ops0 -> Forall op_bytes ops0 -> Forall kwf ks -> (forall k, In k ks -> count k = n) ->
  exists t s, trie_ops pr Empty ops0 = Ok (t, snd (spec_ops kv_empty ops0)) /\ create_trie_subset keccak pr t ks = Ok (ROk s) /\
    checked 64 s = true /\ shaped s = true /\ hash_trie keccak pr s = hash_trie keccak pr t /\
    (forall x, x = to_string (serialize s) \/ x = to_string_pretty (serialize s) ->
       load_text None x = Some s /\ load_text default_limit x = if brackets 0 s <? 128 then Some s else None) /\
    forall ops, Forall (op_on ks) ops -> neighbours_requested (fst (spec_ops kv_empty ops0)) ks ops ->
      exists s1, trie_ops pr s ops = Ok (s1, snd (spec_ops (fst (spec_ops kv_empty ops0)) ops)) /\
        forall J, lists_map J (fst (spec_ops kv_empty (ops0 ++ ops))) -> hash_trie keccak pr s1 = Ok (yp_root keccak J).
Proof.
  intros keccak pr n ops0 ks K F0 B0 Kw Kn. destruct (C65_history keccak pr n ops0 ks K F0 B0 Kw Kn) as (t & s & E & Es & G). exists t, s.
  destruct (inv_ops pr (fun k => length k = N.to_nat n) ops0 Empty kv_empty (fixed_pf n) (inv_empty _)) as (t' & E' & (W & C & _ & _)).
  { eapply Forall_impl; [|exact F0]. intros o. apply fixed_ok. }
  assert (t' = t) by congruence. subst t'.
  assert (Ft : fits t) by (apply (ops_fits pr ops0 Empty t (snd (spec_ops kv_empty ops0))); [exact Logic.I|exact B0|exact E]).
  pose proof (subset_hides keccak pr t ks s K W Ft Es) as H. pose proof (hides_wf keccak t 64 s H W) as Ws. pose proof (hides_fits keccak K t s H Ft) as Fs.
  pose proof (wf_type s 64 Ws (le_n _) Fs) as Ts.
  split; [exact E|]. split; [exact Es|]. split; [apply (checked_wf s 64 (le_n _) Ts); auto|]. split; [apply shaped_shape, (hides_shape keccak t s H), canon_shape, C|].
  split; [apply C20_hiding_keeps_root; auto|]. split; [|exact G].
  intros x X. destruct (C62_roundtrip s Ts) as [A B], (C62_roundtrip_limit_exact s Ts) as [A' B']. destruct X as [-> | ->]; split; assumption.
Qed.

(** ** Why the check is needed *)
(** With any hash function there is a text that loads, with the default limit, as a trie of the right shape and with the root hash of a full trie, in which a key
    of the full trie has another value; no collision is involved. The leaf of the key is replaced by an extension node whose key part has bits beyond its nibbles,
    which are written over the flags, so that the extension is encoded like the leaf; the value of the leaf is the digest of the node below the extension. *)
Definition forge_child : node := Branch (Leaf (K 0 0) [1] :: repeat Empty 15) (big 9).
Definition forged_trie : node := Extension (Nib 4 0x201234) forge_child.
Theorem C66_refuted : forall keccak pr, hash32 keccak -> exists x t t' k v v',
  kwf k /\ value_ok v /\ from_iter pr [(k, Val v)] = Ok t /\ load_text default_limit x = Some t' /\ shaped t' = true /\
  hash_trie keccak pr t' = hash_trie keccak pr t /\ trie_get pr t k = Ok (Some v) /\ trie_get pr t' k = Ok (Some v') /\ v' <> v.
Proof.
  intros keccak pr Hk. set (b := RLP (item keccak forge_child)). destruct (Hk b) as [Kb Kl].
  exists (to_string (serialize forged_trie)), (Leaf (K 4 0x1234) (keccak b)), forged_trie, (K 4 0x1234), (keccak b), (big 9).
  assert (C : rlp_encode_and_hash_node keccak pr forge_child = Ok (Hashed (keccak b))) by (destruct pr; vm_compute; reflexivity).
  assert (N : keccak b <> []) by (intros E; rewrite E in Kl; discriminate).
  repeat match goal with |- _ /\ _ => split end.
  - split; [reflexivity|discriminate].
  - split; [exact N|split; [exact Kb|rewrite Kl; reflexivity]].
  - destruct pr; vm_compute; reflexivity.
  - assert (L : load_text default_limit (to_string (serialize forged_trie)) = Some forged_trie) by (vm_compute; reflexivity). exact L.
  - reflexivity.
  - unfold hash_trie, forged_trie. cbn [rlp_encode_and_hash_node]. rewrite C.
    assert (P : to_hex_prefix_encoding pr (Nib 4 0x201234) false = to_hex_prefix_encoding pr (K 4 0x1234) true) by (destruct pr; vm_compute; reflexivity).
    rewrite P. destruct (to_hex_prefix_encoding pr (K 4 0x1234) true); reflexivity.
  - destruct pr; vm_compute; reflexivity.
  - destruct pr; vm_compute; reflexivity.
  - intros E. rewrite <- E in Kl. vm_compute in Kl. discriminate.
Qed.

(** The hash that a caching trie read from a text reports is whatever the text says: for every trie and every digest there is a text that loads as that trie and
    on which [hash()] returns that digest. So the hash of a received caching trie has to be computed from its plain form. *)
Fixpoint dress (c : N) (t : node) : hnode :=
  match t with
  | Empty => HEmpty c
  | Hash h => HHash c h
  | Branch ch v => HBranch c (map (dress 0) ch) v
  | Extension n u => HExtension c n (dress 0 u)
  | Leaf n v => HLeaf c n v
  end.
Lemma dress_erase t : forall c, erase (dress c t) = t.
Proof.
  induction t as [|h|ch v IH|n u IH|n v] using node_ind'; intros c; cbn [dress erase]; try reflexivity; [|rewrite IH; reflexivity].
  f_equal. rewrite map_map. rewrite <- (map_id ch) at 2. apply map_ext_in. intros u J. rewrite Forall_forall in IH. apply IH, J.
Qed.
Lemma loaded_cell s t s0 n0 u s1 n1 : exec (hdeserialize (saved s t)) s0 n0 = Ok (Some u, s1, n1) -> s1 (cell u) = s (cell t).
Proof.
  assert (G : forall mk o s2 n2, (forall c, cell (mk c) = c) -> exec (new_cell mk o) s2 n2 = Ok (Some u, s1, n1) -> s1 (cell u) = o).
  { intros mk o s2 n2 C E. unfold new_cell in E. cbn [exec] in E. injection E as <- <- <-. rewrite C. unfold update. rewrite N.eqb_refl. reflexivity. }
  intros E. destruct t as [c|c h|c ch v|c k t|c k v]; cbn [saved hdeserialize cell] in *; rewrite exec_bind in E; rewrite ?de_ser_cached, ?de_ser_bytes, ?de_ser_nibbles in E.
  - cbn [exec] in E. eapply G; [|exact E]. reflexivity.
  - cbn [exec] in E. eapply G; [|exact E]. reflexivity.
  - destruct (sixteen _); [|discriminate]. rewrite exec_bind in E.
    match type of E with context[exec ?p s0 n0] => destruct (exec p s0 n0) as [[[[us|] s2] n2]|]; cbn [exec] in E; try discriminate end. eapply G; [|exact E]. reflexivity.
  - rewrite exec_bind in E. destruct (exec (hdeserialize (saved s t)) s0 n0) as [[[[us|] s2] n2]|]; cbn [exec] in E; try discriminate. eapply G; [|exact E]. reflexivity.
  - cbn [exec] in E. eapply G; [|exact E]. reflexivity.
Qed.
Lemma type_full t : node_type t -> full t = true.
Proof.
  induction t as [|h|ch v IH|n c IH|n v] using node_ind'; intros T; cbn [full]; try reflexivity.
  - inversion T as [| |? ? H16 Tc Tv| |]; subst. unfold sixteen. rewrite H16. apply forallb_forall. intros c J. rewrite Forall_forall in IH. apply (IH c J), Tc, J.
  - inversion T; subst. apply IH. assumption.
Qed.
Theorem C66_cached_refuted : forall keccak pr t h, node_type t -> h256 h -> exists x u s n,
  exec (hload_text None x) (fun _ => None) 0 = Ok (Some u, s, n) /\
  (brackets 1 t < 128 -> exec (hload_text default_limit x) (fun _ => None) 0 = Ok (Some u, s, n)) /\
  erase u = t /\ exec (hhash_of keccak pr u) s n = Ok (h, s, n).
Proof.
  intros keccak pr t h T H. set (s0 := fun c => if c =? 1 then Some h else None). pose proof (dress_erase t 1) as E.
  assert (T' : node_type (erase (dress 1 t))) by (rewrite E; exact T).
  assert (S : forall u h', In u (nodes (dress 1 t)) -> s0 (cell u) = Some h' -> h256 h').
  { intros u h' J Q. unfold s0 in Q. destruct (cell u =? 1); [injection Q as <-; exact H|discriminate]. }
  pose proof (exec_hserialize (dress 1 t) s0 0) as X.
  pose proof (C62_handle_limit_exact _ s0 0 _ T' S X (fun _ => None) 0) as R'. destruct (C62_handle _ s0 0 _ T' S X (fun _ => None) 0) as [R _].
  destruct (exec_hdeserialize s0 (dress 1 t)) with (s0 := fun _ : N => @None (list N)) (n0 := 0) as (u & s1 & n1 & L & Eu & _); [rewrite E; apply type_full, T|].
  exists (to_string (saved s0 (dress 1 t))), u, s1, n1. rewrite R. split; [exact L|].
  split; [intros B; rewrite R', E; apply N.ltb_lt in B; rewrite B; exact L|]. split; [congruence|].
  pose proof (loaded_cell _ _ _ _ _ _ _ L) as C. unfold hhash_of. cbn [exec]. rewrite C. destruct t; reflexivity.
Qed.

(** Texts that meet the hypotheses: that of a trie with a hidden subtree, on which a history of writes succeeds, and (C65_example) those of subsets. The forged
    text fails the check. *)
Example C66_example :
  let t' := hide_child 5 ex_big in let x := to_string (serialize t') in
  wf 64 ex_big /\ shape ex_big /\ fits ex_big /\ hash_free ex_big /\ load_text default_limit x = Some t' /\ checked 64 t' = true /\ shaped t' = true /\
  hash_trie keccak256 Debug ex_big = hash_trie keccak256 Debug t' /\ trie_get Debug t' (K 4 0x1234) = Ok (Some (big 1)) /\
  Forall op_write ex_writes /\ collapses_visible Debug t' ex_writes /\ (exists r xs, trie_ops Debug t' ex_writes = Ok (r, xs)) /\
  checked 64 forged_trie = false.
Proof.
  cbv zeta. destruct ex_big_ok as (_ & W & C & F), C64_history_example as (_ & _ & _ & Wr & V & _ & r & _ & E & _).
  split; [exact W|]. split; [exact (canon_shape _ C)|]. split; [exact F|]. split; [exact (proj1 C40_example)|].
  split; [vm_compute; reflexivity|]. split; [vm_compute; reflexivity|]. split; [vm_compute; reflexivity|].
  split; [vm_compute; reflexivity|]. split; [vm_compute; reflexivity|]. split; [exact Wr|]. split; [exact V|]. split; [exists r; eexists; exact E|vm_compute; reflexivity].
Qed.

Print Assumptions C66_get_partial.
Print Assumptions C66_contents_partial.
Print Assumptions C66_replay_partial.
Print Assumptions C66_check.
Print Assumptions C66_honest.
Print Assumptions C66_refuted.
Print Assumptions C66_cached_refuted.
