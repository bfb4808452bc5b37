(** Property C61: saving and loading tries as JSON. *)
From Coq Require Import Permutation.
From Verif Require Import Base Nibbles NibblesSpec Trie TrieSpec TrieFacts TrieHistSpec TrieHist HashSpec Hashing HideFacts Keccak Cache CacheSpec CacheFacts Serde ReloadFacts TypeSpec TypeFacts TypeFacts2 P_Trie P_Hash P_Serde Json JsonSpec JsonFacts JsonFacts2.
From Verif Require Import Trie TrieSpec.
Open Scope N_scope.

(** ** Tries without caches *)
(** Loading the text of a trie gives the trie, whatever values of the Rust types it has. *)
Theorem C61_roundtrip : forall t, node_type t -> read_trie (json (serialize t)) = Some t.
Proof. exact read_json. Qed.

(** All tries with keys of at most 64 nibbles are such, if their values and hashes are bytes. *)
Lemma key_type_enc l : hexl l -> (length l <= 64)%nat -> key_type (enc l).
Proof.
  intros H L. split; cbn [enc count packed].
  - eapply N.le_lt_trans with (m := 64); [lia|reflexivity].
  - eapply N.lt_le_trans; [apply NibblesFacts.undigits_lt, H|]. change (2 ^ 512) with (16 ^ 128). apply N.pow_le_mono_r; lia.
Qed.
Lemma bytes_h256 h : bytesl h /\ YellowPaper.len h = 32 -> h256 h.
Proof. intros [B L]. split; [unfold YellowPaper.len in L; lia|exact B]. Qed.
Lemma wf_type t : forall L, wf L t -> (L <= 64)%nat -> fits t -> node_type t.
Proof.
  induction t as [|h|ch v IH|n c IH|n v] using node_ind'; intros L W LL F; inversion W; subst; cbn [fits] in F.
  - constructor.
  - constructor. apply bytes_h256, F.
  - destruct F as (Fv & _ & F). constructor; [assumption| |exact Fv]. intros c I.
    match goal with H : Forall (wf ?n) ch |- _ => rewrite Forall_forall in H; specialize (H c I); rename H into Wc end.
    rewrite Forall_forall in IH. apply (IH c I _ Wc); [lia|]. clear - F I. induction ch as [|x ch IHc]; [destruct I|]. destruct F as [Fx F]. destruct I as [->|I]; [exact Fx|auto].
  - match goal with H : wf ?n c |- _ => rename H into Wc; rename n into L0 end. constructor; [apply key_type_enc; [assumption|lia]|]. apply (IH L0); [assumption|lia|exact F].
  - destruct F as [Fv _]. constructor; [apply key_type_enc; [assumption|lia]|exact Fv].
Qed.
Theorem C61_built : forall t, wf 64 t -> fits t -> read_trie (json (serialize t)) = Some t.
Proof. intros t W F. apply C61_roundtrip, (wf_type t 64); [exact W|lia|exact F]. Qed.
Example C61_built_example : wf 64 ex_big /\ fits ex_big.
Proof. destruct ex_big_ok as (_ & W & _ & F). split; assumption. Qed.

(** Different tries have different texts. *)
Theorem C61_injective : forall a b, node_type a -> node_type b -> json (serialize a) = json (serialize b) -> a = b.
Proof. intros a b A B E. apply C61_roundtrip in A, B. congruence. Qed.

(** Whatever the text, what is loaded is of the Rust types; so it can be saved and loaded again. *)
Theorem C61_loaded : forall d t, read_trie d = Some t -> node_type t /\ read_trie (json (serialize t)) = Some t.
Proof. intros d t E. apply read_type in E. split; [exact E|apply C61_roundtrip, E]. Qed.

(** A text for a leaf: names of fields, values, hex digits. *)
Example C61_text_example :
  json (serialize (Leaf (K 2 0x12) [1; 255])) =
    JObject [(KName v_Leaf, JObject [(KName f_nibbles, JObject [(KName f_count, JNum 2); (KName f_packed, JHex [1; 2])]);
                                     (KName f_value, JArray [JNum 1; JNum 255])])] /\
  read_trie (JObject [(KName v_Leaf, JArray [JObject [(KName f_packed, JHex [0; 1; 2]); (KOther [120], JNull); (KName f_count, JNum 2)];
                                             JArray [JNum 1; JNum 255]])]) = Some (Leaf (K 2 0x12) [1; 255]) /\
  read_trie (JObject [(KName v_Leaf, JArray [JArray [JNum 2; JHex [1; 2]]; JArray [JNum 256]])]) = None.
Proof. vm_compute. repeat split. Qed.

(** ** Caching tries *)
(** Whatever is in the cells of a handle (hashes of 32 bytes), its text is loaded just as its data are in C44. *)
Theorem C61_handle : forall t s n d, node_type (erase t) -> (forall u h, In u (nodes t) -> s (cell u) = Some h -> h256 h) ->
  exec (hserialize t) s n = Ok (d, s, n) -> forall s' n', exec (hread_trie (json d)) s' n' = exec (hdeserialize d) s' n'.
Proof. intros t s n d T C E s' n'. rewrite exec_hserialize in E. injection E as <-. apply hread_json; assumption. Qed.
(** So it is equal to the handle that was saved. *)
Theorem C61_handle_contents : forall t s n d, node_type (erase t) -> (forall u h, In u (nodes t) -> s (cell u) = Some h -> h256 h) ->
  exec (hserialize t) s n = Ok (d, s, n) -> exists u s' n', exec (hread_trie (json d)) s n = Ok (Some u, s', n') /\ erase u = erase t /\ heqb u t = true.
Proof.
  intros t s n d T C E. assert (Ty : typed (erase t)).
  { clear C E. revert T. generalize (erase t). intros x T. induction T; constructor; auto. }
  rewrite (C61_handle t s n d T C E). destruct (C44_handle_contents t s n Ty) as (u & s' & n' & Eu & R). exists u, s', n'. split; [|exact R].
  unfold hreload in Eu. rewrite exec_bind, E, exec_bind in Eu. destruct (exec (hdeserialize d) s n) as [[[[u'|] s1] n1]|]; try discriminate.
  cbn [exec] in Eu. injection Eu as -> -> ->. reflexivity.
Qed.

(** ** Histories *)
(** Every trie that a program has at some point, whatever it does, is such: keys of any length, hashes, nodes built by hand, subsets. *)
Theorem C61_histories : forall keccak pr os ts xs, hash32 keccak -> Forall op_type os -> vrun keccak pr [] os = Ok (ts, xs) ->
  Forall (fun t => read_trie (json (serialize t)) = Some t) ts.
Proof.
  intros keccak pr os ts xs H O E. eapply Forall_impl; [exact C61_roundtrip|]. eapply (vrun_type keccak pr H os []); [exact O|constructor|exact E].
Qed.
(** Also for handles of caching tries: a program that saves and loads as JSON has the same tries, observations and cached hashes as one in which
    the format is taken to be lossless (C44), so all that is shown for the latter (C29-C32, C44) holds for it. *)
Lemma jstep_eq keccak pr o hs s n : hash32 keccak -> op_type o -> Forall htype hs -> (forall c, cached_type (s c)) ->
  exec (jstep keccak pr hs o) s n = exec (hstep keccak pr hs o) s n.
Proof.
  intros H O F S. destruct o; try reflexivity. cbn [jstep hstep]. unfold the. destruct (nth_error hs i) as [t|] eqn:En; [|reflexivity]. cbn [lift pbind].
  rewrite !exec_bind. unfold hreload_json, hreload. rewrite !exec_bind, exec_hserialize, !exec_bind.
  rewrite (C61_handle t s n (saved s t)); [reflexivity| | |apply exec_hserialize].
  - rewrite Forall_forall in F. apply F. eapply nth_error_In, En.
  - intros u h _ Eh. specialize (S (cell u)). rewrite Eh in S. exact S.
Qed.
Theorem C61_handle_histories : forall keccak pr os, hash32 keccak -> Forall op_type os ->
  exec (jrun keccak pr [] os) (fun _ => None) 0 = exec (hrun keccak pr [] os) (fun _ => None) 0.
Proof.
  intros keccak pr os H O. assert (G : forall hs s n, Forall htype hs -> (forall c, cached_type (s c)) -> exec (jrun keccak pr hs os) s n = exec (hrun keccak pr hs os) s n).
  { induction O as [|o os Oo O IH]; intros hs s n F S; cbn [jrun hrun]; [reflexivity|]. rewrite !exec_bind, jstep_eq by assumption.
    destruct (exec (hstep keccak pr hs o) s n) as [[[[hs' x] s'] n']|] eqn:E; [|reflexivity].
    destruct (safe_exec _ _ s n _ s' n' S (hstep_type keccak pr H hs o Oo F) E) as [F' S']. rewrite !exec_bind, IH by assumption. reflexivity. }
  apply G; [constructor|intros c; exact I].
Qed.
(** The hypothesis of [C61_handle] about the cells is met by every handle of a history. *)
Theorem C61_cells : forall keccak pr os hs xs s n, hash32 keccak -> Forall op_type os -> exec (hrun keccak pr [] os) (fun _ => None) 0 = Ok ((hs, xs), s, n) ->
  Forall (fun t => node_type (erase t)) hs /\ forall c h, s c = Some h -> h256 h.
Proof.
  intros keccak pr os hs xs s n H O E.
  destruct (safe_exec _ _ (fun _ => None) 0 _ s n (fun _ => I) (hrun_type keccak pr H os [] O (Forall_nil _)) E) as [F S]. split; [exact F|].
  intros c h Eh. specialize (S c). rewrite Eh in S. exact S.
Qed.
(** Any history of typed arguments, here one with a cached hash. *)
Example C61_histories_example : hash32 keccak256 /\ Forall op_type (ex_reload ++ [HashOf 0; Reload 0; Equal 0 1; HashOf 1]) /\
  vrun keccak256 Debug [] ex_reload = Ok ex_reload_r /\ fst ex_reload_r <> [].
Proof.
  split; [exact keccak256_hash32|]. split; [|split; [vm_compute; reflexivity|discriminate]].
  repeat constructor; cbn; try (vm_compute; reflexivity).
Qed.

(** Loading never panics, whatever the text. *)
Theorem C61_no_panic : forall d s n, exec (hread_trie d) s n <> Panic.
Proof. intros d s n. destruct (does_hread d s n) as (r & s' & n' & -> & _). discriminate. Qed.

(** A text without cached hashes gives a handle that has the hash of its contents, whatever else the text has. *)
Theorem C61_no_hash : forall keccak pr d s n u s' n' h, bare d -> (forall c, n <= c -> s c = None) ->
  exec (hread_trie d) s n = Ok (Some u, s', n') -> hash_trie keccak pr (erase u) = Ok h ->
  exists s'' n'', exec (hhash_of keccak pr u) s' n' = Ok (h, s'', n'').
Proof.
  intros keccak pr d s n u s' n' h Bd F E H. destruct (does_hread d s n) as (r & s1 & n1 & E' & L & Fr & Fn & R). rewrite E in E'. injection E' as <- <- <-.
  destruct (load d) as [y|] eqn:El; [|destruct R]. destruct R as (R1 & R2 & R3). apply fresh_hash; try assumption.
  - intros c I. apply R2, I.
  - apply nohash_cells. unfold holds in R3. rewrite (R3 s' (fun c I => eq_refl)). eapply bare_load; eassumption.
  - apply Fn, F.
Qed.
Example C61_no_hash_example : bare (JObject [(KName f_hash, JNull); (KName f_node,
    JObject [(KName v_Leaf, JObject [(KName f_nibbles, JObject [(KName f_count, JNum 2); (KName f_packed, JHex [1; 2])]); (KName f_value, JArray [JNum 1])])])]) /\
  bare (JObject [(KName f_node, JString (KName v_Empty))]).
Proof.
  split; repeat match goal with
    | H : In _ _ |- _ => destruct H
    | H : False |- _ => destruct H
    | H : (_, _) = (_, _) |- _ => injection H as ? ?; subst
    | H : KName _ = KName _ |- _ => try reflexivity; discriminate H
    | H : _ = ?d |- bare ?d => subst d
    | H : _ = ?d |- ?d = JHex _ -> False => subst d
    | |- bare _ => constructor
    | |- _ /\ _ => split
    | |- _ <> _ => intro
    | |- forall _, _ => intro
    end; subst; try discriminate; try constructor.
Qed.

(** The two kinds of tries do not read each other's texts. *)
Theorem C61_kinds : (forall t s n, exec (hread_trie (json (serialize t))) s n = Ok (None, s, n)) /\ (forall s n t d, exec (hserialize t) s n = Ok (d, s, n) -> read_trie (json d) = None).
Proof.
  split.
  - intros t s n. rewrite hread_eq, exec_bind. destruct t; reflexivity.
  - intros s n t d E. rewrite exec_hserialize in E. injection E as <-. destruct t; reflexivity.
Qed.

(** ** Other texts *)
Theorem C61_forms : forall d d' t, rewritten d d' -> read_trie d = Some t -> read_trie d' = Some t.
Proof. intros d d' t R E. exact (rewritten_good d d' R _ _ r_trie t E). Qed.
Theorem C61_forms_handle : forall d d' s n u s1 n1, rewritten d d' -> exec (hread_trie d) s n = Ok (Some u, s1, n1) ->
  forall s' n', exists u' s1' n1' x, exec (hread_trie d') s' n' = Ok (Some u', s1', n1') /\ erase u' = erase u /\
    exec (hserialize u) s1 n1 = Ok (x, s1, n1) /\ exec (hserialize u') s1' n1' = Ok (x, s1', n1').
Proof.
  intros d d' s n u s1 n1 R E s' n'. destruct (does_hread d s n) as (r & s2 & n2 & E' & _ & _ & _ & H). rewrite E in E'. injection E' as <- <- <-.
  destruct (load d) as [y|] eqn:El; [|destruct H]. destruct H as (_ & _ & H). specialize (H s1 (fun c I => eq_refl)). unfold holds in H.
  apply (rewritten_good d d' R _ _ r_load) in El. destruct (does_hread d' s' n') as (r & s2 & n2 & E' & _ & _ & _ & H'). rewrite El in H'.
  destruct r as [u'|]; [|destruct H']. destruct H' as (_ & _ & H'). specialize (H' s2 (fun c I => eq_refl)). unfold holds in H'.
  exists u', s2, n2, y. rewrite !exec_hserialize, H, H'. split; [exact E'|]. split; [|auto]. apply (saved_erase s2 s1). congruence.
Qed.
Example C61_forms_example :
  rewritten (JObject [(KName f_count, JNum 2); (KName f_packed, JHex [1; 2])])
            (JObject [(KName f_packed, JHex [1; 2]); (KName f_count, JNum 2); (KOther [120], JNull)]) /\
  rewritten (JObject [(KName f_node, JString (KName v_Empty))]) (JArray [JString (KName v_Empty); JNull]).
Proof.
  split.
  - eapply rw_trans; [apply rw_order, perm_swap|]. apply (rw_extra [(KName f_packed, JHex [1; 2]); (KName f_count, JNum 2)]).
    eexists. split; [left; reflexivity|exact I].
  - eapply rw_trans; [apply (rw_null [(KName f_node, JString (KName v_Empty))])|].
    + eexists. left. reflexivity.
    + intros (d & [H|[]]). discriminate.
    + apply rw_positions. unfold struct. cbn. tauto.
Qed.

(** The order alone does not matter, neither for what is loaded nor for errors. *)
Section reordered_ind.
  Variable P : doc -> doc -> Prop.
  Hypotheses (Hs : forall d, P d d) (Ht : forall a b c, P a b -> P b c -> P a c)
    (Ha : forall l l', Forall2 P l l' -> P (JArray l) (JArray l'))
    (Ho : forall ks ds ds', length ks = length ds -> Forall2 P ds ds' -> P (JObject (combine ks ds)) (JObject (combine ks ds')))
    (Hp : forall l l', Permutation l l' -> P (JObject l) (JObject l')).
  Fixpoint reordered_ind' (d d' : doc) (R : reordered d d') {struct R} : P d d' :=
    match R with
    | ro_same d => Hs d
    | ro_trans a b c R1 R2 => Ht a b c (reordered_ind' a b R1) (reordered_ind' b c R2)
    | ro_array l l' F =>
        Ha l l' ((fix go l l' (F : Forall2 reordered l l') {struct F} : Forall2 P l l' :=
          match F with Forall2_nil _ => Forall2_nil _ | Forall2_cons x y R F' => Forall2_cons x y (reordered_ind' x y R) (go _ _ F') end) l l' F)
    | ro_object ks ds ds' L F =>
        Ho ks ds ds' L ((fix go l l' (F : Forall2 reordered l l') {struct F} : Forall2 P l l' :=
          match F with Forall2_nil _ => Forall2_nil _ | Forall2_cons x y R F' => Forall2_cons x y (reordered_ind' x y R) (go _ _ F') end) ds ds' F)
    | ro_order l l' Q => Hp l l' Q
    end.
End reordered_ind.
Lemma reordered_both d d' : reordered d d' -> rewritten d d' /\ rewritten d' d.
Proof.
  intros R. induction R as [d|a b c [A1 A2] [B1 B2]|l l' F|ks ds ds' L F|l l' P] using reordered_ind'.
  - split; apply rw_same.
  - split; eapply rw_trans; eassumption.
  - split; apply rw_array; induction F as [|x y l l' [H1 H2] F IH]; constructor; assumption.
  - split; apply rw_object; try exact L; [| |].
    + induction F as [|x y l l' [H1 H2] F IH] in ks, L |- *; constructor; [assumption|]. destruct ks; cbn [length] in L; [lia|]. apply (IH ks). lia.
    + rewrite L. apply (F2_length _ _ _ F).
    + induction F as [|x y l l' [H1 H2] F IH] in ks, L |- *; constructor; [assumption|]. destruct ks; cbn [length] in L; [lia|]. apply (IH ks). lia.
  - split; apply rw_order; [exact P|apply Permutation_sym, P].
Qed.
Theorem C61_order : forall d d', reordered d d' -> read_trie d = read_trie d'.
Proof.
  intros d d' R. destruct (reordered_both d d' R) as [A B]. destruct (read_trie d) as [t|] eqn:E.
  - symmetry. eapply C61_forms; eassumption.
  - destruct (read_trie d') as [t|] eqn:E'; [|reflexivity]. rewrite <- E. eapply C61_forms; eassumption.
Qed.
Theorem C61_order_handle : forall d d' s n s' n', reordered d d' ->
  ((exists s1 n1, exec (hread_trie d) s n = Ok (None, s1, n1)) <-> (exists s1 n1, exec (hread_trie d') s' n' = Ok (None, s1, n1))).
Proof.
  assert (G : forall d d' s n s' n', rewritten d' d -> (exists s1 n1, exec (hread_trie d) s n = Ok (None, s1, n1)) -> exists s1 n1, exec (hread_trie d') s' n' = Ok (None, s1, n1)).
  { intros d d' s n s' n' R (s1 & n1 & E). destruct (does_hread d' s' n') as ([u|] & s2 & n2 & E' & _); [|eauto].
    destruct (C61_forms_handle d' d s' n' u s2 n2 R E' s n) as (u' & s1' & n1' & x & E'' & _). congruence. }
  intros d d' s n s' n' R. destruct (reordered_both d d' R) as [A B]. split; apply G; assumption.
Qed.

(** A field that is there twice is an error. *)
Lemma twice_entries {A B} fa fb (ra : doc -> option A) (rb : doc -> option B) m l f x y l1 l2 l3 : name_eqb fa fb = false -> f = fa \/ f = fb ->
  l = l1 ++ (KName f, x) :: l2 ++ (KName f, y) :: l3 -> read_two fa fb ra rb m (JObject l) = None.
Proof.
  intros Ne F ->. rewrite two_object by exact Ne.
  assert (L : (2 <= length (fields_of f (l1 ++ (KName f, x) :: l2 ++ (KName f, y) :: l3)))%nat).
  { change ((KName f, x) :: l2 ++ (KName f, y) :: l3) with ([(KName f, x)] ++ l2 ++ [(KName f, y)] ++ l3). rewrite !entries_app, !app_length.
    assert (O : forall z, length (fields_of f [(KName f, z)]) = 1%nat) by (intros z; unfold fields_of; cbn [filter fst is_key]; rewrite name_eqb_refl; reflexivity).
    rewrite !O. lia. }
  unfold from_entries. destruct F as [-> | ->].
  - destruct (fields_of fa _) as [|? [|]]; cbn [length] in L; try lia. reflexivity.
  - destruct (fields_of fa _) as [|? [|]]; try reflexivity. destruct (fields_of fb _) as [|? [|]]; cbn [length] in L; try lia. reflexivity.
Qed.
Theorem C61_twice : forall l f x y l1 l2 l3, l = l1 ++ (KName f, x) :: l2 ++ (KName f, y) :: l3 ->
  (f = f_count \/ f = f_packed -> read_nibbles (JObject l) = None) /\
  (f = f_children \/ f = f_value -> read_trie (JObject [(KName v_Branch, JObject l)]) = None) /\
  (f = f_nibbles \/ f = f_child -> read_trie (JObject [(KName v_Extension, JObject l)]) = None) /\
  (f = f_nibbles \/ f = f_value -> read_trie (JObject [(KName v_Leaf, JObject l)]) = None) /\
  (f = f_node \/ f = f_hash -> forall s n, exists s' n', exec (hread_trie (JObject l)) s n = Ok (None, s', n')).
Proof.
  intros l f x y l1 l2 l3 E. split; [|split; [|split; [|split]]]; intros F.
  - unfold read_nibbles. rewrite (twice_entries _ _ _ _ _ l f x y l1 l2 l3) by (assumption || reflexivity). reflexivity.
  - rewrite read_branch, (twice_entries _ _ _ _ _ l f x y l1 l2 l3) by (assumption || reflexivity). reflexivity.
  - rewrite read_extension, (twice_entries _ _ _ _ _ l f x y l1 l2 l3) by (assumption || reflexivity). reflexivity.
  - rewrite read_leaf, (twice_entries _ _ _ _ _ l f x y l1 l2 l3) by (assumption || reflexivity). reflexivity.
  - intros s n. destruct (does_hread (JObject l) s n) as (r & s' & n' & Ex & _ & _ & _ & H). rewrite load_eq, (twice_entries _ _ _ _ _ l f x y l1 l2 l3) in H by (assumption || reflexivity).
    destruct r; [destruct H|]. eauto.
Qed.

(** ** The limit on nesting *)
(** With serde_json's default limit, loading fails for tries that are deep enough, although all their keys are short. *)
Fixpoint deep_list (n : nat) : list (nibbles * val_or_hash) :=
  match n with O => [] | S n' => (enc (repeat 1 n' ++ [2]), Val [1]) :: deep_list n' end.
Lemma deep_ok n : (n <= 64)%nat -> Forall (fun e => kwf (fst e) /\ snd e = Val [1] /\ HideFacts.fits_val (snd e)) (deep_list n).
Proof.
  induction n as [|n IH]; intros L; constructor; [|apply IH; lia]. cbn [fst snd]. split; [|split; [reflexivity|]].
  - apply kwf_enc.
    + apply NibblesFacts.hexl_app. split; [|repeat constructor]. clear. induction n; cbn [repeat]; constructor; [lia|assumption].
    + rewrite app_length, repeat_length. cbn [length]. lia.
  - cbn. split; [repeat constructor|reflexivity].
Qed.
Theorem C61_limit_refuted : forall pr, exists l t, Forall (fun e => kwf (fst e)) l /\ from_iter pr l = Ok t /\
  read_trie (json (serialize t)) = Some t /\ from_str (json (serialize t)) = None.
Proof.
  intros pr. pose proof (deep_ok 50 ltac:(lia)) as D.
  assert (H : match from_iter pr (deep_list 50) with Ok t => negb (within_limit (json (serialize t))) | Panic => false end = true) by (destruct pr; vm_compute; reflexivity).
  revert H D. generalize (deep_list 50). intros l H D.
  destruct (from_iter pr l) as [t|] eqn:E; [|discriminate]. exists l, t. split; [|split; [exact E|]].
  - eapply Forall_impl; [|exact D]. intros e [H1 _]. exact H1.
  - split; [|unfold from_str; destruct (within_limit (json (serialize t))); [discriminate|reflexivity]].
    assert (W : wf 64 t).
    { eapply (extend_canon pr l Empty t); [constructor|constructor| |exact E]. eapply Forall_impl; [|exact D].
      intros e (H1 & -> & _). split; [exact H1|discriminate]. }
    apply C61_built; [exact W|]. apply (extend_fits pr l Empty t); [exact I| |exact E]. eapply Forall_impl; [|exact D].
    intros e (_ & _ & F). exact F.
Qed.
(** Exactly the tries with fewer than 128 nested brackets can be loaded. *)
Theorem C61_limit_exact : forall t, node_type t -> from_str (json (serialize t)) = if brackets 0 t <? 128 then Some t else None.
Proof. intros t T. unfold from_str, within_limit. rewrite nesting_brackets, (C61_roundtrip t T). reflexivity. Qed.
Theorem C61_limit_handle_exact : forall t s n d, node_type (erase t) -> (forall u h, In u (nodes t) -> s (cell u) = Some h -> h256 h) ->
  exec (hserialize t) s n = Ok (d, s, n) ->
  forall s' n', exec (hfrom_str (json d)) s' n' = if brackets 1 (erase t) <? 128 then exec (hdeserialize d) s' n' else Ok (None, s', n').
Proof.
  intros t s n d T C E s' n'. rewrite <- (C61_handle t s n d T C E). rewrite exec_hserialize in E. injection E as <-.
  unfold hfrom_str, within_limit. rewrite nesting_brackets_handle. destruct (_ <? _); reflexivity.
Qed.
Fixpoint tower (n : nat) : node := match n with O => Leaf (K 0 0) [1] | S n' => Extension (K 1 1) (tower n') end.
Fixpoint htower (n : nat) : hnode := match n with O => HLeaf 0 (K 0 0) [1] | S n' => HExtension 0 (K 1 1) (htower n') end.
Example C61_limit_exact_example : brackets 0 (tower 62) = 127 /\ brackets 0 (tower 63) = 129 /\ erase (htower 41) = tower 41 /\ brackets 1 (tower 41) = 127 /\ brackets 1 (tower 42) = 130 /\
  node_type (tower 63).
Proof.
  repeat (split; [vm_compute; reflexivity|]). generalize 63%nat. induction n as [|n IH]; cbn [tower]; constructor; try assumption; try (split; vm_compute; reflexivity).
  constructor; [lia|constructor].
Qed.
(** So it works for at most 42 nodes on any way down, or 31 for caching tries. *)
Theorem C61_limit_partial : forall t, node_type t -> height t <= 42 -> from_str (json (serialize t)) = Some t.
Proof.
  intros t T H. unfold from_str, within_limit. pose proof (nesting_trie t). destruct (N.ltb_spec (nesting (json (serialize t))) 128); [|lia]. apply C61_roundtrip, T.
Qed.
Theorem C61_limit_handle_partial : forall t s n d, node_type (erase t) -> (forall u h, In u (nodes t) -> s (cell u) = Some h -> h256 h) -> height (erase t) <= 31 ->
  exec (hserialize t) s n = Ok (d, s, n) -> exists u s' n', exec (hfrom_str (json d)) s n = Ok (Some u, s', n') /\ erase u = erase t.
Proof.
  intros t s n d T C H E. destruct (C61_handle_contents t s n d T C E) as (u & s' & n' & Eu & R & _). exists u, s', n'. split; [|exact R].
  rewrite exec_hserialize in E. injection E as <-. unfold hfrom_str, within_limit. pose proof (nesting_handle s t).
  destruct (N.ltb_spec (nesting (json (saved s t))) 128); [exact Eu|lia].
Qed.
Lemma height_wf : forall L t, wf L t -> shape t -> height t <= N.of_nat L + 1.
Proof.
  assert (G : forall t L, wf L t -> shape t -> height t <= N.of_nat L + 1); [|intros L t; apply G].
  induction t as [|h|ch v IH|n c IH|n v] using node_ind'; intros L W S; inversion W; inversion S; subst; cbn [height]; try lia.
  - assert (M : fold_right N.max 0 (map height ch) <= N.of_nat L0 + 1); [|lia]. apply max_all. intros x I. rewrite Forall_forall in *. auto.
  - match goal with H : wf ?n c |- _ => specialize (IH n H ltac:(assumption)); rename n into L1 end.
    match goal with H : nseq (enc ?l) <> [] |- _ => rewrite NibblesFacts.nseq_enc in H by assumption; destruct l; [destruct H; reflexivity|] end. cbn [length]. lia.
Qed.
Lemma extend_short pr l : forall L t t', (L <= 64)%nat -> wf L t -> Forall (fun e => kwf (fst e) /\ (length (nseq (fst e)) <= L)%nat) l ->
  trie_extend pr t l = Ok t' -> wf L t'.
Proof.
  induction l as [|[k v] l IH]; intros L t t' H64 W F E; cbn [trie_extend] in E.
  - assert (t = t') by congruence. subst. exact W.
  - inversion F as [|? ? [A B] F']; subst. cbn [fst] in *.
    destruct (trie_insert pr t k v) as [t1|] eqn:E1; cbn [bind] in E; [|discriminate].
    apply (IH L t1 t'); try assumption. destruct (kwf_ex k A) as (q & -> & _ & Hq & Lq).
    rewrite NibblesFacts.nseq_enc in B by assumption. apply (InsertWf.insert_wf pr t L q v t1 W); auto.
Qed.
(** That is so for tries built through the API whose keys have at most 41 nibbles. *)
Theorem C61_short_keys_partial : forall pr l t, Forall (fun e => kwf (fst e) /\ N.of_nat (length (nseq (fst e))) <= 41 /\ proper (snd e) /\ fits_val (snd e)) l ->
  from_iter pr l = Ok t -> from_str (json (serialize t)) = Some t.
Proof.
  intros pr l t D E.
  assert (W : wf 41 t).
  { apply (extend_short pr l 41 Empty t); [lia|constructor| |exact E]. eapply Forall_impl; [|exact D]. cbn beta. intros e (H1 & H2 & _). split; [exact H1|lia]. }
  assert (C : wf 64 t /\ canon t).
  { apply (extend_canon pr l Empty t); [constructor|constructor| |exact E]. eapply Forall_impl; [|exact D]. cbn beta. tauto. }
  assert (F : fits t).
  { apply (extend_fits pr l Empty t); [exact I| |exact E]. eapply Forall_impl; [|exact D]. cbn beta. tauto. }
  apply C61_limit_partial; [apply (wf_type t 41); [exact W|lia|exact F]|].
  pose proof (height_wf 41 t W (canon_shape t (proj2 C))). lia.
Qed.
Example C61_short_keys_example : Forall (fun e => kwf (fst e) /\ N.of_nat (length (nseq (fst e))) <= 41 /\ proper (snd e) /\ fits_val (snd e)) big_list /\ from_iter Debug big_list = Ok ex_big.
Proof. split; [|exact (proj1 ex_big_ok)]. repeat constructor; cbn; try kwf_tac; try (vm_compute; (reflexivity || (intro; discriminate) || lia)). Qed.
Example C61_limit_example : node_type ex_big /\ height ex_big <= 42 /\ nesting (json (serialize ex_big)) = 11 /\ shape ex_big.
Proof.
  destruct ex_big_ok as (_ & W & C & F). split; [apply (wf_type _ 64); [exact W|lia|exact F]|]. split; [vm_compute; discriminate|]. split; [vm_compute; reflexivity|]. apply canon_shape, C.
Qed.

Print Assumptions C61_roundtrip.
Print Assumptions C61_built.
Print Assumptions C61_injective.
Print Assumptions C61_loaded.
Print Assumptions C61_handle.
Print Assumptions C61_handle_contents.
Print Assumptions C61_histories.
Print Assumptions C61_handle_histories.
Print Assumptions C61_cells.
Print Assumptions C61_no_panic.
Print Assumptions C61_no_hash.
Print Assumptions C61_kinds.
Print Assumptions C61_forms.
Print Assumptions C61_forms_handle.
Print Assumptions C61_order.
Print Assumptions C61_order_handle.
Print Assumptions C61_twice.
Print Assumptions C61_limit_refuted.
Print Assumptions C61_limit_exact.
Print Assumptions C61_limit_handle_exact.
Print Assumptions C61_limit_partial.
Print Assumptions C61_limit_handle_partial.
Print Assumptions C61_short_keys_partial.
