(** Property C74: saving and loading in a binary format. *)
From Coq Require Import String Permutation.
From Verif Require Import Base Nibbles NibblesSpec NibblesFacts NibblesFacts2 Trie TrieSpec TrieFacts TrieInsert Keccak KeccakFacts HashSpec HashFacts P_Trie P_Hash Cache CacheFacts CacheSpec Serde ReloadFacts P_Serde Json JsonSpec JsonFacts JsonFacts2 TypeSpec TypeFacts TypeFacts2 P_Json Text JsonText JsonTextSpec JsonTextFacts JsonTextFacts2 JsonTextFacts3 HideSpec PartialSpec P_Partial WitnessSpec P_Witness Binary BinarySpec BinaryFacts BinaryFacts2.
From Verif Require Import YellowPaper Trie TrieSpec Hashing HashSpec HideSpec HashBind.
Open Scope N_scope.
Open Scope list_scope.

(** * Keys and tries *)
(** What is saved is loaded; what follows in the file is left there. *)
Theorem C74_key : forall n rest, key_type n -> load_key (save_key n ++ rest) = Some (n, rest).
Proof. intros n rest T. unfold load_key. rewrite (nibbles_reads n T) with (f := length (save_key n)) by lia. rewrite de_ser_nibbles. reflexivity. Qed.
Theorem C74_roundtrip : forall t rest, node_type t -> vecs t -> load_from (save t ++ rest) = Some (t, rest).
Proof.
  intros t rest T V. unfold load_from. rewrite (trie_reads t T V) by (rewrite app_length; lia). rewrite deserialize_serialize, type_full by exact T. reflexivity.
Qed.
Lemma fits_vecs t : fits t -> vecs t.
Proof.
  assert (L : forall v, len v < 2147483648 -> vec v) by (unfold vec, len; intros v; change (2 ^ 64) with 18446744073709551616; lia).
  induction t as [|h|ch v IH|n c IH|n v] using node_ind'; cbn [vecs]; intros F; try exact Logic.I.
  - apply fits_branch in F as (_ & Lv & F). split; [apply L, Lv|]. apply vecs_map. rewrite Forall_forall in *. auto.
  - apply IH, F.
  - apply L, F.
Qed.
Theorem C74_built : forall t, wf 64 t -> fits t -> load (save t) = Some t.
Proof.
  intros t W F. assert (T : node_type t) by (apply (wf_type t 64 W (le_n _) F)). unfold load. rewrite <- (app_nil_r (save t)), C74_roundtrip by (try apply fits_vecs; assumption). reflexivity.
Qed.
(** Several tries in one file. *)
Theorem C74_stream : forall ts, Forall (fun t => node_type t /\ vecs t) ts -> in_turn load_from (concat (map save ts)) ts.
Proof. induction 1 as [|t ts [T V] _ IH]; cbn [map concat]; econstructor; [apply C74_roundtrip; assumption|exact IH]. Qed.
(** Different tries have different bytes; the bytes of one are not the beginning of those of another. *)
Theorem C74_prefix_free : forall a b, node_type a -> vecs a -> node_type b -> vecs b -> starts (save a) (save b) -> a = b.
Proof.
  intros a b Ta Va Tb Vb [c E]. pose proof (C74_roundtrip b [] Tb Vb) as H. rewrite app_nil_r, E, C74_roundtrip in H by assumption. congruence.
Qed.

(** ** Any bytes *)
Lemma load_local bs t rest : load_from bs = Some (t, rest) -> exists used, bs = used ++ rest /\ forall rest', load_from (used ++ rest') = Some (t, rest').
Proof.
  unfold load_from. intros E. destruct (get_trie (S (length bs)) bs) as [[d r]|] eqn:G; [|discriminate]. destruct (deserialize d) as [t'|] eqn:D; [|discriminate]. injection E as -> ->.
  apply trie_steps in G as (u & -> & R). exists u. split; [reflexivity|]. intros rest'. rewrite R by (rewrite app_length; lia). rewrite D. reflexivity.
Qed.
Lemma local_cut {A} (ld : list N -> option (A * list N)) used x : (forall bs t rest, ld bs = Some (t, rest) -> exists used, bs = used ++ rest /\ forall rest', ld (used ++ rest') = Some (t, rest')) ->
  ld used = Some (x, []) -> forall a, cut_short a used -> ld a = None.
Proof.
  intros L E a (c & Nc & ->). destruct (ld a) as [[y r]|] eqn:Ea; [|reflexivity]. apply L in Ea as (u & -> & H). rewrite <- app_assoc, H in E. injection E as _ E. destruct r; [|discriminate].
  cbn in E. congruence.
Qed.
(** Bytes that are accepted give a value of the types. Only the bytes in front matter, and none of them can be missing. *)
Theorem C74_loaded : forall bs t rest, u8s bs -> load_from bs = Some (t, rest) ->
  node_type t /\ vecs t /\ load (save t) = Some t /\
  exists used, bs = used ++ rest /\ (forall rest', load_from (used ++ rest') = Some (t, rest')) /\ forall a, cut_short a used -> load_from a = None.
Proof.
  intros bs t rest U E. assert (TV : node_type t /\ vecs t).
  { unfold load_from in E. destruct (get_trie (S (length bs)) bs) as [[d r]|] eqn:G; [|discriminate]. apply trie_type in G as [(t' & T & V & ->) _]; [|exact U].
    rewrite deserialize_serialize, type_full in E by exact T. injection E as <- _. auto. }
  destruct TV as [T V]. split; [exact T|]. split; [exact V|]. split; [unfold load; rewrite <- (app_nil_r (save t)), C74_roundtrip by assumption; reflexivity|].
  apply load_local in E as (u & -> & H). exists u. split; [reflexivity|]. split; [exact H|]. apply (local_cut load_from u t); [exact load_local|]. specialize (H []). rewrite app_nil_r in H. exact H.
Qed.
(** A file that was cut short is refused. *)
Theorem C74_cut : forall t a, node_type t -> vecs t -> cut_short a (save t) -> load_from a = None.
Proof.
  intros t a T V. apply (local_cut load_from (save t) t); [exact load_local|]. rewrite <- (app_nil_r (save t)). apply C74_roundtrip; assumption.
Qed.

(** ** The layout *)
Lemma sized_counted l : sized_bytes l = counted l.
Proof. unfold sized_bytes, counted. rewrite little_eq. reflexivity. Qed.
Lemma hex_char_digit d : d < 16 -> hex_char false d = digit_char d.
Proof. intros H. unfold hex_char, digit_char. destruct (d <? 10); [reflexivity|]. cbn. lia. Qed.
Lemma hash_layout h : u8s h -> binary (DH256 h) = hash_text h.
Proof.
  intros U. cbn [binary]. rewrite sized_counted. unfold hash_text, hex_string. f_equal. f_equal. induction U as [|b h B _ IH]; [reflexivity|]. cbn [byte_digits flat_map map app]. fold (byte_digits h).
  rewrite IH, (hex_char_digit (b / 16)) by (apply N.div_lt_upper_bound; lia). rewrite (hex_char_digit (b mod 16)) by (apply N.mod_lt; lia). reflexivity.
Qed.
Lemma drop_head l : hd 0 (drop_zeros l) <> 0 \/ drop_zeros l = [].
Proof. induction l as [|d l IH]; [right; reflexivity|]. cbn [drop_zeros]. destruct d; [exact IH|]. left. discriminate. Qed.
Lemma u512_few n : n < 2 ^ 512 -> few_digits n (u512_digits n).
Proof.
  intros H. destruct (u512_digits_ok n H) as [A _]. split; [|split; [exact A|]].
  - pose proof (read_written_u512 n H) as R. revert R. generalize (u512_digits n). clear. intros l R. cbn [read_u512] in R. destruct (_ && _) in R; [|discriminate].
    assert (Q : fold_left (fun a d => a * 16 + d) l 0 = n) by congruence. rewrite <- Q. clear. generalize 0. induction l as [|d l IH]; intros a; [reflexivity|]. cbn [fold_left].
    rewrite N.mul_comm. apply IH.
  - unfold u512_digits. destruct (drop_head (byte_digits (be_bytes 64 n))) as [D|D]; destruct (drop_zeros _) eqn:E; auto. discriminate.
Qed.
Lemma key_laid n : key_type n -> key_layout n (save_key n).
Proof.
  intros [C P]. unfold save_key, ser_nibbles. cbn [binary flat_map snd]. rewrite app_nil_r, <- little_eq, sized_counted. unfold hex_string.
  assert (E : map (hex_char false) (u512_digits (packed n)) = map digit_char (u512_digits (packed n))).
  { apply map_ext_in. intros d D. apply hex_char_digit. destruct (u512_digits_ok _ P) as [A _]. unfold hexl in A. rewrite Forall_forall in A. apply A, D. }
  rewrite E. constructor. apply u512_few, P.
Qed.
Theorem C74_layout : forall t, node_type t -> layout t (save t).
Proof.
  unfold save. induction t as [|h|ch v IH|n c IH|n v] using node_ind'; intros T; cbn [serialize binary position flat_map snd]; rewrite ?app_nil_r, <- ?little_eq; inversion T; subst.
  - constructor.
  - change (sized_bytes (hex_string (byte_digits h))) with (binary (DH256 h)). rewrite hash_layout; [constructor|]. match goal with H : h256 h |- _ => apply H end.
  - rewrite binary_bytes, sized_counted by assumption. rewrite flat_map_concat_map, map_map. constructor. rewrite Forall_forall in IH.
    match goal with H : forall c, In c ch -> node_type c |- _ => revert IH H end. generalize ch. clear. intros ch. induction ch as [|c ch IHl]; intros H H'; cbn [map]; constructor; [apply H; auto with datatypes|].
    apply IHl; intros; [apply H|apply H']; auto with datatypes.
  - constructor; [apply key_laid; assumption|]. apply IH. assumption.
  - rewrite binary_bytes, sized_counted by assumption. constructor. apply key_laid. assumption.
Qed.

(** * Caching tries *)
Lemma cell_laid o : (forall h, o = Some h -> h256 h) -> binary (ser_cached o) = cell_layout o.
Proof. intros H. destruct o as [h|]; [|reflexivity]. cbn [ser_cached cell_layout app]. change (binary (DSome (DH256 h))) with (1 :: binary (DH256 h)). rewrite hash_layout; [reflexivity|]. apply (H h eq_refl). Qed.
Lemma handle_laid s t : node_type (erase t) -> (forall u h, In u (nodes t) -> s (cell u) = Some h -> h256 h) -> hlayout s t (binary (saved s t)).
Proof.
  induction t as [c|c h|c ch v IH|c k t IH|c k v] using hnode_ind'; intros T H; cbn [saved binary position flat_map snd cell]; rewrite ?app_nil_r, <- ?little_eq; cbn [erase] in T; inversion T; subst;
    (rewrite cell_laid; [|intros h' E; apply (H _ _ (or_introl eq_refl) E)]).
  - constructor.
  - change (sized_bytes (hex_string (byte_digits h))) with (binary (DH256 h)). rewrite hash_layout; [|match goal with H : h256 h |- _ => apply H end]. rewrite <- app_assoc. constructor.
  - rewrite binary_bytes, sized_counted, <- !app_assoc by assumption. rewrite flat_map_concat_map, map_map. constructor. rewrite Forall_forall in IH.
    assert (A : forall t, In t ch -> node_type (erase t)) by (intros t J; match goal with H : forall c, In c (map erase ch) -> node_type c |- _ => apply H, in_map, J end).
    assert (B : forall t, In t ch -> forall u h, In u (nodes t) -> s (cell u) = Some h -> h256 h) by (intros t J u h U; apply H; right; apply in_flat_map; eauto).
    revert IH A B. generalize ch. clear. intros ch. induction ch as [|t ch IHl]; intros H A B; cbn [map]; constructor; [apply H; auto with datatypes; apply B; auto with datatypes|].
    apply IHl; [intros x J; apply H; right; exact J|intros x J; apply A; right; exact J|intros x J; apply B; right; exact J].
  - rewrite <- !app_assoc. constructor; [apply key_laid; assumption|]. apply IH; [assumption|]. intros u h U. apply H. right. exact U.
  - rewrite binary_bytes, sized_counted, <- !app_assoc by assumption. constructor. apply key_laid. assumption.
Qed.
Lemma saved_held s s' u : forall u', saved s u = saved s' u' -> held s u = held s' u'.
Proof.
  unfold held. induction u as [c|c h|c ch v IH|c k t IH|c k v] using hnode_ind'; intros [c'|c' h'|c' ch' v'|c' k' t'|c' k' v'] E; cbn [saved] in E; try discriminate; cbn [nodes map cell] in *;
    (assert (C : s c = s' c') by (apply ser_cached_inj; congruence); rewrite C; f_equal).
  - assert (M : map (saved s) ch = map (saved s') ch') by congruence. clear - IH M.
    revert ch' M. induction IH as [|t ch H _ IHl]; intros [|t' ch'] M; try discriminate; [reflexivity|]. cbn [map flat_map] in *. injection M as M1 M2. rewrite !map_app. f_equal; auto.
  - apply IH. congruence.
Qed.
Lemma hload_local bs : forall d rest, get_handle (S (length bs)) bs = Some (d, rest) -> exists used, bs = used ++ rest /\
  forall rest', get_handle (S (length (used ++ rest'))) (used ++ rest') = Some (d, rest').
Proof. intros d rest E. apply handle_steps in E as (u & -> & R). exists u. split; [reflexivity|]. intros rest'. apply R. rewrite app_length. lia. Qed.
Lemma exec_hload bs d rest s n : get_handle (S (length bs)) bs = Some (d, rest) -> hdata d ->
  exists u s' n', exec (hload_from bs) s n = Ok (Some (u, rest), s', n') /\ saved s' u = d /\ n <= n' /\ (forall c, c < n -> s' c = s c) /\
    NoDup (map cell (nodes u)) /\ (forall c, In c (map cell (nodes u)) -> n <= c < n') /\ ((forall c, n <= c -> s c = None) -> forall c, n' <= c -> s' c = None).
Proof.
  intros G D. unfold hload_from. rewrite G. destruct (does_hdeserialize d D s n) as (r & s' & n' & E & L & F & Fr & R). rewrite exec_bind, E. destruct r as [u|]; [|contradiction].
  destruct R as (R1 & R2 & R3). exists u, s', n'. split; [reflexivity|]. split; [apply R3; intros c _; reflexivity|]. auto.
Qed.
(** The loaded handle is equal to the saved one and has the same cached hashes, in cells of its own. *)
Theorem C74_handle : forall t s n rest, node_type (erase t) -> vecs (erase t) -> (forall u h, In u (nodes t) -> s (cell u) = Some h -> h256 h) ->
  exists bs, exec (hsave t) s n = Ok (bs, s, n) /\ hlayout s t bs /\
  forall s0 n0, exists u s' n', exec (hload_from (bs ++ rest)) s0 n0 = Ok (Some (u, rest), s', n') /\ heqb u t = true /\ erase u = erase t /\ held s' u = held s t /\
    (forall c, c < n0 -> s' c = s0 c) /\ NoDup (map cell (nodes u)) /\ (forall c, In c (map cell (nodes u)) -> n0 <= c < n').
Proof.
  intros t s n rest T V H. exists (binary (saved s t)). split; [unfold hsave; rewrite exec_bind, exec_hserialize; reflexivity|]. split; [apply handle_laid; assumption|]. intros s0 n0.
  destruct (exec_hload (binary (saved s t) ++ rest) (saved s t) rest s0 n0) as (u & s' & n' & E & Q & L & F & R1 & R2 & _).
  - apply (handle_reads s t T V H). rewrite app_length. lia.
  - apply saved_data; assumption.
  - exists u, s', n'. split; [exact E|]. pose proof (saved_erase _ _ _ _ Q) as Er. split; [apply P_Cache.C31_equal_iff, Er|]. split; [exact Er|]. split; [apply saved_held, Q|]. auto.
Qed.
(** The bytes determine the contents and the cached hashes; none is the beginning of another; what is cut short is refused. *)
Theorem C74_handle_prefix_free : forall t s n t' s' n' bs bs', node_type (erase t) -> vecs (erase t) -> (forall u h, In u (nodes t) -> s (cell u) = Some h -> h256 h) ->
  node_type (erase t') -> vecs (erase t') -> (forall u h, In u (nodes t') -> s' (cell u) = Some h -> h256 h) ->
  exec (hsave t) s n = Ok (bs, s, n) -> exec (hsave t') s' n' = Ok (bs', s', n') -> starts bs bs' -> erase t = erase t' /\ held s t = held s' t'.
Proof.
  intros t s n t' s' n' bs bs' T V H T' V' H' E E' [c C]. unfold hsave in E, E'. rewrite exec_bind, exec_hserialize in E, E'. cbn [exec] in E, E'. injection E as <-. injection E' as <-.
  pose proof (handle_reads s' t' T' V' H' (length (binary (saved s' t'))) [] (le_n _)) as A. rewrite app_nil_r, C in A.
  rewrite (handle_reads s t T V H) in A by (rewrite app_length; lia). injection A as A _. split; [apply saved_erase with (s := s) (s' := s'), A|apply saved_held, A].
Qed.
(** Whatever the bytes, loading does not panic; what is accepted has the types, and no byte of what was read can be missing. *)
Theorem C74_handle_loaded : forall bs s n, u8s bs -> exists r s' n', exec (hload_from bs) s n = Ok (r, s', n') /\
  match r with
  | None => forall s1 n1, exec (hload_from bs) s1 n1 = Ok (None, s1, n1)
  | Some (u, rest) =>
      node_type (erase u) /\ vecs (erase u) /\ (forall t h, In t (nodes u) -> s' (cell t) = Some h -> h256 h) /\ (forall c, c < n -> s' c = s c) /\ NoDup (map cell (nodes u)) /\
      exists used, bs = used ++ rest /\ forall a, cut_short a used -> forall s1 n1, exec (hload_from a) s1 n1 = Ok (None, s1, n1)
  end.
Proof.
  intros bs s n U. destruct (get_handle (S (length bs)) bs) as [[d rest]|] eqn:G.
  2: { exists None, s, n. assert (X : forall s1 n1, exec (hload_from bs) s1 n1 = Ok (None, s1, n1)) by (intros s1 n1; unfold hload_from; rewrite G; reflexivity). auto. }
  pose proof (proj1 (handle_type _ _ _ _ U G)) as D. destruct (exec_hload bs d rest s n G D) as (u & s' & n' & E & Q & L & F & R1 & R2 & _). exists (Some (u, rest)), s', n'. split; [exact E|].
  rewrite <- Q in D. apply data_saved in D as (T & V & C). split; [exact T|]. split; [exact V|]. split; [exact C|]. split; [exact F|]. split; [exact R1|].
  apply hload_local in G as (used & -> & H). exists used. split; [reflexivity|]. intros a A s1 n1. unfold hload_from.
  replace (get_handle (S (length a)) a) with (@None (data * list N)); [reflexivity|]. symmetry.
  apply (local_cut (fun bs => get_handle (S (length bs)) bs) used d); [|specialize (H []); rewrite app_nil_r in H; exact H|exact A]. intros bs0 t0 r0 E0. exact (hload_local bs0 t0 r0 E0).
Qed.

(** ** Histories *)
(** A program that saves and loads in the binary format has the same tries, observations and cached hashes as one in which the format is taken to be lossless
    (C44), so all that is shown for the latter (C29-C32, C44) holds for it. *)
Lemma bstep_eq keccak pr o hs s n : hash32 keccak -> op_type o -> Forall htype hs -> Forall (fun t => vecs (erase t)) hs -> (forall c, cached_type (s c)) ->
  exec (bstep keccak pr hs o) s n = exec (hstep keccak pr hs o) s n.
Proof.
  intros H O F V Ct. destruct o; try reflexivity. cbn [bstep hstep]. unfold the. destruct (nth_error hs i) as [t|] eqn:En; [|reflexivity]. cbn [lift pbind].
  apply nth_error_In in En. rewrite Forall_forall in F, V. specialize (F t En). specialize (V t En). unfold htype in F.
  assert (C : forall u h, In u (nodes t) -> s (cell u) = Some h -> h256 h) by (intros u h _ Eh; specialize (Ct (cell u)); rewrite Eh in Ct; exact Ct).
  rewrite !exec_bind. unfold hreload_binary, hreload, hsave, hload, hload_from. rewrite !exec_bind, exec_hserialize. cbn [exec]. rewrite !exec_bind.
  pose proof (handle_reads s t F V C (S (length (binary (saved s t)))) [] (le_S _ _ (le_n _))) as R. rewrite app_nil_r in R. rewrite R, exec_bind.
  destruct (exec (hdeserialize (saved s t)) s n) as [[[[u|] s'] n']|]; reflexivity.
Qed.
Theorem C74_histories : forall keccak pr os, hash32 keccak -> Forall op_type os ->
  (forall os1 os2 hs xs s n, os = os1 ++ os2 -> exec (hrun keccak pr [] os1) (fun _ => None) 0 = Ok ((hs, xs), s, n) -> Forall (fun t => vecs (erase t)) hs) ->
  exec (brun keccak pr [] os) (fun _ => None) 0 = exec (hrun keccak pr [] os) (fun _ => None) 0.
Proof.
  intros keccak pr os H O.
  assert (G : forall hs s n, Forall htype hs -> (forall c, cached_type (s c)) ->
    (forall os1 os2 hs' xs s' n', os = os1 ++ os2 -> exec (hrun keccak pr hs os1) s n = Ok ((hs', xs), s', n') -> Forall (fun t => vecs (erase t)) hs') ->
    exec (brun keccak pr hs os) s n = exec (hrun keccak pr hs os) s n).
  { induction O as [|o os Oo O IH]; intros hs s n F S V; cbn [brun hrun]; [reflexivity|].
    rewrite !exec_bind, bstep_eq; [|assumption|assumption|assumption|apply (V [] (o :: os) hs [] s n eq_refl eq_refl)|assumption].
    destruct (exec (hstep keccak pr hs o) s n) as [[[[hs' x] s'] n']|] eqn:E; [|reflexivity].
    destruct (safe_exec _ _ s n _ s' n' S (hstep_type keccak pr H hs o Oo F) E) as [F' S'].
    rewrite !exec_bind, IH; [reflexivity|exact F'|exact S'|]. intros os1 os2 hs2 xs s2 n2 Eo Eh. apply (V (o :: os1) os2 hs2 (x :: xs) s2 n2); [rewrite Eo; reflexivity|].
    cbn [hrun]. rewrite exec_bind, E, exec_bind, Eh. reflexivity. }
  apply G; [constructor|intros c; exact Logic.I].
Qed.

(** ** Received bytes *)
(** Whatever the bytes, if what is loaded passes the check of C66 and has the root hash of a full trie, then every value that [get] finds in it is the value of
    the full trie. *)
Theorem C74_received : forall keccak pr1 pr2 pr bs t t' k v,
  hash32 keccak -> wf 64 t -> fits t -> hash_free t ->
  u8s bs -> load bs = Some t' -> checked 64 t' = true -> hash_trie keccak pr1 t = hash_trie keccak pr2 t' ->
  trie_get pr t' k = Ok (Some v) ->
  trie_get pr t k = Ok (Some v) \/ collision keccak (encodings keccak t) (encodings keccak t').
Proof.
  intros keccak pr1 pr2 pr bs t t' k v K W F HF U L C E G. unfold load in L. destruct (load_from bs) as [[t0 rest]|] eqn:L0; [|discriminate]. injection L as ->.
  apply C74_loaded in L0 as [T _]; [|exact U]. apply (checked_wf t' 64 (le_n _) T) in C as [W' F']. apply (C40_get_sound keccak pr1 pr2 pr t t' k v); auto.
Qed.

(** ** The two kinds *)
(** The bytes do not say which kind of trie they are. The bytes of a caching trie can be accepted as another plain trie: here the entries are under other keys. *)
Definition kinds_list : list (nibbles * val_or_hash) := [(K 2 0x4a, Val [1]); (K 2 0x8b, Val [2])].
Definition fresh_run : prog (list hnode * list obs) := hrun (fun _ => []) Debug [] [New kinds_list].
Definition fresh_end : list hnode * store * N := match exec fresh_run (fun _ => None) 0 with Ok ((ts, _), s, n) => (ts, s, n) | Panic => ([], fun _ => None, 0) end.
Definition kinds_handle : hnode := hd (HEmpty 0) (fst (fst fresh_end)).
Definition kinds_bytes : list N := binary (saved (snd (fst fresh_end)) kinds_handle).
Theorem C74_kinds_refuted : exists t s n bs t', (forall keccak pr, exec (hrun keccak pr [] [New kinds_list]) (fun _ => None) 0 = Ok (([t], [Done]), s, n)) /\
  exec (hsave t) s n = Ok (bs, s, n) /\ load bs = Some t' /\
  forall pr, trie_get pr (erase t) (K 2 0x4a) = Ok (Some [1]) /\ trie_get pr t' (K 2 0x4a) = Ok None /\
    trie_get pr (erase t) (K 2 0x5a) = Ok None /\ trie_get pr t' (K 2 0x5a) = Ok (Some [1]).
Proof.
  assert (L : exists t', load kinds_bytes = Some t' /\ forall pr, trie_get pr t' (K 2 0x4a) = Ok None /\ trie_get pr t' (K 2 0x5a) = Ok (Some [1])).
  { eexists. split; [vm_compute; reflexivity|]. intros []; split; vm_compute; reflexivity. }
  destruct L as (t' & L & G). exists kinds_handle, (snd (fst fresh_end)), (snd fresh_end), kinds_bytes, t'. split; [intros keccak pr; destruct pr; vm_compute; reflexivity|].
  split; [unfold hsave; rewrite exec_bind, exec_hserialize; reflexivity|]. split; [exact L|]. intros pr. destruct (G pr) as [G1 G2]. repeat split; try assumption; destruct pr; vm_compute; reflexivity.
Qed.

(** ** Cases that meet the hypotheses *)
Definition ex_saved : node := Branch (Leaf (K 3 0x234) [1; 2] :: Hash (repeat 171 32) :: Extension (K 2 0x56) (Branch (Leaf (K 0 0) [] :: repeat Empty 15) [9]) :: repeat Empty 13) [255].
Lemma bytes_ok l : forallb (fun b => b <? 256) l = true -> u8s l.
Proof. intros H. apply Forall_forall. intros b B. apply N.ltb_lt. revert b B. apply forallb_forall, H. Qed.
Fixpoint all_vec (t : node) : bool :=
  match t with
  | Empty | Hash _ => true
  | Branch ch v => (N.of_nat (length v) <? 2 ^ 64) && forallb all_vec ch
  | Extension _ c => all_vec c
  | Leaf _ v => N.of_nat (length v) <? 2 ^ 64
  end.
Lemma vecs_ok t : all_vec t = true -> vecs t.
Proof.
  induction t as [|h|ch v IH|n c IH|n v] using node_ind'; cbn [all_vec vecs]; intros H; try exact Logic.I.
  - apply andb_true_iff in H as [A B]. split; [apply N.ltb_lt, A|]. apply vecs_map. rewrite Forall_forall in *. rewrite forallb_forall in B. auto.
  - apply IH, H.
  - apply N.ltb_lt, H.
Qed.
Lemma ex_saved_type : node_type ex_saved /\ vecs ex_saved.
Proof.
  assert (D : forall n t, In t (repeat Empty n) -> node_type t) by (intros n t J; apply repeat_spec in J; subst; constructor).
  assert (Kt : forall a b, a <? 2 ^ 64 = true -> b <? 2 ^ 512 = true -> key_type (K a b)) by (intros a b A B; split; apply N.ltb_lt; assumption).
  split; unfold ex_saved.
  - apply nt_branch; [reflexivity| |apply bytes_ok; reflexivity]. intros c [<-|[<-|[<-|J]]]; [| | |exact (D _ _ J)].
    + apply nt_leaf; [apply Kt; vm_compute; reflexivity|apply bytes_ok; reflexivity].
    + apply nt_hash. split; [reflexivity|apply bytes_ok; reflexivity].
    + apply nt_extension; [apply Kt; vm_compute; reflexivity|]. apply nt_branch; [reflexivity| |apply bytes_ok; reflexivity]. intros c [<-|J]; [|exact (D _ _ J)].
      apply nt_leaf; [apply Kt; vm_compute; reflexivity|apply bytes_ok; reflexivity].
  - apply vecs_ok. vm_compute. reflexivity.
Qed.
Example C74_example : node_type ex_saved /\ vecs ex_saved /\ load_from (save ex_saved ++ [1; 2; 3]) = Some (ex_saved, [1; 2; 3]) /\ length (save ex_saved) = 306%nat /\
  cut_short (firstn 305 (save ex_saved)) (save ex_saved) /\ u8s (save ex_saved) /\
  key_type (K 3 0x1ab) /\ save_key (K 3 0x1ab) = [3; 0; 0; 0; 0; 0; 0; 0; 5; 0; 0; 0; 0; 0; 0; 0; 48; 120; 49; 97; 98].
Proof.
  destruct ex_saved_type as [T V]. split; [exact T|]. split; [exact V|]. split; [vm_compute; reflexivity|]. split; [vm_compute; reflexivity|].
  split; [exists (skipn 305 (save ex_saved)); split; [vm_compute; discriminate|symmetry; apply firstn_skipn]|].
  split; [apply bytes_ok; vm_compute; reflexivity|].
  split; [split; vm_compute; reflexivity|vm_compute; reflexivity].
Qed.
(** A handle with a cached hash at its root and none below. *)
Example C74_handle_example : let t := dress 0 ex_saved in let s := fun c => if c =? 0 then Some (repeat 7 32) else None in
  node_type (erase t) /\ vecs (erase t) /\ (forall u h, In u (nodes t) -> s (cell u) = Some h -> h256 h) /\ s (cell t) = Some (repeat 7 32).
Proof.
  destruct ex_saved_type as [T V]. cbn zeta. assert (E : erase (dress 0 ex_saved) = ex_saved) by (vm_compute; reflexivity). rewrite E. split; [exact T|]. split; [exact V|]. split; [|reflexivity].
  intros u h _ H. destruct (cell u =? 0); [|discriminate]. injection H as <-. split; [reflexivity|]. repeat constructor.
Qed.
Example C74_histories_example : forall keccak pr, let os := [New kinds_list; Reload 0] in Forall op_type os /\
  forall os1 os2 hs xs s n, os = os1 ++ os2 -> exec (hrun keccak pr [] os1) (fun _ => None) 0 = Ok ((hs, xs), s, n) -> Forall (fun t => vecs (erase t)) hs.
Proof.
  intros keccak pr. cbn zeta. split; [repeat constructor; vm_compute; reflexivity|]. intros os1 os2 hs xs s n E R.
  assert (B : match exec (hrun keccak pr [] os1) (fun _ => None) 0 with Ok ((hs, _), _, _) => forallb (fun t => all_vec (erase t)) hs | Panic => true end = true).
  { clear R. destruct os1 as [|o1 [|o2 [|o3 os1]]]; cbn [app] in E; try discriminate; inversion E; subst; destruct pr; vm_compute; reflexivity. }
  rewrite R, forallb_forall in B. apply Forall_forall. intros t J. apply vecs_ok, B, J.
Qed.
(** An honest sender. *)
Example C74_received_example : wf 64 ex_big /\ fits ex_big /\ hash_free ex_big /\ u8s (save ex_big) /\ load (save ex_big) = Some ex_big /\ checked 64 ex_big = true /\
  trie_get Debug ex_big (K 4 0x1234) = Ok (Some (big 1)).
Proof.
  destruct ex_big_ok as (_ & W & _ & F). split; [exact W|]. split; [exact F|]. split; [apply entries_hash_free; vm_compute; repeat constructor|]. split; [apply bytes_ok; vm_compute; reflexivity|].
  repeat split; vm_compute; reflexivity.
Qed.

Print Assumptions C74_key.
Print Assumptions C74_roundtrip.
Print Assumptions C74_built.
Print Assumptions C74_stream.
Print Assumptions C74_prefix_free.
Print Assumptions C74_loaded.
Print Assumptions C74_cut.
Print Assumptions C74_layout.
Print Assumptions C74_handle.
Print Assumptions C74_handle_prefix_free.
Print Assumptions C74_handle_loaded.
Print Assumptions C74_histories.
Print Assumptions C74_received.
Print Assumptions C74_kinds_refuted.
