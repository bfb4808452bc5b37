(** Property C48: the printed reports of the debug tools. [shown_query], [shown_path] and [shown_diff] (TextSpec.v) are the expected texts. *)
From Coq Require Import String Decimal DecimalPos DecimalN.
From Verif Require Import Base Nibbles NibblesSpec NibblesFacts NibblesFacts2 NibblesFacts3 Trie TrieSpec TrieHistSpec TrieFacts TrieHist TrieGet P_Trie
  Rlp YellowPaper Hashing HashSpec HashFacts Cache CacheFacts2 Query QuerySpec Diff P_Query P_Diff Text TextSpec TextFacts.
Open Scope N_scope.
Open Scope list_scope.

(** ** What the tools report can be printed *)
Lemma walk_ok t : forall L k ns p r, wf L t -> (L <= 64)%nat -> hexl k -> walk t k = Some (ns, p, r) ->
  p <> [] /\ length ns = length p /\ Forall segment_ok p /\
  (fits t -> Forall (fun n => match extra_of n with Some e => extra_ok e | None => True end) ns).
Proof.
  induction t as [|h|ch w IH|n c IH|n w] using node_ind'; intros L k ns p r W Lm Hk E; cbn [walk] in E.
  - injection E as <- <- <-. split; [discriminate|]. repeat constructor.
  - injection E as <- <- <-. split; [discriminate|]. split; [reflexivity|]. split; [repeat constructor|]. intros F. constructor; [exact (proj1 F)|constructor].
  - destruct k as [|d k]; [discriminate|]. inversion Hk as [|? ? Hd Hk']; subst. rewrite at_child_nth in E.
    inversion W as [| |L' ? ? Hch Wch| |]; subst. assert (I : In (child ch d) ch) by (apply nth_In; lia).
    rewrite (nth_error_nth' ch Empty) in E by lia. change (nth (N.to_nat d) ch Empty) with (child ch d) in E.
    destruct (walk (child ch d) k) as [[[ns' p'] r']|] eqn:E'; [|discriminate]. injection E as <- <- <-.
    rewrite Forall_forall in IH, Wch. destruct (IH _ I L' k ns' p' r' (Wch _ I) ltac:(lia) Hk' E') as (A1 & A2 & A3 & A4).
    split; [discriminate|]. split; [cbn; lia|]. split; [constructor; [exact Hd|exact A3]|].
    intros F. constructor; [cbn; apply C37_mask; exact Hch|]. apply A4.
    exact (fits_child ch w d F).
  - destruct (walk c k) as [[[ns' p'] r']|] eqn:E'; [|discriminate]. injection E as <- <- <-. inversion W as [| | |L' l ? Hl Wc|]; subst.
    destruct (IH L' k ns' p' r' Wc ltac:(lia) Hk E') as (A1 & A2 & A3 & A4).
    split; [discriminate|]. split; [cbn; lia|]. split; [constructor; [apply kwf_enc; [exact Hl|lia]|exact A3]|].
    intros F. constructor; [exact I|]. apply A4, F.
  - injection E as <- <- <-. inversion W as [| | | |L' l ? Hl Ll]; subst. split; [discriminate|]. split; [reflexivity|].
    split; [constructor; [apply kwf_enc; [exact Hl|lia]|constructor]|]. intros F. constructor; [exact (proj1 F)|constructor].
Qed.

Lemma query_out_ok pr t k out : wf 64 t -> kwf k -> get_path_from_query pr t k = Ok out -> out_ok out /\ (fits t -> extras_ok out).
Proof.
  intros W Hk E. rewrite C37_exact_partial in E by assumption. destruct (walk t (nseq k)) as [[[ns p] r]|] eqn:Ew; [|discriminate]. injection E as <-.
  destruct (walk_ok t 64 _ ns p r W (le_n _) (nseq_hexl k) Ew) as (A1 & A2 & A3 & A4). split.
  - unfold out_ok. cbn [q_key node_path extra_node_info]. rewrite map_length. auto.
  - intros F. unfold extras_ok. cbn [extra_node_info]. apply Forall_map. apply A4, F.
Qed.

Lemma hash_bytes keccak pr t h : hash32 keccak -> wf 64 t -> fits t -> hash_trie keccak pr t = Ok h -> bytesl h.
Proof. intros K W F E. rewrite (hash_trie_ok keccak K pr t W F) in E. injection E as <-. destruct t; try apply K. exact (proj1 F). Qed.

Lemma describes_ok keccak pr i key t : hash32 keccak -> wf 64 t -> fits t -> describes keccak pr i key t -> info_ok i.
Proof.
  intros K W F (H1 & _ & H3 & _ & H5). split; [exact H1|]. split; [eapply hash_bytes; eassumption|]. rewrite H3.
  destruct t; try exact I; cbn [fits] in F; tauto.
Qed.

Lemma diff_point_ok keccak pr a b p : hash32 keccak -> wf 64 a -> wf 64 b -> shape a -> shape b -> fits a -> fits b ->
  create_diff keccak pr a b = Ok (Some p) -> point_ok p.
Proof.
  intros K Wa Wb Sa Sb Fa Fb E. pose proof (C36_sound_partial keccak pr a b p K Wa Wb Fa Fb E) as NE.
  assert (T : type_of a = type_of b).
  { destruct (type_eqb_spec (type_of a) (type_of b)) as [T|T]; [exact T|]. rewrite C36_types_refuted in E by assumption. discriminate. }
  destruct (nib_eqb_spec (key_piece_of a) (key_piece_of b)) as [P|P].
  - destruct (C36_root_partial keccak pr a b K Wa Wb Fa Fb NE T ltac:(auto)) as (p' & E' & R). rewrite E in E'. injection E' as <-.
    destruct R as (R1 & R2 & R3 & R4). unfold point_ok. rewrite R1, R2. split; [constructor|]. split; [split; cbn; lia|].
    split; [exact (describes_ok keccak pr _ _ a K Wa Fa R3)|exact (describes_ok keccak pr _ _ b K Wb Fb R4)].
  - destruct (type_eqb_spec (type_of a) TExtension) as [X|X].
    + destruct a as [| | |n c|]; try discriminate X. destruct b as [| | |m d|]; try discriminate T. cbn [key_piece_of] in P.
      destruct (C36_extensions_partial keccak pr n c m d K Wa Wb Sa Sb Fa Fb NE P) as (A1 & A2 & A3).
      inversion Wa as [| | |La la ? Ha Wc|]; subst. inversion Wb as [| | |Lb lb ? Hb Wd|]; subst. cbn [fits] in Fa, Fb.
      assert (Wc' : wf 64 c) by (apply (wf_weaken La); [assumption|lia]). assert (Wd' : wf 64 d) by (apply (wf_weaken Lb); [assumption|lia]).
      assert (D : hash_trie keccak pr c = hash_trie keccak pr d \/ hash_trie keccak pr c <> hash_trie keccak pr d).
      { rewrite (hash_trie_ok keccak K pr c Wc' Fa), (hash_trie_ok keccak K pr d Wd' Fb).
        destruct (bytes_eqb_spec (root keccak c) (root keccak d)) as [Q|Q]; [left; congruence|right; congruence]. }
      destruct D as [D|D]; [rewrite (A1 D) in E; discriminate|].
      destruct (type_eqb_spec (type_of c) (type_of d)) as [Tc|Tc]; [|rewrite (A3 D Tc) in E; discriminate].
      destruct (A2 D Tc) as (p' & E' & R). rewrite E in E'. injection E' as <-. destruct R as (R1 & R2 & R3 & R4). unfold point_ok. rewrite R1, R2.
      assert (Kn : kwf (enc la)) by (apply kwf_enc; [exact Ha|lia]).
      split; [constructor; [exact Kn|constructor]|]. split; [exact Kn|]. split; [exact (describes_ok keccak pr _ _ c K Wc' Fa R3)|exact (describes_ok keccak pr _ _ d K Wd' Fb R4)].
    + destruct (C36_root_partial keccak pr a b K Wa Wb Fa Fb NE T ltac:(intros; contradiction)) as (p' & E' & R). rewrite E in E'. injection E' as <-.
      destruct R as (R1 & R2 & R3 & R4). unfold point_ok. rewrite R1, R2. split; [constructor|]. split; [split; cbn; lia|].
      split; [exact (describes_ok keccak pr _ _ a K Wa Fa R3)|exact (describes_ok keccak pr _ _ b K Wb Fb R4)].
Qed.

Lemma ok_inj {A} (a b : A) : Ok a = Ok b -> a = b.
Proof. intros [=]. assumption. Qed.

(** * Query results *)

(** Whatever a query returns can be printed, and the text is the expected one, with all settings. *)
Theorem C48_query_text : forall pr ps t k out, wf 64 t -> kwf k -> get_path_from_query pr t k = Ok out ->
  query_text pr ps out = Ok (shown_query ps out).
Proof. intros pr ps t k out W Hk E. apply query_text_ok. eapply query_out_ok; eassumption. Qed.

(** With the default settings the text determines the query, whether the key was found, and the path; with values shown also those. *)
Theorem C48_query_unambiguous : forall pr ps t k out t' k' out',
  wf 64 t -> fits t -> kwf k -> get_path_from_query pr t k = Ok out ->
  wf 64 t' -> fits t' -> kwf k' -> get_path_from_query pr t' k' = Ok out' ->
  include_key_piece ps = true -> include_node_type ps = true ->
  query_text pr ps out = query_text pr ps out' ->
  k = k' /\ node_found out = node_found out' /\ node_path out = node_path out' /\
  (include_values ps = true -> extra_node_info out = extra_node_info out').
Proof.
  intros pr ps t k out t' k' out' W F Hk E W' F' Hk' E' PK PT T.
  rewrite (C48_query_text pr ps t k out W Hk E), (C48_query_text pr ps t' k' out' W' Hk' E') in T. apply ok_inj in T.
  destruct (query_out_ok pr t k out W Hk E) as [O X]. destruct (query_out_ok pr t' k' out' W' Hk' E') as [O' X'].
  destruct (C37_output pr t k out W Hk E) as (Q & _). destruct (C37_output pr t' k' out' W' Hk' E') as (Q' & _).
  destruct (shown_query_inj ps out out' PK PT O O' (X F) (X' F') T) as (A1 & A2 & A3 & A4). rewrite Q, Q' in A1. auto.
Qed.

(** With the default settings: node types and key pieces are shown, values, hashes and masks are not. *)
Theorem C48_default_query : forall pr t k out t' k' out',
  wf 64 t -> fits t -> kwf k -> get_path_from_query pr t k = Ok out ->
  wf 64 t' -> fits t' -> kwf k' -> get_path_from_query pr t' k' = Ok out' ->
  query_text pr default_params out = Ok (shown_query {| include_key_piece := true; include_node_type := true; include_values := false |} out) /\
  (query_text pr default_params out = query_text pr default_params out' ->
   k = k' /\ node_found out = node_found out' /\ node_path out = node_path out').
Proof.
  intros pr t k out t' k' out' W F Hk E W' F' Hk' E'. split; [exact (C48_query_text pr default_params t k out W Hk E)|]. intros T.
  destruct (C48_query_unambiguous pr default_params t k out t' k' out' W F Hk E W' F' Hk' E' eq_refl eq_refl T) as (A & B & C & _). auto.
Qed.


(** * Paths *)
Theorem C48_path_text : forall pr p, Forall segment_ok p -> path_text pr p = Ok (shown_path p).
Proof. exact path_text_ok. Qed.
Theorem C48_path_unambiguous : forall pr p q, Forall segment_ok p -> Forall segment_ok q -> path_text pr p = path_text pr q -> p = q.
Proof. intros pr p q P Q E. rewrite !path_text_ok in E by assumption. apply ok_inj in E. exact (shown_path_inj p q P Q E). Qed.

(** * Differences *)

(** Whatever [create_diff_between_tries] returns can be printed, and the text is the expected one. *)
Theorem C48_diff_text : forall keccak pr a b d,
  hash32 keccak -> wf 64 a -> wf 64 b -> shape a -> shape b -> fits a -> fits b -> create_diff keccak pr a b = Ok d ->
  diff_text pr d = Ok (shown_diff d).
Proof.
  intros keccak pr a b d K Wa Wb Sa Sb Fa Fb E. destruct d as [p|]; [|reflexivity]. apply point_text_ok.
  exact (diff_point_ok keccak pr a b p K Wa Wb Sa Sb Fa Fb E).
Qed.

(** Equal texts: equal results. *)
Theorem C48_diff_unambiguous : forall keccak pr a b d a' b' d',
  hash32 keccak -> wf 64 a -> wf 64 b -> shape a -> shape b -> fits a -> fits b -> create_diff keccak pr a b = Ok d ->
  wf 64 a' -> wf 64 b' -> shape a' -> shape b' -> fits a' -> fits b' -> create_diff keccak pr a' b' = Ok d' ->
  diff_text pr d = diff_text pr d' -> d = d'.
Proof.
  intros keccak pr a b d a' b' d' K Wa Wb Sa Sb Fa Fb E Wa' Wb' Sa' Sb' Fa' Fb' E' T.
  rewrite (C48_diff_text keccak pr a b d) in T by assumption. rewrite (C48_diff_text keccak pr a' b' d') in T by assumption. apply ok_inj in T.
  destruct d as [p|], d' as [p'|]; try discriminate T; [|reflexivity]. f_equal.
  apply shown_point_inj; [exact (diff_point_ok keccak pr a b p K Wa Wb Sa Sb Fa Fb E)|exact (diff_point_ok keccak pr a' b' p' K Wa' Wb' Sa' Sb' Fa' Fb' E')|exact T].
Qed.

(** * Numbers *)

(** They are printed in decimal, without leading zeros. *)
Lemma unorm_head u r : unorm u = D0 r -> r = Nil.
Proof.
  unfold unorm. assert (H : forall v, nzhead u = v -> match v with D0 _ => False | _ => True end).
  { induction u; intros v <-; cbn [nzhead]; try exact I. exact (IHu _ eq_refl). }
  specialize (H _ eq_refl). destruct (nzhead u); intros [=]; [congruence|destruct H].
Qed.
Theorem C48_decimal : forall n, undec (dec n) = n /\ Forall (fun c => 48 <= c <= 57) (dec n) /\ (forall r, dec n = 48 :: r -> r = []).
Proof.
  intros n. split; [apply undec_dec|]. split.
  - unfold dec. induction (N.to_uint n); cbn [uint_chars]; constructor; (lia || assumption).
  - intros r E. unfold dec in E. pose proof (DecimalN.Unsigned.to_of (N.to_uint n)) as U. rewrite DecimalN.Unsigned.of_to in U.
    rewrite U in E. destruct (unorm (N.to_uint n)) eqn:E0; cbn [uint_chars] in E; try discriminate. apply unorm_head in E0. subst. injection E as <-. reflexivity.
Qed.

(** * Examples *)
Definition some_trie : node := okn (from_iter Debug [(K 4 0x1234, Val [1; 0xab]); (K 4 0x1256, Val [2]); (K 4 0x7000, HashV (repeat 0xcd 32))]).

Example C48_example :
  wf 64 some_trie /\ shape some_trie /\ fits some_trie /\
  exists out, get_path_from_query Debug some_trie (K 4 0x7000) = Ok out /\
    query_text Debug default_params out =
      Ok (txt "Query Result {" ++ [10] ++ txt "Queried Key: 0x7000" ++ [10] ++ txt "Node found: false" ++ [10] ++ txt "}" ++ [10] ++
          txt "Query path:" ++ [10] ++ txt "Branch(key: 0x7)" ++ [10] ++ txt "V" ++ [10] ++ txt "Extension(key: 0x000)" ++ [10] ++ txt "V" ++ [10] ++ txt "Hash()") /\
    path_text Debug (node_path out) = Ok (txt "Branch(7) --> Extension(0x000) --> Hash").
Proof.
  assert (R : reach Debug some_trie) by (unfold some_trie; reach_tac [(K 4 0x1234, Val [1; 0xab]); (K 4 0x1256, Val [2]); (K 4 0x7000, HashV (repeat 0xcd 32))]).
  destruct (reach_valid Debug _ R) as [W S]. split; [exact W|]. split; [exact S|].
  split; [vm_compute; repeat split; repeat constructor|]. eexists. split; [vm_compute; reflexivity|]. split; vm_compute; reflexivity.
Qed.

Example C48_values_example :
  exists out, get_path_from_query Debug (okn (from_iter Debug [(K 4 0x1234, Val [1; 0xab]); (K 4 0x2256, Val [2])])) (K 4 0x1234) = Ok out /\
    query_text Debug (QParams true true true) out =
      Ok (txt "Query Result {" ++ [10] ++ txt "Queried Key: 0x1234" ++ [10] ++ txt "Node found: true" ++ [10] ++ txt "}" ++ [10] ++
          txt "Query path:" ++ [10] ++ txt "Branch(key: 0x1, Extra Seg Info: mask: 0b0000000000000110 (Num Children: 2))" ++ [10] ++ txt "V" ++ [10] ++
          txt "Leaf(key: 0x234, Extra Seg Info: Leaf Value: 01ab)").
Proof. eexists. split; [vm_compute; reflexivity|]. vm_compute. reflexivity. Qed.

Example C48_diff_example : hash32 toy /\
  let a := okn (from_iter Debug [(K 4 0x1234, Val [1]); (K 4 0x1256, Val [2])]) in let b := okn (from_iter Debug [(K 4 0x1334, Val [1]); (K 4 0x1357, Val [2])]) in
  exists p, create_diff toy Debug a b = Ok (Some p) /\
    diff_text Debug (Some p) =
      Ok (txt "Point Diff {depth: 0, Path: (Extension(0x12)), Key: 0x12 A info: (key: 0x12 Value: 0x, Node type: Branch Trie hash: " ++
          shown_bytes (i_hash (a_info p)) ++ txt ") B info: (key: 0x12 Value: 0x, Node type: Branch Trie hash: " ++ shown_bytes (i_hash (b_info p)) ++ txt ")}").
Proof. split; [exact toy_32|]. cbv zeta. eexists. split; [vm_compute; reflexivity|]. vm_compute. reflexivity. Qed.

Print Assumptions C48_query_text.
Print Assumptions C48_query_unambiguous.
Print Assumptions C48_default_query.
Print Assumptions C48_path_text.
Print Assumptions C48_path_unambiguous.
Print Assumptions C48_diff_text.
Print Assumptions C48_diff_unambiguous.
Print Assumptions C48_decimal.
