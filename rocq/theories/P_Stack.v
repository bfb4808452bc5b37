(** Property C76: how deep the calls nest. *)
From Coq Require Import String.
From Verif Require Import Base Nibbles NibblesSpec NibblesFacts NibblesFacts2 Query Diff Stats Rlp Hashing Subset.
From Verif Require Import Trie TrieSpec TrieFacts TrieInsert TrieHistSpec TrieHist P_Trie HashSpec HashFacts P_Sharing Cache HideFacts IterCost Serde Json JsonSpec JsonFacts JsonFacts2 TypeFacts Text JsonText JsonTextSpec P_JsonText Binary BinarySpec P_Binary Stack StackSpec StackFacts StackFacts2.
From Verif Require Import Trie TrieSpec.
Open Scope N_scope.
Open Scope list_scope.

Lemma ok_runs {A} n (f : nat -> lim A) r : (forall d, ok (n <= d)%nat (f d) r) -> runs n f r.
Proof. intros H d. destruct (H d) as [E|[E N]]; [left; exact E|right; split; [exact E|lia]]. Qed.
Lemma runs_more {A} n m (f : nat -> lim A) r : runs n f r -> (n <= m)%nat -> runs m f r.
Proof. intros H L d. destruct (H d) as [E|[E N]]; [left; exact E|right; split; [exact E|lia]]. Qed.

(** * Any trie *)
(** The functions of the API that recurse need no more nested calls than the trie has levels, subsets and diffs one more. With less room they
    come to the same end or exhaust the stack, nothing else. *)
Theorem C76_any : forall keccak pr t k v ks,
  runs (levels t) (fun d => get_lim d pr t k) (trie_get pr t k) /\
  runs (levels t) (fun d => insert_lim d pr t k v) (trie_insert pr t k v) /\
  runs (levels t) (fun d => delete_lim d pr t k) (trie_delete pr t k) /\
  runs (levels t) (fun d => hash_lim keccak d pr t) (hash_trie keccak pr t) /\
  runs (levels t) (fun d => query_lim d pr t k) (get_path_from_query pr t k) /\
  (forall nm, runs (levels t) (fun d => get_trie_stats_lim d pr t nm) (get_trie_stats_common pr t nm)) /\
  (forall u, runs (Nat.min (levels t) (levels u)) (fun d => eq_lim d t u) (Ok (node_eqb t u))) /\
  runs (S (levels t)) (fun d => subset_lim keccak d pr t ks) (create_trie_subset keccak pr t ks) /\
  (forall u, runs (S (Nat.max (levels t) (levels u))) (fun d => create_diff_lim keccak pr d t u) (create_diff keccak pr t u)).
Proof.
  intros keccak pr t k v ks. repeat split; intros; apply ok_runs; intros d.
  - apply get_ok.
  - apply insert_ok.
  - apply delete_ok.
  - apply hash_ok.
  - unfold query_lim, get_path_from_query. apply ok_bind; [apply path_ok|]. repeat stp.
  - unfold get_trie_stats_lim, get_trie_stats_common. apply ok_bind; [apply stats_ok|]. repeat stp.
  - apply eq_ok.
  - apply subset_ok.
  - unfold create_diff_lim, create_diff. apply ok_bind; [apply find_ok|]. repeat stp.
Qed.
Print Assumptions C76_any.
(** Iteration: every round of the loop, from the first to the last. *)
Theorem C76_items : forall pr t n st, after_rounds n pr (items_iter t) = Some st -> runs (levels t) (fun d => next_step_lim d pr st) (next_step pr st).
Proof.
  intros pr t n st E. apply ok_runs. intros d. apply next_step_ok.
  assert (F : Forall (held (levels t)) (trie_stack (items_iter t))) by (cbn [items_iter trie_stack]; constructor; [cbn [held]; lia|constructor]).
  revert E F. generalize (items_iter t). induction n as [|n IH]; intros s E F; cbn [after_rounds] in E; [injection E as <-; exact F|].
  destruct (next_step pr s) as [[[s' it]|]|] eqn:N; [|discriminate..]. eapply IH; [exact E|]. eapply next_step_held; eassumption.
Qed.
Print Assumptions C76_items.
(** Hashing needs exactly as many as there are levels. *)
Theorem C76_hash_exact : forall keccak pr t h, hash_trie keccak pr t = Ok h -> needs (levels t) (fun d => hash_lim keccak d pr t) (Ok h).
Proof.
  intros keccak pr t h E d. pose proof (hash_ok keccak pr d t) as H. rewrite E in H. split; intros L.
  - destruct H as [H|[_ N]]; [exact H|contradiction].
  - destruct H as [H|[H _]]; [|exact H]. apply hash_needs in H. lia.
Qed.
Print Assumptions C76_hash_exact.
(** Hashing everything out of a trie needs exactly one more. *)
Theorem C76_subset_exact : forall keccak pr t s, create_trie_subset keccak pr t [] = Ok (ROk s) -> needs (S (levels t)) (fun d => subset_lim keccak d pr t []) (Ok (ROk s)).
Proof.
  intros keccak pr t s E d. pose proof (subset_ok keccak pr d t []) as H. rewrite E in H. split; intros L.
  - destruct H as [H|[_ N]]; [exact H|contradiction].
  - destruct H as [H|[H _]]; [|exact H]. exfalso. unfold subset_lim in H. destruct (track_ok d t) as [T|[T _]]; rewrite T in H; [|discriminate].
    cbn [lbind mark_all_lim lret] in H. destruct d as [|d]; [discriminate|]. cbn [create_lim] in H.
    assert (Q : touched (track t) = false /\ underlying (track t) = t) by (destruct t; split; reflexivity). destruct Q as [Q1 Q2]. rewrite Q1, Q2 in H.
    destruct (encode_lim keccak d pr t) as [[e|]|] eqn:En; [|discriminate..]. apply encode_needs in En. lia.
Qed.
Print Assumptions C76_subset_exact.

(** * Tries built by the API *)
Lemma wf_levels : forall t L, wf L t -> shape t -> (levels t <= S L)%nat.
Proof.
  induction t as [|h|ch v IH|n c IH|n v] using node_ind'; intros L W S; inversion W; inversion S; subst; cbn [levels]; try lia.
  - enough (fold_right Nat.max 0%nat (map levels ch) <= Datatypes.S L0)%nat by lia.
    match goal with H : Forall (wf L0) ch |- _ => rename H into Fw end. match goal with H : Forall shape ch |- _ => rename H into Fs end. clear - IH Fw Fs.
    induction ch as [|c ch IHc]; cbn [map fold_right]; [lia|]. inversion IH; inversion Fw; inversion Fs; subst. apply Nat.max_lub; auto.
  - match goal with H : wf L0 c |- _ => apply IH in H; [|assumption] end.
    destruct l as [|x l]; [exfalso|cbn [length]; lia]. match goal with H : nseq _ <> [] |- _ => apply H; reflexivity end.
Qed.
(** However many entries they have. *)
Theorem C76_levels : forall pr t, reach pr t -> (levels t <= 65)%nat.
Proof. intros pr t R. destruct (reach_valid pr t R) as [W S]. exact (wf_levels t 64 W S). Qed.
Print Assumptions C76_levels.
Theorem C76_api : forall keccak pr pr' t k v ks, reach pr' t ->
  runs 65 (fun d => get_lim d pr t k) (trie_get pr t k) /\
  runs 65 (fun d => insert_lim d pr t k v) (trie_insert pr t k v) /\
  runs 65 (fun d => delete_lim d pr t k) (trie_delete pr t k) /\
  runs 65 (fun d => hash_lim keccak d pr t) (hash_trie keccak pr t) /\
  runs 65 (fun d => query_lim d pr t k) (get_path_from_query pr t k) /\
  (forall nm, runs 65 (fun d => get_trie_stats_lim d pr t nm) (get_trie_stats_common pr t nm)) /\
  (forall u, runs 65 (fun d => eq_lim d t u) (Ok (node_eqb t u)) /\ runs 65 (fun d => eq_lim d u t) (Ok (node_eqb u t))) /\
  (forall n st, after_rounds n pr (items_iter t) = Some st -> runs 65 (fun d => next_step_lim d pr st) (next_step pr st)) /\
  runs 66 (fun d => subset_lim keccak d pr t ks) (create_trie_subset keccak pr t ks) /\
  (forall u, reach pr' u -> runs 66 (fun d => create_diff_lim keccak pr d t u) (create_diff keccak pr t u)).
Proof.
  intros keccak pr pr' t k v ks R. pose proof (C76_levels pr' t R) as L. destruct (C76_any keccak pr t k v ks) as (A1 & A2 & A3 & A4 & A5 & A6 & A7 & A8 & A9).
  repeat split; intros; try (eapply runs_more; [eauto|]; try exact L; lia).
  - eapply runs_more; [apply (C76_any keccak pr u k v ks)|]. lia.
  - eapply runs_more; [eapply C76_items; eassumption|exact L].
  - eapply runs_more; [apply A9|]. pose proof (C76_levels pr' u H). lia.
Qed.
Print Assumptions C76_api.
(** Building a trie, however long the list. *)
Theorem C76_build : forall pr l, Forall (fun e => kwf (fst e) /\ proper (snd e)) l -> runs 65 (fun d => from_iter_lim d pr l) (from_iter pr l).
Proof.
  intros pr l F. apply ok_runs. intros d. unfold from_iter_lim, from_iter. assert (R : reach pr Empty) by apply reach_new. revert R. generalize Empty.
  induction F as [|[k v] l [K P] F IH]; intros t R; cbn [extend_lim trie_extend]; [apply ok_ret|]. apply ok_bind.
  - eapply ok_weak; [|apply insert_ok]. pose proof (C76_levels pr t R). lia.
  - intros t' E. apply IH. eapply reach_insert; eassumption.
Qed.
Print Assumptions C76_build.
(** It ends exactly if each of its inserts does, with no more room than a single insert has. *)
Theorem C76_build_steps : forall d pr l k v,
  from_iter_lim d pr [] = Some (Ok Empty) /\
  from_iter_lim d pr (l ++ [(k, v)]) = match from_iter_lim d pr l with Some (Ok t) => insert_lim d pr t k v | x => x end.
Proof.
  intros d pr l k v. split; [reflexivity|]. unfold from_iter_lim. generalize Empty. induction l as [|[k' v'] l IH]; intros t; cbn [app extend_lim].
  - unfold lbind, lret. destruct (insert_lim d pr t k v) as [[t'|]|]; reflexivity.
  - unfold lbind at 1 2. destruct (insert_lim d pr t k' v') as [[t'|]|]; [apply IH|reflexivity..].
Qed.
Print Assumptions C76_build_steps.
(** 65 levels occur. *)
Fixpoint forks (n : nat) : list (nibbles * val_or_hash) :=
  match n with O => [(enc (repeat 1 64), Val [1])] | S n' => (enc (repeat 1 n' ++ [2]), Val [1]) :: forks n' end.
Definition forked : node := Eval vm_compute in match from_iter Debug (forks 64) with Ok t => t | Panic => Empty end.
Theorem C76_sharp : forall pr, Forall (fun e => kwf (fst e) /\ proper (snd e)) (forks 64) /\ exists t, from_iter pr (forks 64) = Ok t /\ reach pr t /\ levels t = 65%nat.
Proof.
  intros pr. assert (F : Forall (fun e => kwf (fst e) /\ proper (snd e)) (forks 64)).
  { assert (G : forall n, (n <= 64)%nat -> Forall (fun e => kwf (fst e) /\ proper (snd e)) (forks n)); [|apply (G 64%nat); lia].
    assert (H1 : forall n, hexl (repeat 1 n)) by (intros n; apply Forall_forall; intros x I; apply repeat_spec in I; subst x; reflexivity).
    induction n as [|n IH]; intros L; cbn [forks].
    - constructor; [|constructor]. cbn [fst snd]. split; [|cbn; discriminate]. apply kwf_enc; [apply H1|rewrite repeat_length; lia].
    - constructor; [|apply IH; lia]. cbn [fst snd]. split; [|cbn; discriminate]. apply kwf_enc; [apply hexl_app; split; [apply H1|repeat constructor]|].
      rewrite app_length, repeat_length. cbn [length]. lia. }
  split; [exact F|]. exists forked. assert (E : from_iter pr (forks 64) = Ok forked) by (destruct pr; vm_compute; reflexivity).
  split; [exact E|]. split; [eapply extend_reach; [apply reach_new|exact F|exact E]|vm_compute; reflexivity].
Qed.
Print Assumptions C76_sharp.

(** * Tries received in a binary format *)
(** No bound: 23 bytes for each level are enough to exhaust a stack of any size, whatever is done with the trie. *)
Fixpoint chain (n : nat) : node := match n with O => Empty | S n' => Extension (Nib 0 0) (chain n') end.
Lemma chain_levels n : levels (chain n) = S n.
Proof. induction n as [|n IH]; cbn [chain levels]; [reflexivity|]. rewrite IH. reflexivity. Qed.
Lemma chain_type n : node_type (chain n) /\ vecs (chain n).
Proof. induction n as [|n [T V]]; cbn [chain vecs]; split; try exact Logic.I; try exact V; constructor; [split; reflexivity|exact T]. Qed.
Lemma chain_save n : save (chain (S n)) = [3; 0; 0; 0; 0; 0; 0; 0; 0; 0; 0; 0; 3; 0; 0; 0; 0; 0; 0; 0; 48; 120; 48] ++ save (chain n).
Proof.
  unfold save. cbn [chain]. cbn [Serde.serialize binary flat_map map snd]. change (le_bytes 4 (position _)) with [3; 0; 0; 0].
  change (binary (Serde.ser_nibbles (Nib 0 0))) with [0; 0; 0; 0; 0; 0; 0; 0; 3; 0; 0; 0; 0; 0; 0; 0; 48; 120; 48]. rewrite app_nil_r. reflexivity.
Qed.
Lemma chain_length n : length (save (chain n)) = (23 * n + 4)%nat /\ u8s (save (chain n)).
Proof.
  induction n as [|n [L U]]; [split; [reflexivity|repeat constructor]|]. rewrite chain_save. split; [rewrite app_length, L; cbn [length]; lia|].
  apply Forall_app. split; [repeat constructor|exact U].
Qed.
Lemma pop0 pr k : kwf k -> pop_nibbles_front pr k 0 = Ok (Nib 0 0, k) /\ truncate_n_nibbles_front pr k 0 = Ok k /\ identical_up_to_smallest pr (Nib 0 0) k = Ok true /\
  get_pre_and_postfixes pr (Nib 0 0) k = Ok (PrePost (Nib 0 0) (Nib 0 0) k).
Proof.
  intros [K1 K2]. pose proof (enc_nseq k K1) as E. assert (H : hexl (nseq k)) by apply nseq_hexl. assert (L : (length (nseq k) <= 127)%nat) by (rewrite nseq_length; lia).
  rewrite <- E. change (Nib 0 0) with (enc []). change 0 with (N.of_nat 0). rewrite pop_nibbles_front_enc, truncate_front_enc by (assumption || lia). cbn [firstn skipn].
  split; [reflexivity|]. split; [reflexivity|]. split.
  - rewrite identical_enc; try assumption; try (constructor); try lia; try (cbn [length]; lia).
  - apply (pre_post_enc pr [] [] (nseq k) 0 0); cbn [app]; try assumption; [constructor|cbn [length]; lia|left; reflexivity].
Qed.
Theorem C76_received : forall d, exists bs t, (length bs = 23 * d + 4)%nat /\ u8s bs /\ load bs = Some t /\
  forall keccak pr k, kwf k ->
    get_lim d pr t k = None /\ (forall v, insert_lim d pr t k v = None) /\ delete_lim d pr t k = None /\ hash_lim keccak d pr t = None /\
    (forall ks, subset_lim keccak d pr t ks = None) /\ eq_lim d t t = None.
Proof.
  intros d. exists (save (chain d)), (chain d). destruct (chain_type d) as [T V]. split; [apply chain_length|]. split; [apply chain_length|]. split.
  { unfold load. rewrite <- (app_nil_r (save _)), C74_roundtrip by assumption. reflexivity. }
  intros keccak pr k K. destruct (pop0 pr k K) as (P1 & P2 & P3 & P4). repeat split.
  - induction d as [|d IH]; [reflexivity|]. cbn [chain get_lim count]. cbn [flat lbind]. rewrite P1. cbn [flat lbind].
    change (identical_up_to_smallest pr (Nib 0 0) (Nib 0 0)) with (@Ok bool true). cbn [lbind]. apply IH; apply chain_type.
  - intros v. induction d as [|d IH]; [reflexivity|]. cbn [chain insert_lim count]. rewrite P4. cbn [flat lbind]. rewrite P3. cbn [flat lbind]. rewrite P2. cbn [flat lbind].
    rewrite IH by apply chain_type. reflexivity.
  - unfold delete_lim. enough (E : delete_intern_lim d pr (chain d) k = None) by (rewrite E; reflexivity). induction d as [|d IH]; [reflexivity|].
    cbn [chain delete_intern_lim count]. rewrite P3. cbn [flat lbind]. rewrite P2. cbn [flat lbind]. rewrite IH by apply chain_type. reflexivity.
  - unfold hash_lim. enough (E : encode_lim keccak d pr (chain d) = None) by (rewrite E; reflexivity). clear. induction d as [|d IH]; [reflexivity|].
    cbn [chain encode_lim]. destruct pr; (change (to_hex_prefix_encoding _ (Nib 0 0) false) with (@Ok (list N) [0]); cbn [flat lbind]; rewrite IH; reflexivity).
  - intros ks. unfold subset_lim. enough (E : track_lim d (chain d) = None) by (rewrite E; reflexivity). clear. induction d as [|d IH]; [reflexivity|]. cbn [chain track_lim]. rewrite IH. reflexivity.
  - clear. induction d as [|d IH]; [reflexivity|]. cbn [chain eq_lim]. change (nib_eqb (Nib 0 0) (Nib 0 0)) with true. exact IH.
Qed.
Print Assumptions C76_received.

(** * Tries received as JSON text *)
(** serde_json's limit on nesting bounds the levels, whoever wrote the text. *)
Lemma parts_nesting d x : In x (parts d) -> nesting x < nesting d.
Proof.
  destruct d as [|?|?|?|l|l|]; cbn [parts]; intros I; try contradiction; cbn [nesting].
  - pose proof (max_in nesting l x I). lia.
  - apply in_map_iff in I. destruct I as (e & <- & I). pose proof (max_in (fun e => nesting (snd e)) l e I). lia.
Qed.
Lemma read_levels : forall n d t, (N.to_nat (nesting d) <= n)%nat -> read_trie d = Some t -> 2 * N.of_nat (levels t) <= nesting d + 2.
Proof.
  induction n as [n IH] using lt_wf_ind. intros d t Ln E. destruct d as [|?|?|k|l|l|]; try discriminate.
  - destruct k as [[]|]; try discriminate. injection E as <-. cbn. lia.
  - destruct l as [|[[k|] c] [|e l]]; try discriminate; try (destruct k; try discriminate E; destruct c; discriminate E).
    assert (Ic : nesting c < nesting (JObject [(KName k, c)])) by (apply parts_nesting; left; reflexivity).
    destruct k; try discriminate.
    + cbn in E. destruct c; try discriminate. injection E as <-. cbn. lia.
    + cbn [read_trie] in E. destruct (read_h256 c); [|discriminate]. injection E as <-. cbn [levels]. lia.
    + rewrite read_branch in E. destruct (read_two _ _ _ _ _ c) as [[ch v]|] eqn:E2; [|discriminate]. injection E as <-. apply two_parts in E2; [|reflexivity].
      destruct E2 as (x & y & Ix & _ & Ex & _). unfold kids16 in Ex. destruct x; try discriminate. destruct (sixteen l); [|discriminate]. cbn [levels]. apply parts_nesting in Ix.
      enough (G : 2 * N.of_nat (fold_right Nat.max 0%nat (map levels ch)) <= nesting (JArray l) + 1) by lia.
      assert (F : forall u, In u ch -> 2 * N.of_nat (levels u) <= nesting (JArray l) + 1).
      { intros u I. destruct (read_all_in _ _ _ Ex u I) as (d' & J & Eu). apply parts_nesting with (d := JArray l) in J. apply (IH (N.to_nat (nesting d'))) in Eu; lia. }
      clear - F. induction ch as [|u ch IHc]; cbn [map fold_right]; [lia|]. pose proof (F u (or_introl eq_refl)).
      assert (2 * N.of_nat (fold_right Nat.max 0%nat (map levels ch)) <= nesting (JArray l) + 1) by (apply IHc; intros w I; apply F; right; exact I). lia.
    + rewrite read_extension in E. destruct (read_two _ _ _ _ _ c) as [[k u]|] eqn:E2; [|discriminate]. injection E as <-. apply two_parts in E2; [|reflexivity].
      destruct E2 as (x & y & _ & Iy & _ & Ey). apply parts_nesting in Iy. apply (IH (N.to_nat (nesting y))) in Ey; cbn [levels]; lia.
    + rewrite read_leaf in E. destruct (read_two _ _ _ _ _ c) as [[k u]|] eqn:E2; [|discriminate]. injection E as <-. cbn [levels]. lia.
Qed.
Theorem C76_json : forall s t, load_text default_limit s = Some t -> (levels t <= 64)%nat.
Proof.
  intros s t E. apply C62_from_str in E. destruct E as (d & _ & E). unfold from_str, within_limit in E. destruct (N.ltb_spec (nesting d) 128); [|discriminate].
  apply (read_levels _ d t (le_n _)) in E. lia.
Qed.
Print Assumptions C76_json.

(** * Examples *)
(** Five levels; with less room: the short way still ends, the longest one and hashing do not. *)
Definition stacked : node := Eval vm_compute in
  match from_iter Debug [(K 4 0x1234, Val [1]); (K 4 0x1256, Val [2]); (K 4 0x1257, Val [3]); (K 2 0x20, Val [4])] with Ok t => t | Panic => Empty end.
Example C76_example : reach Debug stacked /\ levels stacked = 5%nat /\
  get_lim 2 Debug stacked (K 2 0x20) = Some (Ok (Some [4])) /\ get_lim 4 Debug stacked (K 4 0x1257) = None /\ get_lim 5 Debug stacked (K 4 0x1257) = Some (Ok (Some [3])) /\
  insert_lim 1 Debug stacked (K 1 0x3) (Val [9]) = None /\ eq_lim 2 stacked (Leaf (K 1 2) [1]) = Some (Ok false) /\
  (exists h, hash_trie (fun b => firstn 32 (b ++ repeat 0 32)) Debug stacked = Ok h) /\
  hash_lim (fun b => firstn 32 (b ++ repeat 0 32)) 4 Debug stacked = None /\
  (exists st, after_rounds 2 Debug (items_iter stacked) = Some st).
Proof.
  split; [|split; [reflexivity|]; repeat split; try (vm_compute; reflexivity)].
  - eapply (extend_reach Debug [(K 4 0x1234, Val [1]); (K 4 0x1256, Val [2]); (K 4 0x1257, Val [3]); (K 2 0x20, Val [4])] Empty); [apply reach_new| |vm_compute; reflexivity].
    repeat constructor; cbn; try kwf_tac; try discriminate; vm_compute; (reflexivity || discriminate || auto).
  - vm_compute. eexists. reflexivity.
  - vm_compute. eexists. reflexivity.
Qed.
Example C76_json_example : exists s, load_text default_limit s = Some stacked.
Proof. exists (to_string (serialize stacked)). vm_compute. reflexivity. Qed.
