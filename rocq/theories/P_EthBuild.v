(** Property C69, continued: building the tries of a given state at once. *)
From Verif Require Import Base Nibbles NibblesSpec NibblesFacts Trie TrieSpec TrieHistSpec TrieFacts TrieHist Hashing YellowPaper RlpFacts HashSpec Keccak P_Trie P_Hash
  TrieUnique EthSpec EthFacts P_Eth EthBuildSpec.
Open Scope N_scope.

Lemma assign_last {A} k (x : A) l : ~ In k (map fst l) -> assign k x l = l ++ [(k, x)].
Proof.
  induction l as [|[j y] l IH]; intros H; [reflexivity|]. cbn [assign map fst In app] in *. destruct (key_eqb_spec j k) as [->|N]; [exfalso; apply H; left; reflexivity|].
  rewrite IH by (intros Hi; apply H; right; exact Hi). reflexivity.
Qed.
Lemma keeps_extend {A} keccak S (f : A -> list N) pr l : hash32 keccak -> no_clash keccak S -> forall t l0, keeps keccak S f t l0 ->
  incl (map fst l) S -> NoDup (map fst (l0 ++ l)) -> Forall (fun e => f (snd e) <> [] /\ bytesl (f (snd e)) /\ len (f (snd e)) < 2147483648) l ->
  exists t', trie_extend pr t (map (fun e => (from_h256_be (keccak (fst e)), Val (f (snd e)))) l) = Ok t' /\ keeps keccak S f t' (l0 ++ l).
Proof.
  intros H32 NC. induction l as [|[a x] l IH]; intros t l0 K IS ND F; cbn [map trie_extend].
  - exists t. rewrite app_nil_r. auto.
  - inversion F as [|? ? (V1 & V2 & V3) F']; subst. cbn [fst snd] in *. destruct (keeps_insert keccak H32 S NC f pr t l0 a x K ltac:(apply IS; left; reflexivity) V1 V2 V3) as (t1 & E & K1).
    rewrite E. cbn [bind]. rewrite assign_last in K1; [|rewrite map_app in ND; cbn [map fst] in ND; apply NoDup_remove_2 in ND; intros H; apply ND, in_or_app; left; exact H].
    replace (l0 ++ (a, x) :: l) with ((l0 ++ [(a, x)]) ++ l) in * by (rewrite <- app_assoc; reflexivity).
    apply IH; [exact K1|intros z Hz; apply IS; right; exact Hz|exact ND|exact F'].
Qed.
Lemma keeps_from_iter {A} keccak S (f : A -> list N) pr l : hash32 keccak -> no_clash keccak S -> incl (map fst l) S -> NoDup (map fst l) ->
  Forall (fun e => f (snd e) <> [] /\ bytesl (f (snd e)) /\ len (f (snd e)) < 2147483648) l ->
  exists t, from_iter pr (map (fun e => (from_h256_be (keccak (fst e)), Val (f (snd e)))) l) = Ok t /\ keeps keccak S f t l.
Proof. intros H32 NC IS ND F. apply (keeps_extend keccak S f pr l H32 NC Empty []); auto. apply keeps_empty. Qed.

Lemma account_value keccak x : hash32 keccak -> account_good x -> account_rlp keccak x <> [] /\ bytesl (account_rlp keccak x) /\ len (account_rlp keccak x) < 2147483648.
Proof.
  intros H32 (A1 & A2 & A3 & A4 & _). destruct (yp_root_ok keccak H32 (map (fun e => (key keccak (fst e), word_rlp (snd e))) (slots x))) as [R1 R2].
  apply entry_ok; auto. unfold len. rewrite A4. reflexivity.
Qed.

Lemma build_entries_ok keccak S pr w : hash32 keccak -> no_clash keccak S -> incl (world_names w) S -> Forall (fun e => account_good (snd e)) w ->
  exists ts, build_entries keccak pr w = Ok (map (fun e => (from_h256_be (keccak (fst e)), Val (account_rlp keccak (snd e)))) w, ts) /\
    Forall2 (fun e e' => fst e = fst e' /\ keeps keccak S word_rlp (snd e) (slots (snd e'))) ts w.
Proof.
  intros H32 NC IS F. induction F as [|[a x] w G F IH]; cbn [build_entries map]; [eauto|]. cbn [snd] in G.
  destruct IH as (ts & E & F2).
  { intros z Hz. apply IS. unfold world_names in *. cbn [map flat_map fst snd]. apply in_app_or in Hz. cbn [app]. right. apply in_or_app.
    destruct Hz as [Hz|Hz]; [left; exact Hz|right; apply in_or_app; right; exact Hz]. }
  destruct G as (A1 & A2 & A3 & A4 & A5 & A6).
  destruct (keeps_from_iter keccak S word_rlp pr (slots x) H32 NC) as (t & Et & Kt).
  { intros z Hz. apply IS. unfold world_names. cbn [map flat_map fst snd]. apply in_or_app. right. apply in_or_app. left. exact Hz. }
  { exact A5. }
  { eapply Forall_impl; [|exact A6]. intros e He. apply word_ok, He. }
  unfold build_storage. rewrite Et. cbn [bind]. rewrite (keeps_hash keccak H32 S NC word_rlp pr _ _ Kt). cbn [bind]. rewrite E. cbn [bind].
  eexists. split; [reflexivity|]. constructor; [split; [reflexivity|exact Kt]|exact F2].
Qed.

Lemma build_ok keccak S pr w : hash32 keccak -> no_clash keccak S -> incl (world_names w) S -> world_good w ->
  exists t ts, build keccak pr w = Ok (t, ts) /\ keeps keccak S (account_rlp keccak) t w /\
    Forall2 (fun e e' => fst e = fst e' /\ keeps keccak S word_rlp (snd e) (slots (snd e'))) ts w.
Proof.
  intros H32 NC IS [ND F]. destruct (build_entries_ok keccak S pr w H32 NC IS F) as (ts & E & F2). unfold build. rewrite E. cbn [bind].
  destruct (keeps_from_iter keccak S (account_rlp keccak) pr w H32 NC) as (t & Et & Kt).
  { intros z Hz. apply IS, in_or_app. left. exact Hz. }
  { exact ND. }
  { eapply Forall_impl; [|exact F]. intros e He. apply account_value; assumption. }
  rewrite Et. cbn [bind]. eauto.
Qed.

(** For every state, the tries that [from_iter] builds have the roots of the Yellow Paper, and give the entries back. *)
Theorem C69_build : forall keccak pr w,
  hash32 keccak -> no_clash keccak (world_names w) -> world_good w ->
  exists t ts, build keccak pr w = Ok (t, ts) /\ hash_trie keccak pr t = Ok (state_root keccak w) /\
    Forall2 (fun e e' => fst e = fst e' /\ hash_trie keccak pr (snd e) = Ok (storage_root keccak (slots (snd e')))) ts w /\
    (forall a, In a (world_names w) -> trie_get pr t (from_h256_be (keccak a)) = Ok (option_map (account_rlp keccak) (find a w))).
Proof.
  intros keccak pr w H32 NC G. destruct (build_ok keccak (world_names w) pr w H32 NC (incl_refl _) G) as (t & ts & E & K & F). exists t, ts.
  split; [exact E|]. split; [exact (keeps_hash keccak H32 _ NC _ pr _ _ K)|]. split; [|intros a Ha; apply (keeps_get keccak H32 _ _ pr _ _ _ K Ha)].
  clear - F H32 NC. remember (world_names w) as S eqn:ES. clear ES. induction F as [|e e' l l' [E K] F IH]; constructor; [|exact IH]. split; [exact E|].
  exact (keeps_hash keccak H32 _ NC _ pr _ _ K).
Qed.
Print Assumptions C69_build.

Lemma keeps_unique {A} keccak S (f : A -> list N) t t' l : no_clash keccak S -> keeps keccak S f t l -> keeps keccak S f t' l -> t = t'.
Proof.
  intros NC (_ & IS & _ & m & (W & C & H & _) & M1 & M2) (_ & _ & _ & m' & (W' & C' & H' & _) & M1' & M2').
  assert (E : forall k, m k = m' k).
  { intros k. destruct (m k) as [v|] eqn:Mk.
    - destruct (M2 k) as (a & Ha & ->); [congruence|]. rewrite M1' by (apply IS, Ha). rewrite <- Mk. apply M1, IS, Ha.
    - destruct (m' k) as [v|] eqn:Mk'; [|reflexivity]. destruct (M2' k) as (a & Ha & ->); [congruence|]. rewrite M1' in Mk' by (apply IS, Ha). rewrite M1 in Mk by (apply IS, Ha). congruence. }
  apply (canon_unique t 64); auto. intros k. rewrite H, H', E. reflexivity.
Qed.

(** However a program came to a state, its tries are the ones that are built from that state at once: the state trie and all storage tries are equal. *)
Theorem C69_rebuild : forall keccak pr pr' ops w xs c,
  hash32 keccak -> no_clash keccak (names ops) -> Forall world_op_ok ops -> world_run keccak [] ops = (w, xs) -> client_run keccak pr new_client ops = Ok (c, xs) ->
  build keccak pr' w = Ok (state c, map (fun e => (fst e, storage (snd e))) (accounts c)).
Proof.
  intros keccak pr pr' ops w xs c H32 NC O E R.
  destruct (run_ok keccak pr (names ops) ops H32 NC (incl_refl _) O new_client [] (new_ok keccak _)) as (c' & R' & KS & F).
  rewrite E in *. cbn [fst snd] in *. rewrite R in R'. injection R' as <-.
  assert (IS : incl (world_names w) (names ops)).
  { intros z Hz. apply in_app_or in Hz. destruct Hz as [Hz|Hz]; [apply KS, Hz|]. apply in_flat_map in Hz. destruct Hz as (e' & He & Hz).
    clear - F He Hz. induction F as [|d d' l l' (_ & _ & _ & _ & KT & _) F IH]; [contradiction|]. destruct He as [->|He]; [apply KT, Hz|auto]. }
  assert (G : world_good w).
  { split; [apply KS|]. clear - F. induction F as [|d d' l l' (_ & _ & _ & _ & KT & (A1 & A2 & A3 & A4 & A5)) F IH]; constructor; [|exact IH].
    do 3 (split; [assumption|]). split; [unfold len in A4; lia|]. split; [apply KT|exact A5]. }
  destruct (build_ok keccak (names ops) pr' w H32 NC IS G) as (t & ts & Eb & Kt & F2). rewrite Eb. f_equal. f_equal.
  - exact (keeps_unique keccak _ _ _ _ _ NC Kt KS).
  - clear - F F2 NC. revert F2. revert ts. induction F as [|d d' l l' (E0 & _ & _ & _ & KT & _) F IH]; intros ts F2; inversion F2 as [|e ? ts' ? [E1 K1] F3]; subst; cbn [map]; [reflexivity|].
    f_equal; [|apply IH, F3]. destruct e as [a t]. cbn [fst snd] in *. rewrite E0, <- E1. f_equal. exact (keeps_unique keccak _ _ _ _ _ NC K1 KT).
Qed.
Print Assumptions C69_rebuild.

Definition ex_world : world := [(ex_address 1, Account 0 1000 ex_code []); (ex_address 2, Account 8 5 ex_code [(ex_slot 1, 1); (ex_slot 0, 0xdeadbeef)])].
Example C69_build_example : hash32 keccak256 /\ no_clash keccak256 (world_names ex_world) /\ world_good ex_world.
Proof.
  split; [exact keccak256_hash32|]. split; [clash|]. 
  assert (B : bytesl ex_code) by (apply Forall_forall; intros z Hz; apply repeat_spec in Hz; subst z; lia).
  split; [repeat constructor; cbn; intuition discriminate|]. repeat constructor; cbn [snd nonce balance code_hash slots fst]; try lia; try exact B; try (cbn; intuition discriminate).
Qed.
