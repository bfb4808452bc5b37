(** Property C70: a part of the Ethereum state is enough to run a program on it. *)
From Verif Require Import Base Nibbles NibblesSpec NibblesFacts Trie TrieSpec TrieHistSpec TrieFacts TrieHist Hashing YellowPaper HashSpec Keccak HideSpec Subset SubsetSpec ReplaySpec ReplayFacts NeighbourSpec
  P_Trie P_Hash P_Subset P_Replay P_Neighbour EthSpec EthFacts P_Eth.
Open Scope N_scope.

Lemma find_names {A} (l : list (list N * A)) k : find k l <> None <-> In k (map fst l).
Proof. rewrite <- find_name. destruct (find k l); split; [eauto|discriminate|contradiction|intros [x E]; discriminate]. Qed.

Section Excerpt.
Variable keccak : list N -> list N.
Hypothesis H32 : hash32 keccak.
Variable pr : profile.
Variable ns : list (list N).
Notation ks := (name_keys keccak ns).

Lemma ks_kwf : Forall kwf ks.
Proof. apply Forall_map, Forall_forall. intros a _. apply (key_ok keccak H32 a). Qed.
Lemma ks_len k : In k ks -> length (nseq k) = 64%nat.
Proof. intros Hin. apply in_map_iff in Hin as (a & <- & _). destruct (key_ok keccak H32 a) as (_ & _ & -> & F). exact F. Qed.
Lemma ks_in a : In a ns -> In (from_h256_be (keccak a)) ks.
Proof. intros Hin. apply in_map_iff. eauto. Qed.

Definition sim (t s : node) : Prop := like 64 ks t s /\ fits t /\ hides keccak t s.
Lemma sim_op t s o t' x : sim t s -> op_on ks o -> match o with ODelete k => held_neighbour t ks (nseq k) | _ => True end -> trie_op pr t o = Ok (t', x) ->
  exists s', trie_op pr s o = Ok (s', x) /\ sim t' s'.
Proof.
  intros (L & Ft & H) O ND E. destruct (like_op 64 ks ks_kwf ks_len pr t s o t' x L O E) as (s' & E' & L'). exists s'. split; [exact E'|]. split; [exact L'|].
  assert (Et : trie_ops pr t [o] = Ok (t', [x])) by (cbn [trie_ops]; rewrite E; reflexivity).
  assert (Es : trie_ops pr s [o] = Ok (s', [x])) by (cbn [trie_ops]; rewrite E'; reflexivity).
  assert (F : Forall (op_on ks) [o]) by (constructor; [exact O|constructor]). split.
  - apply (ops_fits pr [o] t t' [x] Ft); [constructor; [exact (op_value_ok ks o O)|constructor]|exact Et].
  - refine (hides_ops keccak pr 64 ks [o] H32 ks_kwf ks_len t s t' s' [x] [x] L Ft H F _ Et Es).
    apply (held_merges keccak pr 64 ks [o] H32 ks_kwf ks_len t s L Ft H F). split; [exact ND|]. intros. exact Logic.I.
Qed.
Lemma sim_insert t s a v t' : sim t s -> In a ns -> v <> [] -> bytesl v -> len v < 2147483648 -> trie_insert pr t (from_h256_be (keccak a)) (Val v) = Ok t' ->
  exists s', trie_insert pr s (from_h256_be (keccak a)) (Val v) = Ok s' /\ sim t' s'.
Proof.
  intros S Ha V1 V2 V3 E. destruct (sim_op t s (OInsert (from_h256_be (keccak a)) v) t' ODone S) as (s' & E' & S').
  - split; [apply ks_in, Ha|]. split; auto.
  - exact Logic.I.
  - cbn [trie_op]. rewrite E. reflexivity.
  - cbn [trie_op] in E'. destruct (trie_insert pr s (from_h256_be (keccak a)) (Val v)) as [s1|]; [|discriminate]. cbn [bind] in E'. injection E' as ->. eauto.
Qed.
Lemma keeps_held {A} S (f : A -> list N) t l a : no_clash keccak S -> keeps keccak S f t l -> In a S -> has_next keccak l ns a -> held_neighbour t ks (nseq (from_h256_be (keccak a))).
Proof.
  intros NC (ND & IS & _ & m & (_ & _ & H & _) & M1 & M2) Ha N. destruct (key_ok keccak H32 a) as (_ & _ & -> & _).
  assert (T : forall k, stored t k -> exists j, find j l <> None /\ k = key keccak j).
  { intros k Sk. unfold stored in Sk. rewrite H in Sk. destruct (M2 k) as (j & Hj & ->); [destruct (m k); [discriminate|contradiction]|]. exists j. split; [|reflexivity].
    apply find_names, Hj. }
  assert (IN : forall j, find j l <> None -> In j S) by (intros j Hj; apply IS, find_names, Hj).
  destruct N as [N|[N|(b & Hb & Nb & Fb & Mx)]]; [left|right; left|right; right].
  - intros v. rewrite H, (M1 a Ha), N. discriminate.
  - intros k Sk. destruct (T k Sk) as (j & Hj & ->). rewrite (N j Hj). reflexivity.
  - destruct (find b l) as [x|] eqn:Eb; [|contradiction]. assert (Sb : lk t (key keccak b) = Some (Val (f x))) by (rewrite H, (M1 b (IN b ltac:(congruence))), Eb; reflexivity).
    exists (from_h256_be (keccak b)), (f x). destruct (key_ok keccak H32 b) as (_ & _ & -> & _). split; [apply ks_in, Hb|]. split; [exact Sb|]. split; [unfold stored; congruence|]. split.
    + intros E. apply Nb. apply NC; [apply IN; congruence|exact Ha|apply key_inj, E].
    + intros k Sk Nk. destruct (T k Sk) as (j & Hj & ->). apply Mx; [exact Hj|congruence].
Qed.
Lemma sim_delete {A} S (f : A -> list N) l t s a t' w : no_clash keccak S -> keeps keccak S f t l -> In a S -> has_next keccak l ns a -> sim t s -> In a ns ->
  trie_delete pr t (from_h256_be (keccak a)) = Ok (t', w) -> exists s', trie_delete pr s (from_h256_be (keccak a)) = Ok (s', w) /\ sim t' s'.
Proof.
  intros NC K HS N Sm Ha E. destruct (sim_op t s (ODelete (from_h256_be (keccak a))) t' (OValue w) Sm) as (s' & E' & S').
  - apply ks_in, Ha.
  - exact (keeps_held S f t l a NC K HS N).
  - cbn [trie_op]. rewrite E. reflexivity.
  - cbn [trie_op] in E'. destruct (trie_delete pr s (from_h256_be (keccak a))) as [[s1 w1]|]; [|discriminate]. cbn [bind] in E'. injection E' as -> ->. eauto.
Qed.
Lemma sim_get t s a w : sim t s -> In a ns -> trie_get pr t (from_h256_be (keccak a)) = Ok w -> trie_get pr s (from_h256_be (keccak a)) = Ok w.
Proof.
  intros S Ha E. destruct (sim_op t s (OGet (from_h256_be (keccak a))) t (OValue w) S (ks_in a Ha) Logic.I) as (s' & E' & _).
  - cbn [trie_op]. rewrite E. reflexivity.
  - cbn [trie_op] in E'. destruct (trie_get pr s (from_h256_be (keccak a))) as [w'|]; [|discriminate]. cbn [bind] in E'. congruence.
Qed.
Lemma sim_hash t s : sim t s -> hash_trie keccak pr s = hash_trie keccak pr t.
Proof. intros (((W & _) & _) & Ft & H). apply C20_hiding_keeps_root; auto. Qed.
Lemma keeps_fixed {A} S (f : A -> list N) t l : keeps keccak S f t l -> fixed_trie 64 t.
Proof.
  intros (_ & _ & _ & m & (W & C & H & U) & _). split; [exact W|]. split; [exact C|]. split.
  - intros k v E. rewrite H in E. apply (U k). destruct (m k); [discriminate|discriminate E].
  - intros k h E. rewrite H in E. destruct (m k); discriminate E.
Qed.
Lemma sim_refl_empty : sim Empty Empty.
Proof.
  assert (F : fixed_trie 64 Empty) by (apply (keeps_fixed (A := N) [] word_rlp Empty []); apply keeps_empty).
  split; [|split; [exact Logic.I|constructor]]. split; [exact F|]. split; [exact F|]. intros k _. split; [tauto|reflexivity].
Qed.
Lemma sim_subset {A} S (f : A -> list N) t l : keeps keccak S f t l ->
  (exists s, create_trie_subset keccak pr t ks = Ok (ROk s)) /\ forall s, create_trie_subset keccak pr t ks = Ok (ROk s) -> sim t s.
Proof.
  intros K. pose proof (keeps_fixed S f t l K) as Fx. pose proof K as (_ & _ & Ft & _). pose proof Fx as (W & _). split.
  - destruct (C25_fixed_length keccak pr 64 t ks H32 W (le_n _) Ft ks_kwf ltac:(intros k Hk; rewrite (ks_len k Hk); lia)) as [[(k & _ & p & h & E & _) _]|[_ G]]; [|exact G].
    destruct (keeps_hash_free keccak S f t l K p h E).
  - intros s E. split; [exact (subset_like keccak pr 64 t ks s H32 Fx Ft ks_kwf ks_len E)|]. split; [exact Ft|]. exact (subset_hides keccak pr t ks s H32 W Ft E).
Qed.

Definition same_kept (k k' : kept) : Prop :=
  k_nonce k' = k_nonce k /\ k_balance k' = k_balance k /\ k_code k' = k_code k /\ sim (storage k) (storage k').
Definition csim (c p : client) : Prop :=
  sim (state c) (state p) /\
  forall a, In a ns -> match find a (accounts c), find a (accounts p) with Some k, Some k' => same_kept k k' | None, None => True | _, _ => False end.

Lemma write_sim S c w p a k k' x c' : no_clash keccak S -> client_ok keccak S c w -> kept_ok keccak S (a, k) (a, x) -> csim c p -> same_kept k k' -> In a ns ->
  write_account keccak pr c a k = Ok (c', ODone) -> exists p', write_account keccak pr p a k' = Ok (p', ODone) /\ csim c' p'.
Proof.
  intros NC C KO [SS SA] SK Ha E. pose proof SK as (E1 & E2 & E3 & ST). unfold write_account in *. rewrite E1, E2, E3, (sim_hash _ _ ST).
  destruct KO as (_ & F1 & F2 & F3 & KT & (A1 & A2 & A3 & A4 & _)). cbn [fst snd] in *. rewrite F1, F2, F3 in *.
  rewrite (keeps_hash keccak H32 S NC word_rlp pr _ _ KT) in *. cbn [bind] in *.
  destruct (yp_root_ok keccak H32 (map (fun e => (key keccak (fst e), word_rlp (snd e))) (slots x))) as [R1 R2].
  destruct (entry_ok (nonce x) (balance x) _ (code_hash x) A1 A2 R1 R2 A3 A4) as (V1 & V2 & V3).
  destruct (trie_insert pr (state c) _ _) as [t|] eqn:Ei in E; [|discriminate]. cbn [bind] in E. injection E as <-.
  destruct (sim_insert (state c) (state p) a _ t SS Ha V1 V2 V3 Ei) as (s & -> & SS'). cbn [bind]. eexists. split; [reflexivity|]. split; [exact SS'|].
  intros b Hb. cbn [accounts]. rewrite !find_assign. destruct (key_eqb a b); [exact SK|apply SA, Hb].
Qed.

(** Removing from both tries keeps them together. *)
Definition del_ok (t s : node) (a : list N) : Prop := forall t' u, trie_delete pr t (from_h256_be (keccak a)) = Ok (t', u) ->
  exists s', trie_delete pr s (from_h256_be (keccak a)) = Ok (s', u) /\ sim t' s'.
Definition rem_ok (c p : client) (o : world_op) : Prop :=
  match o with
  | Destroy a => del_ok (state c) (state p) a
  | SetSlot a s v => v = 0 -> forall k k', find a (accounts c) = Some k -> find a (accounts p) = Some k' -> del_ok (storage k) (storage k') s
  | _ => True
  end.
Lemma step_gen S c w p o c' x : no_clash keccak S -> incl (op_names o) S -> incl (op_names o) ns -> client_ok keccak S c w -> csim c p -> world_op_ok o -> rem_ok c p o ->
  client_step keccak pr c o = Ok (c', x) -> exists p', client_step keccak pr p o = Ok (p', x) /\ csim c' p'.
Proof.
  intros NC IS IN C CS O RN E. pose proof C as [KS F]. pose proof CS as [SS SA]. unfold op_names, names in IN, IS. cbn [flat_map] in IN, IS. rewrite app_nil_r in IN, IS.
  destruct o as [a n b code|a s v|a|a|a s]; cbn [client_step world_op_ok rem_ok] in *.
  - destruct O as (O1 & O2 & O3 & O4). assert (Ha : In a ns) by (apply IN; left; reflexivity). pose proof (kept_find keccak S _ _ a F) as G. pose proof (SA a Ha) as SK.
    assert (Hx : x = ODone) by (unfold write_account in E; destruct (hash_trie _ _ _); [|discriminate]; cbn [bind] in E; destruct (trie_insert _ _ _ _); [|discriminate]; cbn [bind] in E; congruence). subst x.
    refine (write_sim S c w p a _ _ (Account n b code (match find a w with Some x => slots x | None => [] end)) c' NC C _ CS _ Ha E).
    + apply kept_mk; try assumption.
      * destruct (find a (accounts c)) as [k|], (find a w) as [y|]; try contradiction; [apply G|apply keeps_empty].
      * unfold len. rewrite O4. reflexivity.
      * destruct (find a (accounts c)) as [k|], (find a w) as [y|]; try contradiction; [apply G|constructor].
    + destruct (find a (accounts c)) as [k|], (find a (accounts p)) as [k'|]; try contradiction; (do 3 (split; [reflexivity|])); cbn [storage]; [apply SK|apply sim_refl_empty].
  - assert (Ha : In a ns) by (apply IN; left; reflexivity). assert (Hs : In s ns) by (apply IN; right; left; reflexivity). assert (Hs' : In s S) by (apply IS; right; left; reflexivity).
    pose proof (kept_find keccak S _ _ a F) as G. pose proof (SA a Ha) as SK.
    destruct (find a (accounts c)) as [k|], (find a (accounts p)) as [k'|], (find a w) as [y|]; try contradiction; [|injection E as <- <-; exists p; auto].
    pose proof G as (_ & E1 & E2 & E3 & KT & (A1 & A2 & A3 & A4 & A5)). cbn [fst snd] in *. pose proof SK as (D1 & D2 & D3 & ST).
    destruct (N.eqb_spec v 0) as [->|Nv].
    { destruct (keeps_delete keccak H32 S NC word_rlp pr _ _ s KT Hs') as (t & Et & KT'). rewrite Et in E. cbn [bind] in E.
      destruct (RN eq_refl k k' eq_refl eq_refl t _ Et) as (t' & Et' & ST'). rewrite Et'. cbn [bind].
      assert (Hx : x = ODone) by (unfold write_account in E; destruct (hash_trie _ _ _); [|discriminate]; cbn [bind] in E; destruct (trie_insert _ _ _ _); [|discriminate]; cbn [bind] in E; congruence). subst x.
      refine (write_sim S c w p a _ _ (Account (nonce y) (balance y) (code_hash y) (remove s (slots y))) c' NC C _ CS _ Ha E).
      - rewrite E1, E2, E3. apply kept_mk; try assumption. apply (remove_values (fun v => v < 2 ^ 256)); assumption.
      - split; [exact D1|]. split; [exact D2|]. split; [exact D3|exact ST']. }
    destruct (word_ok v O) as (V1 & V2 & V3).
    destruct (keeps_insert keccak H32 S NC word_rlp pr _ _ s v KT Hs' V1 V2 V3) as (t & Et & KT'). rewrite Et in E. cbn [bind] in E.
    destruct (sim_insert _ _ s _ t ST Hs V1 V2 V3 Et) as (t' & Et' & ST'). rewrite Et'. cbn [bind].
    assert (Hx : x = ODone) by (unfold write_account in E; destruct (hash_trie _ _ _); [|discriminate]; cbn [bind] in E; destruct (trie_insert _ _ _ _); [|discriminate]; cbn [bind] in E; congruence). subst x.
    refine (write_sim S c w p a _ _ (Account (nonce y) (balance y) (code_hash y) (assign s v (slots y))) c' NC C _ CS _ Ha E).
    + rewrite E1, E2, E3. apply kept_mk; try assumption. apply (assign_values (fun v => v < 2 ^ 256)); assumption.
    + split; [exact D1|]. split; [exact D2|]. split; [exact D3|exact ST'].
  - assert (Ha : In a ns) by (apply IN; left; reflexivity). assert (Ha' : In a S) by (apply IS; left; reflexivity).
    destruct (keeps_delete keccak H32 S NC (account_rlp keccak) pr _ _ a KS Ha') as (t & Et & KS'). rewrite Et in E. cbn [bind] in E. injection E as <- <-.
    destruct (RN t _ Et) as (s & -> & SS'). cbn [bind]. eexists. split; [reflexivity|]. split; [exact SS'|].
    intros b Hb. cbn [accounts]. rewrite !find_remove. destruct (key_eqb a b); [exact Logic.I|apply SA, Hb].
  - destruct (trie_get pr (state c) _) as [v|] eqn:Eg in E; [|discriminate]. cbn [bind] in E. injection E as <- <-.
    rewrite (sim_get _ _ a v SS ltac:(apply IN; left; reflexivity) Eg). exists p. auto.
  - assert (Ha : In a ns) by (apply IN; left; reflexivity). pose proof (SA a Ha) as SK.
    destruct (find a (accounts c)) as [k|], (find a (accounts p)) as [k'|]; try contradiction; [|injection E as <- <-; exists p; auto].
    destruct (trie_get pr (storage k) _) as [v|] eqn:Eg in E; [|discriminate]. cbn [bind] in E. injection E as <- <-.
    rewrite (sim_get _ _ s v (proj2 (proj2 (proj2 SK))) ltac:(apply IN; right; left; reflexivity) Eg). exists p. auto.
Qed.
Lemma step_sim S c w p o c' x : no_clash keccak S -> incl (op_names o) S -> incl (op_names o) ns -> client_ok keccak S c w -> csim c p -> world_op_ok o -> removals_covered keccak ns w [o] ->
  client_step keccak pr c o = Ok (c', x) -> exists p', client_step keccak pr p o = Ok (p', x) /\ csim c' p'.
Proof.
  intros NC IS IN C CS O [RN _]. apply (step_gen S c w p o c' x NC IS IN C CS O). pose proof C as [KS F]. pose proof CS as [SS SA]. unfold op_names, names in IN, IS. cbn [flat_map] in IN, IS. rewrite app_nil_r in IN, IS.
  destruct o as [a n b code|a s v|a|a|a s]; cbn [rem_ok]; try exact Logic.I.
  - intros -> k k' Ek Ek'. pose proof (kept_find keccak S _ _ a F) as G. pose proof (SA a ltac:(apply IN; left; reflexivity)) as SK. rewrite Ek in G, SK. rewrite Ek' in SK.
    destruct (find a w) as [y|] eqn:Ey; [|contradiction]. destruct G as (_ & _ & _ & _ & KT & _). cbn [fst snd] in KT. intros t u Et.
    exact (sim_delete S word_rlp _ _ _ s t u NC KT ltac:(apply IS; right; left; reflexivity) (RN eq_refl y eq_refl) (proj2 (proj2 (proj2 SK))) ltac:(apply IN; right; left; reflexivity) Et).
  - intros t u Et. exact (sim_delete S (account_rlp keccak) _ _ _ a t u NC KS ltac:(apply IS; left; reflexivity) RN SS ltac:(apply IN; left; reflexivity) Et).
Qed.
Lemma run_sim S ops : no_clash keccak S -> incl (names ops) S -> incl (names ops) ns -> Forall world_op_ok ops ->
  forall c w p c' xs, removals_covered keccak ns w ops -> client_ok keccak S c w -> csim c p -> client_run keccak pr c ops = Ok (c', xs) ->
  exists p', client_run keccak pr p ops = Ok (p', xs) /\ csim c' p'.
Proof.
  intros NC. induction ops as [|o ops IH]; intros IS IN O c w p c' xs RN C CS E; cbn [client_run] in *; [injection E as <- <-; exists p; auto|].
  inversion O as [|? ? O1 O2]; subst. destruct RN as [N1 N2].
  assert (I1 : incl (op_names o) (names (o :: ops))) by (intros y Hy; unfold op_names, names in *; cbn [flat_map] in *; rewrite app_nil_r in Hy; apply in_app_iff; auto).
  assert (I2 : incl (names ops) (names (o :: ops))) by (intros y Hy; unfold names in *; cbn [flat_map]; apply in_app_iff; auto).
  destruct (step_ok keccak pr S c w o H32 NC (incl_tran I1 IS) C O1) as (c1 & E1 & C1). rewrite E1 in E. cbn [bind] in E.
  destruct (step_sim S c w p o c1 _ NC (incl_tran I1 IS) (incl_tran I1 IN) C CS O1 (conj N1 Logic.I) E1) as (p1 & Ep & CS1). rewrite Ep. cbn [bind].
  destruct (client_run keccak pr c1 ops) as [[c2 ys]|] eqn:E2; [|discriminate]. cbn [bind] in E. injection E as <- <-.
  destruct (IH (incl_tran I2 IS) (incl_tran I2 IN) O2 c1 _ p1 c2 ys N2 C1 CS1 E2) as (p2 & -> & CS2). cbn [bind]. exists p2. auto.
Qed.

Lemma find_filter {A} (l : list (list N * A)) a : In a ns -> find a (filter (fun e => existsb (key_eqb (fst e)) ns) l) = find a l.
Proof.
  intros Ha. induction l as [|[j x] l IH]; cbn [filter find fst]; [reflexivity|]. destruct (existsb (key_eqb j) ns) eqn:Ex; cbn [find]; rewrite IH; [reflexivity|].
  destruct (key_eqb_spec j a) as [->|]; [|reflexivity]. rewrite <- not_true_iff_false in Ex. exfalso. apply Ex, existsb_exists. exists a. split; [exact Ha|].
  destruct (key_eqb_spec a a); [reflexivity|congruence].
Qed.
Lemma excerpt_sim S c w p : client_ok keccak S c w -> excerpt keccak pr ns c p -> csim c p.
Proof.
  intros [KS F] [ES EA]. split; [exact (proj2 (sim_subset S _ _ _ KS) _ ES)|]. intros a Ha. rewrite <- (find_filter (accounts c) a Ha).
  assert (FA : forall e, In e (filter (fun e => existsb (key_eqb (fst e)) ns) (accounts c)) -> exists l, keeps keccak S word_rlp (storage (snd e)) l).
  { intros e He. apply filter_In in He as [He _]. clear - F He. induction F as [|e1 e2 l1 l2 K F IH]; [destruct He|]. destruct He as [->|He]; [|auto]. destruct K as (_ & _ & _ & _ & K & _). eauto. }
  revert FA. induction EA as [|[j k] [j' k'] l l' (X & X1 & X2 & X3 & X4) EA IH]; intros FA; cbn [find]; [exact Logic.I|]. cbn [fst snd] in *. subst j'.
  destruct (key_eqb_spec j a) as [->|]; [|apply IH; intros e He; apply FA; right; exact He]. split; [exact X1|]. split; [exact X2|]. split; [exact X3|].
  destruct (FA (a, k) ltac:(left; reflexivity)) as [q K]. exact (proj2 (sim_subset S _ _ _ K) _ X4).
Qed.
Lemma excerpt_exists S c w : client_ok keccak S c w -> exists p, excerpt keccak pr ns c p.
Proof.
  intros [KS F]. destruct (proj1 (sim_subset S _ _ _ KS)) as [s Es].
  assert (G : exists l, Forall2 (fun e e' => fst e' = fst e /\ k_nonce (snd e') = k_nonce (snd e) /\ k_balance (snd e') = k_balance (snd e) /\ k_code (snd e') = k_code (snd e) /\
                       create_trie_subset keccak pr (storage (snd e)) ks = Ok (ROk (storage (snd e'))))
    (filter (fun e => existsb (key_eqb (fst e)) ns) (accounts c)) l).
  { clear KS Es. induction F as [|e1 e2 l1 l2 K F [l IH]]; cbn [filter]; [exists []; constructor|]. destruct (existsb _ ns); [|eauto].
    destruct K as (_ & _ & _ & _ & K & _). destruct (proj1 (sim_subset S _ _ _ K)) as [t Et].
    exists ((fst e1, Kept (k_nonce (snd e1)) (k_balance (snd e1)) (k_code (snd e1)) t) :: l). constructor; [|exact IH]. auto. }
  destruct G as [l G]. exists (Client s l). split; [exact Es|exact G].
Qed.
End Excerpt.

(** The excerpt of a state for some accounts and slots always exists and has the root of the full state. It is enough to run every program
    that only uses these accounts and slots and removes none without its neighbour among them: all reads give the right answers, and the root
    at the end is the root of the full state after the program. *)
Theorem C70_excerpt : forall keccak pr ops0 ops1 ns w0 xs0 w1 xs1,
  hash32 keccak -> no_clash keccak (names ops0 ++ ns) -> Forall world_op_ok (ops0 ++ ops1) -> incl (names ops1) ns ->
  world_run keccak [] ops0 = (w0, xs0) -> world_run keccak w0 ops1 = (w1, xs1) -> removals_covered keccak ns w0 ops1 ->
  exists c, client_run keccak pr new_client ops0 = Ok (c, xs0) /\
    (exists p, excerpt keccak pr ns c p) /\
    forall p, excerpt keccak pr ns c p ->
      hash_trie keccak pr (state p) = Ok (state_root keccak w0) /\
      exists p', client_run keccak pr p ops1 = Ok (p', xs1) /\ hash_trie keccak pr (state p') = Ok (state_root keccak w1).
Proof.
  intros keccak pr ops0 ops1 ns w0 xs0 w1 xs1 H32 NC O IN E0 E1 RN. set (S := names ops0 ++ ns) in *.
  assert (I0 : incl (names ops0) S) by (apply incl_appl, incl_refl). assert (I1 : incl (names ops1) S) by (apply incl_appr, IN).
  apply Forall_app in O as [O0 O1].
  destruct (run_ok keccak pr S ops0 H32 NC I0 O0 new_client [] (new_ok keccak _)) as (c & R & C). rewrite E0 in *. cbn [fst snd] in *.
  destruct (run_ok keccak pr S ops1 H32 NC I1 O1 c w0 C) as (c1 & R1 & C1). rewrite E1 in *. cbn [fst snd] in *.
  exists c. split; [exact R|]. split; [exact (excerpt_exists keccak H32 pr ns S c w0 C)|]. intros p EX.
  pose proof (excerpt_sim keccak H32 pr ns S c w0 p C EX) as CS. split.
  - rewrite (sim_hash keccak H32 pr _ _ _ (proj1 CS)). exact (keeps_hash keccak H32 S NC _ pr _ _ (proj1 C)).
  - destruct (run_sim keccak H32 pr ns S ops1 NC I1 IN O1 c w0 p c1 xs1 RN C CS R1) as (p' & Rp & CS'). exists p'. split; [exact Rp|].
    rewrite (sim_hash keccak H32 pr _ _ _ (proj1 CS')). exact (keeps_hash keccak H32 S NC _ pr _ _ (proj1 C1)).
Qed.
Print Assumptions C70_excerpt.

Lemma nothing_covered keccak ns ops : Forall removes_nothing ops -> forall w, removals_covered keccak ns w ops.
Proof.
  induction 1 as [|o ops H F IH]; intros w; [exact Logic.I|]. split; [|apply IH]. destruct o; cbn [removes_nothing] in H; try exact Logic.I; [intros E; contradiction|destruct H].
Qed.
(** A program that removes nothing can run on the excerpt for what it uses. *)
Theorem C70_writes : forall keccak pr ops0 ops1 w0 xs0 w1 xs1,
  hash32 keccak -> no_clash keccak (names ops0 ++ names ops1) -> Forall world_op_ok (ops0 ++ ops1) -> Forall removes_nothing ops1 ->
  world_run keccak [] ops0 = (w0, xs0) -> world_run keccak w0 ops1 = (w1, xs1) ->
  exists c, client_run keccak pr new_client ops0 = Ok (c, xs0) /\
    (exists p, excerpt keccak pr (names ops1) c p) /\
    forall p, excerpt keccak pr (names ops1) c p ->
      hash_trie keccak pr (state p) = Ok (state_root keccak w0) /\
      exists p', client_run keccak pr p ops1 = Ok (p', xs1) /\ hash_trie keccak pr (state p') = Ok (state_root keccak w1).
Proof. intros. apply C70_excerpt; auto using incl_refl, nothing_covered. Qed.
Print Assumptions C70_writes.

(** Checking an excerpt by computation. *)
Definition ok_client (r : res (client * list out)) : option client := match r with Ok (c, _) => Some c | Panic => None end.
Definition cut (ns : list (list N)) (t : node) : node := match create_trie_subset keccak256 Debug t (name_keys keccak256 ns) with Ok (ROk s) => s | _ => Empty end.
Definition cut_client (c : client) (ns : list (list N)) : client :=
  Client (cut ns (state c)) (map (fun e => (fst e, Kept (k_nonce (snd e)) (k_balance (snd e)) (k_code (snd e)) (cut ns (storage (snd e)))))
                               (filter (fun e => existsb (key_eqb (fst e)) ns) (accounts c))).
Lemma cut_excerpt pr ns c :
  create_trie_subset keccak256 pr (state c) (name_keys keccak256 ns) = Ok (ROk (cut ns (state c))) ->
  (let l := map (fun e => storage (snd e)) (filter (fun e => existsb (key_eqb (fst e)) ns) (accounts c)) in
   map (fun t => create_trie_subset keccak256 pr t (name_keys keccak256 ns)) l = map (fun t => Ok (ROk (cut ns t))) l) ->
  excerpt keccak256 pr ns c (cut_client c ns).
Proof.
  intros H F. split; [exact H|]. cbn [cut_client accounts]. cbv zeta in F. induction (filter _ (accounts c)) as [|e l IH]; cbn [map]; constructor.
  - cbn [map] in F. injection F as F _. cbn [fst snd k_nonce k_balance k_code storage]. auto.
  - apply IH. cbn [map] in F. injection F as _ F. exact F.
Qed.
Definition the (o : option client) : client := match o with Some c => c | None => new_client end.
Definition ex_first_ops : list world_op := [SetAccount (ex_address 1) 0 1 ex_code; SetAccount (ex_address 2) 7 0 ex_code; SetSlot (ex_address 2) (ex_slot 1) 1].
Definition ex_client : client := the (ok_client (client_run keccak256 Debug new_client ex_first_ops)).

Definition is_hash (o : option val_or_hash) : bool := match o with Some (HashV _) => true | _ => false end.

(** A program that uses an excerpt: changes one account and its storage, reads another one, makes a new one. *)
Definition ex_more_ops : list world_op := [SetSlot (ex_address 2) (ex_slot 1) 9; ReadAccount (ex_address 3); SetAccount (ex_address 4) 0 1 ex_code; ReadSlot (ex_address 2) (ex_slot 1)].
Example C70_example :
  no_clash keccak256 (names ex_first_ops ++ names ex_more_ops) /\ Forall world_op_ok (ex_first_ops ++ ex_more_ops) /\ Forall removes_nothing ex_more_ops /\
  (exists c p, ok_client (client_run keccak256 Debug new_client ex_first_ops) = Some c /\ excerpt keccak256 Debug (names ex_more_ops) c p /\
     ~ hash_free (state p) /\ length (accounts p) = 1%nat) /\
  snd (world_run keccak256 (fst (world_run keccak256 [] ex_first_ops)) ex_more_ops) = [ODone; OValue None; ODone; OValue (Some [9])].
Proof.
  split; [clash|]. split; [unfold ex_first_ops, ex_more_ops; cbn [app]; world_ok|]. split; [|split; [|vm_compute; reflexivity]].
  - unfold ex_more_ops. repeat (apply Forall_cons; [cbn [removes_nothing]; try exact Logic.I; discriminate|]). apply Forall_nil.
  - exists ex_client, (cut_client ex_client (names ex_more_ops)). split; [vm_compute; reflexivity|]. split; [apply cut_excerpt; vm_compute; reflexivity|]. split; [|vm_compute; reflexivity].
    intros HF. assert (G : is_hash (lk (state (cut_client ex_client (names ex_more_ops))) [14]) = true) by (vm_compute; reflexivity).
    destruct (lk _ [14]) as [[v|h]|] eqn:E; [discriminate G|exact (HF [14] h E)|discriminate G].
Qed.

(** A program that destroys an account whose hash begins as that of another one, which is requested, too; a third account is hidden. *)
Definition ex_three_ops : list world_op := [SetAccount (ex_address 1) 0 1 ex_code; SetAccount (ex_address 7) 0 2 ex_code; SetAccount (ex_address 2) 7 0 ex_code].
Definition ex_remove_ops : list world_op := [Destroy (ex_address 1); ReadAccount (ex_address 1)].
Definition ex_requested : list (list N) := [ex_address 1; ex_address 7].
Example C70_removal_example :
  no_clash keccak256 (names ex_three_ops ++ ex_requested) /\ Forall world_op_ok (ex_three_ops ++ ex_remove_ops) /\ incl (names ex_remove_ops) ex_requested /\
  removals_covered keccak256 ex_requested (fst (world_run keccak256 [] ex_three_ops)) ex_remove_ops /\
  exists c, ok_client (client_run keccak256 Debug new_client ex_three_ops) = Some c /\ excerpt keccak256 Debug ex_requested c (cut_client c ex_requested) /\
    is_hash (lk (cut ex_requested (state c)) [10]) = true.
Proof.
  split; [clash|]. split; [unfold ex_three_ops, ex_remove_ops; cbn [app]; world_ok|].
  split; [intros x [<-|[<-|[]]]; left; reflexivity|]. split.
  - split; [|split; exact Logic.I]. right. right. exists (ex_address 7). split; [right; left; reflexivity|]. split; [discriminate|]. split; [vm_compute; discriminate|].
    intros j Hj Nj. apply find_names in Hj. replace (map fst _) with [ex_address 1; ex_address 7; ex_address 2] in Hj by (vm_compute; reflexivity).
    destruct Hj as [<-|[<-|[<-|[]]]]; [contradiction|constructor|]. apply Nat.leb_le. vm_compute. reflexivity.
  - set (c := the (ok_client (client_run keccak256 Debug new_client ex_three_ops))). exists c. split; [vm_compute; reflexivity|]. split; [apply cut_excerpt; vm_compute; reflexivity|vm_compute; reflexivity].
Qed.

(** Without the neighbour the last root can be a different one: destroying one of two accounts whose excerpt hides the other. *)
Theorem C70_neighbour_needed : forall pr, exists ops0 ops1 c p p' xs0 xs1,
  hash32 keccak256 /\ no_clash keccak256 (names ops0 ++ names ops1) /\ Forall world_op_ok (ops0 ++ ops1) /\
  client_run keccak256 pr new_client ops0 = Ok (c, xs0) /\ excerpt keccak256 pr (names ops1) c p /\ client_run keccak256 pr p ops1 = Ok (p', xs1) /\
  hash_trie keccak256 pr (state p') <> Ok (state_root keccak256 (fst (world_run keccak256 (fst (world_run keccak256 [] ops0)) ops1))).
Proof.
  intros pr. set (ops0 := [SetAccount (ex_address 1) 0 1 ex_code; SetAccount (ex_address 2) 7 0 ex_code]). set (ops1 := [Destroy (ex_address 1)]).
  exists ops0, ops1. set (c := the (ok_client (client_run keccak256 Debug new_client ops0))).
  set (p := cut_client c (names ops1)). exists c, p, (the (ok_client (client_run keccak256 Debug p ops1))), [ODone; ODone], [ODone].
  split; [exact keccak256_hash32|]. split; [clash|]. split; [unfold ops0, ops1; cbn [app]; world_ok|].
  split; [destruct pr; vm_compute; reflexivity|].
  split; [apply cut_excerpt; destruct pr; vm_compute; reflexivity|].
  split; [destruct pr; vm_compute; reflexivity|]. destruct pr; vm_compute; intros E; discriminate E.
Qed.
Print Assumptions C70_neighbour_needed.
