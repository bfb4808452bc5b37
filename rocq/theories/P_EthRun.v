(** Property C84: running programs on an excerpt of the Ethereum state from an untrusted source. *)
From Verif Require Import Base Nibbles NibblesSpec NibblesFacts Trie TrieSpec TrieHistSpec TrieFacts TrieInsert TrieGet TrieHist Hashing YellowPaper HashSpec HashFacts Keccak HideSpec HideFacts Subset SubsetSpec ReplaySpec ReplayFacts
  NeighbourSpec HideDelete TypeFacts2 Serde Json JsonSpec JsonText JsonTextSpec TypeSpec TypeFacts WitnessSpec P_Trie P_Hash P_Json PartialSpec P_Partial P_Subset P_Replay P_JsonText P_Witness NeighbourSeen EthSpec EthFacts P_Eth P_EthPart EthProofSpec P_EthProof EthRunSpec.
Open Scope N_scope.

Lemma forall_or {A} (P : A -> Prop) (Q : Prop) l : (forall a, In a l -> P a \/ Q) -> (forall a, In a l -> P a) \/ Q.
Proof.
  induction l as [|a l IH]; intros H; [left; intros a []|]. destruct (H a ltac:(left; reflexivity)) as [G|G]; [|auto]. destruct IH as [G'|G']; [intros b Hb; apply H; right; exact Hb| |auto].
  left. intros b [<-|Hb]; auto.
Qed.

Section Received.
Variable keccak : list N -> list N.
Hypothesis H32 : hash32 keccak.
Variable pr : profile.
Variable ns : list (list N).
Notation ks := (name_keys keccak ns).

Lemma says_no_hash t a v : fixed_trie 64 t -> says keccak pr t a v -> ~ hash_on_path t (key keccak a).
Proof.
  intros Fx Sy. pose proof Fx as (W & _). destruct (key_ok keccak H32 a) as (_ & Kw & Ks & Fl). rewrite <- Ks in *. destruct v as [v|]; cbn [says] in Sy.
  - rewrite (fixed_get 64 pr t _ Fx Kw Fl) in Sy. intros HP. destruct (lk t (nseq (from_h256_be (keccak a)))) as [[u|h]|] eqn:E; try discriminate Sy.
    exact (hop_no_val t 64 _ u W HP E).
  - destruct Sy as [t1 Sy]. destruct (fixed_delete 64 pr t _ Fx Kw Fl) as [[_ Q]|(N & _)]; [congruence|exact N].
Qed.

(** A trie that is vouched for and says something about every name is the full trie with hash nodes in other places. *)
Lemma vouched_sim {A} S (f : A -> list N) t l limit text t' a0 : no_clash keccak S -> keeps keccak S f t l -> In a0 ns ->
  vouched keccak pr limit text (yp_root keccak (map (fun e => (key keccak (fst e), f (snd e))) l)) t' -> (forall a, In a ns -> exists v, says keccak pr t' a v) ->
  sim keccak ns t t' \/ collision keccak (encodings keccak t) (encodings keccak t').
Proof.
  intros NC K H0 V Sy. destruct (vouched_ok _ _ _ _ _ _ V) as (W' & F' & Sh' & E'). pose proof K as (_ & _ & F & m & (W & _) & _). pose proof (keeps_fixed keccak S f t l K) as Fx.
  assert (E : hash_trie keccak pr t = hash_trie keccak pr t') by (rewrite E'; apply (keeps_hash keccak H32 S NC f pr t l K)).
  destruct (C40_partial_trie_binding keccak pr pr t t' H32 W W' F F' (keeps_hash_free keccak S f t l K) E) as [H|[[_ ->]|G]]; [left| |right; exact G].
  - split; [|split; assumption]. apply (like_hides keccak); [exact Fx|exact H|]. intros k Hk HP. exfalso. apply in_map_iff in Hk as (a & <- & Ha).
    destruct (Sy a Ha) as [v Sv]. destruct (key_ok keccak H32 a) as (_ & _ & Ks & _). rewrite Ks in HP. exact (says_no_hash t' a v (fixed_hides keccak 64 t t' Fx H) Sv HP).
  - exfalso. destruct (Sy a0 H0) as [[v|] Sv]; cbn [says] in Sv; [|destruct Sv as [t1 Sv]]; discriminate Sv.
Qed.

Lemma received_sim S c w p a0 : no_clash keccak S -> client_ok keccak S c w -> In a0 ns -> received keccak pr ns (state_root keccak w) p ->
  csim keccak ns c p \/ collision keccak (preimages (encodings keccak) w c) (received_bytes (encodings keccak) ns p).
Proof.
  intros NC C H0 [(limit & text & V) R]. pose proof C as [KS F].
  assert (IS : incl (encodings keccak (state c)) (preimages (encodings keccak) w c)) by (intros x Hx; unfold preimages; rewrite !in_app_iff; auto).
  assert (IP : incl (encodings keccak (state p)) (received_bytes (encodings keccak) ns p)) by (intros x Hx; unfold received_bytes; rewrite !in_app_iff; auto).
  destruct (vouched_sim S _ _ _ limit text (state p) a0 NC KS H0 V) as [SS|G]; [| |right; exact (collision_incl _ _ _ _ _ G IS IP)].
  { intros a Ha. specialize (R a Ha). destruct (find a (accounts p)); [|eauto]. destruct R as (_ & _ & _ & ? & ? & ? & _ & _ & R & _). eauto. }
  assert (Q : forall a, In a ns -> match find a (accounts c), find a (accounts p) with Some k, Some k' => same_kept keccak ns k k' | None, None => True | _, _ => False end \/
    collision keccak (preimages (encodings keccak) w c) (received_bytes (encodings keccak) ns p)).
  { intros a Ha. specialize (R a Ha). pose proof (kept_find keccak S _ _ a F) as G.
    assert (CW : forall v, says keccak pr (state p) a v -> v = option_map (account_rlp keccak) (find a w) \/ collision keccak (preimages (encodings keccak) w c) (received_bytes (encodings keccak) ns p)).
    { intros v Sv. destruct (says_sound keccak H32 pr S _ _ _ limit text (state p) a v NC KS V Sv) as [X|X]; [left; exact X|right]. eapply collision_incl; [exact X| |].
      - intros x Hx. unfold preimages. rewrite !in_app_iff in *. tauto.
      - intros x [->|Hx]; [unfold received_bytes; apply in_app_iff; auto|apply IP, Hx]. }
    destruct (find a (accounts p)) as [k'|] eqn:Fp.
    - destruct R as (B1 & B2 & B3 & lm & tx & r & Lr & V' & Sa & Sy). destruct (CW _ Sa) as [X|X]; [|right; exact X].
      destruct (find a w) as [x|] eqn:Fx; [|discriminate X]. destruct (find a (accounts c)) as [k|] eqn:Fk; [|contradiction]. cbn [option_map] in X. injection X as X. unfold account_rlp in X.
      destruct G as (_ & E1 & E2 & E3 & KT & (A1 & A2 & A3 & A4 & A5)). cbn [fst snd] in *.
      destruct (yp_root_ok keccak H32 (map (fun e => (unpair (keccak (fst e)), word_rlp (snd e))) (slots x))) as [_ R2].
      apply entry_inj in X; try assumption; try (unfold len; lia). destruct X as (X1 & X2 & -> & X3).
      destruct (vouched_sim S _ _ _ lm tx (storage k') a0 NC KT H0 V' Sy) as [ST|X].
      + left. split; [congruence|]. split; [congruence|]. split; [congruence|exact ST].
      + right. eapply collision_incl; [exact X| |].
        * intros y Hy. unfold preimages. rewrite !in_app_iff. right. right. right. apply in_flat_map. exists (a, k). split; [apply find_entry, Fk|exact Hy].
        * intros y Hy. unfold received_bytes. rewrite !in_app_iff. right. right. apply in_flat_map. exists (a, k'). split; [apply find_entry, Fp|exact Hy].
    - destruct (CW _ R) as [X|X]; [left|right; exact X]. destruct (find a w); [discriminate X|]. destruct (find a (accounts c)); [contradiction|exact Logic.I]. }
  destruct (forall_or _ _ ns Q) as [G|G]; [left; split; assumption|right; exact G].
Qed.

(** Removals that the receiver has checked. *)
Lemma visible_del {A} S (f : A -> list N) l t s a : keeps keccak S f t l -> sim keccak ns t s -> In a ns -> collapse_visible s (key keccak a) -> del_ok keccak pr ns t s a.
Proof.
  intros K (L & Ft & H) Ha CV t' u E. destruct (key_ok keccak H32 a) as (_ & Kw & Ks & _). pose proof (keeps_fixed keccak S f t l K) as (W & Cn & _).
  assert (Eo : trie_op pr t (ODelete (from_h256_be (keccak a))) = Ok (t', OValue u)) by (cbn [trie_op]; rewrite E; reflexivity).
  destruct (like_op 64 ks (ks_kwf keccak H32 ns) (ks_len keccak H32 ns) pr t s (ODelete (from_h256_be (keccak a))) t' _ L (ks_in keccak ns a Ha) Eo) as (s' & E' & L').
  cbn [trie_op] in E'. destruct (trie_delete pr s (from_h256_be (keccak a))) as [[s1 u1]|] eqn:Es; [|discriminate]. cbn [bind] in E'. injection E' as -> ->. exists s'. split; [reflexivity|].
  destruct (C28_local_partial keccak pr t s _ s' u H32 W (canon_shape _ Cn) Ft H Kw ltac:(rewrite Ks; exact CV) Es) as (t1 & E1 & H1 & _). rewrite E in E1. injection E1 as <-.
  split; [exact L'|]. split; [exact (tdelete_fits pr t _ t' u Ft E)|exact H1].
Qed.
Lemma run_seen S ops : no_clash keccak S -> incl (names ops) S -> incl (names ops) ns -> Forall world_op_ok ops ->
  forall c w p c' xs, removals_seen keccak pr p ops -> client_ok keccak S c w -> csim keccak ns c p -> client_run keccak pr c ops = Ok (c', xs) ->
  exists p', client_run keccak pr p ops = Ok (p', xs) /\ csim keccak ns c' p'.
Proof.
  intros NC. induction ops as [|o ops IH]; intros IS IN O c w p c' xs RN C CS E; cbn [client_run] in *; [injection E as <- <-; exists p; auto|].
  inversion O as [|? ? O1 O2]; subst. destruct RN as [N1 N2].
  assert (I1 : incl (op_names o) (names (o :: ops))) by (intros y Hy; unfold op_names, names in *; cbn [flat_map] in *; rewrite app_nil_r in Hy; apply in_app_iff; auto).
  assert (I2 : incl (names ops) (names (o :: ops))) by (intros y Hy; unfold names in *; cbn [flat_map]; apply in_app_iff; auto).
  destruct (step_ok keccak pr S c w o H32 NC (incl_tran I1 IS) C O1) as (c1 & E1 & C1). rewrite E1 in E. cbn [bind] in E.
  assert (RO : rem_ok keccak pr ns c p o).
  { pose proof C as [KS F]. pose proof CS as [SS SA]. pose proof (incl_tran I1 IN) as IO. unfold op_names, names in IO. cbn [flat_map] in IO. rewrite app_nil_r in IO.
    destruct o as [a n b code|a s v|a|a|a s]; cbn [rem_ok removal_seen] in *; try exact Logic.I.
    - intros -> k k' Ek Ek'. pose proof (kept_find keccak S _ _ a F) as G. pose proof (SA a ltac:(apply IO; left; reflexivity)) as SK. rewrite Ek in G, SK. rewrite Ek' in SK.
      destruct (find a w) as [y|]; [|contradiction]. destruct G as (_ & _ & _ & _ & KT & _). cbn [fst snd] in KT.
      exact (visible_del S word_rlp _ _ _ s KT (proj2 (proj2 (proj2 SK))) ltac:(apply IO; right; left; reflexivity) (N1 eq_refl k' Ek')).
    - exact (visible_del S (account_rlp keccak) _ _ _ a KS SS ltac:(apply IO; left; reflexivity) N1). }
  destruct (step_gen keccak H32 pr ns S c w p o c1 _ NC (incl_tran I1 IS) (incl_tran I1 IN) C CS O1 RO E1) as (p1 & Ep & CS1). rewrite Ep. cbn [bind].
  destruct (client_run keccak pr c1 ops) as [[c2 ys]|] eqn:E2; [|discriminate]. cbn [bind] in E. injection E as <- <-.
  destruct (IH (incl_tran I2 IS) (incl_tran I2 IN) O2 c1 _ p1 c2 ys (N2 _ _ Ep) C1 CS1 E2) as (p2 & -> & CS2). cbn [bind]. exists p2. auto.
Qed.

(** Covered removals are seen. *)
Lemma covered_seen S ops : no_clash keccak S -> incl (names ops) S -> incl (names ops) ns -> Forall world_op_ok ops ->
  forall c w p, removals_covered keccak ns w ops -> client_ok keccak S c w -> csim keccak ns c p -> removals_seen keccak pr p ops.
Proof.
  intros NC. induction ops as [|o ops IH]; intros IS IN O c w p RN C CS; [exact Logic.I|].
  inversion O as [|? ? O1 O2]; subst. destruct RN as [N1 N2].
  assert (I1 : incl (op_names o) (names (o :: ops))) by (intros y Hy; unfold op_names, names in *; cbn [flat_map] in *; rewrite app_nil_r in Hy; apply in_app_iff; auto).
  assert (I2 : incl (names ops) (names (o :: ops))) by (intros y Hy; unfold names in *; cbn [flat_map]; apply in_app_iff; auto).
  assert (D : forall A (f : A -> list N) l t s a, keeps keccak S f t l -> sim keccak ns t s -> In a S -> In a ns -> has_next keccak l ns a -> collapse_visible s (key keccak a)).
  { intros A f l t s a K (L & _ & H) HS Ha N. pose proof (keeps_held keccak H32 ns S f t l a NC K HS N) as Hn. destruct (key_ok keccak H32 a) as (_ & _ & Ks & _). rewrite <- Ks.
    exact (held_collapse keccak 64 ks t s _ (ks_len keccak H32 ns) L H (ks_in keccak ns a Ha) Hn). }
  destruct (step_ok keccak pr S c w o H32 NC (incl_tran I1 IS) C O1) as (c1 & E1 & C1).
  destruct (step_sim keccak H32 pr ns S c w p o c1 _ NC (incl_tran I1 IS) (incl_tran I1 IN) C CS O1 (conj N1 Logic.I) E1) as (p1 & Ep & CS1). split.
  - pose proof C as [KS F]. pose proof CS as [SS SA]. pose proof (incl_tran I1 IN) as IO. pose proof (incl_tran I1 IS) as IO'. unfold op_names, names in IO, IO'. cbn [flat_map] in IO, IO'. rewrite app_nil_r in IO, IO'.
    destruct o as [a n b code|a s v|a|a|a s]; cbn [removal_seen] in *; try exact Logic.I.
    + intros -> k' Ek'. pose proof (kept_find keccak S _ _ a F) as G. pose proof (SA a ltac:(apply IO; left; reflexivity)) as SK. rewrite Ek' in SK.
      destruct (find a (accounts c)) as [k|]; [|contradiction]. destruct (find a w) as [y|] eqn:Ey; [|contradiction]. destruct G as (_ & _ & _ & _ & KT & _). cbn [fst snd] in KT.
      exact (D _ word_rlp _ _ _ s KT (proj2 (proj2 (proj2 SK))) ltac:(apply IO'; right; left; reflexivity) ltac:(apply IO; right; left; reflexivity) (N1 eq_refl y eq_refl)).
    + exact (D _ (account_rlp keccak) _ _ _ a KS SS ltac:(apply IO'; left; reflexivity) ltac:(apply IO; left; reflexivity) N1).
  - intros p2 x E2. rewrite Ep in E2. injection E2 as <- _. exact (IH (incl_tran I2 IS) (incl_tran I2 IN) O2 c1 _ p1 N2 C1 CS1).
Qed.
End Received.

(** Whoever knows the root hash of a state and has received an excerpt that passes the checks can run every program that only uses the names of the excerpt: if no removal
    leaves over a branch whose last child is hidden, which the receiver sees, then the program answers all its reads as on the full state and the root afterwards is
    that of the full state. Otherwise two different byte strings with the same hash are known: one hashed for the state, one hashed by the receiver. *)
Theorem C84_run : forall keccak pr ops0 ops1 ns w0 xs0 w1 xs1 c p,
  hash32 keccak -> no_clash keccak (names ops0 ++ ns) -> Forall world_op_ok (ops0 ++ ops1) -> incl (names ops1) ns ->
  world_run keccak [] ops0 = (w0, xs0) -> world_run keccak w0 ops1 = (w1, xs1) -> client_run keccak pr new_client ops0 = Ok (c, xs0) ->
  received keccak pr ns (state_root keccak w0) p -> removals_seen keccak pr p ops1 ->
  (exists p', client_run keccak pr p ops1 = Ok (p', xs1) /\ hash_trie keccak pr (state p') = Ok (state_root keccak w1)) \/
  collision keccak (preimages (encodings keccak) w0 c) (received_bytes (encodings keccak) ns p).
Proof.
  intros keccak pr ops0 ops1 ns w0 xs0 w1 xs1 c p H32 NC O IN E0 E1 R RC RN. set (S := names ops0 ++ ns) in *.
  assert (I0 : incl (names ops0) S) by (apply incl_appl, incl_refl). assert (I1 : incl (names ops1) S) by (apply incl_appr, IN).
  apply Forall_app in O as [O0 O1].
  destruct (run_ok keccak pr S ops0 H32 NC I0 O0 new_client [] (new_ok keccak _)) as (c' & R' & C). rewrite E0 in *. cbn [fst snd] in *. assert (c' = c) by congruence. subst c'.
  destruct (run_ok keccak pr S ops1 H32 NC I1 O1 c w0 C) as (c1 & R1 & C1). rewrite E1 in *. cbn [fst snd] in *.
  destruct ops1 as [|o ops1].
  { left. exists p. cbn [client_run world_run] in *. injection E1 as <- <-. split; [reflexivity|]. destruct RC as [(limit & text & _ & _ & _ & V) _]. exact V. }
  assert (N0 : exists a0, In a0 ns) by (destruct o as [a n b code|a s v|a|a|a s]; exists a; apply IN; left; reflexivity). destruct N0 as [a0 N0].
  destruct (received_sim keccak H32 pr ns S c w0 p a0 NC C N0 RC) as [CS|G]; [left|right; exact G].
  destruct (run_seen keccak H32 pr ns S (o :: ops1) NC I1 IN O1 c w0 p c1 xs1 RN C CS R1) as (p' & Rp & CS'). exists p'. split; [exact Rp|].
  rewrite (sim_hash keccak H32 pr _ _ _ (proj1 CS')). exact (keeps_hash keccak H32 S NC _ pr _ _ (proj1 C1)).
Qed.
Print Assumptions C84_run.

(** Nothing has to be looked at while a program runs that removes nothing. *)
Theorem C84_writes : forall keccak pr ops0 ops1 ns w0 xs0 w1 xs1 c p,
  hash32 keccak -> no_clash keccak (names ops0 ++ ns) -> Forall world_op_ok (ops0 ++ ops1) -> incl (names ops1) ns -> Forall removes_nothing ops1 ->
  world_run keccak [] ops0 = (w0, xs0) -> world_run keccak w0 ops1 = (w1, xs1) -> client_run keccak pr new_client ops0 = Ok (c, xs0) ->
  received keccak pr ns (state_root keccak w0) p ->
  (exists p', client_run keccak pr p ops1 = Ok (p', xs1) /\ hash_trie keccak pr (state p') = Ok (state_root keccak w1)) \/
  collision keccak (preimages (encodings keccak) w0 c) (received_bytes (encodings keccak) ns p).
Proof.
  intros keccak pr ops0 ops1 ns w0 xs0 w1 xs1 c p H32 NC O IN RM E0 E1 R RC. apply (C84_run keccak pr ops0 ops1 ns w0 xs0 w1 xs1 c p); auto. clear - RM. revert p.
  induction RM as [|o ops H F IH]; intros p; [exact Logic.I|]. split; [|intros; apply IH]. destruct o; cbn [removes_nothing removal_seen] in *; try exact Logic.I; [intros E; contradiction|destruct H].
Qed.
Print Assumptions C84_writes.

(** Every excerpt passes the checks. *)
Theorem C84_honest : forall keccak pr ops ns w xs c p,
  hash32 keccak -> no_clash keccak (names ops ++ ns) -> Forall world_op_ok ops -> world_run keccak [] ops = (w, xs) -> client_run keccak pr new_client ops = Ok (c, xs) ->
  excerpt keccak pr ns c p -> received keccak pr ns (state_root keccak w) p.
Proof.
  intros keccak pr ops ns w xs c p H32 NC O E R EX. destruct (C71_honest keccak pr ops ns w xs c p H32 NC O E R EX) as [(V & _ & Sy) SA]. set (S := names ops ++ ns) in *.
  destruct (run_ok keccak pr S ops H32 NC ltac:(apply incl_appl, incl_refl) O new_client [] (new_ok keccak _)) as (c' & R' & C). rewrite E in *. cbn [fst snd] in *.
  assert (c' = c) by congruence. subst c'. destruct (excerpt_sim keccak H32 pr ns S c w p C EX) as [_ KA]. destruct C as [_ F].
  split; [eauto|]. intros a Ha. specialize (KA a Ha). specialize (Sy a Ha). pose proof (kept_find keccak _ _ _ a F) as G. destruct (find a w) as [x|] eqn:Fx.
  - destruct (SA a x Ha Fx) as (k & Fk & Vk & _ & Sk). rewrite Fk in *. destruct (find a (accounts c)) as [k0|]; [|contradiction].
    destruct G as (_ & E1 & E2 & E3 & _ & (A1 & A2 & A3 & A4 & _)). destruct KA as (D1 & D2 & D3 & _). cbn [fst snd] in *. rewrite D1, D2, D3, E1, E2, E3.
    destruct (yp_root_ok keccak H32 (map (fun e => (unpair (keccak (fst e)), word_rlp (snd e))) (slots x))) as [_ R2].
    split; [exact A1|]. split; [exact A2|]. split; [unfold len in A4; lia|]. exists None, (to_string (serialize (storage k))), (storage_root keccak (slots x)).
    split; [unfold storage_root; unfold len in R2; lia|]. split; [exact Vk|]. split; [exact Sy|]. intros s Hs. eauto.
  - destruct (find a (accounts c)); [contradiction|]. destruct (find a (accounts p)); [contradiction|]. exact Sy.
Qed.
Print Assumptions C84_honest.

(** On an excerpt that was made for the neighbours of all that is removed, too (C70), the receiver finds that all removals are fine. *)
Theorem C84_requested : forall keccak pr ops0 ops1 ns w0 xs0 c p,
  hash32 keccak -> no_clash keccak (names ops0 ++ ns) -> Forall world_op_ok (ops0 ++ ops1) -> incl (names ops1) ns ->
  world_run keccak [] ops0 = (w0, xs0) -> client_run keccak pr new_client ops0 = Ok (c, xs0) -> removals_covered keccak ns w0 ops1 ->
  excerpt keccak pr ns c p -> removals_seen keccak pr p ops1.
Proof.
  intros keccak pr ops0 ops1 ns w0 xs0 c p H32 NC O IN E R RN EX. set (S := names ops0 ++ ns) in *. apply Forall_app in O as [O0 O1].
  destruct (run_ok keccak pr S ops0 H32 NC ltac:(apply incl_appl, incl_refl) O0 new_client [] (new_ok keccak _)) as (c' & R' & C). rewrite E in *. cbn [fst snd] in *. assert (c' = c) by congruence. subst c'.
  exact (covered_seen keccak H32 pr ns S ops1 NC ltac:(apply incl_appr, IN) IN O1 c w0 p RN C (excerpt_sim keccak H32 pr ns S c w0 p C EX)).
Qed.
Print Assumptions C84_requested.

Lemma world_run_app keccak ops1 ops2 : forall w, world_run keccak w (ops1 ++ ops2) =
  (fst (world_run keccak (fst (world_run keccak w ops1)) ops2), snd (world_run keccak w ops1) ++ snd (world_run keccak (fst (world_run keccak w ops1)) ops2)).
Proof.
  induction ops1 as [|o ops1 IH]; intros w; cbn [world_run app fst snd]; [destruct (world_run keccak w ops2); reflexivity|]. destruct (world_step keccak w o) as [w1 x]. rewrite IH.
  destruct (world_run keccak w1 ops1) as [w2 xs]. reflexivity.
Qed.
Lemma names_app ops1 ops2 : names (ops1 ++ ops2) = names ops1 ++ names ops2.
Proof. unfold names. apply flat_map_app. Qed.
Lemma no_clash_incl keccak S S' : no_clash keccak S -> incl S' S -> no_clash keccak S'.
Proof. intros H I a b Ha Hb. apply H; auto. Qed.

(** Block by block, from one root hash: all answers and the last root hash are those of the full state; otherwise there is a block whose received excerpt shows two
    byte strings with the same hash. *)
Theorem C84_chain : forall keccak pr ops0 bs w0 xs0 xs r,
  hash32 keccak -> no_clash keccak (names ops0 ++ flat_map b_names bs) -> Forall world_op_ok (ops0 ++ flat_map b_ops bs) ->
  world_run keccak [] ops0 = (w0, xs0) -> follows_chain keccak pr (state_root keccak w0) bs xs r ->
  (exists w, world_run keccak w0 (flat_map b_ops bs) = (w, xs) /\ r = state_root keccak w) \/
  exists bs1 b bs2 w ys c, bs = bs1 ++ b :: bs2 /\ world_run keccak [] (ops0 ++ flat_map b_ops bs1) = (w, ys) /\ client_run keccak pr new_client (ops0 ++ flat_map b_ops bs1) = Ok (c, ys) /\
    collision keccak (preimages (encodings keccak) w c) (received_bytes (encodings keccak) (b_names b) (b_client b)).
Proof.
  intros keccak pr ops0 bs. revert ops0. induction bs as [|[ns ops p] bs IH]; intros ops0 w0 xs0 xs r H32 NC O E FC; inversion FC as [|? ? ? ? p' ys r1 ? zs ? RC IN RN R1 Eh FC']; subst.
  { left. exists w0. split; reflexivity. }
  cbn [flat_map b_names b_ops] in *.
  assert (NC0 : no_clash keccak (names ops0 ++ ns)) by (apply (no_clash_incl _ _ _ NC); intros a; rewrite !in_app_iff; tauto).
  assert (O0 : Forall world_op_ok (ops0 ++ ops)) by (apply Forall_app in O as [A B]; apply Forall_app in B as [B _]; apply Forall_app; auto).
  destruct (run_ok keccak pr (names ops0 ++ ns) ops0 H32 NC0 ltac:(apply incl_appl, incl_refl) (proj1 (proj1 (Forall_app _ _ _) O0)) new_client [] (new_ok keccak _)) as (c & R & _). rewrite E in R. cbn [snd] in R.
  destruct (world_run keccak w0 ops) as [w1 xs1] eqn:E1.
  destruct (C84_run keccak pr ops0 ops ns w0 xs0 w1 xs1 c p H32 NC0 O0 IN E E1 R RC RN) as [(p2 & R2 & Eh2)|G].
  - rewrite R1 in R2. injection R2 as <- <-. rewrite Eh in Eh2. injection Eh2 as ->.
    assert (E' : world_run keccak [] (ops0 ++ ops) = (w1, xs0 ++ ys)) by (rewrite world_run_app, E; cbn [fst snd]; rewrite E1; reflexivity).
    destruct (IH (ops0 ++ ops) w1 (xs0 ++ ys) zs r H32) as [(w & Ew & ->)|(bs1 & b & bs2 & w & us & c' & -> & Ew & Rc & G)]; auto.
    + apply (no_clash_incl _ _ _ NC). intros a. rewrite names_app, !in_app_iff. intros [[A|A]|A]; auto.
    + rewrite <- app_assoc. exact O.
    + left. exists w. split; [|reflexivity]. rewrite world_run_app, E1. cbn [fst snd]. rewrite Ew. reflexivity.
    + right. exists (Block ns ops p :: bs1), b, bs2, w, us, c'. cbn [flat_map b_ops app]. rewrite <- !app_assoc in *. auto.
  - right. exists [], (Block ns ops p), bs, w0, xs0, c. cbn [flat_map app]. rewrite app_nil_r. auto.
Qed.
Print Assumptions C84_chain.

(** Whoever has the full state can serve such a follower: excerpts for the names of each block, with the neighbours of what it removes, are accepted. *)
Theorem C84_served : forall keccak pr ops0 plan w0 xs0,
  hash32 keccak -> no_clash keccak (names ops0 ++ flat_map fst plan) -> Forall world_op_ok (ops0 ++ flat_map snd plan) -> world_run keccak [] ops0 = (w0, xs0) ->
  (forall pl1 ns ops pl2, plan = pl1 ++ (ns, ops) :: pl2 -> incl (names ops) ns /\ removals_covered keccak ns (fst (world_run keccak w0 (flat_map snd pl1))) ops) ->
  exists bs, map (fun b => (b_names b, b_ops b)) bs = plan /\
    follows_chain keccak pr (state_root keccak w0) bs (snd (world_run keccak w0 (flat_map snd plan))) (state_root keccak (fst (world_run keccak w0 (flat_map snd plan)))).
Proof.
  intros keccak pr ops0 plan. revert ops0. induction plan as [|[ns ops] plan IH]; intros ops0 w0 xs0 H32 NC O E P.
  { exists []. split; [reflexivity|]. constructor. }
  cbn [flat_map fst snd] in *. destruct (P [] ns ops plan eq_refl) as [IN RN]. cbn [flat_map world_run fst] in RN.
  assert (NC0 : no_clash keccak (names ops0 ++ ns)) by (apply (no_clash_incl _ _ _ NC); intros a; rewrite !in_app_iff; tauto).
  assert (O0 : Forall world_op_ok (ops0 ++ ops)) by (apply Forall_app in O as [A B]; apply Forall_app in B as [B _]; apply Forall_app; auto).
  destruct (world_run keccak w0 ops) as [w1 xs1] eqn:E1.
  destruct (C70_excerpt keccak pr ops0 ops ns w0 xs0 w1 xs1 H32 NC0 O0 IN E E1 RN) as (c & R & (p & EX) & G). destruct (G p EX) as (_ & p' & R1 & Eh).
  assert (E' : world_run keccak [] (ops0 ++ ops) = (w1, xs0 ++ xs1)) by (rewrite world_run_app, E; cbn [fst snd]; rewrite E1; reflexivity).
  destruct (IH (ops0 ++ ops) w1 (xs0 ++ xs1) H32) as (bs & M & FC); auto.
  - apply (no_clash_incl _ _ _ NC). intros a. rewrite names_app, !in_app_iff. intros [[A|A]|A]; auto.
  - rewrite <- app_assoc. exact O.
  - intros pl1 ns' ops' pl2 ->. destruct (P ((ns, ops) :: pl1) ns' ops' pl2 eq_refl) as [A B]. split; [exact A|]. cbn [flat_map snd] in B. rewrite world_run_app, E1 in B. exact B.
  - exists (Block ns ops p :: bs). split; [cbn [map b_names b_ops]; rewrite M; reflexivity|]. rewrite world_run_app, E1. cbn [fst snd].
    apply (fc_cons keccak pr _ ns ops p p' xs1 (state_root keccak w1)); auto.
    + exact (C84_honest keccak pr ops0 ns w0 xs0 c p H32 NC0 (proj1 (proj1 (Forall_app _ _ _) O0)) E R EX).
    + exact (C84_requested keccak pr ops0 ops ns w0 xs0 c p H32 NC0 O0 IN E R RN EX).
Qed.
Print Assumptions C84_served.

(** Without looking at the removals the root can be wrong, although the excerpt passes the checks (and although no answer is wrong). *)
Theorem C84_look_needed : forall pr, exists ops0 ops1 w0 xs0 c p p' xs1,
  hash32 keccak256 /\ no_clash keccak256 (names ops0 ++ names ops1) /\ Forall world_op_ok (ops0 ++ ops1) /\
  world_run keccak256 [] ops0 = (w0, xs0) /\ client_run keccak256 pr new_client ops0 = Ok (c, xs0) /\ received keccak256 pr (names ops1) (state_root keccak256 w0) p /\
  client_run keccak256 pr p ops1 = Ok (p', xs1) /\ hash_trie keccak256 pr (state p') <> Ok (state_root keccak256 (fst (world_run keccak256 w0 ops1))).
Proof.
  intros pr. destruct (C70_neighbour_needed pr) as (ops0 & ops1 & c & p & p' & xs0 & xs1 & H32 & NC & O & R & EX & R1 & NE).
  destruct (run_ok keccak256 pr (names ops0 ++ names ops1) ops0 H32 NC ltac:(apply incl_appl, incl_refl) (proj1 (proj1 (Forall_app _ _ _) O)) new_client [] (new_ok keccak256 _)) as (c' & R' & _).
  rewrite R in R'. injection R' as <- Ex. destruct (world_run keccak256 [] ops0) as [w0 ys] eqn:E. cbn [fst snd] in *. subst ys.
  exists ops0, ops1, w0, xs0, c, p, p', xs1. do 3 (split; [assumption|]). split; [exact E|]. split; [exact R|]. split; [|split; [exact R1|exact NE]].
  apply (C84_honest keccak256 pr ops0 (names ops1) w0 xs0 c p H32 NC (proj1 (proj1 (Forall_app _ _ _) O)) E R EX).
Qed.
Print Assumptions C84_look_needed.

(** The removal of C70_removal_example: an account is destroyed, its neighbour in the trie is there, a third account is hidden. The checks, by computation. *)
Fixpoint visible_b (t : node) (k : list N) {struct t} : bool :=
  match t with
  | Branch ch _ =>
      match k with
      | [] => true
      | d :: k' =>
          at_child (fun c => visible_b c k') true ch (N.to_nat d) &&
          (negb (occupied ch [] <=? 2)%nat || match nth (N.to_nat d) ch Empty with Leaf _ _ => forallb (fun c => match c with Hash _ => false | _ => true end) ch | _ => true end)
      end
  | Extension n c => match strip (nseq n) k with Some k' => visible_b c k' | None => true end
  | _ => true
  end.
Lemma visible_b_ok t : forall k, visible_b t k = true -> collapse_visible t k.
Proof.
  induction t as [|h|ch v IH|n c IH|n v] using node_ind'; intros k E; try exact Logic.I.
  - destruct k as [|d k]; [exact Logic.I|]. cbn [visible_b collapse_visible] in *. apply andb_true_iff in E as [E1 E2]. rewrite at_child_nth in E1. rewrite at_child_nth. split.
    + destruct (nth_error ch (N.to_nat d)) as [c|] eqn:Ec; [|exact Logic.I]. rewrite Forall_forall in IH. apply (IH c (nth_error_In _ _ Ec) k E1).
    + intros L. apply Nat.leb_le in L. rewrite L in E2. cbn [negb orb] in E2. destruct (nth (N.to_nat d) ch Empty) as [| | | |n w]; try exact Logic.I. intros _ i h _ X.
      rewrite forallb_forall in E2. assert (Hin : In (Hash h) ch) by (rewrite <- X; apply nth_In; destruct (Nat.ltb_spec i (length ch)); [assumption|rewrite nth_overflow in X by assumption; discriminate]).
      specialize (E2 _ Hin). discriminate E2.
  - cbn [visible_b collapse_visible] in *. destruct (strip (nseq n) k) as [k'|]; [apply IH, E|exact Logic.I].
Qed.
Example C84_example :
  let c := the (ok_client (client_run keccak256 Debug new_client ex_three_ops)) in
  let p := cut_client c ex_requested in
  let w0 := fst (world_run keccak256 [] ex_three_ops) in
  no_clash keccak256 (names ex_three_ops ++ ex_requested) /\ Forall world_op_ok (ex_three_ops ++ ex_remove_ops) /\ incl (names ex_remove_ops) ex_requested /\
  received keccak256 Debug ex_requested (state_root keccak256 w0) p /\ removals_seen keccak256 Debug p ex_remove_ops /\ is_hash (lk (state p) [10]) = true.
Proof.
  cbv zeta. destruct C70_removal_example as (NC & O & IN & _ & c & Ec & EX & IH).
  replace (the (ok_client (client_run keccak256 Debug new_client ex_three_ops))) with c by (rewrite Ec; reflexivity). set (p := cut_client c ex_requested). set (w0 := fst (world_run keccak256 [] ex_three_ops)).
  split; [exact NC|]. split; [exact O|]. split; [exact IN|]. apply Forall_app in O as [O _].
  destruct (run_ok keccak256 Debug (names ex_three_ops ++ ex_requested) ex_three_ops keccak256_hash32 NC ltac:(apply incl_appl, incl_refl) O new_client [] (new_ok keccak256 _)) as (c' & R & _).
  assert (c' = c) by (rewrite R in Ec; cbn [ok_client] in Ec; congruence). subst c'. split; [|split; [|exact IH]].
  - apply (C84_honest keccak256 Debug ex_three_ops ex_requested w0 (snd (world_run keccak256 [] ex_three_ops)) c p keccak256_hash32 NC O); [unfold w0; destruct (world_run keccak256 [] ex_three_ops); reflexivity|exact R|exact EX].
  - split; [|intros; split; [exact Logic.I|intros; exact Logic.I]]. apply visible_b_ok. unfold p. replace c with (the (ok_client (client_run keccak256 Debug new_client ex_three_ops))) by (rewrite Ec; reflexivity). vm_compute. reflexivity.
Qed.

(** A chain of two blocks: the removal, then the writes and reads of C70_example. *)
Definition ex_plan : list (list (list N) * list world_op) := [(ex_requested, ex_remove_ops); (names ex_more_ops, ex_more_ops)].
Example C84_served_example :
  let w0 := fst (world_run keccak256 [] ex_three_ops) in
  no_clash keccak256 (names ex_three_ops ++ flat_map fst ex_plan) /\ Forall world_op_ok (ex_three_ops ++ flat_map snd ex_plan) /\
  (forall pl1 ns ops pl2, ex_plan = pl1 ++ (ns, ops) :: pl2 -> incl (names ops) ns /\ removals_covered keccak256 ns (fst (world_run keccak256 w0 (flat_map snd pl1))) ops) /\
  snd (world_run keccak256 w0 (flat_map snd ex_plan)) = [ODone; OValue None; ODone; OValue None; ODone; OValue (Some [9])].
Proof.
  cbv zeta. split; [clash|]. split; [unfold ex_three_ops, ex_plan, ex_remove_ops, ex_more_ops; cbn [app flat_map snd]; world_ok|]. split; [|vm_compute; reflexivity].
  destruct C70_removal_example as (_ & _ & IN & RC & _). intros pl1 ns ops pl2 E. unfold ex_plan in E.
  destruct pl1 as [|x1 [|x2 [|x3 pl1]]]; cbn [app] in E; [| |discriminate E|discriminate E].
  - injection E as <- <- _. split; [exact IN|exact RC].
  - injection E as <- <- <- _. split; [apply incl_refl|]. apply nothing_covered.
    repeat (apply Forall_cons; [cbn [removes_nothing]; try exact Logic.I; discriminate|]). apply Forall_nil.
Qed.
