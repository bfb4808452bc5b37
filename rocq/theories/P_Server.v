(** Property C92: the server as a program. *)
From Verif Require Import Base Nibbles NibblesSpec NibblesFacts NibblesFacts2 NibblesFacts3 Trie TrieSpec TrieHistSpec TrieFacts TrieInsert TrieGet TrieDelete TrieUnique TrieIter TrieHist TrieObs InsertWf Rlp YellowPaper Hashing Keccak HashSpec HideSpec HashFacts HashBind KeccakFacts HideFacts HideBind HideDelete JoinFacts P_Trie P_Hash P_Join Subset SubsetSpec SubsetFacts SubsetFacts2 P_Subset ReplaySpec ReplayFacts P_Replay NeighbourSpec NeighbourFacts P_Neighbour NeighbourSeen PartialSpec P_Partial Serde Json JsonSpec TypeSpec TypeFacts TypeFacts2 P_Json JsonText JsonTextSpec P_JsonText WitnessSpec P_Witness TxSpec TrieHistSpec FollowSpec JsonTextFacts JsonTextFacts2 P_Follow FollowAnySpec P_FollowAny FollowerSpec P_Follower ServerSpec.
Open Scope N_scope.

Lemma nearest_none k js : nearest k js = None -> forall j, In j js -> j = k.
Proof.
  induction js as [|i js IH]; cbn [nearest]; intros E j I; [destruct I|]. destruct (key_eqb_spec i k) as [->|Ni].
  - destruct I as [<-|I]; auto.
  - destruct (nearest k js) as [b|]; [destruct (lcp i k <=? lcp b k)%nat|]; discriminate.
Qed.
Lemma nearest_some k js : forall b, nearest k js = Some b -> In b js /\ b <> k /\ forall j, In j js -> j <> k -> (lcp j k <= lcp b k)%nat.
Proof.
  induction js as [|i js IH]; cbn [nearest]; intros b E; [discriminate|]. destruct (key_eqb_spec i k) as [->|Ni].
  - destruct (IH b E) as (A & B & C). split; [right; exact A|]. split; [exact B|]. intros j [<-|I] Nj; [congruence|auto].
  - destruct (nearest k js) as [b'|] eqn:En.
    + destruct (IH b' eq_refl) as (A & B & C). destruct (Nat.leb_spec (lcp i k) (lcp b' k)) as [Le|Gt]; injection E as <-.
      * split; [right; exact A|]. split; [exact B|]. intros j [<-|I] Nj; auto.
      * split; [left; reflexivity|]. split; [exact Ni|]. intros j [<-|I] Nj; [lia|]. specialize (C j I Nj). lia.
    + injection E as <-. split; [left; reflexivity|]. split; [exact Ni|]. intros j [<-|I] Nj; [lia|]. destruct (Nj (nearest_none _ _ En j I)).
Qed.

Section S.
Variable keccak : list N -> list N.
Hypothesis H32 : hash32 keccak.
Variable pr : profile.
Variable n : N.

Lemma stored_key t m j : keeps_map n t m -> m j <> None -> kwf (enc j) /\ count (enc j) = n /\ nseq (enc j) = j.
Proof.
  intros [(W & C & Ho & HU) _] S. pose proof (HU j S) as Ln. assert (St : stored t j) by (apply (holds_stored t m); assumption).
  destruct (stored_wf t 64 j W St) as [Le Hx]. split; [apply kwf_enc; auto|]. split; [|apply nseq_enc, Hx]. pose proof (length_nseq (enc j)) as X. rewrite (nseq_enc j Hx) in X. lia.
Qed.
Lemma keys_ok t m o : keeps_map n t m -> op_good n o ->
  Forall (fun k => kwf k /\ count k = n) (op_keys o ++ match o with ODelete k => match nearest (nseq k) (map fst (entries t)) with Some j => [enc j] | None => [] end | _ => [] end).
Proof.
  intros Kt [F _]. apply Forall_app. split.
  - destruct o as [k v|l|k|k]; cbn [op_keys op_fixed] in *; try (constructor; [split; apply F|constructor]). apply Forall_map. eapply Forall_impl; [|exact F]. cbn. tauto.
  - destruct o as [k v|l|k|k]; try constructor. destruct (nearest (nseq k) (map fst (entries t))) as [j|] eqn:En; [|constructor]. constructor; [|constructor].
    apply nearest_some in En as (I & _). apply in_map_iff in I as ([j' e] & <- & I). cbn [fst]. apply entries_lk in I. destruct (stored_key t m j' Kt) as (A & B & _); [|auto].
    destruct Kt as [(_ & _ & Ho & _) _]. apply (holds_stored t m j' Ho). unfold stored. congruence.
Qed.
Lemma keys_for_ok p : forall t m, keeps_map n t m -> tx_fixed n p -> Forall (fun k => kwf k /\ count k = n) (keys_for pr t p).
Proof.
  induction p as [|o next IH]; intros t m Kt F; cbn [keys_for tx_fixed] in *; [constructor|]. destruct F as [Fo Fn]. rewrite app_assoc. apply Forall_app. split; [apply (keys_ok t m); assumption|].
  destruct (keeps_op pr n t m o Kt Fo) as (t1 & Et & K1). rewrite Et. apply (IH _ _ _ K1), Fn.
Qed.
Lemma keys_for_suffice ks p : forall t m, keeps_map n t m -> tx_fixed n p -> incl (keys_for pr t p) ks -> suffices m ks p.
Proof.
  induction p as [|o next IH]; intros t m Kt F In1; cbn [keys_for tx_fixed suffices] in *; [exact Logic.I|]. destruct F as [Fo Fn]. apply incl_app_inv in In1 as [I1 In1]. apply incl_app_inv in In1 as [I2 I3].
  destruct (keeps_op pr n t m o Kt Fo) as (t1 & Et & K1). rewrite Et in I3. split; [|split].
  - destruct Fo as [A B]. destruct o as [k v|l|k|k]; cbn [op_on op_keys] in *; try (apply I1; left; reflexivity); [split; [apply I1; left; reflexivity|exact B]|].
    apply Forall_forall. intros e Ie. rewrite Forall_forall in B. split; [apply I1, in_map, Ie|apply B, Ie].
  - destruct o as [k v|l|k|k]; try exact Logic.I. assert (St : forall j, m j <> None <-> In j (map fst (entries t))).
    { intros j. pose proof Kt as [(_ & _ & Ho & _) _]. rewrite <- (holds_stored t m j Ho). unfold stored. rewrite in_map_iff. split.
      - destruct (lk t j) as [e|] eqn:E; [|congruence]. intros _. exists (j, e). split; [reflexivity|]. apply entries_lk, E.
      - intros ([j' e] & <- & I). apply entries_lk in I. cbn [fst]. congruence. }
    unfold has_neighbour. right. destruct (nearest (nseq k) (map fst (entries t))) as [b|] eqn:En.
    + right. apply nearest_some in En as (Ib & Nb & Mx). apply St in Ib. destruct (stored_key t m b Kt Ib) as (_ & _ & Eb). exists (enc b). split; [apply I2; left; reflexivity|]. rewrite Eb.
      split; [exact Ib|]. split; [exact Nb|]. intros j Sj Nj. apply Mx; [apply St, Sj|exact Nj].
    + left. intros j Sj. apply (nearest_none _ _ En), St, Sj.
  - apply (IH _ _ _ K1); [apply Fn|]. destruct (spec_op m o). exact I3.
Qed.

Lemma serve ps : forall t m r, keeps_map n t m -> hash_trie keccak pr t = Ok r -> Forall (tx_fixed n) ps ->
  exists rs r2, server keccak pr t ps = Some rs /\ map program rs = ps /\ follows keccak pr r rs (snd (map_serial m ps)) r2 /\
    exists t2, keeps_map n t2 (fst (map_serial m ps)) /\ hash_trie keccak pr t2 = Ok r2.
Proof.
  induction ps as [|p ps IH]; intros t m r Kt R F; cbn [server].
  - exists [], r. split; [reflexivity|]. split; [reflexivity|]. split; [constructor|]. eauto.
  - inversion F as [|? ? Fp Fl]; subst. pose proof (keys_for_ok p t m Kt Fp) as Ko. pose proof (keys_for_suffice (keys_for pr t p) p t m Kt Fp (incl_refl _)) as Sf. set (ks := keys_for pr t p) in *. clearbody ks.
    assert (Kw : Forall kwf ks) by (eapply Forall_impl; [|exact Ko]; intros k [X _]; exact X). assert (Kn : forall k, In k ks -> count k = n) by (intros k I; rewrite Forall_forall in Ko; apply Ko, I).
    pose proof (keeps_fixed_trie n t m Kt) as Fx. pose proof Kt as [(W & C & _) Ft].
    assert (Kn' : forall k, In k ks -> length (nseq k) = N.to_nat n) by (intros k I; rewrite length_nseq, (Kn k I); reflexivity).
    assert (Es : exists s, create_trie_subset keccak pr t ks = Ok (ROk s)).
    { destruct (C25_errors_partial keccak pr t ks H32 W Ft Kw) as [[(k & I & q & h & Ep & P) _]|[_ Q]]; [|destruct (keeps_free n t m Kt q h Ep)|exact Q].
      right. intros k I Q. destruct (fixed_not_short t 64 (nseq k) (canon_shape _ C) W Q) as (j & Sj & Lj). apply (fixed_stored _ t j Fx) in Sj. rewrite (Kn' k I) in Lj. lia. }
    destruct Es as [s Es]. pose proof (subset_hides keccak pr t ks s H32 W Ft Es) as H. pose proof (subset_like keccak pr (N.to_nat n) t ks s H32 Fx Ft Kw Kn' Es) as Ls.
    pose proof (hides_wf keccak t 64 s H W) as Ws. pose proof (hides_fits keccak H32 t s H Ft) as Fs. pose proof (wf_type s 64 Ws (le_n _) Fs) as Ts.
    destruct (served_run keccak H32 pr n ks p Kw Kn t m s Kt Ls H Sf) as (Ca & s' & l & t' & E1 & E2 & El & K' & H').
    pose proof K' as [(W' & _) Ft']. assert (R' : exists r1, hash_trie keccak pr t' = Ok r1) by (eexists; apply (hash_trie_ok keccak H32 pr t' W' Ft')). destruct R' as [r1 R'].
    destruct (IH t' _ r1 K' R' Fl) as (rs & r2 & Sv & Em & FC & t2 & K2 & R2). rewrite Es, E2, Sv. exists (Round p (to_string (serialize s)) :: rs), r2. split; [reflexivity|]. cbn [map program]. split; [congruence|].
    cbn [map_serial]. destruct (map_run m p) as [m1 xs]. cbn [fst snd] in *. destruct (map_serial m1 ps) as [m2 xss]. cbn [fst snd] in *. subst xs. split; [|eauto].
    apply (fo_cons keccak pr r p _ None s s' l r1); auto.
    + apply C62_roundtrip, Ts.
    + apply (checked_wf s 64 (le_n _) Ts). auto.
    + rewrite <- R. apply C20_hiding_keeps_root; auto.
    + rewrite <- R'. apply C20_hiding_keeps_root; auto.
Qed.
End S.

(** Whoever has the full trie serves every list of programs over keys of [n] nibbles: the server program does not fail, and the follower program accepts what it sends, with the answers of
    the map and the root of the map that the programs leave. *)
Theorem C92_server : forall keccak pr n ops0 ps J0,
  hash32 keccak -> Forall (op_fixed n) ops0 -> Forall op_bytes ops0 -> Forall (tx_fixed n) ps -> lists_map J0 (fst (spec_ops kv_empty ops0)) ->
  exists t0 rs r, trie_ops pr Empty ops0 = Ok (t0, snd (spec_ops kv_empty ops0)) /\ server keccak pr t0 ps = Some rs /\ map program rs = ps /\
    follow keccak pr None (yp_root keccak J0) rs = Some (snd (map_serial (fst (spec_ops kv_empty ops0)) ps), r) /\
    forall J, lists_map J (fst (map_serial (fst (spec_ops kv_empty ops0)) ps)) -> r = yp_root keccak J.
Proof.
  intros keccak pr n ops0 ps J0 H32 F0 B0 F L. destruct (history_keeps pr n ops0 F0 B0) as (t & E & Kt).
  destruct (serve keccak H32 pr n ps t _ _ Kt (keeps_root keccak H32 pr n t _ J0 Kt L) F) as (rs & r & Sv & Em & FC & t2 & K2 & R2). exists t, rs, r. split; [exact E|]. split; [exact Sv|]. split; [exact Em|].
  split; [apply C92_program, FC|]. intros J LJ. pose proof (keeps_root keccak H32 pr n t2 _ J K2 LJ). congruence.
Qed.

(** The programs of the example above with no keys given: the server asks for the key next to the deleted one by itself. *)
Example C92_server_example : Forall (op_fixed 4) ex_ops0 /\ Forall op_bytes ex_ops0 /\ Forall (tx_fixed 4) [ex_first; ex_second] /\ lists_map ex_listing (fst (spec_ops kv_empty ex_ops0)) /\
  keys_for Debug ex_full (Do (ODelete (K 4 0x5678)) (fun _ => Finish)) = [K 4 0x5678; K 4 0x5699] /\
  match server keccak256 Debug ex_full [ex_first; ex_second] with
  | Some rs => match follow keccak256 Debug default_limit ex_root rs with Some (xss, _) => xss = [[OValue (Some (big 2)); ODone]; [OValue (Some [7]); ODone]] | None => False end
  | None => False
  end.
Proof.
  destruct C92_example as (A & B & L & _ & F & _). split; [exact A|]. split; [exact B|]. split; [exact F|]. split; [exact L|]. split; vm_compute; reflexivity.
Qed.
Print Assumptions C92_server.
