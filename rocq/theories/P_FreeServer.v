(** Property C92: the server as a program, for keys of different lengths. *)
From Verif Require Import Base Nibbles NibblesSpec NibblesFacts NibblesFacts2 NibblesFacts3 Trie TrieSpec TrieHistSpec TrieFacts TrieInsert TrieGet TrieDelete TrieUnique TrieIter TrieHist TrieObs InsertWf Rlp YellowPaper Hashing Keccak HashSpec HideSpec HashFacts KeccakFacts HideFacts HideDelete HideExact HideBind Subset SubsetSpec SubsetFacts SubsetFacts2 ReplaySpec ReplayFacts NeighbourSpec NeighbourFacts ReleaseSpec SubsetFacts3 ComposeFacts SmallFacts LeastSpec LeastFacts P_Trie P_Hash P_Subset P_Short P_Compose P_Small P_Replay P_Neighbour P_Least RefreshSpec P_Refresh ListSpec ListFacts FreeSpec FreeFacts P_Free NeighbourSeen PartialSpec P_Partial Serde Json JsonSpec TypeSpec TypeFacts TypeFacts2 P_Json JsonText JsonTextSpec P_JsonText WitnessSpec P_Witness TxSpec TrieHistSpec FollowSpec JsonTextFacts JsonTextFacts2 P_Follow FollowAnySpec P_FollowAny FollowerSpec P_Follower FreeServeSpec P_FreeServe ServerSpec P_Server FreeServerSpec.
Open Scope N_scope.

Section S.
Variable keccak : list N -> list N.
Hypothesis H32 : hash32 keccak.
Variable pr : profile.
Variable U : list N -> Prop.
Hypothesis PF : prefix_free U.

Definition fine (m0 : kvmap) (k : nibbles) : Prop := kwf k /\ U (nseq k) /\ findable m0 (nseq k).

Lemma free_stored_key t m j : inv U t m -> m j <> None -> kwf (enc j) /\ U j /\ nseq (enc j) = j.
Proof.
  intros (W & C & Ho & HU) S. pose proof (HU j S) as Uj. assert (St : stored t j) by (apply (holds_stored t m); assumption).
  destruct (stored_wf t 64 j W St) as [Le Hx]. split; [apply kwf_enc; auto|]. split; [exact Uj|apply nseq_enc, Hx].
Qed.
Lemma entries_map t m j : inv U t m -> (m j <> None <-> In j (map fst (entries t))).
Proof.
  intros (_ & _ & Ho & _). rewrite <- (holds_stored t m j Ho). unfold stored. rewrite in_map_iff. split.
  - destruct (lk t j) as [e|] eqn:E; [|congruence]. intros _. exists (j, e). split; [reflexivity|]. apply entries_lk, E.
  - intros ([j' e] & <- & I). apply entries_lk in I. cbn [fst]. congruence.
Qed.
(** What is stored later was stored at first or used since. *)
Lemma stored_since m o j : fst (spec_op m o) j <> None -> m j <> None \/ exists k, In k (op_keys o) /\ nseq k = j.
Proof.
  destruct o as [k v|l|k|k]; cbn [spec_op fst op_keys].
  - rewrite kv_set_some. intros [[-> _]|[_ A]]; [right; exists k; cbn; auto|auto].
  - revert m. induction l as [|[k v] l IH]; intros m A; cbn [fold_left map fst snd] in *; [auto|]. destruct (IH _ A) as [B|(k' & I & E)].
    + apply kv_set_some in B as [[-> _]|[_ B]]; [right; exists k; cbn; auto|auto].
    + right. exists k'. cbn. auto.
  - rewrite kv_set_some. intros [[_ A]|[_ A]]; [congruence|auto].
  - auto.
Qed.
Lemma op_keys_fine m0 o : op_in U o -> Forall (fun k => findable m0 (nseq k)) (op_keys o) -> Forall (fine m0) (op_keys o).
Proof.
  intros O F. destruct o as [k v|l|k|k]; cbn [op_keys op_in] in *; try (inversion F; subst; constructor; [split; [apply O|split; [apply O|assumption]]|constructor]).
  apply Forall_map. rewrite Forall_map in F. rewrite Forall_forall in *. intros e Ie. destruct (O e Ie) as (A & B & _). split; [exact A|]. split; [exact B|exact (F e Ie)].
Qed.
Lemma since m0 m o : (forall j, m j <> None -> findable m0 j) -> Forall (fun k => findable m0 (nseq k)) (op_keys o) -> forall j, fst (spec_op m o) j <> None -> findable m0 j.
Proof. intros A F j Q. destruct (stored_since m o j Q) as [B|(k & I & <-)]; [auto|]. rewrite Forall_forall in F. exact (F k I). Qed.

Lemma free_keys_fine m0 p : forall t m, inv U t m -> (forall j, m j <> None -> findable m0 j) -> tx_free U m0 m p -> Forall (fine m0) (keys_for pr t p).
Proof.
  induction p as [|o next IH]; intros t m Iv A F; cbn [keys_for tx_free] in *; [constructor|]. destruct F as (O & _ & Fk & G & Fn).
  destruct (free_inv_op pr U t m o PF Iv O G) as (t1 & Et & I1). rewrite Et. apply Forall_app. split; [exact (op_keys_fine m0 o O Fk)|]. apply Forall_app. split.
  - destruct o as [k v|l|k|k]; try constructor. destruct (nearest (nseq k) (map fst (entries t))) as [j|] eqn:En; [|constructor]. constructor; [|constructor].
    apply nearest_some in En as (I & _). apply (entries_map t m j Iv) in I. destruct (free_stored_key t m j Iv I) as (K & Uj & E). unfold fine. rewrite E. auto.
  - apply (IH _ _ _ I1); [exact (since m0 m o A Fk)|exact Fn].
Qed.
Lemma free_keys_suffice ks m0 p : forall t m, inv U t m -> tx_free U m0 m p -> incl (keys_for pr t p) ks -> suffices_free m ks p.
Proof.
  induction p as [|o next IH]; intros t m Iv F In1; cbn [keys_for tx_free suffices_free] in *; [exact Logic.I|]. destruct F as (O & B & Fk & G & Fn). apply incl_app_inv in In1 as [I1 In1]. apply incl_app_inv in In1 as [I2 I3].
  destruct (free_inv_op pr U t m o PF Iv O G) as (t1 & Et & Iv1). rewrite Et in I3. split; [|split].
  - destruct o as [k v|l|k|k]; cbn [op_on op_keys] in *; try (apply I1; left; reflexivity); [split; [apply I1; left; reflexivity|exact B]|].
    apply Forall_forall. intros e Ie. rewrite Forall_forall in B. split; [apply I1, in_map, Ie|apply B, Ie].
  - destruct o as [k v|l|k|k]; try exact Logic.I; [|exact G]. pose proof (fun j => entries_map t m j Iv) as St.
    unfold has_neighbour. right. destruct (nearest (nseq k) (map fst (entries t))) as [b|] eqn:En.
    + right. apply nearest_some in En as (Ib & Nb & Mx). apply St in Ib. destruct (free_stored_key t m b Iv Ib) as (_ & _ & Eb). exists (enc b). split; [apply I2; left; reflexivity|]. rewrite Eb.
      split; [exact Ib|]. split; [exact Nb|]. intros j Sj Nj. apply Mx; [apply St, Sj|exact Nj].
    + left. intros j Sj. apply (nearest_none _ _ En), St, Sj.
  - apply (IH _ _ _ Iv1); [exact Fn|exact I3].
Qed.

Lemma free_serve ps : forall t m r, inv U t m -> fits t -> hash_trie keccak pr t = Ok r -> all_free U m ps ->
  exists rs r2, server keccak pr t ps = Some rs /\ map program rs = ps /\ follows_any keccak pr r rs (snd (map_serial m ps)) r2 /\
    exists t2, inv U t2 (fst (map_serial m ps)) /\ fits t2 /\ hash_trie keccak pr t2 = Ok r2.
Proof.
  induction ps as [|p ps IH]; intros t m r Iv Ft R F; cbn [server all_free] in *.
  - exists [], r. split; [reflexivity|]. split; [reflexivity|]. split; [constructor|]. eauto.
  - destruct F as [Fp Fl]. pose proof (free_keys_fine m p t m Iv (fun j Q => or_introl Q) Fp) as Ko. pose proof (free_keys_suffice (keys_for pr t p) m p t m Iv Fp (incl_refl _)) as Sf. set (ks := keys_for pr t p) in *. clearbody ks.
    assert (Kw : Forall kwf ks) by (eapply Forall_impl; [|exact Ko]; intros k [X _]; exact X). rewrite Forall_forall in Ko. assert (Ku : forall k, In k ks -> U (nseq k)) by (intros k I; apply (Ko k I)).
    assert (Fi : forall k, In k ks -> findable m (nseq k)) by (intros k I; apply (Ko k I)). pose proof (inv_free U t m Iv) as Fx. pose proof Fx as (W & C & _).
    assert (NS : forall k, In k ks -> ~ too_short t (nseq k)) by (intros k Ik; exact (findable_reach U t m _ Iv (Fi k Ik))).
    assert (Es : exists s, create_trie_subset keccak pr t ks = Ok (ROk s)).
    { eexists. apply subset_any; auto. intros k Ik. split; [|intros _; apply NS, Ik]. intros (q & h & Ep & P). destruct Iv as (_ & _ & Ho & _). rewrite Ho in Ep. destruct (m q); discriminate. }
    destruct Es as [s Es]. pose proof (subset_hides keccak pr t ks s H32 W Ft Es) as H. pose proof (subset_flike keccak pr U t ks s H32 Fx Ft Kw (or_intror NS) Es) as Ls.
    pose proof (hides_wf keccak t 64 s H W) as Ws. pose proof (hides_fits keccak H32 t s H Ft) as Fs. pose proof (wf_type s 64 Ws (le_n _) Fs) as Ts.
    destruct (free_served_run keccak H32 pr U PF ks p Kw Ku t m s Iv (conj Ls (conj Ft H)) Sf) as (Ca & s' & l & t' & E1 & E2 & El & Iv' & (L' & Ft' & H')).
    pose proof Iv' as (W' & _). assert (R' : exists r1, hash_trie keccak pr t' = Ok r1) by (eexists; apply (hash_trie_ok keccak H32 pr t' W' Ft')). destruct R' as [r1 R'].
    destruct (IH t' _ r1 Iv' Ft' R' Fl) as (rs & r2 & Sv & Em & FC & t2 & K2 & F2 & R2). rewrite Es, E2, Sv. exists (Round p (to_string (serialize s)) :: rs), r2. split; [reflexivity|]. cbn [map program]. split; [congruence|].
    cbn [map_serial]. destruct (map_run m p) as [m1 xs]. cbn [fst snd] in *. destruct (map_serial m1 ps) as [m2 xss]. cbn [fst snd] in *. subst xs. split; [|eauto].
    apply (fa_cons keccak pr r p _ None s s' l r1); auto.
    + apply C62_roundtrip, Ts.
    + apply (checked_wf s 64 (le_n _) Ts). auto.
    + rewrite <- R. apply C20_hiding_keeps_root; auto.
    + rewrite <- R'. apply C20_hiding_keeps_root; auto.
Qed.
End S.

(** The server program also serves programs over keys of different lengths, none of which is the beginning of another: it does not fail, and the follower program for any keys accepts what it
    sends, with the answers of the map and the root of the map that the programs leave. *)
Theorem C92_server_free : forall keccak pr U ops0 ps J0,
  hash32 keccak -> prefix_free U -> Forall (op_in U) ops0 -> Forall op_bytes ops0 -> gets_findable kv_empty ops0 ->
  lists_map J0 (fst (spec_ops kv_empty ops0)) -> all_free U (fst (spec_ops kv_empty ops0)) ps ->
  exists t0 rs r, trie_ops pr Empty ops0 = Ok (t0, snd (spec_ops kv_empty ops0)) /\ server keccak pr t0 ps = Some rs /\ map program rs = ps /\
    follow_any keccak pr None (yp_root keccak J0) rs = Some (snd (map_serial (fst (spec_ops kv_empty ops0)) ps), r) /\
    forall J, lists_map J (fst (map_serial (fst (spec_ops kv_empty ops0)) ps)) -> r = yp_root keccak J.
Proof.
  intros keccak pr U ops0 ps J0 H32 PF F0 B0 G0 L A. destruct (free_inv_ops pr U ops0 Empty kv_empty PF (inv_empty U) F0 G0) as (t & E & Iv).
  assert (Ft : fits t) by (apply (ops_fits pr ops0 Empty t (snd (spec_ops kv_empty ops0))); [exact Logic.I|exact B0|exact E]).
  assert (Rt : forall t m J, inv U t m -> fits t -> lists_map J m -> hash_trie keccak pr t = Ok (yp_root keccak J)).
  { intros t1 m1 J (W1 & C1 & Ho1 & _) Ft1 LJ. apply C19_canonical; auto. eapply lists_holds; eauto. }
  destruct (free_serve keccak H32 pr U PF ps t _ _ Iv Ft (Rt _ _ _ Iv Ft L) A) as (rs & r & Sv & Em & FC & t2 & K2 & F2 & R2). exists t, rs, r. split; [exact E|]. split; [exact Sv|]. split; [exact Em|].
  split; [apply C92_program_any, FC|]. intros J LJ. pose proof (Rt _ _ _ K2 F2 LJ). congruence.
Qed.
Print Assumptions C92_server_free.

(** The programs of P_FreeServe.v with no keys given: the server asks for the entry next to the deleted one by itself, and what it sends is accepted. *)
Definition ex_list_trie : node := match trie_ops Debug Empty ex_list_ops with Ok (t, _) => t | Panic => Empty end.
Example C92_server_free_example : prefix_free indices /\ Forall (op_in indices) ex_list_ops /\ Forall op_bytes ex_list_ops /\ gets_findable kv_empty ex_list_ops /\
  lists_map ex_list_listing (fst (spec_ops kv_empty ex_list_ops)) /\ all_free indices (fst (spec_ops kv_empty ex_list_ops)) [ex_move; ex_copy] /\
  keys_for Debug ex_list_trie ex_move = [K 4 0x8181; K 4 0x8180; K 2 0x80] /\
  match server keccak256 Debug ex_list_trie [ex_move; ex_copy] with
  | Some rs => match hash_trie keccak256 Debug ex_list_trie with
               | Ok r0 => match follow_any keccak256 Debug default_limit r0 rs with Some (xss, _) => xss = [[OValue (Some (big 4)); ODone]; [OValue (Some (big 4)); ODone]] | None => False end
               | Panic => False end
  | None => False
  end.
Proof.
  destruct C81_example as (P & F & B & G & Kw & Ku & Fi & _). split; [exact P|]. split; [exact F|]. split; [exact B|]. split; [exact G|]. split; [exact ex_list_lists|].
  assert (V : value_ok (big 4)) by (split; [discriminate|]; split; [repeat constructor|reflexivity]). rewrite Forall_forall in Kw.
  split; [|split; vm_compute; reflexivity].
  cbn [all_free]. split; [|split; [|exact Logic.I]].
  - cbn [ex_move tx_free op_in op_keys]. split; [split; [apply Kw|apply Ku]; cbn; auto|]. split; [exact Logic.I|]. split; [constructor; [left; vm_compute; discriminate|constructor]|]. split; [exact Logic.I|].
    replace (snd (spec_op (fst (spec_ops kv_empty ex_list_ops)) (ODelete (K 4 0x8181)))) with (OValue (Some (big 4))) by (vm_compute; reflexivity).
    cbn [tx_free op_in op_keys]. split; [split; [apply Kw; cbn; auto|split; [apply Ku; cbn; auto|discriminate]]|]. split; [exact V|]. split; [constructor; [left; vm_compute; discriminate|constructor]|]. split; exact Logic.I.
  - cbn [ex_copy tx_free op_in op_keys]. split; [split; [apply Kw|apply Ku]; cbn; auto|]. split; [exact Logic.I|]. split; [constructor; [left; vm_compute; discriminate|constructor]|]. split; [left; vm_compute; discriminate|].
    replace (snd (spec_op (fst (map_run (fst (spec_ops kv_empty ex_list_ops)) ex_move)) (OGet (K 2 0x80)))) with (OValue (Some (big 4))) by (vm_compute; reflexivity).
    cbn [tx_free op_in op_keys]. split; [split; [apply Kw; cbn; auto|split; [apply Ku; cbn; auto|discriminate]]|]. split; [exact V|]. split; [constructor; [left; vm_compute; discriminate|constructor]|]. split; exact Logic.I.
Qed.
