(** Property C92: serving a follower when keys have different lengths. *)
From Verif Require Import Base Nibbles NibblesSpec NibblesFacts NibblesFacts2 NibblesFacts3 Trie TrieSpec TrieHistSpec TrieFacts TrieInsert TrieGet TrieDelete TrieUnique TrieIter TrieHist TrieObs InsertWf Rlp YellowPaper Hashing Keccak HashSpec HideSpec HashFacts KeccakFacts HideFacts HideDelete HideExact HideBind Subset SubsetSpec SubsetFacts SubsetFacts2 ReplaySpec ReplayFacts NeighbourSpec NeighbourFacts ReleaseSpec SubsetFacts3 ComposeFacts SmallFacts LeastSpec LeastFacts P_Trie P_Hash P_Subset P_Short P_Compose P_Small P_Replay P_Neighbour P_Least RefreshSpec P_Refresh ListSpec ListFacts FreeSpec FreeFacts P_Free NeighbourSeen PartialSpec P_Partial Serde Json JsonSpec TypeSpec TypeFacts TypeFacts2 P_Json JsonText JsonTextSpec P_JsonText WitnessSpec P_Witness TxSpec TrieHistSpec FollowSpec JsonTextFacts JsonTextFacts2 P_Follow FollowAnySpec P_FollowAny FollowerSpec P_Follower FreeServeSpec.
Open Scope N_scope.

Lemma free_neighbour_collapse s : forall L k k' v v', wf L s -> canon s -> lk s k = Some (Val v) -> lk s k' = Some (Val v') ->
  ~ is_prefix k' k -> (forall j, stored s j -> j <> k -> (lcp j k <= lcp k' k)%nat) -> collapse_visible s k.
Proof.
  induction s as [|h|ch w IH|n c IH|n w] using node_ind'; intros L k k' v v' W C E E' NP Max; try exact Logic.I.
  - inversion W as [| |L0 ? ? Hl Fw| |]; subst. inversion C as [| |? ? FC O| |]; subst.
    destruct k as [|d k]; [exact Logic.I|]. destruct k' as [|d' k']; [exfalso; apply NP; exists (d :: k); reflexivity|]. pose proof (lk_big _ _ _ _ _ Hl E) as Hd. pose proof (lk_big _ _ _ _ _ Hl E') as Hd'.
    rewrite lk_branch in E, E'. cbn [collapse_visible]. rewrite at_child_nth, nth_error_child by assumption. fold (child ch d).
    assert (I0 : In (child ch d) ch) by (destruct (child_in ch d) as [Z|I0]; [rewrite Z in E; discriminate|exact I0]).
    assert (NEd' : child ch d' <> Empty) by (intros Z; rewrite Z in E'; discriminate).
    rewrite Forall_forall in IH, Fw, FC. split.
    + destruct (N.eq_dec d' d) as [->|D].
      * apply (IH _ I0 L0 k k' v v'); auto; [intros [r ->]; apply NP; exists r; reflexivity|].
        intros j Sj NEj. specialize (Max (d :: j) ltac:(apply stored_branch; exact Sj) ltac:(congruence)). cbn [lcp] in Max. rewrite N.eqb_refl in Max. lia.
      * destruct (other_key (child ch d) L0 k v (Fw _ I0) (FC _ I0) E) as [(n & u & ->)|(j & Sj & NEj)]; [exact Logic.I|]. exfalso.
        specialize (Max (d :: j) ltac:(apply stored_branch; exact Sj) ltac:(congruence)). cbn [lcp] in Max. rewrite N.eqb_refl in Max.
        destruct (N.eqb_spec d' d); [contradiction|]. lia.
    + intros Oc. destruct (child ch d) as [| | | |m u] eqn:Ec; try exact Logic.I. intros Em i h Hi X.
      destruct (N.eq_dec d' d) as [->|D].
      { rewrite Ec in E'. cbn [lk] in E'. destruct (key_eqb_spec (nseq m) k') as [Q|]; [|discriminate]. apply NP. exists []. rewrite app_nil_r. congruence. }
      rewrite occupied_nil in Oc. destruct (Nat.eq_dec i (N.to_nat d')) as [->|Di].
      * unfold child in E'. rewrite X in E'. cbn [lk] in E'. destruct k'; discriminate E'.
      * assert (Z : nth i ch Empty = Empty).
        { apply (occ_others ch (N.to_nat d) (N.to_nat d')); auto; [lia|]. unfold child in Ec. rewrite Ec. discriminate. }
        congruence.
  - inversion W as [| | |L0 q c0 Hq Wc|]; subst. inversion C as [| | |? ? Hn Bc Cc|]; subst.
    destruct (stored_ext_inv q c k Hq ltac:(unfold stored; congruence)) as (k1 & -> & _). destruct (stored_ext_inv q c k' Hq ltac:(unfold stored; congruence)) as (k2 & -> & _).
    rewrite lk_in_ext in E, E' by exact Hq. cbn [collapse_visible]. rewrite nseq_enc by exact Hq. rewrite strip_app.
    apply (IH L0 k1 k2 v v'); auto; [intros [r ->]; apply NP; exists r; apply app_assoc|].
    intros j Sj NEj. specialize (Max (q ++ j) ltac:(apply stored_in_ext; assumption) ltac:(intros X; apply app_inv_head in X; contradiction)). rewrite !lcp_app in Max. lia.
Qed.

Section F.
Variable keccak : list N -> list N.
Hypothesis H32 : hash32 keccak.
Variable pr : profile.
Variable U : list N -> Prop.
Hypothesis PF : prefix_free U.

Lemma free_held_collapse ks t s k : (forall k, In k ks -> U (nseq k)) -> flike U ks t s -> hides keccak t s -> In k ks -> held_neighbour t ks (nseq k) -> collapse_visible s (nseq k).
Proof.
  intros Ku (Ft & (Ws & Cs & _) & A) H I Hn. pose proof Ft as (W & C & _). destruct (lk s (nseq k)) as [[v|h]|] eqn:E; try (apply (absent_collapse s 64); [exact Ws|congruence]).
  assert (NP : ~ hash_on_path s (nseq k)) by (intros HP; exact (hop_no_val s 64 _ v Ws HP E)). assert (NPt : ~ hash_on_path t (nseq k)) by (intros HP; apply NP, (A k I), HP).
  assert (Et : lk t (nseq k) = Some (Val v)) by (rewrite (proj2 (A k I) NPt); exact E).
  assert (Sub : forall j, stored s j -> j <> nseq k -> exists r, stored t (j ++ r) /\ j ++ r <> nseq k).
  { intros j Sj NEj. unfold stored in Sj. destruct (lk s j) as [[u|h]|] eqn:Ej; [| |congruence].
    - exists []. rewrite app_nil_r. split; [|exact NEj]. unfold stored. rewrite (hides_lk_val keccak t s j u H Ej). discriminate.
    - destruct (hides_pos keccak t s j h (canon_shape _ C) H Ej) as [r Sr]. exists r. split; [exact Sr|]. intros X. apply NP. exists j, h. split; [exact Ej|]. exists r. symmetry. exact X. }
  destruct Hn as [N|[V|(k' & v' & I' & E' & (_ & NE & Max))]]; [destruct (N v Et)| |].
  - destruct (other_key s 64 (nseq k) v Ws Cs E) as [(m & w & ->)|(j & Sj & NEj)]; [exact Logic.I|]. destruct (Sub j Sj NEj) as (r & Sr & Nr). destruct (Nr (V _ Sr)).
  - assert (NPt' : ~ hash_on_path t (nseq k')) by (intros HP; exact (hop_no_val t 64 _ v' W HP E')).
    apply (free_neighbour_collapse s 64 (nseq k) (nseq k') v v'); auto.
    + rewrite <- (proj2 (A k' I') NPt'). exact E'.
    + intros P. apply prefix_strict in P as [Q|P]; [exact (NE Q)|]. exact (PF _ _ (Ku k' I') (Ku k I) P).
    + intros j Sj NEj. destruct (Sub j Sj NEj) as (r & Sr & Nr). pose proof (Max _ Sr Nr). pose proof (lcp_grow j r (nseq k)). lia.
Qed.

Lemma free_held_one ks t m k : inv U t m -> has_neighbour (fun j => m j <> None) ks (nseq k) -> held_neighbour t ks (nseq k).
Proof.
  intros (W & C & Ho & HU) [N0|[N0|(k' & I' & S' & NE & Max)]].
  - left. intros v E. apply N0. rewrite Ho in E. destruct (m (nseq k)); discriminate.
  - right. left. intros j Sj. apply N0. apply (holds_stored t m j Ho), Sj.
  - right. right. destruct (m (nseq k')) as [v|] eqn:Em; [|congruence]. exists k', v. split; [exact I'|]. split; [rewrite Ho, Em; reflexivity|].
    split; [apply (holds_stored t m _ Ho); congruence|]. split; [exact NE|]. intros j Sj. apply Max. apply (holds_stored t m j Ho), Sj.
Qed.

Lemma free_served_run ks p : Forall kwf ks -> (forall k, In k ks -> U (nseq k)) -> forall t m s, inv U t m -> P_Free.follows keccak U ks t s -> suffices_free m ks p ->
  all_seen pr s p /\ exists s' l t', tx_run pr s p = Ok (s', l) /\ tx_run pr t p = Ok (t', l) /\ map snd l = snd (map_run m p) /\ inv U t' (fst (map_run m p)) /\ P_Free.follows keccak U ks t' s'.
Proof.
  intros Kw Ku. induction p as [|o next IH]; intros t m s Iv Fo Sf; cbn [tx_run map_run suffices_free all_seen] in *.
  - split; [exact Logic.I|]. exists s, [], t. auto 7.
  - destruct Sf as (O & Nb & Sf).
    assert (Gf : match o with OGet k => findable m (nseq k) | _ => True end) by (destruct o; try exact Logic.I; exact Nb).
    assert (Gr : get_reaches t o) by (destruct o as [| | |k]; try exact Logic.I; exact (findable_reach U t m _ Iv Nb)).
    assert (Hn : match o with ODelete k => held_neighbour t ks (nseq k) | _ => True end) by (destruct o as [| |k|]; try exact Logic.I; exact (free_held_one ks t m k Iv Nb)).
    destruct (free_inv_op pr U t m o PF Iv (on_in U ks o Kw Ku O) Gf) as (t1 & Et & I1).
    destruct (proj1 (follows_some keccak U PF ks Kw Ku pr t s o Fo O Gr) _ _ Et) as (s1 & Es).
    destruct (follows_op keccak H32 U PF ks Kw Ku pr t s o t1 _ s1 _ Fo O Hn Gr Et Es) as [_ F1].
    assert (Wt : seen s o (snd (spec_op m o))).
    { pose proof Fo as (L & Ft & H). destruct o as [k v|l|k|k]; cbn [seen op_on] in *; try exact Logic.I.
      - exact (free_held_collapse ks t s k Ku L H O Hn).
      - right. split; [intros Q; apply Gr; eapply too_short_hides; eauto|]. intros HP. destruct L as (_ & _ & A). apply (proj1 (A k O)) in HP. destruct HP as (q & h & E & _).
        destruct Iv as (_ & _ & Ho & _). rewrite Ho in E. destruct (m q); discriminate. }
    destruct (spec_op m o) as [m1 x]. cbn [fst snd] in *. destruct (IH x t1 m1 s1 I1 F1 Sf) as (Ca & s' & l & t' & E1 & E2 & El & K' & H').
    split.
    + intros s2 y E. rewrite Es in E. injection E as <- <-. split; [exact Wt|exact Ca].
    + rewrite Es, Et. cbn [bind]. rewrite E1, E2. cbn [bind]. destruct (map_run m1 (next x)) as [m2 xs]. cbn [fst snd] in *. eexists _, _, _. split; [reflexivity|]. split; [reflexivity|].
      cbn [map snd]. split; [congruence|]. auto.
Qed.

Lemma free_serve_plan plan : forall t m r, inv U t m -> fits t -> hash_trie keccak pr t = Ok r ->
  Forall (fun e => Forall kwf (snd e) /\ forall k, In k (snd e) -> U (nseq k)) plan -> all_suffice_free m plan ->
  exists rs r2, map program rs = map fst plan /\ follows_any keccak pr r rs (snd (map_serial m (map fst plan))) r2 /\
    exists t2, inv U t2 (fst (map_serial m (map fst plan))) /\ fits t2 /\ hash_trie keccak pr t2 = Ok r2.
Proof.
  induction plan as [|[p ks] plan IH]; intros t m r Iv Ft R F A; cbn [all_suffice_free map fst] in *.
  - exists [], r. split; [reflexivity|]. split; [constructor|]. eauto.
  - inversion F as [|? ? [Kw Ku] Fl]; subst. cbn [snd] in Kw, Ku. destruct A as (Fi & Sf & A). pose proof (inv_free U t m Iv) as Fx. pose proof Fx as (W & C & _).
    assert (NS : forall k, In k ks -> ~ too_short t (nseq k)) by (intros k Ik; exact (findable_reach U t m _ Iv (Fi k Ik))).
    assert (Es : exists s, create_trie_subset keccak pr t ks = Ok (ROk s)).
    { eexists. apply subset_any; auto. intros k Ik. split; [|intros _; apply NS, Ik]. intros (q & h & Ep & P). destruct Iv as (_ & _ & Ho & _). rewrite Ho in Ep. destruct (m q); discriminate. }
    destruct Es as [s Es]. pose proof (subset_hides keccak pr t ks s H32 W Ft Es) as H. pose proof (subset_flike keccak pr U t ks s H32 Fx Ft Kw (or_intror NS) Es) as Ls.
    pose proof (hides_wf keccak t 64 s H W) as Ws. pose proof (hides_fits keccak H32 t s H Ft) as Fs. pose proof (wf_type s 64 Ws (le_n _) Fs) as Ts.
    destruct (free_served_run ks p Kw Ku t m s Iv (conj Ls (conj Ft H)) Sf) as (Ca & s' & l & t' & E1 & E2 & El & Iv' & (L' & Ft' & H')).
    pose proof Iv' as (W' & _). assert (R' : exists r1, hash_trie keccak pr t' = Ok r1) by (eexists; apply (hash_trie_ok keccak H32 pr t' W' Ft')). destruct R' as [r1 R'].
    destruct (IH t' _ r1 Iv' Ft' R' Fl A) as (rs & r2 & Em & FC & t2 & K2 & F2 & R2). exists (Round p (to_string (serialize s)) :: rs), r2. cbn [map program]. split; [congruence|].
    cbn [map_serial]. destruct (map_run m p) as [m1 xs]. cbn [fst snd] in *. destruct (map_serial m1 (map fst plan)) as [m2 xss]. cbn [fst snd] in *. subst xs. split; [|eauto].
    apply (fa_cons keccak pr r p _ None s s' l r1); auto.
    + apply C62_roundtrip, Ts.
    + apply (checked_wf s 64 (le_n _) Ts). auto.
    + rewrite <- R. apply C20_hiding_keeps_root; auto.
    + rewrite <- R'. apply C20_hiding_keeps_root; auto.
Qed.
End F.

(** Keys of different lengths, none of which is the beginning of another (the indices of a list, for example). If the keys requested for each program suffice for it, then whoever has the
    full trie can make texts that the follower for any keys accepts, with the answers of the map and its root. *)
Theorem C92_served_free : forall keccak pr U ops0 plan J0,
  hash32 keccak -> prefix_free U -> Forall (op_in U) ops0 -> Forall op_bytes ops0 -> gets_findable kv_empty ops0 ->
  Forall (fun e => Forall kwf (snd e) /\ forall k, In k (snd e) -> U (nseq k)) plan ->
  lists_map J0 (fst (spec_ops kv_empty ops0)) -> all_suffice_free (fst (spec_ops kv_empty ops0)) plan ->
  exists rs r, map program rs = map fst plan /\ follow_any keccak pr None (yp_root keccak J0) rs = Some (snd (map_serial (fst (spec_ops kv_empty ops0)) (map fst plan)), r) /\
    forall J, lists_map J (fst (map_serial (fst (spec_ops kv_empty ops0)) (map fst plan))) -> r = yp_root keccak J.
Proof.
  intros keccak pr U ops0 plan J0 H32 PF F0 B0 G0 F L A. destruct (free_inv_ops pr U ops0 Empty kv_empty PF (inv_empty U) F0 G0) as (t & E & Iv).
  assert (Ft : fits t) by (apply (ops_fits pr ops0 Empty t (snd (spec_ops kv_empty ops0))); [exact Logic.I|exact B0|exact E]).
  assert (Rt : forall t m J, inv U t m -> fits t -> lists_map J m -> hash_trie keccak pr t = Ok (yp_root keccak J)).
  { intros t1 m1 J (W1 & C1 & Ho1 & _) Ft1 LJ. apply C19_canonical; auto. eapply lists_holds; eauto. }
  destruct (free_serve_plan keccak H32 pr U PF plan t _ _ Iv Ft (Rt _ _ _ Iv Ft L) F A) as (rs & r & Em & FC & t2 & K2 & F2 & R2). exists rs, r. split; [exact Em|].
  split; [apply C92_program_any, FC|]. intros J LJ. pose proof (Rt _ _ _ K2 F2 LJ). congruence.
Qed.
Print Assumptions C92_served_free.

(** The entries 0, 1, 128 and 129 of a list trie (keys of two and four nibbles). The first program moves entry 129 to 0, the second copies entry 0 to 128. Neither asks for entry 1. *)
Definition ex_move : tx := Do (ODelete (K 4 0x8181)) (fun x => match x with OValue (Some v) => Do (OInsert (K 2 0x80) v) (fun _ => Finish) | _ => Finish end).
Definition ex_copy : tx := Do (OGet (K 2 0x80)) (fun x => match x with OValue (Some v) => Do (OInsert (K 4 0x8180) v) (fun _ => Finish) | _ => Finish end).
Definition ex_list_plan : list (tx * list nibbles) := [(ex_move, ex_list_keys); (ex_copy, [K 2 0x80; K 4 0x8180])].
Definition ex_list_listing : pairs := [([0;1], big 1); ([8;0], big 2); ([8;1;8;0], big 3); ([8;1;8;1], big 4)].
Lemma ex_list_lists : lists_map ex_list_listing (fst (spec_ops kv_empty ex_list_ops)).
Proof.
  split; [repeat constructor; cbn; intuition discriminate|]. intros k v. unfold ex_list_ops. cbn [spec_ops spec_op fst].
  change (nseq (K 2 0x01)) with [0;1]. change (nseq (K 2 0x80)) with [8;0]. change (nseq (K 4 0x8180)) with [8;1;8;0]. change (nseq (K 4 0x8181)) with [8;1;8;1]. unfold kv_set, ex_list_listing.
  destruct (key_eqb_spec [8;1;8;1] k) as [<-|N1]; [|destruct (key_eqb_spec [8;1;8;0] k) as [<-|N2]; [|destruct (key_eqb_spec [8;0] k) as [<-|N3]; [|destruct (key_eqb_spec [0;1] k) as [<-|N4]]]];
    cbn [In]; split; intros H; repeat match goal with H : _ \/ _ |- _ => destruct H | H : False |- _ => destruct H end; try congruence; try discriminate; try (injection H; intros; subst); auto 6.
Qed.
Example C92_served_free_example : prefix_free indices /\ Forall (op_in indices) ex_list_ops /\ Forall op_bytes ex_list_ops /\ gets_findable kv_empty ex_list_ops /\
  Forall (fun e => Forall kwf (snd e) /\ forall k, In k (snd e) -> indices (nseq k)) ex_list_plan /\
  lists_map ex_list_listing (fst (spec_ops kv_empty ex_list_ops)) /\ all_suffice_free (fst (spec_ops kv_empty ex_list_ops)) ex_list_plan /\
  snd (map_serial (fst (spec_ops kv_empty ex_list_ops)) [ex_move; ex_copy]) = [[OValue (Some (big 4)); ODone]; [OValue (Some (big 4)); ODone]].
Proof.
  destruct C81_example as (P & F & B & G & Kw & Ku & Fi & ((_ & (Nb & _) & _) & _)). split; [exact P|]. split; [exact F|]. split; [exact B|]. split; [exact G|].
  assert (V : value_ok (big 4)) by (split; [discriminate|]; split; [repeat constructor|reflexivity]).
  split; [|split; [exact ex_list_lists|split; [|vm_compute; reflexivity]]].
  - repeat apply Forall_cons; try apply Forall_nil; cbn [snd]; split; auto.
    + unfold ex_list_keys in Kw. inversion Kw as [|? ? A1 K1]; inversion K1 as [|? ? A2 K2]; subst. auto.
    + intros k [<-|[<-|[]]]; apply Ku; cbn; auto.
  - unfold ex_list_plan. cbn [all_suffice_free]. split; [exact Fi|]. split; [|split; [|split; [|exact Logic.I]]].
    + cbn [ex_move suffices_free op_on]. split; [cbn; auto|]. split; [exact Nb|]. replace (snd (spec_op (fst (spec_ops kv_empty ex_list_ops)) (ODelete (K 4 0x8181)))) with (OValue (Some (big 4))) by (vm_compute; reflexivity).
      cbn [suffices_free op_on]. split; [split; [cbn; auto|exact V]|]. split; exact Logic.I.
    + intros k [<-|[<-|[]]]; left; vm_compute; discriminate.
    + cbn [ex_copy suffices_free op_on]. split; [cbn; auto|]. split; [left; vm_compute; discriminate|].
      replace (snd (spec_op (fst (map_run (fst (spec_ops kv_empty ex_list_ops)) ex_move)) (OGet (K 2 0x80)))) with (OValue (Some (big 4))) by (vm_compute; reflexivity).
      cbn [suffices_free op_on]. split; [split; [cbn; auto|exact V]|]. split; exact Logic.I.
Qed.
