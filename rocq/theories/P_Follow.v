(** Property C92: following a map of which only the root hash is known. *)
From Verif Require Import Base Nibbles NibblesSpec NibblesFacts NibblesFacts2 NibblesFacts3 Trie TrieSpec TrieHistSpec TrieFacts TrieInsert TrieGet TrieDelete TrieUnique TrieIter TrieHist TrieObs InsertWf Rlp YellowPaper Hashing Keccak HashSpec HideSpec HashFacts HashBind KeccakFacts HideFacts HideBind HideDelete JoinFacts P_Trie P_Hash P_Join Subset SubsetSpec SubsetFacts SubsetFacts2 P_Subset ReplaySpec ReplayFacts P_Replay NeighbourSpec NeighbourFacts P_Neighbour NeighbourSeen PartialSpec P_Partial Serde Json JsonSpec TypeSpec TypeFacts TypeFacts2 P_Json JsonText JsonTextSpec P_JsonText WitnessSpec P_Witness TxSpec TrieHistSpec FollowSpec.
Open Scope N_scope.

Section F.
Variable keccak : list N -> list N.
Hypothesis H32 : hash32 keccak.
Variable pr : profile.
Variable n : N.
Notation len_n := (fun k : list N => length k = N.to_nat n).

(** [t] is the trie of the map [m]. *)
Definition keeps_map (t : node) (m : kvmap) : Prop := inv len_n t m /\ fits t.

Definition op_good (o : op) : Prop :=
  op_fixed n o /\ match o with OInsert _ v => value_ok v | OExtend l => Forall (fun e => value_ok (snd e)) l | _ => True end.

Lemma good_bytes o : op_good o -> op_bytes o.
Proof.
  intros [_ V]. destruct o as [k v|l|k|k]; cbn [op_bytes]; try exact Logic.I; [apply V|]. eapply Forall_impl; [|exact V]. intros e A. apply A.
Qed.
Lemma keeps_op t m o : keeps_map t m -> op_good o -> exists t1, trie_op pr t o = Ok (t1, snd (spec_op m o)) /\ keeps_map t1 (fst (spec_op m o)).
Proof.
  intros [Iv Ft] G. destruct (inv_op pr len_n t m o (fixed_pf n) Iv (fixed_ok n o (proj1 G))) as (t1 & E & I1). exists t1. split; [exact E|]. split; [exact I1|].
  apply (ops_fits pr [o] t t1 [snd (spec_op m o)] Ft); [constructor; [apply good_bytes, G|constructor]|]. cbn [trie_ops]. rewrite E. reflexivity.
Qed.
Lemma keeps_fixed_trie t m : keeps_map t m -> fixed_trie (N.to_nat n) t.
Proof.
  intros [(W & C & Ho & HU) _]. split; [exact W|]. split; [exact C|]. split; intros k v Q; rewrite Ho in Q; destruct (m k) eqn:Em; try discriminate. apply HU. congruence.
Qed.
Lemma keeps_free t m : keeps_map t m -> hash_free t.
Proof. intros [(_ & _ & Ho & _) _] k h E. rewrite Ho in E. destruct (m k); discriminate. Qed.
Lemma keeps_root t m J : keeps_map t m -> lists_map J m -> hash_trie keccak pr t = Ok (yp_root keccak J).
Proof. intros [(W & C & Ho & _) Ft] L. apply C19_canonical; auto. eapply lists_holds; eauto. Qed.

(** One operation that the partial trie does, watched: the full trie does it with the same answer. *)
Lemma watched_op t m s o s1 y : keeps_map t m -> hides keccak t s -> op_good o -> watched s o -> trie_op pr s o = Ok (s1, y) ->
  y = snd (spec_op m o) /\ exists t1, trie_op pr t o = Ok (t1, y) /\ keeps_map t1 (fst (spec_op m o)) /\ hides keccak t1 s1.
Proof.
  intros Kt H G Wt E. destruct (keeps_op t m o Kt G) as (t1 & Et & K1). pose proof Kt as [(W & C & _) Ft].
  assert (A : exists t1', trie_op pr t o = Ok (t1', y) /\ hides keccak t1' s1).
  { destruct o as [k v|l|k|k]; cbn [watched] in Wt.
    - apply (hides_op keccak pr t s _ s1 y H32 W (canon_shape _ C) Ft H); auto. destruct G as ((A & _) & B). split; assumption.
    - apply (hides_op keccak pr t s _ s1 y H32 W (canon_shape _ C) Ft H); auto. destruct G as (A & B). cbn [op_fixed op_write] in *. rewrite Forall_forall in *. intros e I. split; [apply A, I|apply B, I].
    - apply (hides_op keccak pr t s _ s1 y H32 W (canon_shape _ C) Ft H); auto. apply G.
    - destruct G as ((A & B) & _). assert (Ls : like (N.to_nat n) [k] t s).
      { apply (like_hides keccak); [exact (keeps_fixed_trie t m Kt)|exact H|]. intros j [<-|[]] HP. destruct (Wt HP). }
      destruct (like_op (N.to_nat n) [k] ltac:(constructor; [exact A|constructor]) ltac:(intros j [<-|[]]; rewrite length_nseq, B; reflexivity) pr t s (OGet k) t1 _ Ls (or_introl eq_refl) Et) as (s2 & E2 & _).
      cbn [trie_op] in *. destruct (trie_get pr s k) as [w|]; [|discriminate]. destruct (trie_get pr t k) as [w'|]; [|discriminate]. cbn [bind] in *. exists t. split; [congruence|]. congruence. }
  destruct A as (t1' & E' & H1). rewrite Et in E'. injection E' as <- <-. split; [reflexivity|]. eauto.
Qed.

Lemma careful_run p : forall t m s s' l, keeps_map t m -> hides keccak t s -> tx_fixed n p -> careful pr s p -> tx_run pr s p = Ok (s', l) ->
  map snd l = snd (map_run m p) /\ exists t', tx_run pr t p = Ok (t', l) /\ keeps_map t' (fst (map_run m p)) /\ hides keccak t' s'.
Proof.
  induction p as [|o next IH]; intros t m s s' l Kt H F C E; cbn [tx_run map_run tx_fixed careful] in *.
  - injection E as <- <-. split; [reflexivity|]. eauto.
  - destruct F as [Fo Fn], C as [Co Cn]. destruct (trie_op pr s o) as [[s1 x]|] eqn:E1; [|discriminate]. cbn [bind] in E.
    destruct (tx_run pr s1 (next x)) as [[s2 l2]|] eqn:E2; [|discriminate]. cbn [bind] in E. injection E as <- <-.
    destruct (watched_op t m s o s1 x Kt H Fo Co E1) as (Ex & t1 & Et & K1 & H1). destruct (spec_op m o) as [m1 x']. cbn [fst snd] in *. subst x'.
    destruct (IH x t1 m1 s1 s2 l2 K1 H1 (Fn x) (Cn s1 x eq_refl) E2) as (El & t2 & Et2 & K2 & H2). destruct (map_run m1 (next x)) as [m2 xs]. cbn [fst snd map] in *.
    split; [congruence|]. exists t2. rewrite Et. cbn [bind]. rewrite Et2. auto.
Qed.

(** On a bare hash only empty extends get through. *)
Lemma bare_run h p : forall t m s' l, keeps_map t m -> tx_fixed n p -> careful pr (Hash h) p -> tx_run pr (Hash h) p = Ok (s', l) ->
  s' = Hash h /\ map_run m p = (m, map snd l) /\ tx_run pr t p = Ok (t, l).
Proof.
  induction p as [|o next IH]; intros t m s' l Kt F C E; cbn [tx_run map_run tx_fixed careful] in *.
  - injection E as <- <-. auto.
  - destruct F as [Fo Fn], C as [Co Cn]. destruct (trie_op pr (Hash h) o) as [[s1 x]|] eqn:E1; [|discriminate]. cbn [bind] in E.
    destruct (tx_run pr s1 (next x)) as [[s2 l2]|] eqn:E2; [|discriminate]. cbn [bind] in E. injection E as <- <-.
    assert (A : s1 = Hash h /\ o = OExtend [] /\ x = ODone).
    { destruct o as [k v|[|[k v] l]|k|k]; cbn in E1; try discriminate; [injection E1 as <- <-; auto|]. exfalso. apply Co. exists [], h. split; [reflexivity|apply prefix_nil]. }
    destruct A as (-> & -> & ->). destruct (IH ODone t m s2 l2 Kt (Fn _) (Cn _ _ eq_refl) E2) as (-> & Em & Et). split; [reflexivity|]. cbn. rewrite Em, Et. auto.
Qed.

Lemma follow_run rs : forall t m r xss r2, keeps_map t m -> hash_trie keccak pr t = Ok r -> Forall (fun R => tx_fixed n (program R)) rs ->
  follows keccak pr r rs xss r2 ->
  (xss = snd (map_serial m (map program rs)) /\ exists t1, serial pr t (map program rs) = Ok (t1, xss) /\ keeps_map t1 (fst (map_serial m (map program rs))) /\ hash_trie keccak pr t1 = Ok r2) \/
  exists rs1 R rs2 t1 yss limit s, rs = rs1 ++ R :: rs2 /\ serial pr t (map program rs1) = Ok (t1, yss) /\
    load_text limit (received R) = Some s /\ collision keccak (encodings keccak t1) (encodings keccak s).
Proof.
  induction rs as [|[p text] rs IH]; intros t m r xss r2 Kt R F FC; inversion FC as [|? ? ? limit s s' l r1 ? xss' ? Ld Ck Eh Ca Er Eh1 FC']; subst.
  - left. split; [reflexivity|]. exists t. auto.
  - inversion F as [|? ? Fp Fl]; subst. cbn [program] in Fp.
    assert (Hd : (exists t', map snd l = snd (map_run m p) /\ tx_run pr t p = Ok (t', l) /\ keeps_map t' (fst (map_run m p)) /\ hash_trie keccak pr t' = Ok r1) \/
                 collision keccak (encodings keccak t) (encodings keccak s)).
    { pose proof (proj1 (C62_loaded _ _ _ Ld)) as T. apply (checked_wf s 64 (le_n _) T) in Ck as [Ws Fs]. pose proof Kt as [(W & C & _) Ft].
      destruct (C40_partial_trie_binding keccak pr pr t s H32 W Ws Ft Fs (keeps_free t m Kt)) as [Q|[[Er' ->]|Q]]; [congruence| | |right; exact Q]; left.
      - destruct (careful_run p t m s s' l Kt Q Fp Ca Er) as (El & t' & Et & K' & H'). exists t'. split; [exact El|]. split; [exact Et|]. split; [exact K'|].
        rewrite <- Eh1. symmetry. destruct K' as [(W' & _) Ft']. apply C20_hiding_keeps_root; auto.
      - destruct (bare_run _ p t m s' l Kt Fp Ca Er) as (-> & Em & Et). exists t. rewrite Em. cbn [fst snd]. split; [reflexivity|]. split; [exact Et|]. split; [exact Kt|]. congruence. }
    destruct Hd as [(t' & El & Et & K' & Ht)|Q].
    + destruct (IH t' _ r1 xss' r2 K' Ht Fl FC') as [(Ex & t1 & Es & K1 & H1)|(rs1 & R1 & rs2 & t1 & yss & lim & s1 & -> & Es & Ld1 & Q)].
      * left. cbn [map program map_serial serial]. rewrite Et. cbn [bind]. rewrite Es. destruct (map_run m p) as [m1 xs]. cbn [fst snd] in *. destruct (map_serial m1 (map program rs)) as [m2 zs].
        cbn [fst snd] in *. split; [congruence|]. exists t1. auto.
      * right. exists (Round p text :: rs1), R1, rs2, t1, (map snd l :: yss), lim, s1. split; [reflexivity|]. split; [|auto]. cbn [map program serial]. rewrite Et. cbn [bind]. rewrite Es. reflexivity.
    + right. exists [], (Round p text), rs, t, [], limit, s. repeat split; auto.
Qed.

(** ** Somebody who has the trie can serve it *)
Lemma suffices_good ks o : Forall kwf ks -> (forall k, In k ks -> count k = n) -> op_on ks o -> op_good o.
Proof.
  intros Kw Kn O. rewrite Forall_forall in Kw. destruct o as [k v|l|k|k]; cbn [op_on] in O; split; cbn [op_fixed]; auto.
  - destruct O as (A & B & _). auto.
  - apply O.
  - eapply Forall_impl; [|exact O]. intros e (A & B & _). auto.
  - eapply Forall_impl; [|exact O]. intros e (A & B). exact B.
Qed.
Lemma served_run ks p : Forall kwf ks -> (forall k, In k ks -> count k = n) -> forall t m s, keeps_map t m -> like (N.to_nat n) ks t s -> hides keccak t s -> suffices m ks p ->
  careful pr s p /\ exists s' l t', tx_run pr s p = Ok (s', l) /\ tx_run pr t p = Ok (t', l) /\ map snd l = snd (map_run m p) /\ keeps_map t' (fst (map_run m p)) /\ hides keccak t' s'.
Proof.
  intros Kw Kn. assert (Kn' : forall k, In k ks -> length (nseq k) = N.to_nat n) by (intros k I; rewrite length_nseq, (Kn k I); reflexivity).
  induction p as [|o next IH]; intros t m s Kt Ls H Sf; cbn [tx_run map_run suffices careful] in *.
  - split; [exact Logic.I|]. exists s, [], t. auto 6.
  - destruct Sf as (O & Nb & Sf). pose proof (suffices_good ks o Kw Kn O) as G. destruct (keeps_op t m o Kt G) as (t1 & Et & K1).
    destruct (like_op (N.to_nat n) ks Kw Kn' pr t s o t1 _ Ls O Et) as (s1 & Es & L1).
    assert (Wt : watched s o).
    { destruct o as [k v|l|k|k]; cbn [watched op_on] in *; try exact Logic.I.
      - assert (NH : neighbours_held pr t ks [ODelete k]).
        { apply (requested_held pr n ks [ODelete k] Kw Kn t m (proj1 Kt)); [constructor; [exact O|constructor]|]. split; [exact Nb|exact Logic.I]. }
        apply (held_collapse keccak (N.to_nat n) ks t s k Kn' Ls H O (proj1 NH)).
      - intros HP. destruct Ls as (_ & _ & A). apply (proj1 (A k O)) in HP. destruct HP as (q & h & E & _). exact (keeps_free t m Kt q h E). }
    destruct (watched_op t m s o s1 _ Kt H G Wt Es) as (_ & t1' & Et' & _ & H1). rewrite Et in Et'. injection Et' as <-.
    destruct (spec_op m o) as [m1 x]. cbn [fst snd] in *. destruct (IH x t1 m1 s1 K1 L1 H1 Sf) as (Ca & s' & l & t' & E1 & E2 & El & K' & H').
    split; [split; [exact Wt|]|].
    + intros s2 y E. rewrite Es in E. injection E as <- <-. exact Ca.
    + rewrite Es, Et. cbn [bind]. rewrite E1, E2. cbn [bind]. destruct (map_run m1 (next x)) as [m2 xs]. cbn [fst snd] in *. eexists _, _, _. split; [reflexivity|]. split; [reflexivity|].
      cbn [map snd]. split; [congruence|]. auto.
Qed.
Lemma serve_plan plan : forall t m r, keeps_map t m -> hash_trie keccak pr t = Ok r -> Forall (fun e => Forall kwf (snd e) /\ forall k, In k (snd e) -> count k = n) plan -> all_suffice m plan ->
  exists rs r2, map program rs = map fst plan /\ follows keccak pr r rs (snd (map_serial m (map fst plan))) r2 /\
    exists t2, keeps_map t2 (fst (map_serial m (map fst plan))) /\ hash_trie keccak pr t2 = Ok r2.
Proof.
  induction plan as [|[p ks] plan IH]; intros t m r Kt R F A; cbn [all_suffice map fst] in *.
  - exists [], r. split; [reflexivity|]. split; [constructor|]. eauto.
  - inversion F as [|? ? [Kw Kn] Fl]; subst. cbn [snd] in Kw, Kn. destruct A as [Sf A]. pose proof (keeps_fixed_trie t m Kt) as Fx. pose proof Kt as [(W & C & _) Ft].
    assert (Kn' : forall k, In k ks -> length (nseq k) = N.to_nat n) by (intros k I; rewrite length_nseq, (Kn k I); reflexivity).
    assert (Es : exists s, create_trie_subset keccak pr t ks = Ok (ROk s)).
    { destruct (C25_errors_partial keccak pr t ks H32 W Ft Kw) as [[(k & I & q & h & Ep & P) _]|[_ Q]]; [|destruct (keeps_free t m Kt q h Ep)|exact Q].
      right. intros k I Q. destruct (fixed_not_short t 64 (nseq k) (canon_shape _ C) W Q) as (j & Sj & Lj). apply (fixed_stored _ t j Fx) in Sj. rewrite (Kn' k I) in Lj. lia. }
    destruct Es as [s Es]. pose proof (subset_hides keccak pr t ks s H32 W Ft Es) as H. pose proof (subset_like keccak pr (N.to_nat n) t ks s H32 Fx Ft Kw Kn' Es) as Ls.
    pose proof (hides_wf keccak t 64 s H W) as Ws. pose proof (hides_fits keccak H32 t s H Ft) as Fs. pose proof (wf_type s 64 Ws (le_n _) Fs) as Ts.
    destruct (served_run ks p Kw Kn t m s Kt Ls H Sf) as (Ca & s' & l & t' & E1 & E2 & El & K' & H').
    pose proof K' as [(W' & _) Ft']. assert (R' : exists r1, hash_trie keccak pr t' = Ok r1) by (eexists; apply (hash_trie_ok keccak H32 pr t' W' Ft')). destruct R' as [r1 R'].
    destruct (IH t' _ r1 K' R' Fl A) as (rs & r2 & Em & FC & t2 & K2 & R2). exists (Round p (to_string (serialize s)) :: rs), r2. cbn [map program]. split; [congruence|].
    cbn [map_serial]. destruct (map_run m p) as [m1 xs]. cbn [fst snd] in *. destruct (map_serial m1 (map fst plan)) as [m2 xss]. cbn [fst snd] in *. subst xs. split; [|eauto].
    apply (fo_cons keccak pr r p _ None s s' l r1); auto.
    + apply C62_roundtrip, Ts.
    + apply (checked_wf s 64 (le_n _) Ts). auto.
    + rewrite <- R. apply C20_hiding_keeps_root; auto.
    + rewrite <- R'. apply C20_hiding_keeps_root; auto.
Qed.
Lemma history_keeps ops : Forall (op_fixed n) ops -> Forall op_bytes ops -> exists t, trie_ops pr Empty ops = Ok (t, snd (spec_ops kv_empty ops)) /\ keeps_map t (fst (spec_ops kv_empty ops)).
Proof.
  intros F B. destruct (inv_ops pr len_n ops Empty kv_empty (fixed_pf n) (inv_empty _)) as (t & E & Iv); [eapply Forall_impl; [|exact F]; intros o; apply fixed_ok|].
  exists t. split; [exact E|]. split; [exact Iv|]. apply (ops_fits pr ops Empty t (snd (spec_ops kv_empty ops))); [exact Logic.I|exact B|exact E].
Qed.
End F.

(** A map has been made by any history over keys of [n] nibbles, and only its Yellow Paper root is known. Any number of programs run, each on a trie that was received as text from anybody and
    was checked against the root hash that the one before left. Then all answers are those of the map, and the root hash at the end is the Yellow Paper root of the map that the programs
    leave; or one of the texts holds a concrete collision of the hash function with the trie at that time. *)
Theorem C92_follow : forall keccak pr n ops0 rs J0 xss r,
  hash32 keccak -> Forall (op_fixed n) ops0 -> Forall op_bytes ops0 -> Forall (fun R => tx_fixed n (program R)) rs ->
  lists_map J0 (fst (spec_ops kv_empty ops0)) -> follows keccak pr (yp_root keccak J0) rs xss r ->
  (xss = snd (map_serial (fst (spec_ops kv_empty ops0)) (map program rs)) /\
   forall J, lists_map J (fst (map_serial (fst (spec_ops kv_empty ops0)) (map program rs))) -> r = yp_root keccak J) \/
  exists rs1 R rs2 t0 t1 yss limit s, rs = rs1 ++ R :: rs2 /\ trie_ops pr Empty ops0 = Ok (t0, snd (spec_ops kv_empty ops0)) /\ serial pr t0 (map program rs1) = Ok (t1, yss) /\
    load_text limit (received R) = Some s /\ collision keccak (encodings keccak t1) (encodings keccak s).
Proof.
  intros keccak pr n ops0 rs J0 xss r H32 F0 B0 F L FC. destruct (history_keeps pr n ops0 F0 B0) as (t & E & Kt).
  destruct (follow_run keccak H32 pr n rs t _ _ xss r Kt (keeps_root keccak H32 pr n t _ J0 Kt L) F FC) as [(Ex & t1 & Es & K1 & H1)|(rs1 & R & rs2 & t1 & yss & lim & s & Q1 & Q2 & Q3 & Q4)].
  - left. split; [exact Ex|]. intros J LJ. pose proof (keeps_root keccak H32 pr n t1 _ J K1 LJ). congruence.
  - right. exists rs1, R, rs2, t, t1, yss, lim, s. auto.
Qed.
Print Assumptions C92_follow.

(** Whoever has the full trie can make the texts, by taking subsets: if the keys that are requested for each program suffice for it, then the programs can all be run, with the answers of the map. *)
Theorem C92_served : forall keccak pr n ops0 plan J0,
  hash32 keccak -> Forall (op_fixed n) ops0 -> Forall op_bytes ops0 -> Forall (fun e => Forall kwf (snd e) /\ forall k, In k (snd e) -> count k = n) plan ->
  lists_map J0 (fst (spec_ops kv_empty ops0)) -> all_suffice (fst (spec_ops kv_empty ops0)) plan ->
  exists rs r, map program rs = map fst plan /\ follows keccak pr (yp_root keccak J0) rs (snd (map_serial (fst (spec_ops kv_empty ops0)) (map fst plan))) r /\
    forall J, lists_map J (fst (map_serial (fst (spec_ops kv_empty ops0)) (map fst plan))) -> r = yp_root keccak J.
Proof.
  intros keccak pr n ops0 plan J0 H32 F0 B0 F L A. destruct (history_keeps pr n ops0 F0 B0) as (t & E & Kt).
  destruct (serve_plan keccak H32 pr n plan t _ _ Kt (keeps_root keccak H32 pr n t _ J0 Kt L) F A) as (rs & r & Em & FC & t2 & K2 & R2). exists rs, r. split; [exact Em|]. split; [exact FC|].
  intros J LJ. pose proof (keeps_root keccak H32 pr n t2 _ J K2 LJ). congruence.
Qed.
Print Assumptions C92_served.

Definition ex_first : tx := Do (ODelete (K 4 0x5678)) (fun x => match x with OValue (Some _) => Do (OInsert (K 4 0x5699) [7]) (fun _ => Finish) | _ => Finish end).
Definition ex_second : tx := Do (OGet (K 4 0x5699)) (fun x => match x with OValue (Some v) => if key_eqb v [7] then Do (OInsert (K 4 0x5678) (big 4)) (fun _ => Finish) else Finish | _ => Finish end).
Definition ex_listing : pairs := [([1;2;3;4], big 1); ([5;6;7;8], big 2); ([5;6;9;9], big 3)].
Lemma ex_lists : lists_map ex_listing (fst (spec_ops kv_empty ex_ops0)).
Proof.
  split; [repeat constructor; cbn; intuition discriminate|]. intros k v. unfold ex_ops0. cbn [spec_ops spec_op fst]. change (nseq (K 4 0x1234)) with [1;2;3;4]. change (nseq (K 4 0x5678)) with [5;6;7;8].
  change (nseq (K 4 0x5699)) with [5;6;9;9]. unfold kv_set, ex_listing. destruct (key_eqb_spec [5;6;9;9] k) as [<-|N1]; [|destruct (key_eqb_spec [5;6;7;8] k) as [<-|N2]; [|destruct (key_eqb_spec [1;2;3;4] k) as [<-|N3]]];
    cbn [In]; split; intros H; repeat match goal with H : _ \/ _ |- _ => destruct H | H : False |- _ => destruct H end; try congruence; try discriminate; try (injection H; intros; subst); auto 6.
Qed.
Example C92_example : Forall (op_fixed 4) ex_ops0 /\ Forall op_bytes ex_ops0 /\ lists_map ex_listing (fst (spec_ops kv_empty ex_ops0)) /\
  Forall (fun e => Forall kwf (snd e) /\ forall k, In k (snd e) -> count k = 4) [(ex_first, ex_pair); (ex_second, ex_pair)] /\ Forall (tx_fixed 4) [ex_first; ex_second] /\
  all_suffice (fst (spec_ops kv_empty ex_ops0)) [(ex_first, ex_pair); (ex_second, ex_pair)] /\
  snd (map_serial (fst (spec_ops kv_empty ex_ops0)) [ex_first; ex_second]) = [[OValue (Some (big 2)); ODone]; [OValue (Some [7]); ODone]].
Proof.
  destruct C65_example as (F & B & Kw & Kn & _ & (Nb & _) & _). split; [exact F|]. split; [exact B|]. split; [exact ex_lists|].
  split; [repeat apply Forall_cons; try apply Forall_nil; cbn [snd]; auto|].
  assert (K1 : kwf (K 4 0x5678)) by (split; vm_compute; (reflexivity || (intro; discriminate))). assert (K2 : kwf (K 4 0x5699)) by (split; vm_compute; (reflexivity || (intro; discriminate))).
  assert (V7 : value_ok [7]) by (split; [discriminate|]; split; [repeat constructor|reflexivity]). assert (V4 : value_ok (big 4)) by (split; [discriminate|]; split; [repeat constructor|reflexivity]).
  split; [|split; [|vm_compute; reflexivity]].
  - repeat apply Forall_cons; try apply Forall_nil; cbn [tx_fixed ex_first ex_second op_fixed]; (split; [split; [split; [assumption|reflexivity]|exact Logic.I]|]).
    + intros [|[v|]]; cbn [tx_fixed op_fixed]; try exact Logic.I. split; [split; [split; [exact K2|split; [reflexivity|discriminate]]|exact V7]|intros; exact Logic.I].
    + intros [|[v|]]; cbn [tx_fixed op_fixed]; try exact Logic.I. destruct (key_eqb v [7]); [|exact Logic.I]. split; [split; [split; [exact K1|split; [reflexivity|discriminate]]|exact V4]|intros; exact Logic.I].
  - cbn [all_suffice]. split; [|split; [|exact Logic.I]].
    + cbn [ex_first suffices op_on]. split; [left; reflexivity|]. split; [exact Nb|]. replace (snd (spec_op (fst (spec_ops kv_empty ex_ops0)) (ODelete (K 4 0x5678)))) with (OValue (Some (big 2))) by (vm_compute; reflexivity).
      cbn [suffices op_on]. split; [split; [right; left; reflexivity|exact V7]|]. split; exact Logic.I.
    + cbn [ex_second suffices op_on]. split; [right; left; reflexivity|]. split; [exact Logic.I|].
      replace (snd (spec_op (fst (map_run (fst (spec_ops kv_empty ex_ops0)) ex_first)) (OGet (K 4 0x5699)))) with (OValue (Some [7])) by (vm_compute; reflexivity).
      change (key_eqb [7] [7]) with true. cbn [suffices op_on]. split; [split; [left; reflexivity|exact V4]|]. split; exact Logic.I.
Qed.
(** Both things that are watched have to be: on a trie that passes all checks before the run, a get is answered wrongly, and a delete is answered rightly but leaves a wrong root hash. *)
Theorem C92_careful_needed : forall pr, exists ops0 J0 text s k d s1 w1 s2 w2 J2,
  Forall (op_fixed 4) ops0 /\ Forall op_bytes ops0 /\ tx_fixed 4 (Do (OGet k) (fun _ => Finish)) /\ tx_fixed 4 (Do (ODelete d) (fun _ => Finish)) /\
  lists_map J0 (fst (spec_ops kv_empty ops0)) /\ load_text default_limit text = Some s /\ checked 64 s = true /\ hash_trie keccak256 pr s = Ok (yp_root keccak256 J0) /\
  tx_run pr s (Do (OGet k) (fun _ => Finish)) = Ok (s1, [(OGet k, w1)]) /\ [w1] <> snd (map_run (fst (spec_ops kv_empty ops0)) (Do (OGet k) (fun _ => Finish))) /\
  tx_run pr s (Do (ODelete d) (fun _ => Finish)) = Ok (s2, [(ODelete d, w2)]) /\ [w2] = snd (map_run (fst (spec_ops kv_empty ops0)) (Do (ODelete d) (fun _ => Finish))) /\
  lists_map J2 (fst (map_run (fst (spec_ops kv_empty ops0)) (Do (ODelete d) (fun _ => Finish)))) /\ hash_trie keccak256 pr s2 <> Ok (yp_root keccak256 J2).
Proof.
  intros pr. set (s := oks (create_trie_subset keccak256 Debug ex_big [K 4 0x5678])).
  exists ex_ops0, ex_listing, (to_string (serialize s)), s, (K 4 0x1234), (K 4 0x5678), s, (OValue None), (okd (trie_delete pr s (K 4 0x5678))), (OValue (Some (big 2))), [([1;2;3;4], big 1); ([5;6;9;9], big 3)].
  destruct C92_example as (F & B & L & _). split; [exact F|]. split; [exact B|].
  split; [cbn [tx_fixed op_fixed]; split; [split; [split; [split; vm_compute; (reflexivity || (intro; discriminate))|reflexivity]|exact Logic.I]|auto]|].
  split; [cbn [tx_fixed op_fixed]; split; [split; [split; [split; vm_compute; (reflexivity || (intro; discriminate))|reflexivity]|exact Logic.I]|auto]|].
  split; [exact L|]. split; [vm_compute; reflexivity|]. split; [vm_compute; reflexivity|]. split; [destruct pr; vm_compute; reflexivity|].
  split; [destruct pr; vm_compute; reflexivity|]. split; [vm_compute; discriminate|]. split; [destruct pr; vm_compute; reflexivity|]. split; [vm_compute; reflexivity|].
  split; [|destruct pr; vm_compute; discriminate].
  split; [repeat constructor; cbn; intuition discriminate|]. intros k v. cbn [map_run spec_op fst]. unfold kv_set. change (nseq (K 4 0x5678)) with [5;6;7;8].
  destruct (key_eqb_spec [5;6;7;8] k) as [<-|N2].
  - cbn [In]. split; [discriminate|]. intros [H|[H|[]]]; discriminate.
  - rewrite (proj2 L k v). unfold ex_listing. cbn [In]. intuition congruence.
Qed.
Print Assumptions C92_careful_needed.
