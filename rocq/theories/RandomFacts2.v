(** Facts about the model of the random tests: hash nodes, comparison, get, clones, deletion. *)
From Verif Require Import Base Nibbles NibblesSpec NibblesFacts NibblesFacts2 NibblesFacts3 Trie TrieSpec TrieHistSpec TrieFacts TrieInsert TrieGet TrieDelete TrieUnique TrieIter TrieHist TrieObs HashSpec
  YellowPaper TextFacts OrderSpec OrderFacts OrderExact GetSpec P_Trie P_Order Cache P_Cache RandomTests RandomFacts.
From Coq Require Import Permutation.
Open Scope N_scope.

Lemma fixed_length es : drawn fixed_key es -> Forall (fun j => length j = 64%nat) (keys es).
Proof.
  intros F. unfold keys. apply Forall_map. eapply Forall_impl; [|exact F]. intros [k v] [Hk _]. cbn [fst] in *. destruct (fixed_ok k Hk) as [_ C]. unfold nseq. rewrite digits_length, C. reflexivity.
Qed.
Lemma same_length_in_time n es : Forall (fun j => length j = n) (keys es) -> in_time es.
Proof.
  intros F. apply C34_in_time. right. intros (k & x & r & s & D & I0 & I1 & _). rewrite Forall_forall in F. pose proof (F _ I0). pose proof (F _ I1). rewrite app_length in *. cbn [length] in *. lia.
Qed.
Lemma fixed_facts es : drawn fixed_key es -> Forall ok_entry es /\ in_time es.
Proof. intros F. split; [apply (drawn_ok fixed_key); [apply fixed_ok|exact F]|apply (same_length_in_time 64), fixed_length, F]. Qed.

(** ** Hash nodes *)
Definition clashes (es : list entry) (s : list N) : Prop := exists j, In j (keys es) /\ is_prefix s j.
Definition slot_of (es : list entry) (s : nibbles) : Prop := kwf s /\ exists e, In e es /\ nseq s = nseq (fst e) ++ [1].
Definition hvals (l : list entry) : list (nibbles * val_or_hash) := map (fun e => (fst e, HashV (snd e))) l.
Definition hinv (es : list entry) (t : node) (done : list entry) : Prop :=
  wf 64 t /\ canon t /\
  (forall j, lk t j = match last_value done j with Some h => Some (HashV h) | None => option_map Val (last_value es j) end) /\
  Forall (fun e => slot_of es (fst e) /\ ~ clashes es (nseq (fst e))) done.

Lemma prefix_snoc p k x : is_prefix p (k ++ [x]) -> p = k ++ [x] \/ is_prefix p k.
Proof.
  intros [c E]. destruct c as [|y c] using rev_ind; [left; rewrite app_nil_r in E; auto|]. rewrite app_assoc in E. apply app_inj_tail in E. right. exists c. tauto.
Qed.

Lemma hinv_step pr es t done s h : hinv es t done -> slot_of es s -> ~ In (nseq s) (keys done) ->
  (clashes es (nseq s) -> trie_insert pr t s (HashV h) = Panic) /\
  (~ clashes es (nseq s) -> exists t', trie_insert pr t s (HashV h) = Ok t' /\ hinv es t' (done ++ [(s, h)])).
Proof.
  intros (W & C & L & FD) [Hs (e & Ie & Es)] N. pose proof (reach_start pr t W C) as R.
  assert (Ik : In (nseq (fst e)) (keys es)) by (unfold keys; apply in_map_iff; exists e; auto).
  assert (Done : forall j g, last_value done j = Some g -> slot_of es (enc j) /\ ~ clashes es j /\ In j (keys done)).
  { intros j g E. destruct (last_value_in _ _ _ E) as (i & <- & I). rewrite Forall_forall in FD. destruct (FD _ I) as [[A A'] B]. cbn [fst] in *.
    split; [|split; [exact B|unfold keys; apply in_map_iff; exists (i, g); auto]]. rewrite enc_nseq by apply A. split; assumption. }
  assert (St : forall j, In j (keys es) -> stored t j).
  { intros j I. unfold stored. rewrite L. apply last_value_keys in I. destruct (last_value done j); [discriminate|]. destruct (last_value es j); [discriminate|congruence]. }
  assert (Iff : trie_insert pr t s (HashV h) = Panic <-> clashes es (nseq s)).
  { rewrite (C33_insert_hash_panics_iff pr t s h R Hs). split.
    - intros [(p & g & Ep & P)|(j & Sj & P)].
      + rewrite L in Ep. destruct (last_value done p) as [g'|] eqn:Ed; [|destruct (last_value es p); discriminate].
        destruct (Done _ _ Ed) as (_ & NC & Ip). exfalso. rewrite Es in P. destruct (prefix_snoc _ _ _ P) as [->|P']; [apply N; rewrite Es; exact Ip|].
        apply NC. exists (nseq (fst e)). auto.
      + unfold stored in Sj. rewrite L in Sj. destruct (last_value done j) as [g|] eqn:Ed.
        * destruct (Done _ _ Ed) as ([_ (e' & Ie' & Ej)] & _ & Ij). destruct (last_value_in _ _ _ Ed) as (i & Ei & Ii).
          rewrite Forall_forall in FD. destruct (FD _ Ii) as [[_ (e2 & Ie2 & Ee2)] _]. cbn [fst] in Ee2. rewrite Ei in Ee2. rewrite Ee2 in P.
          destruct (prefix_snoc _ _ _ P) as [E|P']; [exfalso; apply N; rewrite E, <- Ee2; exact Ij|].
          exists (nseq (fst e2)). split; [unfold keys; apply in_map_iff; exists e2; auto|exact P'].
        * exists j. split; [|exact P]. apply last_value_keys. destruct (last_value es j); [discriminate|]. cbn in Sj. congruence.
    - intros (j & I & P). right. exists j. auto. }
  split; [apply Iff|]. intros NC. destruct (tinsert pr t s (HashV h) W (canon_shape _ C) Hs Logic.I) as [(t' & E & (P1 & _ & _ & P4 & P5) & NB)|[E _]]; [|exfalso; apply NC, Iff, E].
  exists t'. split; [exact E|]. split; [exact P1|]. split; [exact (P4 C)|].
  assert (Ee : eff t (nseq s) = nseq s).
  { apply (eff_insertable t 64 _ W C). right. left. intros j Sj (x & r & ->). apply NB. right. split; [exact Logic.I|]. exists (nseq s ++ x :: r). split; [exact Sj|exists (x :: r); reflexivity]. }
  split.
  - intros j. rewrite P5, Ee, last_value_snoc. destruct (key_eqb (nseq s) j); [reflexivity|apply L].
  - apply Forall_app. split; [exact FD|]. constructor; [|constructor]. cbn [fst]. split; [split; [exact Hs|exists e; auto]|exact NC].
Qed.

Lemma hinv_run pr es extra : forall t done, hinv es t done -> Forall (fun e => slot_of es (fst e)) extra -> NoDup (keys (done ++ extra)) ->
  (Exists (fun e => clashes es (nseq (fst e))) extra -> trie_extend pr t (hvals extra) = Panic) /\
  ((forall e, In e extra -> ~ clashes es (nseq (fst e))) -> exists t', trie_extend pr t (hvals extra) = Ok t' /\ hinv es t' (done ++ extra)).
Proof.
  induction extra as [|[s h] extra IH]; intros t done V F ND.
  - split; [intros H; inversion H|]. intros _. exists t. rewrite app_nil_r. split; [reflexivity|exact V].
  - inversion F as [|? ? Hs F']; subst. cbn [fst hvals map snd trie_extend] in *. fold (hvals extra).
    assert (Ni : ~ In (nseq s) (keys done)).
    { unfold keys in *. rewrite map_app in ND. cbn [map fst] in ND. apply NoDup_remove_2 in ND. intros I. apply ND, in_app_iff. auto. }
    destruct (hinv_step pr es t done s h V Hs Ni) as [S1 S2].
    assert (ND' : NoDup (keys ((done ++ [(s, h)]) ++ extra))) by (rewrite <- app_assoc; exact ND). split.
    + intros X. destruct (trie_insert pr t s (HashV h)) as [t1|] eqn:E; [|reflexivity]. cbn [bind].
      assert (NC : ~ clashes es (nseq s)) by (intros C; specialize (S1 C); discriminate).
      destruct (S2 NC) as (t2 & E2 & V2). injection E2 as <-. inversion X as [? ? C|? ? X']; subst; [contradiction|]. apply (IH t1 _ V2 F' ND'), X'.
    + intros NC. destruct (S2 (NC (s, h) (or_introl eq_refl))) as (t1 & E1 & V1). rewrite E1. cbn [bind].
      destruct (IH t1 _ V1 F' ND') as [_ G]. destruct (G (fun e I => NC e (or_intror I))) as (t2 & E2 & V2). exists t2. split; [exact E2|]. rewrite <- app_assoc in V2. exact V2.
Qed.

Lemma merge_one k : kwf k -> count k <= 63 -> exists s, merge_nibble k 1 = Ok s /\ kwf s /\ nseq s = nseq k ++ [1].
Proof.
  intros Hk C. destruct (kwf_ex k Hk) as (l & E & Es & H & L). assert (Len : length l = N.to_nat (count k)) by (rewrite E; cbn [enc count]; lia).
  exists (enc (l ++ [1])). rewrite E. split; [apply merge_nibble_enc; auto; lia|]. rewrite <- E, Es.
  assert (H1 : hexl (l ++ [1])) by (apply Forall_app; split; [exact H|constructor; [reflexivity|constructor]]).
  split; [|apply nseq_enc; exact H1]. split; [cbn [enc count packed]; apply undigits_lt; exact H1|]. cbn [enc count]. rewrite app_length. cbn [length]. lia.
Qed.

Lemma slots_ok pr es t l : vtrie t -> holds t (last_value es) -> Forall ok_entry es ->
  NoDup (map fst l) -> (forall k e, In (k, e) l <-> kwf k /\ lk t (nseq k) = Some e) ->
  reach pr t -> exists slots, slots_of l = Ok slots /\ NoDup slots /\
    forall s, In s slots <-> kwf s /\ exists e, In e es /\ nseq s = nseq (fst e) ++ [1].
Proof.
  intros V H F ND Hl R. unfold slots_of.
  set (p := fun e : Trie.item => (count (fst e) <=? 63) && match snd e with Val _ => true | HashV _ => false end).
  set (g := fun e : Trie.item => enc (nseq (fst e) ++ [1])).
  assert (Hp : forall e, In e (filter p l) -> kwf (fst e) /\ count (fst e) <= 63 /\ lk t (nseq (fst e)) = Some (snd e)).
  { intros [k x] I. apply filter_In in I. destruct I as [I E]. apply Hl in I. unfold p in E. apply Bool.andb_true_iff in E. destruct E as [E _]. apply N.leb_le in E. cbn [fst snd] in *. tauto. }
  assert (Hg : forall e, In e (filter p l) -> merge_nibble (fst e) 1 = Ok (g e) /\ kwf (g e) /\ nseq (g e) = nseq (fst e) ++ [1]).
  { intros e I. destruct (Hp e I) as (A & B & _). destruct (merge_one (fst e) A B) as (s & E1 & E2 & E3). unfold g. rewrite <- E3, enc_nseq by apply E2. auto. }
  exists (map g (filter p l)). split; [|split].
  - apply mapr_ok. intros e I. apply (Hg e I).
  - assert (NF : NoDup (map fst (filter p l))).
    { clear - ND. induction l as [|e l IH]; [constructor|]. cbn [map filter] in *. inversion ND as [|? ? N1 N2]; subst. destruct (p e); cbn [map]; [constructor|]; auto.
      intros I. apply N1. apply in_map_iff in I. destruct I as (f & Ef & If). apply filter_In in If. apply in_map_iff. exists f. tauto. }
    induction (filter p l) as [|e l' IH]; cbn [map] in *; [constructor|]. inversion NF as [|? ? N1 N2]; subst. constructor.
    + intros I. apply in_map_iff in I. destruct I as (f & Ef & If). destruct (Hg e (or_introl eq_refl)) as (_ & _ & E1). destruct (Hg f (or_intror If)) as (_ & _ & E2).
      rewrite Ef, E1 in E2. apply app_inj_tail in E2. destruct E2 as [E2 _]. apply N1. apply in_map_iff. exists f. split; [|exact If].
      symmetry. apply nseq_inj; [apply (Hp e (or_introl eq_refl))|apply (Hp f (or_intror If))|exact E2].
    + apply IH; intros; auto; [apply Hp|apply Hg]; right; assumption.
  - intros s. rewrite in_map_iff. split.
    + intros (e & <- & I). destruct (Hg e I) as (_ & A & B). split; [exact A|]. destruct (Hp e I) as (Hk & _ & E). rewrite H in E.
      destruct (last_value es (nseq (fst e))) as [v|] eqn:El; [|discriminate]. destruct (last_value_in _ _ _ El) as (j & Ej & Ij). exists (j, v). split; [exact Ij|]. cbn [fst]. rewrite Ej. exact B.
    + intros [Hs ([k v] & I & E)]. cbn [fst] in E. rewrite Forall_forall in F. destruct (F _ I) as [Hk _]. cbn [fst] in Hk.
      assert (C : count k <= 63).
      { pose proof (nseq_length s) as L1. pose proof (nseq_length k) as L2. rewrite E, app_length in L1. cbn [length] in L1. destruct Hs. lia. }
      assert (Ik : In (nseq k) (keys es)) by (unfold keys; apply in_map_iff; exists (k, v); auto). apply last_value_keys in Ik.
      destruct (last_value es (nseq k)) as [w|] eqn:El; [|congruence]. exists (k, Val w). unfold g. cbn [fst]. split; [rewrite <- E; apply enc_nseq, Hs|].
      apply filter_In. split; [apply Hl; split; [exact Hk|rewrite H, El; reflexivity]|]. unfold p. cbn [fst snd]. destruct (N.leb_spec (count k) 63); [reflexivity|lia].
Qed.

Lemma nodup_last l k v : Forall (fun e => kwf (fst e)) l -> NoDup (keys l) -> In (k, v) l -> last_value l (nseq k) = Some v.
Proof.
  intros F ND I. destruct (last_value l (nseq k)) as [w|] eqn:E.
  - destruct (last_value_in _ _ _ E) as (j & Ej & Ij). rewrite Forall_forall in F. apply nseq_inj in Ej; [|apply (F _ Ij)|apply (F _ I)]. subst j. f_equal. eapply nodup_single; eassumption.
  - exfalso. assert (In (nseq k) (keys l)) by (unfold keys; apply in_map_iff; exists (k, v); auto). apply last_value_keys in H. congruence.
Qed.
Lemma keys_nodup l : Forall (fun e => kwf (fst e)) l -> NoDup (map fst l) -> NoDup (keys l).
Proof.
  intros F ND. unfold keys. induction l as [|e l IH]; cbn [map] in *; [constructor|]. inversion ND as [|? ? N1 N2]; subst. inversion F as [|? ? F1 F2]; subst.
  constructor; [|apply IH; assumption]. intros I. apply N1. apply in_map_iff in I. destruct I as (f & Ef & If). apply in_map_iff. exists f. split; [|exact If].
  rewrite Forall_forall in F2. apply nseq_inj; [apply F2, If|exact F1|exact Ef].
Qed.

Lemma hash_nodes_exact pr rng es : Forall ok_entry es -> single_valued es -> in_time es -> chooses rng ->
  exists slots, NoDup slots /\ (forall s, In s slots <-> kwf s /\ exists e, In e es /\ nseq s = nseq (fst e) ++ [1]) /\
    (ends (mass_inserts_with_hash_nodes pr rng es) tt <-> forall f e, In f (rng slots) -> In e es -> ~ is_prefix (nseq (fst f)) (nseq (fst e))).
Proof.
  intros F S T Ch. destruct (run_in_time pr es F T) as (t & E & V & H). pose proof (vtrie_reach pr t V) as R.
  destruct (collect_ends pr t R) as (l & El & NDl & Hl). destruct (slots_ok pr es t l V H F NDl Hl R) as (slots & Es & NDs & Hs).
  exists slots. split; [exact NDs|]. split; [exact Hs|]. destruct (Ch slots) as [(rest & P) FB]. set (extra := rng slots) in *.
  assert (ND1 : NoDup (map fst extra)).
  { apply (Permutation_NoDup P) in NDs. clear - NDs. induction (map fst extra) as [|x xs IH]; [constructor|]. cbn [app] in NDs. inversion NDs as [|? ? A B]; subst. constructor; [|apply IH; exact B]. intros I. apply A, in_app_iff. auto. }
  assert (Fs : Forall (fun e => slot_of es (fst e)) extra).
  { apply Forall_forall. intros f I. apply Hs. apply (Permutation_in _ (Permutation_sym P)). apply in_app_iff. left. apply in_map, I. }
  assert (Fk : Forall (fun e => kwf (fst e)) extra) by (eapply Forall_impl; [|exact Fs]; intros e [A _]; exact A).
  pose proof (keys_nodup extra Fk ND1) as ND2.
  assert (V0 : hinv es t []) by (destruct V as (W & C & _); split; [exact W|split; [exact C|split; [exact H|constructor]]]).
  destruct (hinv_run pr es extra t [] V0 Fs ND2) as [R1 R2]. cbn [app] in R2.
  assert (Iff : (forall f e, In f extra -> In e es -> ~ is_prefix (nseq (fst f)) (nseq (fst e))) <-> (forall e, In e extra -> ~ clashes es (nseq (fst e)))).
  { split.
    - intros A f I (j & Ij & Pj). unfold keys in Ij. apply in_map_iff in Ij. destruct Ij as (e & <- & Ie). exact (A f e I Ie Pj).
    - intros A f e I Ie Pj. apply (A f I). exists (nseq (fst e)). split; [unfold keys; apply in_map_iff; exists e; auto|exact Pj]. }
  rewrite Iff. clear Iff. unfold mass_inserts_with_hash_nodes. split.
  - intros Q. apply bind_pure in Q. destruct Q as (t1 & E1 & Q). assert (t1 = t) by congruence. subst t1.
    apply (proj1 (ends_bind _ _ _ _ El)) in Q. apply bind_pure in Q. destruct Q as (s1 & Es1 & Q). assert (s1 = slots) by congruence. subst s1. cbv zeta in Q.
    apply bind_pure in Q. destruct Q as (t' & E' & _). intros f I C. fold extra in E'. change (trie_extend pr t (hvals extra) = Ok t') in E'.
    rewrite R1 in E'; [discriminate|]. apply Exists_exists. exists f. auto.
  - intros A. destruct (R2 A) as (t' & E' & (W' & C' & L' & FD)). apply bind_pure. exists t. split; [exact E|]. apply (ends_bind _ _ _ _ El). apply bind_pure. exists slots. split; [exact Es|]. cbv zeta.
    apply bind_pure. exists t'. split; [exact E'|]. destruct (collect_ends pr t' (reach_start pr t' W' C')) as (al & Ea & _ & Ha). apply (ends_bind _ _ _ _ Ea). apply ends_pure.
    assert (A1 : forallb (fun e => contains item_eqb al (fst e, Val (snd e))) es = true).
    { apply forallb_forall. intros [k v] I. apply (contains_iff _ _ _ item_eqb_iff). cbn [fst snd]. apply Ha. pose proof (proj1 (Forall_forall _ _) F _ I) as [Hk _]. split; [exact Hk|]. rewrite L'.
      destruct (last_value extra (nseq k)) as [h|] eqn:Ex; [|rewrite (single_last es k v F S I); reflexivity]. exfalso.
      destruct (last_value_in _ _ _ Ex) as (j & Ej & Ij). apply (A _ Ij). cbn [fst]. rewrite Ej. exists (nseq k). split; [unfold keys; apply in_map_iff; exists (k, v); auto|exists []; rewrite app_nil_r; reflexivity]. }
    assert (A2 : forallb (fun e => contains item_eqb al (fst e, HashV (snd e))) extra = true).
    { apply forallb_forall. intros [k h] I. apply (contains_iff _ _ _ item_eqb_iff). cbn [fst snd]. apply Ha. rewrite Forall_forall in Fk. split; [apply (Fk _ I)|]. rewrite L', (nodup_last extra k h); [reflexivity|apply Forall_forall; exact Fk|exact ND2|exact I]. }
    fold extra. rewrite A1. cbn [assert bind]. rewrite A2. reflexivity.
Qed.

(** ** Comparison *)
Lemma equivalency_exact pr es1 es2 : Forall ok_entry es1 -> Forall ok_entry es2 -> in_time es1 -> in_time es2 ->
  (equivalency_check pr es1 es2 = Ok tt <-> exists k, last_value es1 k <> last_value es2 k).
Proof.
  intros F1 F2 T1 T2. destruct (run_in_time pr es1 F1 T1) as (t1 & E1 & V1 & H1). destruct (run_in_time pr es2 F2 T2) as (t2 & E2 & V2 & H2).
  unfold equivalency_check. rewrite E1, E2. replace (node_eqb Empty Empty) with true by reflexivity. cbn [assert bind].
  assert (R : node_eqb t1 t1 = true) by (apply C31_standard_equal_iff; reflexivity). rewrite R. cbn [assert bind]. rewrite assert_ok, Bool.negb_true_iff.
  split.
  - intros E. set (ks := keys es1 ++ keys es2).
    destruct (existsb (fun k => match last_value es1 k, last_value es2 k with Some v, Some w => negb (key_eqb v w) | None, None => false | _, _ => true end) ks) eqn:X.
    + apply existsb_exists in X. destruct X as (k & _ & X). exists k. intros D. rewrite D in X. destruct (last_value es2 k) as [v|]; [|discriminate]. destruct (key_eqb_spec v v); [discriminate|congruence].
    + exfalso. assert (t1 = t2); [|apply C31_standard_equal_iff in H; congruence]. apply (holds_unique t1 t2 _ _ V1 V2 H1 H2). intros k.
      destruct (last_value es1 k) as [v|] eqn:A, (last_value es2 k) as [w|] eqn:B; try reflexivity.
      all: assert (I : In k ks) by (apply in_app_iff; first [left; apply last_value_keys; congruence|right; apply last_value_keys; congruence]).
      all: match type of X with existsb ?f _ = _ => assert (Y : f k = false) by (destruct (f k) eqn:Z; [|reflexivity]; assert (existsb f ks = true) by (apply existsb_exists; exists k; auto); congruence) end.
      all: cbv beta in Y; rewrite A, B in Y; try discriminate. apply Bool.negb_false_iff, key_eqb_iff in Y. congruence.
  - intros (k & D). destruct (node_eqb t1 t2) eqn:E; [|reflexivity]. apply C31_standard_equal_iff in E. subst t2. exfalso. apply D.
    specialize (H1 k). specialize (H2 k). rewrite H1 in H2. destruct (last_value es1 k), (last_value es2 k); cbn in H2; congruence.
Qed.

(** ** Get *)
Lemma is_some_iff o v : is_some o v = true <-> o = Some v.
Proof. destruct o as [w|]; cbn; [rewrite key_eqb_iff; split; congruence|split; discriminate]. Qed.
Lemma get_holds pr t es k v : vtrie t -> holds t (last_value es) -> kwf k -> last_value es (nseq k) = Some v -> trie_get pr t k = Ok (Some v).
Proof.
  intros (W & _) H Hk E. rewrite <- (enc_nseq k) at 1 by apply Hk. apply (get_found pr t 64); [exact W|lia|]. rewrite H, E. reflexivity.
Qed.
Lemma all_found_iff pr t es : forall l, vtrie t -> holds t (last_value es) -> Forall (fun e => kwf (fst e)) l -> (forall e, In e l -> In (nseq (fst e)) (keys es)) ->
  (all_found pr t l = Ok tt <-> forall k v, In (k, v) l -> last_value es (nseq k) = Some v).
Proof.
  induction l as [|[k v] l IH]; intros V H F I; cbn [all_found]; [split; [intros _ k v []|reflexivity]|]. inversion F as [|? ? Hk F']; subst. cbn [fst] in Hk.
  pose proof (I (k, v) (or_introl eq_refl)) as Ik. apply last_value_keys in Ik. cbn [fst] in Ik. destruct (last_value es (nseq k)) as [w|] eqn:E; [|congruence].
  rewrite (get_holds pr t es k w V H Hk E). cbn [bind]. specialize (IH V H F' (fun e J => I e (or_intror J))). split.
  - intros A. destruct (is_some (Some w) v) eqn:Z; [|discriminate]. apply is_some_iff in Z. cbn [assert bind] in A. intros k' v' [[= <- <-]|J]; [congruence|]. apply IH; assumption.
  - intros A. assert (Z : is_some (Some w) v = true) by (apply is_some_iff; rewrite <- E; apply A; left; reflexivity). rewrite Z. cbn [assert bind]. apply IH. intros k' v' J. apply A. right. exact J.
Qed.
Lemma get_massive_exact pr es : Forall ok_entry es -> in_time es -> (get_massive pr es = Ok tt <-> single_valued es).
Proof.
  intros F T. destruct (run_in_time pr es F T) as (t & E & V & H). unfold get_massive. rewrite E. cbn [bind].
  rewrite (all_found_iff pr t es es V H); [| |intros e I; unfold keys; apply in_map_iff; exists e; auto].
  - split; [|intros S k v I; apply single_last; assumption]. intros A k v w I J. apply A in I, J. congruence.
  - eapply Forall_impl; [|exact F]. intros e [A _]. exact A.
Qed.

(** ** Clones *)
Lemma inserts_end pr es : forall t, vtrie t -> Forall ok_entry es -> exists l, ends (inserts_and_clones pr t es) l /\ Forall (fun p => ends (get_non_hash_values_in_trie pr (snd p)) (fst p)) l.
Proof.
  induction es as [|[k v] es IH]; intros t V F; cbn [inserts_and_clones]; [exists []; split; [apply ends_pure; reflexivity|constructor]|].
  inversion F as [|? ? [Hk Hv] F']; subst. cbn [fst snd] in *. destruct (vinsert pr t k v V Hk Hv) as (t' & E & V' & _). destruct (values_end pr t' V') as (seen & G & _). destruct (IH t' V' F') as (rest & R & FR).
  exists ((seen, t') :: rest). split; [|constructor; [exact G|exact FR]]. apply bind_pure. exists t'. split; [exact E|]. apply (ends_bind _ _ _ _ G). apply (ends_bind _ _ _ _ R). apply ends_pure. reflexivity.
Qed.
Lemma held_clones_ok pr es : Forall ok_entry es -> ends (held_clones pr es) tt.
Proof.
  intros F. destruct (inserts_end pr es Empty vtrie_empty F) as (l & E & FL). unfold held_clones. apply (ends_bind _ _ _ _ E). clear E.
  induction FL as [|[seen t] l G FL IH]; cbn [clones_unchanged]; [apply ends_pure; reflexivity|]. cbn [fst snd] in G. apply (ends_bind _ _ _ _ G). apply bind_pure. exists tt. split; [|exact IH].
  apply assert_ok, Bool.andb_true_iff. split; apply (all_contained _ _ _ entry_eqb_iff); apply incl_refl.
Qed.
