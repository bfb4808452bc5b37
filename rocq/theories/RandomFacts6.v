(** Facts about the model of the random tests: the counts of stats.rs. *)
From Verif Require Import Base Nibbles NibblesSpec NibblesFacts NibblesFacts2 NibblesFacts3 Trie TrieSpec TrieHistSpec TrieFacts TrieInsert TrieGet TrieDelete TrieUnique TrieIter TrieHist TrieObs
  TextFacts OrderSpec OrderFacts OrderExact GetSpec P_Trie P_Order Cache CacheSpec CacheFacts3 UserSpec P_Cache Stats StatsSpec StatsFacts SizeFacts P_Stats P_Size P_User2 RandomTests RandomFacts RandomFacts2.
Open Scope N_scope.

Notation holds := TrieHistSpec.holds.
Definition is_hashv (e : list N * val_or_hash) : bool := match snd e with HashV _ => true | Val _ => false end.

Lemma filter_map_key {A B} (p : B -> bool) (q : A -> bool) (f : A -> B) l : (forall x, p (f x) = q x) -> length (filter p (map f l)) = length (filter q l).
Proof. intros H. induction l as [|x l IH]; cbn [map filter]; [reflexivity|]. rewrite H. destruct (q x); cbn [length]; rewrite IH; reflexivity. Qed.
Lemma hash_entries_count t : length (filter is_hashv (entries t)) = c_of is_hash_node t.
Proof.
  induction t as [|h|ch v IH|n t IH|n v] using node_ind'; try reflexivity.
  - rewrite c_branch by (intros a b x; reflexivity). cbn [is_hash_node snd entries]. rewrite filter_app, app_length.
    assert (G : forall i, length (filter is_hashv (concat_children entries ch i)) = list_sum (map (c_of is_hash_node) ch)).
    { induction ch as [|c ch IHch]; intros i; [reflexivity|]. inversion IH as [|? ? IHc IHcs]; subst. cbn [concat_children map list_sum fold_right].
      fold (concat_children entries). rewrite filter_app, app_length. rewrite (IHch IHcs). rewrite (filter_map_key is_hashv is_hashv) by reflexivity. rewrite IHc. reflexivity. }
    rewrite G. destruct v; cbn [filter is_hashv snd length]; lia.
  - rewrite c_ext by (intros a b x; reflexivity). cbn [is_hash_node snd entries]. rewrite (filter_map_key is_hashv is_hashv) by reflexivity. exact IH.
Qed.
Lemma no_values t : forall L, wf L t -> canon t -> (forall i j, stored t i -> stored t j -> length i = length j) -> c_of is_valued_branch t = 0%nat.
Proof.
  induction t as [|h|ch v IH|n t IH|n v] using node_ind'; intros L W C E; try reflexivity.
  - rewrite c_branch by (intros a b x; reflexivity). inversion W as [| |L0 ? ? Hl F| |]; subst. pose proof (canon_shape _ C) as Sh. inversion Sh as [| |? ? FS (c0 & I0 & N0)| |]; subst.
    inversion C as [| |? ? FC O| |]; subst. rewrite Forall_forall in IH, F, FC, FS.
    assert (Z : list_sum (map (c_of is_valued_branch) ch) = 0%nat).
    { assert (A : forall c, In c ch -> c_of is_valued_branch c = 0%nat).
      { intros c Ic. apply (IH c Ic L0 (F c Ic) (FC c Ic)). destruct (in_child_ex _ _ Ic) as (d & _ & Ed).
        intros i j Si Sj. assert (X : length (d :: i) = length (d :: j)) by (apply E; apply stored_branch; rewrite Ed; assumption). cbn [length] in X. lia. }
      clear - A. induction ch as [|c ch IH]; [reflexivity|]. cbn [map list_sum fold_right]. rewrite (A c (or_introl eq_refl)). apply IH. intros x I. apply A. right. exact I. }
    rewrite Z. destruct v as [|b v]; [reflexivity|]. exfalso. destruct (in_child_ex _ _ I0) as (d & _ & Ed). destruct (shape_stored c0 (FS c0 I0) N0) as (j & Sj).
    assert (X : length (@nil N) = length (d :: j)) by (apply E; [unfold stored; cbn; discriminate|apply stored_branch; rewrite Ed; exact Sj]). discriminate.
  - rewrite c_ext by (intros a b x; reflexivity). inversion W as [| | |L0 p ? Hp Wc|]; subst. inversion C; subst. cbn [is_valued_branch snd]. eapply IH; eauto.
    intros i j Si Sj. assert (X : length (p ++ i) = length (p ++ j)) by (apply E; apply stored_ext; assumption).
    rewrite !app_length in X. lia.
Qed.

Lemma same_members {A} (a b : list A) : NoDup a -> (forall x, In x a <-> In x b) -> (length a = length b <-> NoDup b).
Proof.
  intros ND H. split.
  - intros L. apply (NoDup_incl_NoDup ND); [lia|]. intros x I. apply H, I.
  - intros NB. apply Nat.le_antisymm; [apply NoDup_incl_length; [exact ND|intros x I; apply H, I]|apply NoDup_incl_length; [exact NB|intros x I; apply H, I]].
Qed.

(** ** Inserting hashes at keys of 64 nibbles *)
Definition sinv (es : list entry) (t : node) (done : list entry) : Prop :=
  wf 64 t /\ canon t /\
  (forall j, lk t j = match last_value done j with Some h => Some (HashV h) | None => option_map Val (last_value es j) end) /\
  Forall (fun j => length j = 64%nat) (keys (es ++ done)).
Lemma keys_app (a b : list entry) : keys (a ++ b) = keys a ++ keys b.
Proof. apply map_app. Qed.
Lemma sinv_stored es t done j : sinv es t done -> (stored t j <-> In j (keys (es ++ done))).
Proof.
  intros (_ & _ & L & _). unfold stored. rewrite L, keys_app, in_app_iff, <- (last_value_keys es j), <- (last_value_keys done j).
  destruct (last_value done j), (last_value es j); cbn [option_map]; split; intros H; try (right; discriminate); try (left; discriminate); try discriminate; try congruence.
  destruct H; congruence.
Qed.
Lemma prefix_same (p k : list N) : is_prefix p k -> length p = length k -> p = k.
Proof. intros [s ->] L. rewrite app_length in L. destruct s; [rewrite app_nil_r; reflexivity|cbn [length] in L; lia]. Qed.
Lemma sinv_step pr es t done s h : sinv es t done -> kwf s -> length (nseq s) = 64%nat ->
  (In (nseq s) (keys (es ++ done)) -> trie_insert pr t s (HashV h) = Panic) /\
  (~ In (nseq s) (keys (es ++ done)) -> exists t', trie_insert pr t s (HashV h) = Ok t' /\ sinv es t' (done ++ [(s, h)])).
Proof.
  intros V Hs Ls. pose proof (fun j => sinv_stored es t done j V) as St. destruct V as (W & C & L & F). pose proof (reach_start pr t W C) as R.
  assert (Len : forall j, stored t j -> length j = 64%nat) by (intros j Sj; rewrite Forall_forall in F; apply F, St, Sj).
  assert (Iff : trie_insert pr t s (HashV h) = Panic <-> In (nseq s) (keys (es ++ done))).
  { rewrite (C33_insert_hash_panics_iff pr t s h R Hs), <- St. split.
    - intros [(p & g & Ep & P)|(j & Sj & P)].
      + assert (Sp : stored t p) by (unfold stored; congruence). rewrite (prefix_same p (nseq s) P) in Sp; [exact Sp|]. rewrite Ls. apply Len, Sp.
      + rewrite (prefix_same _ _ P); [exact Sj|]. rewrite Ls. symmetry. apply Len, Sj.
    - intros Sj. right. exists (nseq s). split; [exact Sj|]. exists []. rewrite app_nil_r. reflexivity. }
  split; [apply Iff|]. intros NC.
  destruct (tinsert pr t s (HashV h) W (canon_shape _ C) Hs Logic.I) as [(t' & E & (P1 & _ & _ & P4 & P5) & NB)|[E _]]; [|exfalso; apply NC, Iff, E].
  exists t'. split; [exact E|]. split; [exact P1|]. split; [exact (P4 C)|].
  assert (Ee : eff t (nseq s) = nseq s).
  { apply (eff_insertable t 64 _ W C). right. left. intros j Sj (x & r & ->). apply NB. right. split; [exact Logic.I|]. exists (nseq s ++ x :: r). split; [exact Sj|exists (x :: r); reflexivity]. }
  split.
  - intros j. rewrite P5, Ee, last_value_snoc. destruct (key_eqb (nseq s) j); [reflexivity|apply L].
  - rewrite app_assoc, keys_app. apply Forall_app. split; [exact F|]. constructor; [exact Ls|constructor].
Qed.
Definition fresh (es hs : list entry) : Prop := NoDup (keys hs) /\ forall j, In j (keys hs) -> ~ In j (keys es).
Lemma sinv_run pr es hs : forall t done, sinv es t done -> Forall (fun e => kwf (fst e) /\ length (nseq (fst e)) = 64%nat) hs ->
  (trie_extend pr t (hvals hs) = Panic /\ ~ fresh (es ++ done) hs) \/
  (exists t', trie_extend pr t (hvals hs) = Ok t' /\ sinv es t' (done ++ hs) /\ fresh (es ++ done) hs).
Proof.
  induction hs as [|[s h] hs IH]; intros t done V F.
  - right. exists t. rewrite app_nil_r. split; [reflexivity|]. split; [exact V|]. split; [constructor|intros j []].
  - inversion F as [|? ? [Hs Ls] F']; subst. cbn [hvals map fst snd trie_extend] in *. fold (hvals hs). destruct (sinv_step pr es t done s h V Hs Ls) as [S1 S2].
    destruct (in_dec (list_eq_dec N.eq_dec) (nseq s) (keys (es ++ done))) as [I|I].
    + left. rewrite (S1 I). split; [reflexivity|]. intros [_ D]. apply (D (nseq s)); [left; reflexivity|exact I].
    + destruct (S2 I) as (t1 & E1 & V1). rewrite E1. cbn [bind].
      assert (Iff : fresh (es ++ done) ((s, h) :: hs) <-> fresh (es ++ done ++ [(s, h)]) hs).
      { unfold fresh. rewrite app_assoc. cbn [keys map fst]. fold (keys hs). rewrite NoDup_cons_iff. split.
        - intros [[A B] D]. split; [exact B|]. intros j J. rewrite keys_app, in_app_iff. intros [X|[X|[]]]; [apply (D j (or_intror J) X)|]. cbn [fst] in X. subst j. exact (A J).
        - intros [B D]. split; [split; [|exact B]|].
          + intros J. apply (D _ J). rewrite keys_app, in_app_iff. right. left. reflexivity.
          + intros j [<-|J]; [exact I|]. intros X. apply (D _ J). rewrite keys_app, in_app_iff. auto. }
      destruct (IH t1 _ V1 F') as [[P NF]|(t' & E' & V' & Fr)].
      * left. split; [exact P|]. intros X. apply NF, Iff, X.
      * right. exists t'. split; [exact E'|]. split; [rewrite <- app_assoc in V'; exact V'|apply Iff, Fr].
Qed.

(** ** The counts *)
Lemma sinv_counts es t hs : sinv es t hs -> (forall j, In j (keys hs) -> ~ In j (keys es)) ->
  (how_many is_hash_node t = N.of_nat (length hs) <-> NoDup (keys hs)) /\ (how_many is_leaf_node t = N.of_nat (length es) <-> NoDup (keys es)) /\
  (length (entries t) <= length es + length hs)%nat.
Proof.
  intros V D. pose proof (fun j => sinv_stored es t hs j V) as St. destruct V as (W & C & L & F).
  pose proof (entries_nodup t) as ND. pose proof (entries_count t) as EC. pose proof (hash_entries_count t) as HC.
  pose proof (no_values t 64 W C) as NV. unfold c_of in NV at 1. rewrite NV in EC. 2:{ intros i j Si Sj. rewrite Forall_forall in F. rewrite (F i (proj1 (St i) Si)), (F j (proj1 (St j) Sj)). reflexivity. }
  set (q := fun e => negb (is_hashv e)).
  assert (NF : forall p, NoDup (map fst (filter p (entries t)))).
  { intros p. clear - ND. induction (entries t) as [|e l IH]; cbn [map filter] in *; [constructor|]. inversion ND as [|? ? N1 N2]; subst. destruct (p e); cbn [map]; [constructor|]; auto.
    intros I. apply N1. apply in_map_iff in I. destruct I as (f & Ef & If). apply filter_In in If. apply in_map_iff. exists f. tauto. }
  assert (PL : (length (filter is_hashv (entries t)) + length (filter q (entries t)) = length (entries t))%nat).
  { unfold q. clear. induction (entries t) as [|e l IH]; cbn [filter length]; [reflexivity|]. destruct (is_hashv e); cbn [negb length]; lia. }
  assert (MH : forall j, In j (map fst (filter is_hashv (entries t))) <-> In j (keys hs)).
  { intros j. rewrite in_map_iff, <- last_value_keys. split.
    - intros ([k e] & <- & I). apply filter_In in I. destruct I as [I E]. apply entries_lk in I. cbn [fst]. rewrite L in I. destruct (last_value hs k); [discriminate|].
      destruct (last_value es k); [|discriminate]. cbn in I. injection I as <-. discriminate.
    - intros N0. destruct (last_value hs j) as [h|] eqn:E; [|congruence]. exists (j, HashV h). split; [reflexivity|]. apply filter_In. split; [|reflexivity]. apply entries_lk. rewrite L, E. reflexivity. }
  assert (MV : forall j, In j (map fst (filter q (entries t))) <-> In j (keys es)).
  { intros j. rewrite in_map_iff, <- last_value_keys. split.
    - intros ([k e] & <- & I). apply filter_In in I. destruct I as [I E]. apply entries_lk in I. cbn [fst]. rewrite L in I. destruct (last_value hs k); [injection I as <-; discriminate|].
      destruct (last_value es k); discriminate.
    - intros N0. destruct (last_value es j) as [h|] eqn:E; [|congruence]. exists (j, Val h). split; [reflexivity|]. apply filter_In. split; [|reflexivity]. apply entries_lk. rewrite L, E.
      destruct (last_value hs j) eqn:Eh; [|reflexivity]. exfalso. apply (D j); apply last_value_keys; congruence. }
  pose proof (same_members _ _ (NF is_hashv) MH) as SH. pose proof (same_members _ _ (NF q) MV) as SV. rewrite map_length in SH, SV. unfold keys in SH at 1. unfold keys in SV at 1. rewrite map_length in SH, SV.
  unfold c_of in *. unfold how_many, entry in *. clear NV. split; [rewrite <- SH, HC; split; intros X; lia|]. split; [rewrite <- SV; split; intros X; lia|].
  assert (A : (length (map fst (filter is_hashv (entries t))) <= length (keys hs))%nat) by (apply NoDup_incl_length; [apply NF|intros x I; apply MH, I]).
  assert (B : (length (map fst (filter q (entries t))) <= length (keys es))%nat) by (apply NoDup_incl_length; [apply NF|intros x I; apply MV, I]).
  unfold keys in A, B. rewrite !map_length in A, B. lia.
Qed.
Lemma small_trie t : wf 64 t -> canon t -> N.of_nat (length (entries t)) < 2 ^ 27 -> N.of_nat (length (subnodes 0 t)) < 2 ^ 32.
Proof.
  intros W C S. pose proof (total_shape 64 t W) as T. unfold nsub in T. destruct (node_is_empty t) eqn:E; [destruct t; try discriminate; reflexivity|].
  assert (NE : t <> Empty) by (intros ->; discriminate). pose proof (C50_nodes t C NE) as N5. cbv zeta in N5. unfold how_many in *. destruct N5 as (A & B & D & _). lia.
Qed.

Lemma stats_exact keccak pr es hs : drawn fixed_key es -> drawn fixed_key hs -> N.of_nat (length es + length hs) < 2 ^ 27 ->
  (stats_count keccak pr es hs = Ok tt <-> NoDup (keys (es ++ hs))).
Proof.
  intros De Dh Sz. destruct (fixed_facts es De) as [Fe Te]. destruct (run_in_time pr es Fe Te) as (t & E & (W & C & _) & H).
  pose proof (fixed_length es De) as Le. pose proof (fixed_length hs Dh) as Lh.
  assert (V0 : sinv es t []) by (split; [exact W|]; split; [exact C|]; split; [exact H|rewrite app_nil_r; exact Le]).
  assert (Fh : Forall (fun e => kwf (fst e) /\ length (nseq (fst e)) = 64%nat) hs).
  { apply Forall_forall. intros e I. split; [apply fixed_ok, (proj1 (Forall_forall _ _) Dh _ I)|rewrite Forall_forall in Lh; apply Lh; unfold keys; apply in_map_iff; exists e; auto]. }
  assert (Vr : forall x, trie_extend pr t (hvals hs) = x -> vrun keccak pr [] [New []; Extend 0 (vals es); Extend 0 (hvals hs)] = (t' <- x ;; Ok ([t'], [Done; Done; Done]))).
  { intros x Ex. unfold from_iter in E. cbn [vrun vstep from_iter trie_extend bind app the nth_error]. rewrite E. cbn. rewrite Ex. destruct x; reflexivity. }
  assert (Tm : Forall tame [New []; Extend 0 (vals es); Extend 0 (hvals hs)]) by (repeat constructor).
  assert (Rs : respects keccak pr (fun _ => Plain) [] [New []; Extend 0 (vals es); Extend 0 (hvals hs)]) by (apply (respects_all keccak pr _ tame); [apply tame_legal|exact Tm]).
  unfold stats_count. change (map (fun e : nibbles * list N => (fst e, HashV (snd e))) hs) with (hvals hs).
  assert (ND : NoDup (keys (es ++ hs)) <-> NoDup (keys es) /\ fresh es hs).
  { unfold fresh. rewrite keys_app. clear. induction (keys es) as [|x l IH]; cbn [app].
    - split; [intros N; split; [constructor|split; [exact N|intros j _ []]]|tauto].
    - rewrite !NoDup_cons_iff, IH, in_app_iff. split.
      + intros [A (B & D & G)]. repeat split; auto. intros j J [<-|I]; [auto|exact (G j J I)].
      + intros [[A B] [D G]]. repeat split; auto; [|intros j J I; apply (G j J); right; exact I]. intros [I|I]; [auto|]. apply (G x I). left. reflexivity. }
  rewrite ND. destruct (sinv_run pr es hs t [] V0 Fh) as [[P NF]|(t' & E' & V' & Fr)]; rewrite app_nil_r in *.
  - rewrite (start_panics keccak pr _ _ Rs); [|rewrite (Vr _ P); reflexivity]. cbn [bind]. split; [discriminate|]. intros [_ X]. contradiction.
  - cbn [app] in V'. destruct (C29_clones_partial keccak pr _ _ _ Tm (Vr _ E')) as (hh & -> & Em). cbn [bind].
    destruct hh as [|t0 [|? ?]]; try discriminate. cbn [map] in Em. injection Em as ->.
    destruct Fr as [Nh Dj]. destruct (sinv_counts es t' hs V' Dj) as (CH & CL & Le'). destruct V' as (W' & C' & _).
    assert (S : N.of_nat (length (subnodes 0 t')) < 2 ^ 32) by (apply small_trie; [exact W'|exact C'|lia]).
    destruct (C35_fits t' S) as (S1 & S2 & S3). destruct (C35_exact pr t' None S1 S2 S3) as (low & _ & Es). unfold get_trie_stats. rewrite Es. cbn [bind s_counts n_leaf n_hash].
    rewrite (proj2 CH Nh), N.eqb_refl. destruct (N.eqb_spec (how_many is_leaf_node t') (N.of_nat (length es))) as [El|El]; cbn [assert bind].
    + split; [|reflexivity]. intros _. split; [apply CL, El|split; assumption].
    + split; [discriminate|]. intros [X _]. apply CL in X. contradiction.
Qed.
