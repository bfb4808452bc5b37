(** Facts about the model of the random tests. *)
From Verif Require Import Base Nibbles NibblesSpec NibblesFacts NibblesFacts2 NibblesFacts3 Trie TrieSpec TrieHistSpec TrieFacts TrieInsert TrieGet TrieDelete TrieUnique TrieIter TrieHist TrieObs HashSpec
  YellowPaper TextFacts OrderSpec OrderFacts OrderExact P_Trie RandomTests.
From Coq Require Import Permutation.
Open Scope N_scope.

(** ** Keys *)
Lemma size_le v n : v < 2 ^ n -> N.size v <= n.
Proof.
  intros H. destruct (N.eq_dec v 0) as [->|Hv]; [cbn; lia|]. rewrite N.size_log2 by exact Hv.
  apply N.le_succ_l. apply N.log2_lt_pow2; lia.
Qed.
Lemma word_kwf v : v < 2 ^ 256 -> kwf (to_nibbles 256 v).
Proof.
  intros H. destruct (to_nibbles_spec 256 v H) as [E1 E2]. split; [apply (to_nibbles_nseq 256 v H)|]. rewrite E1.
  pose proof (size_le v 256 H). assert ((N.size v + 3) / 4 <= 259 / 4) by (apply N.div_le_mono; lia). change (259 / 4) with 64 in *. lia.
Qed.
Lemma fixed_ok k : fixed_key k -> kwf k /\ count k = 64.
Proof.
  intros (a & b & c & d & Ha & Hb & Hc & Hd & ->). unfold gen_fixed_nibbles.
  set (v := a + 2 ^ 64 * b + 2 ^ 128 * c + 2 ^ 192 * d).
  assert (Hv : 2 ^ 252 <= v < 2 ^ 256) by (unfold v; lia).
  split; [apply word_kwf; lia|]. destruct (to_nibbles_spec 256 v ltac:(lia)) as [-> _].
  assert (N.size v <= 256) by (apply size_le; lia).
  assert (253 <= N.size v). { rewrite N.size_log2 by lia. assert (252 <= N.log2 v) by (apply N.log2_le_pow2; lia). lia. }
  assert ((N.size v + 3) / 4 <= 259 / 4) by (apply N.div_le_mono; lia). assert (256 / 4 <= (N.size v + 3) / 4) by (apply N.div_le_mono; lia).
  change (259 / 4) with 64 in *. change (256 / 4) with 64 in *. lia.
Qed.
Lemma from_le_bound bs : bytesl bs -> from_le bs < 256 ^ N.of_nat (length bs).
Proof. intros H. unfold from_le. rewrite <- rev_length. apply from_be_lt, Forall_rev, H. Qed.
Lemma variable_kwf k : variable_key k -> kwf k.
Proof.
  intros (bs & Hb & Hl & ->). apply word_kwf. pose proof (from_le_bound bs Hb) as H.
  assert (256 ^ N.of_nat (length bs) <= 256 ^ 32) by (apply N.pow_le_mono_r; lia). change (2 ^ 256) with (256 ^ 32). lia.
Qed.
Lemma padded_ok k : padded_key k -> kwf k /\ N.even (count k) = true.
Proof.
  intros (n & Hn & ->). apply variable_kwf in Hn. destruct Hn as [H1 H2]. unfold pad_even. destruct (N.even (count n)) eqn:E.
  - split; [split; assumption|exact E].
  - rewrite <- N.negb_odd in E. apply Bool.negb_false_iff in E. apply N.odd_spec in E. destruct E as [m E].
    split; [split; cbn [count packed]|].
    + rewrite N.add_1_r, N.pow_succ_r'. lia.
    + lia.
    + cbn [count]. apply N.even_spec. exists (m + 1). lia.
Qed.

Lemma bytes32_ne v : bytes32 v -> v <> [].
Proof. intros [_ L] ->. discriminate. Qed.
Lemma drawn_ok (key : nibbles -> Prop) es : (forall k, key k -> kwf k) -> drawn key es -> Forall ok_entry es.
Proof. intros H F. eapply Forall_impl; [|exact F]. intros [k v] [A B]. split; [apply H, A|apply bytes32_ne, B]. Qed.
Lemma drawn_bytes key es : drawn key es -> Forall (fun e => bytesl (snd e) /\ len (snd e) < 2147483648) es.
Proof. intros F. eapply Forall_impl; [|exact F]. intros [k v] [_ [A B]]. cbn [snd] in *. unfold len. rewrite B. split; [exact A|reflexivity]. Qed.

(** ** Tests that end *)
Definition ends {A} (m : test A) (a : A) : Prop := exists F, forall fuel, (F <= fuel)%nat -> m fuel = Some (Ok a).
Lemma ends_pure {A} (r : res A) a : ends (pure r) a <-> r = Ok a.
Proof. split; [intros [F H]; specialize (H F (Nat.le_refl _)); unfold pure in H; congruence|intros ->; exists 0%nat; reflexivity]. Qed.
Lemma ends_bind {A B} (m : test A) (f : A -> test B) a b : ends m a -> (ends (tbind m f) b <-> ends (f a) b).
Proof.
  intros [F H]. split; intros [G E]; exists (Nat.max F G); intros fuel Hf; specialize (H fuel ltac:(lia)); specialize (E fuel ltac:(lia)); unfold tbind in *; rewrite H in *; exact E.
Qed.
Lemma ends_bind_inv {A B} (m : test A) (f : A -> test B) b : ends (tbind m f) b -> exists fuel a, m fuel = Some (Ok a) /\ f a fuel = Some (Ok b).
Proof. intros [F H]. exists F. specialize (H F (Nat.le_refl _)). unfold tbind in H. destruct (m F) as [[a|]|]; try discriminate. eauto. Qed.
Lemma bind_pure {A B} (r : res A) (f : A -> test B) b : ends (tbind (pure r) f) b <-> exists a, r = Ok a /\ ends (f a) b.
Proof.
  split.
  - intros [F H]. unfold tbind, pure in H. destruct r as [a|]; [|specialize (H F (Nat.le_refl _)); discriminate]. exists a. split; [reflexivity|]. exists F. exact H.
  - intros (a & -> & H). apply (ends_bind _ _ a); [apply ends_pure; reflexivity|exact H].
Qed.
Lemma assert_ok b : assert b = Ok tt <-> b = true.
Proof. destruct b; cbn; split; congruence. Qed.

(** ** Equalities *)
Lemma nib_eqb_iff a b : nib_eqb a b = true <-> a = b.
Proof.
  unfold nib_eqb. rewrite Bool.andb_true_iff, !N.eqb_eq. destruct a, b; cbn. split; [intros [-> ->]; reflexivity|intros [= -> ->]; auto].
Qed.
Lemma key_eqb_iff a b : key_eqb a b = true <-> a = b.
Proof. destruct (key_eqb_spec a b); split; congruence. Qed.
Lemma entry_eqb_iff a b : entry_eqb a b = true <-> a = b.
Proof.
  unfold entry_eqb. rewrite Bool.andb_true_iff, nib_eqb_iff, key_eqb_iff. destruct a, b; cbn. split; [intros [-> ->]; reflexivity|intros [= -> ->]; auto].
Qed.
Lemma item_eqb_iff a b : item_eqb a b = true <-> a = b.
Proof.
  unfold item_eqb. rewrite Bool.andb_true_iff, nib_eqb_iff. destruct a as [k [v|v]], b as [j [w|w]]; cbn; rewrite ?key_eqb_iff; split; try (intros [-> ->]; reflexivity); try (intros [= -> ->]; auto); try (intros [_ ?]; discriminate); discriminate.
Qed.
Lemma contains_iff {A} (eqb : A -> A -> bool) l x : (forall a b, eqb a b = true <-> a = b) -> (contains eqb l x = true <-> In x l).
Proof.
  intros H. unfold contains. rewrite existsb_exists. split; [intros (y & I & E); apply H in E; congruence|intros I; exists x; split; [exact I|apply H; reflexivity]].
Qed.
Lemma all_contained {A} (eqb : A -> A -> bool) l l' : (forall a b, eqb a b = true <-> a = b) -> (forallb (contains eqb l) l' = true <-> incl l' l).
Proof. intros H. rewrite forallb_forall. split; intros G x I; apply (contains_iff eqb l x H); auto. Qed.

(** ** What the iterator collects *)
Lemma collect_ends pr t : reach pr t -> exists l, ends (collect pr t) l /\ NoDup (map fst l) /\ forall k e, In (k, e) l <-> kwf k /\ lk t (nseq k) = Some e.
Proof. intros R. destruct (C16_items pr t R) as (l & H1 & H2 & H3). exists l. auto. Qed.
Lemma vtrie_reach pr t : vtrie t -> reach pr t.
Proof. intros (W & C & _). apply reach_start; assumption. Qed.

Lemma mapr_ok {A B} (f : A -> res B) (g : A -> B) l : (forall x, In x l -> f x = Ok (g x)) -> mapr f l = Ok (map g l).
Proof. induction l as [|x l IH]; intros H; [reflexivity|]. cbn [mapr map]. rewrite (H x (or_introl eq_refl)). cbn [bind]. rewrite IH by (intros y I; apply H; right; exact I). reflexivity. Qed.

Lemma values_end pr t : vtrie t -> exists got, ends (get_non_hash_values_in_trie pr t) got /\ NoDup (map fst got) /\ forall k v, In (k, v) got <-> kwf k /\ lk t (nseq k) = Some (Val v).
Proof.
  intros V. destruct (collect_ends pr t (vtrie_reach pr t V)) as (l & E & ND & H).
  set (val := fun e : Trie.item => match snd e with Val v => (fst e, v) | HashV h => (fst e, h) end).
  assert (Hv : forall e, In e l -> exists v, snd e = Val v).
  { intros [k [v|h]] I; cbn [snd]; [eauto|]. exfalso. apply H in I. destruct V as (_ & _ & HF). exact (HF _ _ (proj2 I)). }
  exists (map val l). split; [|split].
  - unfold get_non_hash_values_in_trie. apply (ends_bind _ _ l); [exact E|]. apply ends_pure, mapr_ok. intros e I. destruct (Hv e I) as [v Ev]. unfold val. rewrite Ev. reflexivity.
  - rewrite map_map. erewrite map_ext; [exact ND|]. intros [k [v|h]]; reflexivity.
  - intros k v. rewrite in_map_iff. split.
    + intros (e & Ee & I). destruct (Hv e I) as [w Ew]. unfold val in Ee. rewrite Ew in Ee. destruct e as [j x]. cbn [fst snd] in *. injection Ee as -> ->. subst x. apply H in I. exact I.
    + intros G. apply H in G. exists (k, Val v). auto.
Qed.

Lemma last_value_in l k v : last_value l k = Some v -> exists j, nseq j = k /\ In (j, v) l.
Proof.
  induction l as [|[j w] l IH]; cbn [last_value]; [discriminate|]. destruct (last_value l k) as [x|].
  - intros [= ->]. destruct (IH eq_refl) as (i & E & I). exists i. split; [exact E|right; exact I].
  - destruct (key_eqb_spec (nseq j) k) as [E|_]; [|discriminate]. intros [= ->]. exists j. split; [exact E|left; reflexivity].
Qed.
Lemma single_last l k v : Forall ok_entry l -> single_valued l -> In (k, v) l -> last_value l (nseq k) = Some v.
Proof.
  intros F S I. destruct (last_value l (nseq k)) as [w|] eqn:E.
  - destruct (last_value_in _ _ _ E) as (j & Ej & Ij). rewrite Forall_forall in F.
    apply nseq_inj in Ej; [|apply (F _ Ij)|apply (F _ I)]. subst j. f_equal. eapply S; eassumption.
  - exfalso. assert (In (nseq k) (keys l)) by (unfold keys; apply in_map_iff; exists (k, v); auto). apply last_value_keys in H. congruence.
Qed.
Lemma nodup_single l : NoDup (keys l) -> single_valued l.
Proof.
  intros ND k v w I1 I2. induction l as [|e l IH]; [destruct I1|]. cbn [keys map] in ND. inversion ND as [|? ? N1 N2]; subst. fold (keys l) in *.
  assert (G : forall x, In (k, x) l -> In (nseq k) (keys l)) by (intros x I; unfold keys; apply in_map_iff; exists (k, x); auto).
  destruct I1 as [->|I1], I2 as [E|I2]; [congruence| | |auto].
  - exfalso. apply N1. cbn [fst]. apply (G w), I2.
  - exfalso. apply N1. subst e. apply (G v), I1.
Qed.

Lemma mass_inserts_ok pr es : Forall ok_entry es -> single_valued es -> in_time es -> ends (mass_inserts pr es) tt.
Proof.
  intros F S T. destruct (run_in_time pr es F T) as (t & E & V & H). destruct (values_end pr t V) as (got & G & ND & Hg).
  unfold mass_inserts. apply bind_pure. exists t. split; [exact E|]. unfold assert_all_entries_in_trie. apply (ends_bind _ _ got); [exact G|]. apply ends_pure.
  assert (I1 : incl es got).
  { intros [k v] I. apply Hg. rewrite H, (single_last es k v F S I). split; [|reflexivity]. rewrite Forall_forall in F. apply (F _ I). }
  assert (I2 : incl got es).
  { intros [k v] I. apply Hg in I. destruct I as [Hk I]. rewrite H in I. destruct (last_value es (nseq k)) as [w|] eqn:El; [|discriminate]. injection I as ->.
    destruct (last_value_in _ _ _ El) as (j & Ej & Ij). rewrite Forall_forall in F. apply nseq_inj in Ej; [|apply (F _ Ij)|exact Hk]. subst j. exact Ij. }
  apply (all_contained _ _ _ entry_eqb_iff) in I1, I2. rewrite I1. cbn [assert bind]. rewrite I2. reflexivity.
Qed.
Lemma run_any pr l : Forall ok_entry l -> exists t, from_iter pr (vals l) = Ok t /\ vtrie t.
Proof.
  unfold from_iter. intros F. assert (G : forall t, vtrie t -> exists t', trie_extend pr t (vals l) = Ok t' /\ vtrie t'); [|apply G, vtrie_empty].
  induction F as [|[k v] l [Hk Hv] F IH]; intros t V; [exists t; split; [reflexivity|exact V]|]. cbn [vals map fst snd trie_extend] in *.
  destruct (vinsert pr t k v V Hk Hv) as (t1 & E1 & V1 & _). rewrite E1. cbn [bind]. apply IH, V1.
Qed.
Lemma mass_inserts_inv pr es : Forall ok_entry es -> ends (mass_inserts pr es) tt -> single_valued es /\ (NoDup (keys es) -> in_time es).
Proof.
  intros F P. destruct (run_any pr es F) as (t & E & V). destruct (values_end pr t V) as (got & G & ND & Hg).
  unfold mass_inserts in P. apply bind_pure in P. destruct P as (t' & E' & P). assert (t' = t) by congruence. subst t'.
  unfold assert_all_entries_in_trie in P. apply (proj1 (ends_bind _ _ _ _ G)) in P. apply ends_pure in P.
  destruct (forallb (contains entry_eqb got) es) eqn:I1; [|discriminate]. apply (all_contained _ _ _ entry_eqb_iff) in I1. split.
  - intros k v w A B. apply I1, Hg in A. apply I1, Hg in B. destruct A as [_ A], B as [_ B]. congruence.
  - intros NK. apply (run_late pr es t F NK E). intros j I. unfold keys in I. apply in_map_iff in I. destruct I as ([k v] & <- & I). apply I1, Hg in I. cbn [fst]. unfold stored. rewrite (proj2 I). discriminate.
Qed.
