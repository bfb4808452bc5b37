(** Facts about the model of the random tests: subsets. *)
From Verif Require Import Base Nibbles NibblesSpec NibblesFacts NibblesFacts2 NibblesFacts3 Trie TrieSpec TrieHistSpec TrieFacts TrieInsert TrieGet TrieDelete TrieUnique TrieIter TrieHist TrieObs
  Hashing YellowPaper HashSpec HideSpec InsertWf HashFacts HideFacts TextFacts OrderSpec OrderFacts OrderExact Subset SubsetSpec SubsetFacts SubsetFacts2 ComposeFacts ReplayFacts P_Subset P_Compose P_Nibbles P_Trie P_Hash P_Order Cache CacheSpec P_Cache EthSpec EthFacts UserSpec RandomTests RandomFacts RandomFacts2 RandomFacts3 RandomFacts4.
Open Scope N_scope.

Section Subsets.
Variable keccak : list N -> list N.
Variable pr : profile.
Hypothesis H32 : hash32 keccak.

Definition valued (e : entry) : Prop := ok_entry e /\ bytesl (snd e) /\ len (snd e) < 2147483648.

Lemma prune_lk t ks k : vtrie t -> hexl k -> In k ks -> lk (prune keccak ks t) k = lk t k.
Proof.
  intros (W & _ & HF) Hk I. destruct (hides_lk keccak t (prune keccak ks t) k (prune_hides keccak t ks)) as [E|(p & h & E & P)]; [exact E|].
  exfalso. apply (HF p h). eapply (prune_hop keccak); eassumption.
Qed.

Lemma subsets_ok t kss : vtrie t -> fits t -> Forall (Forall kwf) kss -> (forall ks k, In ks kss -> In k ks -> stored t (nseq k)) ->
  exists l, create_trie_subsets keccak pr t kss = Ok (ROk l) /\
    Forall2 (fun ks s => wf 64 s /\ canon s /\ hash_trie keccak pr s = hash_trie keccak pr t /\ forall k, In k ks -> lk s (nseq k) = lk t (nseq k)) kss l.
Proof.
  intros V Ft Fk St. pose proof V as (W & C & HF).
  assert (Fine : forall ks, In ks kss -> Forall kwf ks /\ (forall k, In k ks -> ~ too_short t (nseq k))).
  { intros ks I. rewrite Forall_forall in Fk. split; [apply Fk, I|]. intros k Ik. apply (stored_not_short t 64 _ W (St ks k I Ik)). }
  assert (One : forall ks, In ks kss -> exists s, create_trie_subset keccak pr t ks = Ok (ROk s)).
  { intros ks I. destruct (Fine ks I) as [A B]. destruct (C25_errors_partial keccak pr t ks H32 W Ft A (or_intror B)) as [[(k & Ik & (p & h & E & _)) _]|[_ S]]; [|exact S]. exfalso. exact (HF _ _ E). }
  destruct (proj2 (C26_success_partial keccak pr t kss H32 W Ft) One) as (l & E). exists l. split; [exact E|].
  pose proof (subsets_tracked keccak pr t kss _ l H32 W Ft (track_tracks t) E) as A. clear E One.
  induction A as [|ks s kss l (Hd & _ & s1 & E1 & Hd1) A IH]; [constructor|]. constructor.
  - destruct (Fine ks (or_introl eq_refl)) as [Kw NS]. split; [exact (hides_wf keccak _ _ _ Hd W)|]. split; [exact (hides_canon keccak _ _ Hd C)|].
    split; [apply C20_hiding_keeps_root; auto|]. intros k Ik. pose proof (C24_exact keccak pr t ks s1 H32 W Ft Kw (or_intror NS) E1) as ->.
    assert (Hk : hexl (nseq k)). { rewrite Forall_forall in Kw. destruct (kwf_ex k (Kw k Ik)) as (x & _ & -> & Hx & _). exact Hx. }
    pose proof (prune_lk t (map nseq ks) (nseq k) V Hk (in_map _ _ _ Ik)) as El.
    destruct (stored_in t (nseq k) V (St ks k (or_introl eq_refl) Ik)) as (v & Ev). rewrite Ev in *. apply (hides_lk_val keccak _ _ _ _ Hd1 El).
  - apply IH; [inversion Fk; assumption| |]; intros; [eapply St|apply Fine]; try right; eassumption.
Qed.

Lemma the_nth {A} (l : list A) i x : nth_error l i = Some x -> the l i = Ok x.
Proof. unfold the. intros ->. reflexivity. Qed.
Lemma hash_all ts h : Forall (fun s => hash_trie keccak pr s = Ok h) ts -> forall is, (forall i, In i is -> (i < length ts)%nat) ->
  vrun keccak pr ts (map HashOf is) = Ok (ts, map (fun _ => Digest h) is).
Proof.
  intros F is. induction is as [|i is IH]; intros L; [reflexivity|]. cbn [map vrun vstep].
  destruct (nth_error ts i) as [s|] eqn:E; [|apply nth_error_None in E; specialize (L i (or_introl eq_refl)); lia].
  rewrite (the_nth _ _ _ E). cbn [bind]. rewrite Forall_forall in F. rewrite (F s (nth_error_In _ _ E)). cbn [bind]. rewrite IH by (intros j I; apply L; right; exact I). reflexivity.
Qed.

Lemma massive_ok es kss os t l ts xs : from_iter pr (vals es) = Ok t -> create_trie_subsets keccak pr t kss = Ok (ROk l) ->
  Forall uncloned os -> vrun keccak pr (t :: l) os = Ok (ts, xs) -> exists hs, massive_subsets keccak pr es kss os = Ok (hs, xs) /\ map erase hs = ts.
Proof.
  intros E El F Ev. destruct (C29_uncloned_partial keccak pr (New (vals es) :: Subsets 0 kss :: os) ts (Done :: Done :: xs)) as (hs & Es & Er).
  - repeat constructor. exact F.
  - cbn [vrun vstep]. rewrite E. cbn [bind app the nth_error]. rewrite El. cbn [bind app]. rewrite Ev. reflexivity.
  - exists hs. split; [|exact Er]. unfold massive_subsets. rewrite Es. reflexivity.
Qed.

Lemma subset_keys_ok es kss : Forall valued es -> in_time es -> Forall (fun ks => incl ks (map fst es)) kss -> ends (subset_keys keccak pr es kss) tt.
Proof.
  intros F T K. assert (Fo : Forall ok_entry es) by (eapply Forall_impl; [|exact F]; intros e [A _]; exact A).
  destruct (run_in_time pr es Fo T) as (t & E & V & H).
  assert (Ft : fits t). { apply (extend_fits pr (vals es) Empty t); [exact Logic.I| |exact E]. unfold vals. rewrite Forall_map. eapply Forall_impl; [|exact F]. intros e [_ B]. exact B. }
  assert (Kd : forall ks k, In ks kss -> In k ks -> exists v, In (k, v) es).
  { intros ks k I Ik. rewrite Forall_forall in K. apply (K ks I) in Ik. apply in_map_iff in Ik. destruct Ik as ([k' v] & <- & Ie). exists v. exact Ie. }
  assert (Kw : Forall (Forall kwf) kss).
  { apply Forall_forall. intros ks I. apply Forall_forall. intros k Ik. destruct (Kd ks k I Ik) as (v & Ie). rewrite Forall_forall in Fo. apply (Fo _ Ie). }
  destruct (subsets_ok t kss V Ft Kw) as (l & El & F2).
  { intros ks k I Ik. apply (OrderExact.holds_stored t es H). destruct (Kd ks k I Ik) as (v & Ie). unfold keys. apply in_map_iff. exists (k, v). auto. }
  destruct (massive_ok es kss [] t l (t :: l) [] E El ltac:(constructor) eq_refl) as (hs & Em & Er).
  unfold subset_keys. apply bind_pure. exists (hs, []). split; [exact Em|]. cbn [fst]. destruct hs as [|h hs]; [discriminate|]. cbn [map tl] in *. injection Er as _ Er.
  clear El Em E Ft K T. revert hs Er. induction F2 as [|ks s kss l (Ws & Cs & _ & G) F2 IH]; intros hs Er; [destruct hs; [|discriminate]; apply ends_pure; reflexivity|].
  destruct hs as [|h1 hs]; [discriminate|]. cbn [map] in Er. injection Er as E1 Er. cbn [combine keys_included]. rewrite E1.
  destruct (collect_ends pr s (reach_start pr s Ws Cs)) as (its & Ei & _ & Hi). apply (ends_bind _ _ _ _ Ei). cbv zeta. apply bind_pure. exists tt. split.
  - apply assert_ok, (all_contained _ _ _ nib_eqb_iff). intros k Ik.
    destruct (Kd ks k (or_introl eq_refl) Ik) as (v & Ie). assert (Hk : kwf k) by (rewrite Forall_forall in Fo; apply (Fo _ Ie)).
    destruct (stored_in t (nseq k) V) as (w & Ew); [apply (OrderExact.holds_stored t es H); unfold keys; apply in_map_iff; exists (k, v); auto|].
    apply in_map_iff. exists (k, Val w). split; [reflexivity|]. apply filter_In. split; [|reflexivity]. apply Hi. rewrite (G k Ik). auto.
  - apply IH; [intros ks' k I; apply Kd; right; exact I|inversion Kw; assumption|exact Er].
Qed.

Lemma subset_hashes_ok es kss : Forall valued es -> in_time es -> Forall (fun ks => incl ks (map fst es)) kss -> subset_hashes keccak pr es kss = Ok tt.
Proof.
  intros F T K. assert (Fo : Forall ok_entry es) by (eapply Forall_impl; [|exact F]; intros e [A _]; exact A).
  destruct (run_in_time pr es Fo T) as (t & E & V & H).
  assert (Ft : fits t). { apply (extend_fits pr (vals es) Empty t); [exact Logic.I| |exact E]. unfold vals. rewrite Forall_map. eapply Forall_impl; [|exact F]. intros e [_ B]. exact B. }
  assert (Kd : forall ks k, In ks kss -> In k ks -> exists v, In (k, v) es).
  { intros ks k I Ik. rewrite Forall_forall in K. apply (K ks I) in Ik. apply in_map_iff in Ik. destruct Ik as ([k' v] & <- & Ie). exists v. exact Ie. }
  assert (Kw : Forall (Forall kwf) kss).
  { apply Forall_forall. intros ks I. apply Forall_forall. intros k Ik. destruct (Kd ks k I Ik) as (v & Ie). rewrite Forall_forall in Fo. apply (Fo _ Ie). }
  destruct (subsets_ok t kss V Ft Kw) as (l & El & F2).
  { intros ks k I Ik. apply (OrderExact.holds_stored t es H). destruct (Kd ks k I Ik) as (v & Ie). unfold keys. apply in_map_iff. exists (k, v). auto. }
  destruct V as (W & _). pose proof (hash_trie_ok keccak H32 pr t W Ft) as Eh. set (h := root keccak t) in *.
  assert (Fh : Forall (fun s => hash_trie keccak pr s = Ok h) (t :: l)).
  { constructor; [exact Eh|]. clear - F2 Eh. induction F2 as [|ks s kss l (_ & _ & A & _) F2 IH]; constructor; [congruence|exact IH]. }
  assert (Ll : length l = length kss) by (symmetry; eapply Forall2_length; exact F2).
  destruct (massive_ok es kss (map HashOf (seq 0 (S (length kss)))) t l (t :: l) (map (fun _ => Digest h) (seq 0 (S (length kss)))) E El) as (hs & Em & _).
  { apply Forall_map, Forall_forall. intros i _. exact Logic.I. }
  { apply hash_all; [exact Fh|]. intros i I. apply in_seq in I. cbn [length]. lia. }
  unfold subset_hashes. rewrite Em. cbn [bind]. cbn [seq map digests flat_map app].
  apply assert_ok, forallb_forall. intros x I. apply key_eqb_iff. clear - I. induction (seq 1 (length kss)) as [|i is IH]; [destruct I|]. cbn [map flat_map app] in I. destruct I as [I|I]; [exact I|apply IH, I].
Qed.
End Subsets.
