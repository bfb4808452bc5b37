(** Property C81: replaying operations on excerpts of tries with keys of different lengths, none of which is the beginning of another. *)
From Verif Require Import Base Nibbles NibblesSpec NibblesFacts NibblesFacts2 NibblesFacts3 Trie TrieSpec TrieHistSpec TrieFacts TrieInsert TrieGet TrieDelete TrieUnique TrieIter TrieHist TrieObs InsertWf Rlp YellowPaper Hashing Keccak HashSpec HideSpec HashFacts KeccakFacts HideFacts HideDelete HideBind Subset SubsetSpec SubsetFacts SubsetFacts2 ReplaySpec ReplayFacts NeighbourSpec NeighbourFacts ReleaseSpec SubsetFacts3 ComposeFacts SmallFacts LeastSpec LeastFacts P_Trie P_Hash P_Subset P_Short P_Compose P_Small P_Replay P_Neighbour P_Least RefreshSpec P_Refresh ListSpec ListFacts FreeSpec FreeFacts.
Open Scope N_scope.

(** Tries with keys of one length are such tries. *)
Theorem C81_fixed : forall n t, fixed_trie n t -> free_trie (fun k => length k = n) t /\ prefix_free (fun k => length k = n).
Proof.
  intros n t (W & C & A & B). split.
  - split; [exact W|]. split; [exact C|]. split; [exact A|]. intros p h E. specialize (B p h E). exists (p ++ repeat 0 (n - length p)). split; [rewrite app_length, repeat_length; lia|exists (repeat 0 (n - length p)); reflexivity].
  - intros a b Ha Hb P. apply strict_length in P. lia.
Qed.
Print Assumptions C81_fixed.

Lemma not_short_prefix keccak t ks s k : wf 64 t -> Forall kwf ks -> In k ks -> ~ too_short t (nseq k) -> s = prune keccak (map (fun k => filled t (nseq k)) ks) t ->
  forall p h, lk s p = Some (HashV h) -> is_prefix p (nseq k) -> lk t p = Some (HashV h).
Proof.
  intros W Kw I NS -> p h E P. rewrite Forall_forall in Kw. destruct (kwf_ex k (Kw k I)) as (l & _ & Es & Hl & _).
  apply (prune_hop keccak t 64 (map (fun k => filled t (nseq k)) ks) (nseq k) p h W); auto; [|rewrite Es; exact Hl].
  apply in_map_iff. exists k. split; [|exact I]. apply (C24_filled t k W (Kw k I)), NS.
Qed.

Lemma subset_reach keccak pr t ks s : hash32 keccak -> wf 64 t -> fits t -> Forall kwf ks -> (pr = Debug \/ forall k, In k ks -> ~ too_short t (nseq k)) ->
  create_trie_subset keccak pr t ks = Ok (ROk s) -> forall k, In k ks -> ~ too_short t (nseq k).
Proof. intros H32 W Ft Kw [->|D] E k I; [|auto]. destruct (subset_any_inv keccak Debug t ks s H32 W Ft Kw E) as [G _]. apply (G k I). reflexivity. Qed.

Lemma subset_flike keccak pr U t ks s : hash32 keccak -> free_trie U t -> fits t -> Forall kwf ks ->
  (pr = Debug \/ forall k, In k ks -> ~ too_short t (nseq k)) ->
  create_trie_subset keccak pr t ks = Ok (ROk s) -> flike U ks t s.
Proof.
  intros H32 Fx Ft Kw D E. pose proof Fx as (W & C & _). pose proof (subset_reach keccak pr t ks s H32 W Ft Kw D E) as NS.
  apply (flike_hides U ks keccak t s Fx (subset_hides keccak pr t ks s H32 W Ft E)).
  destruct (subset_any_inv keccak pr t ks s H32 W Ft Kw E) as [_ Es]. intros k I (p & h & Ep & P). exists p, h. split; [|exact P].
  exact (not_short_prefix keccak t ks s k W Kw I (NS k I) Es p h Ep P).
Qed.

Lemma subsets_flike keccak pr U t kss l : hash32 keccak -> free_trie U t -> fits t -> Forall (Forall kwf) kss ->
  (pr = Debug \/ forall ks k, In ks kss -> In k ks -> ~ too_short t (nseq k)) ->
  create_trie_subsets keccak pr t kss = Ok (ROk l) -> Forall2 (fun ks s => flike U ks t s /\ hides keccak t s) kss l.
Proof.
  intros H32 Fx Ft Kw D E. pose proof Fx as (W & C & _).
  pose proof (subsets_tracked keccak pr t kss _ l H32 W Ft (track_tracks t) E) as A. clear E.
  induction A as [|ks s kss l (H & _ & s1 & E1 & H1) A IH]; constructor.
  - inversion Kw; subst. split; [|exact H]. apply (flike_hides U ks keccak t s Fx H). intros k I HP.
    assert (D' : pr = Debug \/ forall k, In k ks -> ~ too_short t (nseq k)) by (destruct D as [D|D]; [left; exact D|right; intros k' I'; exact (D ks k' (or_introl eq_refl) I')]).
    destruct (subset_flike keccak pr U t ks s1 H32 Fx Ft ltac:(assumption) D' E1) as (_ & _ & L).
    apply (L k I). exact (hides_hop keccak s s1 _ H1 HP).
  - inversion Kw; subst. apply IH; [assumption|]. destruct D as [D|D]; [left; exact D|right; intros ks' k I J; exact (D ks' k (or_intror I) J)].
Qed.

(** Any history on the requested keys succeeds on the subset exactly when it succeeds on the full trie, and returns the same; gets only of the longest keys. *)
Theorem C81_outputs : forall keccak pr U t ks s ops xs,
  hash32 keccak -> prefix_free U -> free_trie U t -> fits t -> Forall kwf ks -> (forall k, In k ks -> U (nseq k)) ->
  (pr = Debug \/ forall k, In k ks -> ~ too_short t (nseq k)) ->
  create_trie_subset keccak pr t ks = Ok (ROk s) -> Forall (op_on ks) ops -> Forall (get_long_key U) ops ->
  ((exists t1, trie_ops pr t ops = Ok (t1, xs)) <-> (exists s1, trie_ops pr s ops = Ok (s1, xs))).
Proof.
  intros keccak pr U t ks s ops xs H32 PF Fx Ft Kw Ku D E F G. pose proof (subset_flike keccak pr U t ks s H32 Fx Ft Kw D E) as L. split; intros [x Ex].
  - destruct (flike_ops U PF ks Kw Ku pr ops t s x xs L F G Ex) as (y & Ey & _). eauto.
  - destruct (flike_ops U PF ks Kw Ku pr ops s t x xs (flike_sym U ks t s L) F G Ex) as (y & Ey & _). eauto.
Qed.
Print Assumptions C81_outputs.

(** ** With neighbours *)
Section Step.
Variable keccak : list N -> list N.
Hypothesis K32 : hash32 keccak.
Variable U : list N -> Prop.
Hypothesis PF : prefix_free U.
Variable ks : list nibbles.
Hypothesis Kw : Forall kwf ks.
Hypothesis Ku : forall k, In k ks -> U (nseq k).
Variable pr : profile.

Definition follows (t s : node) : Prop := flike U ks t s /\ fits t /\ hides keccak t s.

Lemma free_held_visible t s k : flike U ks t s -> hides keccak t s -> In k ks -> held_neighbour t ks (nseq k) -> merge_visible t s (nseq k).
Proof.
  intros ((W & C & _) & (Ws & _) & A) H I Hn. destruct (lk t (nseq k)) as [[v|h]|] eqn:E.
  - destruct Hn as [N|[V|(k' & v' & I' & E' & (_ & NE & Max))]]; [destruct (N v E)|exact (only_visible t 64 s _ v W C E V)|].
    apply (free_neighbour_visible keccak t 64 s (nseq k) (nseq k') v v'); auto.
    + intros P. apply prefix_strict in P as [Q|P]; [exact (NE Q)|]. exact (PF _ _ (Ku k' I') (Ku k I) P).
    + intros HP. apply (A k' I') in HP. exact (hop_no_val t 64 _ v' W HP E').
  - apply (absent_visible keccak t 64); auto; [congruence|apply canon_shape, C|apply nseq_hexl].
  - apply (absent_visible keccak t 64); auto; [congruence|apply canon_shape, C|apply nseq_hexl].
Qed.

Lemma follows_op t s o t1 x s1 y : follows t s -> op_on ks o -> match o with ODelete k => held_neighbour t ks (nseq k) | _ => True end -> get_reaches t o ->
  trie_op pr t o = Ok (t1, x) -> trie_op pr s o = Ok (s1, y) -> x = y /\ follows t1 s1.
Proof.
  intros (L & Ft & H) Fo N0 G E1 E2.
  assert (G' : get_reaches s o) by (destruct o; try exact I; intros Q; apply G; eapply too_short_hides; eauto).
  destruct (flike_op U PF ks Kw Ku pr t s o t1 x L Fo G G' E1) as (s2' & E2' & L2). assert (s2' = s1) by congruence. subst s2'. split; [congruence|]. split; [exact L2|]. split.
  { apply (ops_fits pr [o] t t1 [x] Ft); [constructor; [exact (op_value_ok ks o Fo)|constructor]|]. cbn [trie_ops]. rewrite E1. reflexivity. }
  pose proof L as ((W & C & _) & (W' & _) & _). rewrite Forall_forall in Kw.
  destruct o as [k v|l|k|k]; cbn [trie_op op_on] in *.
  + destruct (trie_insert pr t k (Val v)) as [t0|] eqn:Et; [|discriminate]. destruct (trie_insert pr s k (Val v)) as [s0|] eqn:Es; [|discriminate]. cbn [bind] in *.
    assert (t0 = t1) by congruence. assert (s0 = s1) by congruence. subst.
    destruct (kwf_ex k (Kw k (proj1 Fo))) as (q & Eq & _ & Hq & Lq). rewrite Eq in Et, Es.
    destruct (hides_insert keccak pr t 64 s q (Val v) s1 H W (le_n _) Hq Lq Es) as (r & Er & Hr).
    change (trie_insert pr t (enc q) (Val v) = Ok r) in Er. congruence.
  + destruct (trie_extend pr t _) as [t0|] eqn:Et; [|discriminate]. destruct (trie_extend pr s _) as [s0|] eqn:Es; [|discriminate]. cbn [bind] in *.
    assert (t0 = t1) by congruence. assert (s0 = s1) by congruence. subst.
    assert (Fk : Forall (fun e : nibbles * val_or_hash => kwf (fst e)) (map (fun e => (fst e, Val (snd e))) l)).
    { rewrite Forall_map. eapply Forall_impl; [|exact Fo]. intros e [I _]. exact (Kw _ I). }
    destruct (hides_extend keccak pr _ t s s1 H W Fk Es) as (r & Er & Hr). congruence.
  + destruct (trie_delete pr t k) as [[t0 w]|] eqn:Et; [|discriminate]. destruct (trie_delete pr s k) as [[s0 u]|] eqn:Es; [|discriminate]. cbn [bind] in *.
    assert (t0 = t1) by congruence. assert (s0 = s1) by congruence. subst.
    destruct (C28_delete_partial keccak pr t s k s1 u K32 W (canon_shape _ C) Ft H (Kw k Fo) (free_held_visible t s k L H Fo N0) Es) as (r & Er & Hr & _). congruence.
  + destruct (trie_get pr t k); [|discriminate]. destruct (trie_get pr s k); [|discriminate]. cbn [bind] in *. congruence.
Qed.

Lemma follows_some t s o : follows t s -> op_on ks o -> get_reaches t o ->
  (forall t1 x, trie_op pr t o = Ok (t1, x) -> exists s1, trie_op pr s o = Ok (s1, x)) /\ (forall s1 x, trie_op pr s o = Ok (s1, x) -> exists t1, trie_op pr t o = Ok (t1, x)).
Proof.
  intros (L & Ft & H) Fo G.
  assert (G' : get_reaches s o) by (destruct o; try exact I; intros Q; apply G; eapply too_short_hides; eauto).
  split; intros r x E.
  - destruct (flike_op U PF ks Kw Ku pr t s o r x L Fo G G' E) as (q & Q & _). eauto.
  - destruct (flike_op U PF ks Kw Ku pr s t o r x (flike_sym U ks t s L) Fo G' G E) as (q & Q & _). eauto.
Qed.

Lemma follows_ops ops : forall t s, follows t s -> Forall (op_on ks) ops -> neighbours_held pr t ks ops -> gets_reach pr t ops ->
  match trie_ops pr t ops with
  | Panic => trie_ops pr s ops = Panic
  | Ok (t1, xs) => exists s1, trie_ops pr s ops = Ok (s1, xs) /\ follows t1 s1
  end.
Proof.
  induction ops as [|o ops IH]; intros t s L F NB G; cbn [trie_ops].
  - eauto.
  - inversion F as [|? ? Fo Fl]; subst. destruct NB as [N0 NB]. destruct G as [G0 G]. fold (get_reaches t o) in G0.
    destruct (follows_some t s o L Fo G0) as [A B].
    destruct (trie_op pr t o) as [[t1 x]|] eqn:E1; cbn [bind].
    + destruct (A t1 x eq_refl) as [s1 E2]. rewrite E2. cbn [bind].
      destruct (follows_op t s o t1 x s1 x L Fo N0 G0 E1 E2) as [_ L1]. specialize (IH t1 s1 L1 Fl (NB t1 x eq_refl) (G t1 x eq_refl)).
      destruct (trie_ops pr t1 ops) as [[t2 ys]|]; cbn [bind].
      * destruct IH as (s2 & -> & L2). cbn [bind]. eauto.
      * rewrite IH. reflexivity.
    + destruct (trie_op pr s o) as [[s1 x]|] eqn:E2; [|reflexivity]. exfalso. destruct (B s1 x eq_refl) as [t1 Q]. discriminate.
Qed.
End Step.

(** If every deleted key has a neighbour with a value among the requested keys (C65), the history panics on the subset exactly when it does on the full trie,
    and otherwise returns the same and ends with the same root hash. *)
Theorem C81_replay : forall keccak pr U t ks s ops,
  hash32 keccak -> prefix_free U -> free_trie U t -> fits t -> Forall kwf ks -> (forall k, In k ks -> U (nseq k)) ->
  (pr = Debug \/ forall k, In k ks -> ~ too_short t (nseq k)) ->
  create_trie_subset keccak pr t ks = Ok (ROk s) -> Forall (op_on ks) ops -> neighbours_held pr t ks ops -> gets_reach pr t ops ->
  match trie_ops pr t ops with
  | Panic => trie_ops pr s ops = Panic
  | Ok (t1, xs) => exists s1, trie_ops pr s ops = Ok (s1, xs) /\ hash_trie keccak pr s1 = hash_trie keccak pr t1
  end.
Proof.
  intros keccak pr U t ks s ops H32 PF Fx Ft Kw Ku D E F NB G. pose proof (subset_flike keccak pr U t ks s H32 Fx Ft Kw D E) as L.
  pose proof (subset_hides keccak pr t ks s H32 (proj1 Fx) Ft E) as H.
  pose proof (follows_ops keccak H32 U PF ks Kw Ku pr ops t s (conj L (conj Ft H)) F NB G) as Q.
  destruct (trie_ops pr t ops) as [[t1 xs]|]; [|exact Q]. destruct Q as (s1 & Es & ((F1 & _) & Ft1 & H1)). exists s1. split; [exact Es|].
  apply C20_hiding_keeps_root; auto. apply F1.
Qed.
Print Assumptions C81_replay.

(** The same for each subset of a batch. *)
Theorem C81_batch : forall keccak pr U t kss l,
  hash32 keccak -> prefix_free U -> free_trie U t -> fits t -> Forall (Forall kwf) kss -> (forall ks k, In ks kss -> In k ks -> U (nseq k)) ->
  (pr = Debug \/ forall ks k, In ks kss -> In k ks -> ~ too_short t (nseq k)) ->
  create_trie_subsets keccak pr t kss = Ok (ROk l) ->
  Forall2 (fun ks s => forall ops, Forall (op_on ks) ops -> neighbours_held pr t ks ops -> gets_reach pr t ops ->
    match trie_ops pr t ops with
    | Panic => trie_ops pr s ops = Panic
    | Ok (t1, xs) => exists s1, trie_ops pr s ops = Ok (s1, xs) /\ hash_trie keccak pr s1 = hash_trie keccak pr t1
    end) kss l.
Proof.
  intros keccak pr U t kss l H32 PF Fx Ft Kw Ku D E. pose proof (subsets_flike keccak pr U t kss l H32 Fx Ft Kw D E) as A. clear E D.
  induction A as [|ks s kss l (L & H) A IH]; constructor.
  - intros ops F NB G. inversion Kw; subst.
    pose proof (follows_ops keccak H32 U PF ks ltac:(assumption) (fun k => Ku ks k (or_introl eq_refl)) pr ops t s (conj L (conj Ft H)) F NB G) as Q.
    destruct (trie_ops pr t ops) as [[t1 xs]|]; [|exact Q]. destruct Q as (s1 & Es & ((F1 & _) & Ft1 & H1)). exists s1. split; [exact Es|].
    apply C20_hiding_keeps_root; auto. apply F1.
  - inversion Kw; subst. apply IH; [assumption|]. intros ks' k I J. exact (Ku ks' k (or_intror I) J).
Qed.
Print Assumptions C81_batch.

(** ** Keeping the excerpt up to date *)
Section Same.
Variable U : list N -> Prop.
Hypothesis PF : prefix_free U.
Variable ks : list nibbles.
Hypothesis Kw : Forall kwf ks.
Hypothesis Ku : forall k, In k ks -> U (nseq k).

Lemma free_insert_same pr t k v t1 : free_trie U t -> In k ks -> v <> [] -> trie_insert pr t k (Val v) = Ok t1 -> free_trie U t1 /\ same_hashes t t1.
Proof.
  intros Fx I Hv E. assert (Hk : kwf k) by (rewrite Forall_forall in Kw; auto).
  destruct (free_insert U PF pr t k v Fx Hk (Ku k I) Hv) as [[_ Q]|(N & t' & Q & Up & F1)]; [congruence|]. assert (t' = t1) by congruence. subst t'.
  split; [exact F1|]. eapply updated_same; eauto. discriminate.
Qed.

Lemma free_op_same pr t o t1 x : free_trie U t -> op_on ks o -> trie_op pr t o = Ok (t1, x) -> free_trie U t1 /\ same_hashes t t1.
Proof.
  intros Fx O E. destruct o as [k v|l|k|k]; cbn [op_on trie_op] in *.
  - destruct O as (I & Hv & _). destruct (trie_insert pr t k (Val v)) as [t2|] eqn:E1; [|discriminate]. cbn [bind] in E. injection E as <- _. eapply free_insert_same; eauto.
  - destruct (trie_extend pr t _) as [t2|] eqn:E1; [|discriminate]. cbn [bind] in E. injection E as <- _. clear x.
    revert t Fx E1. induction O as [|[k v] l (I & Hv & _) O IH]; intros t Fx E1; cbn [map trie_extend fst snd] in *.
    + injection E1 as <-. split; [exact Fx|intros p h; reflexivity].
    + destruct (trie_insert pr t k (Val v)) as [t3|] eqn:E2; [|discriminate]. cbn [bind] in E1.
      destruct (free_insert_same pr t k v t3 Fx I Hv E2) as [F3 S3]. destruct (IH t3 F3 E1) as [F2 S2]. split; [exact F2|]. eapply same_trans; eauto.
  - assert (Hk : kwf k) by (rewrite Forall_forall in Kw; auto). destruct (free_delete U PF pr t k Fx Hk (Ku k O)) as [[_ Q]|(N & t' & Q & Up & F1)]; rewrite Q in E; [discriminate|].
    cbn [bind] in E. injection E as <- _. split; [exact F1|]. eapply updated_same; eauto. discriminate.
  - destruct (trie_get pr t k); [|discriminate]. cbn [bind] in E. injection E as <- _. split; [exact Fx|intros p h; reflexivity].
Qed.

Lemma free_ops_same pr ops : forall t t1 xs, free_trie U t -> Forall (op_on ks) ops -> trie_ops pr t ops = Ok (t1, xs) -> free_trie U t1 /\ same_hashes t t1.
Proof.
  induction ops as [|o ops IH]; intros t t1 xs Fx F E; cbn [trie_ops] in E.
  - injection E as <- _. split; [exact Fx|intros p h; reflexivity].
  - inversion F as [|? ? Fo Fl]; subst. destruct (trie_op pr t o) as [[t2 x]|] eqn:E1; [|discriminate]. cbn [bind] in E.
    destruct (trie_ops pr t2 ops) as [[t3 ys]|] eqn:E2; [|discriminate]. cbn [bind] in E. injection E as <- _.
    destruct (free_op_same pr t o t2 x Fx Fo E1) as [F2 S2]. destruct (IH t2 t3 ys F2 Fl E2) as [F3 S3]. split; [exact F3|]. eapply same_trans; eauto.
Qed.
End Same.

(** After the same operations, the subset of the excerpt is the subset of the complete trie, for the same keys or some of them that do not end inside an
    extension node. *)
Theorem C81_refresh : forall keccak pr U t ks s ops s1 xs,
  hash32 keccak -> prefix_free U -> free_trie U t -> fits t -> Forall kwf ks -> (forall k, In k ks -> U (nseq k)) ->
  (pr = Debug \/ forall k, In k ks -> ~ too_short t (nseq k)) ->
  create_trie_subset keccak pr t ks = Ok (ROk s) -> Forall (op_on ks) ops -> neighbours_held pr t ks ops -> gets_reach pr t ops ->
  trie_ops pr s ops = Ok (s1, xs) ->
  exists t1, trie_ops pr t ops = Ok (t1, xs) /\
    forall ks', incl ks' ks -> (forall k, In k ks' -> ~ too_short t1 (nseq k)) ->
      exists r, create_trie_subset keccak pr t1 ks' = Ok (ROk r) /\ create_trie_subset keccak pr s1 ks' = Ok (ROk r).
Proof.
  intros keccak pr U t ks s ops s1 xs H32 PF Fx Ft Kw Ku D E F NB G E1. pose proof (subset_flike keccak pr U t ks s H32 Fx Ft Kw D E) as L.
  pose proof (subset_hides keccak pr t ks s H32 (proj1 Fx) Ft E) as H.
  pose proof (follows_ops keccak H32 U PF ks Kw Ku pr ops t s (conj L (conj Ft H)) F NB G) as Q.
  destruct (trie_ops pr t ops) as [[t1 xs']|] eqn:Et; [|congruence]. destruct Q as (s1' & Es1 & (L1 & Ft1 & H1)). assert (s1' = s1) by congruence. assert (xs' = xs) by congruence. subst s1' xs'.
  exists t1. split; [reflexivity|]. intros ks' I NS.
  destruct (free_ops_same U PF ks Kw Ku pr ops t t1 xs Fx F Et) as [Fx1 S1].
  destruct (free_ops_same U PF ks Kw Ku pr ops s s1 xs (proj1 (proj2 L)) F E1) as [_ S2].
  assert (Kw' : Forall kwf ks') by (rewrite Forall_forall in *; intros k Ik; apply Kw, I, Ik).
  destruct (subset_any_inv keccak pr t ks s H32 (proj1 Fx) Ft Kw E) as [Gk Es].
  exists (prune keccak (map (fun k => filled t1 (nseq k)) ks') t1).
  assert (Et1 : create_trie_subset keccak pr t1 ks' = Ok (ROk (prune keccak (map (fun k => filled t1 (nseq k)) ks') t1))).
  { apply subset_any; auto; [exact (proj1 Fx1)|]. intros k Ik. split; [|intros _; apply NS; auto].
    intros (p & h & Lp & P). apply (proj1 (Gk k (I k Ik))). exists p, h. split; [apply S1, Lp|exact P]. }
  split; [exact Et1|].
  refine (proj1 (C78_least keccak pr t1 s1 ks' _ H32 (proj1 Fx1) (canon_shape _ (proj1 (proj2 Fx1))) Ft1 Kw' H1 _ _ Et1)); [right; exact NS|].
  intros k p h Ik Lp P. apply S1. apply S2 in Lp.
  exact (not_short_prefix keccak t ks s k (proj1 Fx) Kw (I k Ik) (subset_reach keccak pr t ks s H32 (proj1 Fx) Ft Kw D E k (I k Ik)) Es p h Lp P).
Qed.
Print Assumptions C81_refresh.

Lemma last_keys_cons ks ops ks' (rs : list round) : last_keys ks (@cons round (ops, ks') rs) = last_keys ks' rs.
Proof. unfold last_keys. cbn [map snd]. revert ks ks'. induction rs as [|[o q] rs IH]; intros ks ks'; [reflexivity|]. cbn [map snd last] in *. destruct rs; [reflexivity|]. apply (IH ks ks'). Qed.

(** In rounds, as C80_rounds. *)
Theorem C81_rounds : forall keccak pr U rs t ks s,
  hash32 keccak -> prefix_free U -> free_trie U t -> fits t -> Forall kwf ks -> (forall k, In k ks -> U (nseq k)) ->
  (forall k, In k ks -> ~ too_short t (nseq k)) ->
  create_trie_subset keccak pr t ks = Ok (ROk s) -> free_rounds pr t ks rs ->
  match holder keccak pr t rs with
  | Panic => follower keccak pr s rs = Panic
  | Ok (t', l) => exists s', follower keccak pr s rs = Ok (s', l) /\ create_trie_subset keccak pr t' (last_keys ks rs) = Ok (ROk s')
  end.
Proof.
  intros keccak pr U rs. induction rs as [|[ops ks'] rs IH]; intros t ks s H32 PF Fx Ft Kw Ku NS E R; cbn [holder follower].
  - exists s. split; [reflexivity|exact E].
  - destruct R as (F & NB & G & I & R). pose proof (C81_replay keccak pr U t ks s ops H32 PF Fx Ft Kw Ku (or_intror NS) E F NB G) as O.
    destruct (trie_ops pr t ops) as [[t1 xs]|] eqn:Et.
    + destruct O as (s1 & Es & Rh). rewrite Es. cbn [bind].
      destruct (C81_refresh keccak pr U t ks s ops s1 xs H32 PF Fx Ft Kw Ku (or_intror NS) E F NB G Es) as (t1' & Et' & Q). assert (t1' = t1) by congruence. subst t1'.
      destruct (free_ops_same U PF ks Kw Ku pr ops t t1 xs Fx F Et) as [Fx1 _].
      assert (Ft1 : fits t1) by (apply (ops_fits pr ops t t1 xs Ft); [eapply Forall_impl; [|exact F]; intros o; apply op_value_ok|exact Et]).
      destruct (R t1 xs eq_refl) as [NS1 R1].
      rewrite Rh, (hash_trie_ok keccak H32 pr t1 (proj1 Fx1) Ft1). cbn [bind]. destruct (Q ks' I NS1) as (r & Er & Es1). rewrite Es1. cbn [bind].
      assert (Kw' : Forall kwf ks') by (rewrite Forall_forall in *; intros k Ik; apply Kw, I, Ik).
      specialize (IH t1 ks' r H32 PF Fx1 Ft1 Kw' (fun k Ik => Ku k (I k Ik)) NS1 Er R1).
      rewrite last_keys_cons. destruct (holder keccak pr t1 rs) as [[t' l]|]; cbn [bind].
      * destruct IH as (s' & -> & Ec). cbn [bind]. exists s'. auto.
      * rewrite IH. reflexivity.
    + cbn [bind]. rewrite O. reflexivity.
Qed.
Print Assumptions C81_rounds.

(** ** From the beginning *)
Lemma inv_free U t m : inv U t m -> free_trie U t.
Proof.
  intros (W & C & Ho & HU). split; [exact W|]. split; [exact C|]. split; intros k v Q; rewrite Ho in Q; destruct (m k) eqn:Em; try discriminate. apply HU. congruence.
Qed.
Lemma findable_reach U t m k : inv U t m -> findable m k -> ~ too_short t k.
Proof.
  intros (W & C & Ho & HU) [A|A] Q.
  - exact (stored_not_short t 64 k W (proj2 (holds_stored t m k Ho) A) Q).
  - destruct (fixed_not_short t 64 k (canon_shape _ C) W Q) as (j & Sj & Lj). apply (holds_stored t m j Ho) in Sj. specialize (A j Sj). lia.
Qed.
Lemma free_inv_op pr U t m o : prefix_free U -> inv U t m -> op_in U o -> match o with OGet k => findable m (nseq k) | _ => True end ->
  exists t', trie_op pr t o = Ok (t', snd (spec_op m o)) /\ inv U t' (fst (spec_op m o)).
Proof.
  intros PF Iv O G. destruct o as [k v|l|k|k]; try (apply (inv_op pr U t m); assumption).
  destruct O as [Hk Uk]. cbn [trie_op spec_op fst snd]. rewrite (free_get U PF pr t k (inv_free U t m Iv) Hk Uk (findable_reach U t m _ Iv G)). cbn [bind].
  exists t. split; [|exact Iv]. destruct Iv as (_ & _ & Ho & _). rewrite Ho. destruct (m (nseq k)); reflexivity.
Qed.
Lemma free_inv_ops pr U ops : forall t m, prefix_free U -> inv U t m -> Forall (op_in U) ops -> gets_findable m ops ->
  exists t', trie_ops pr t ops = Ok (t', snd (spec_ops m ops)) /\ inv U t' (fst (spec_ops m ops)).
Proof.
  induction ops as [|o ops IH]; intros t m PF Iv F G; cbn [trie_ops spec_ops].
  - eauto.
  - inversion F as [|? ? Fo Fl]; subst. destruct G as [G0 G]. destruct (free_inv_op pr U t m o PF Iv Fo G0) as (t1 & E1 & I1).
    destruct (spec_op m o) as [m1 x]. cbn [fst snd] in *. rewrite E1. cbn [bind].
    destruct (IH t1 m1 PF I1 Fl G) as (t2 & E2 & I2). rewrite E2. destruct (spec_ops m1 ops). cbn [bind fst snd] in *. eauto.
Qed.

(** Histories over keys of different lengths, none of which is the beginning of another, act like a plain map: also with gets of shorter keys, if these are
    stored or no stored key is longer at the time. *)
Theorem C81_map : forall pr U ops,
  prefix_free U -> Forall (op_in U) ops -> gets_findable kv_empty ops ->
  exists t, trie_ops pr Empty ops = Ok (t, snd (spec_ops kv_empty ops)) /\ holds t (fst (spec_ops kv_empty ops)) /\ canon t.
Proof.
  intros pr U ops PF F G. destruct (free_inv_ops pr U ops Empty kv_empty PF (inv_empty U) F G) as (t & E & (_ & C & Ho & _)). exists t. auto.
Qed.
Print Assumptions C81_map.

Lemma on_in (U : list N -> Prop) ks o : Forall kwf ks -> (forall k, In k ks -> U (nseq k)) -> op_on ks o -> op_in U o.
Proof.
  intros Kw Ku. rewrite Forall_forall in Kw. destruct o as [k v|l|k|k]; cbn [op_on op_in].
  - intros (I & A & _). auto.
  - apply Forall_impl. intros e (I & A & _). auto.
  - auto.
  - auto.
Qed.

Lemma findable_gets pr U ks ops : prefix_free U -> Forall kwf ks -> (forall k, In k ks -> U (nseq k)) -> forall t m, inv U t m ->
  Forall (op_on ks) ops -> gets_findable m ops -> gets_reach pr t ops.
Proof.
  intros PF Kw Ku. induction ops as [|o ops IH]; intros t m Iv F G; [exact Logic.I|]. inversion F as [|? ? Fo Fl]; subst. destruct G as [G0 G]. split.
  - destruct o as [| | |k]; try exact Logic.I. exact (findable_reach U t m _ Iv G0).
  - intros t1 x E. destruct (free_inv_op pr U t m o PF Iv (on_in U ks o Kw Ku Fo) G0) as (t1' & E1 & I1). rewrite E in E1. injection E1 as <- _. exact (IH t1 _ I1 Fl G).
Qed.

Lemma free_held pr U ks ops : prefix_free U -> Forall kwf ks -> (forall k, In k ks -> U (nseq k)) -> forall t m, inv U t m ->
  Forall (op_on ks) ops -> gets_findable m ops -> neighbours_requested m ks ops -> neighbours_held pr t ks ops.
Proof.
  intros PF Kw Ku. induction ops as [|o ops IH]; intros t m Iv F G NB; [exact Logic.I|]. inversion F as [|? ? Fo Fl]; subst. destruct NB as [N0 N1]. destruct G as [G0 G]. split.
  - destruct o as [| |k|]; try exact Logic.I. pose proof Iv as (W & C & Ho & HU). destruct N0 as [N0|[N0|(k' & I' & S' & NE & Max)]].
    + left. intros v E. apply N0. rewrite Ho in E. destruct (m (nseq k)); discriminate.
    + right. left. intros j Sj. apply N0. apply (holds_stored t m j Ho), Sj.
    + right. right. destruct (m (nseq k')) as [v|] eqn:Em; [|congruence]. exists k', v. split; [exact I'|]. split; [rewrite Ho, Em; reflexivity|].
      split; [apply (holds_stored t m _ Ho); congruence|]. split; [exact NE|]. intros j Sj. apply Max. apply (holds_stored t m j Ho), Sj.
  - intros t1 x E. destruct (free_inv_op pr U t m o PF Iv (on_in U ks o Kw Ku Fo) G0) as (t1' & E1 & I1). rewrite E in E1. injection E1 as <- _. exact (IH t1 _ I1 Fl G N1).
Qed.

Lemma free_requested_rounds keccak pr U rs : prefix_free U -> forall t m ks, hash32 keccak -> inv U t m -> fits t -> Forall kwf ks -> (forall k, In k ks -> U (nseq k)) ->
  free_requested m ks rs -> free_rounds pr t ks rs /\ exists t' l, holder keccak pr t rs = Ok (t', l) /\ Forall2 (shows keccak) l (map_rounds m rs).
Proof.
  intros PF. induction rs as [|[ops ks'] rs IH]; intros t m ks H32 Iv Ft Kw Ku R; cbn [free_rounds holder map_rounds].
  - split; [exact Logic.I|]. exists t, []. split; [reflexivity|constructor].
  - destruct R as (F & NB & G & I & Fi & R).
    destruct (free_inv_ops pr U ops t m PF Iv) as (t1 & Et & Iv1); [eapply Forall_impl; [|exact F]; intros o; apply (on_in U ks o Kw Ku)|exact G|].
    assert (Ft1 : fits t1) by (apply (ops_fits pr ops t t1 _ Ft) in Et; [exact Et|]; eapply Forall_impl; [|exact F]; intros o; apply op_value_ok).
    assert (Kw' : Forall kwf ks') by (rewrite Forall_forall in *; intros k Ik; apply Kw, I, Ik).
    destruct (IH t1 _ ks' H32 Iv1 Ft1 Kw' (fun k Ik => Ku k (I k Ik)) R) as (R1 & t' & l & Eh & Sl).
    split.
    + split; [exact F|]. split; [exact (free_held pr U ks ops PF Kw Ku t m Iv F G NB)|]. split; [exact (findable_gets pr U ks ops PF Kw Ku t m Iv F G)|]. split; [exact I|].
      intros t2 xs Q. rewrite Et in Q. injection Q as <- _. split; [|exact R1]. intros k Ik. exact (findable_reach U t1 _ _ Iv1 (Fi k Ik)).
    + pose proof Iv1 as (W1 & C1 & Ho1 & _). rewrite Et. cbn [bind]. rewrite (hash_trie_ok keccak H32 pr t1 W1 Ft1). cbn [bind]. rewrite Eh. cbn [bind].
      exists t'. eexists. split; [reflexivity|]. constructor; [|exact Sl]. split; [reflexivity|]. cbn [snd]. intros J HJ.
      assert (Q : hash_trie keccak pr t1 = Ok (yp_root keccak J)) by (apply C19_canonical; auto; eapply lists_holds; [exact HJ|exact Ho1]).
      rewrite (hash_trie_ok keccak H32 pr t1 W1 Ft1) in Q. congruence.
Qed.

(** Build a trie by any history over such keys, take the subset for some of them, go on in rounds on the subset alone: nothing panics, every output is that of
    one plain map and every root hash is the Yellow Paper root of that map. *)
Theorem C81_history : forall keccak pr U ops0 ks rs,
  hash32 keccak -> prefix_free U -> Forall (op_in U) ops0 -> Forall op_bytes ops0 -> gets_findable kv_empty ops0 ->
  Forall kwf ks -> (forall k, In k ks -> U (nseq k)) -> (forall k, In k ks -> findable (fst (spec_ops kv_empty ops0)) (nseq k)) ->
  free_requested (fst (spec_ops kv_empty ops0)) ks rs ->
  exists t s s' l, trie_ops pr Empty ops0 = Ok (t, snd (spec_ops kv_empty ops0)) /\ create_trie_subset keccak pr t ks = Ok (ROk s) /\
    follower keccak pr s rs = Ok (s', l) /\
    Forall2 (fun a b => fst a = fst b /\ forall J, lists_map J (snd b) -> snd a = yp_root keccak J) l (map_rounds (fst (spec_ops kv_empty ops0)) rs).
Proof.
  intros keccak pr U ops0 ks rs H32 PF F0 B0 G0 Kw Ku Fi R. set (m := fst (spec_ops kv_empty ops0)) in *.
  destruct (free_inv_ops pr U ops0 Empty kv_empty PF (inv_empty U) F0 G0) as (t & E & Iv). fold m in Iv.
  pose proof (inv_free U t m Iv) as Fx.
  assert (Ft : fits t) by (apply (ops_fits pr ops0 Empty t (snd (spec_ops kv_empty ops0))); [exact Logic.I|exact B0|exact E]).
  assert (NS : forall k, In k ks -> ~ too_short t (nseq k)) by (intros k Ik; exact (findable_reach U t m _ Iv (Fi k Ik))).
  assert (Es : exists s, create_trie_subset keccak pr t ks = Ok (ROk s)).
  { eexists. apply subset_any; auto; [exact (proj1 Fx)|]. intros k Ik. split; [|intros _; apply NS, Ik]. intros (p & h & Ep & P).
    destruct Iv as (_ & _ & Ho & _). rewrite Ho in Ep. destruct (m p); discriminate. }
  destruct Es as [s Es]. destruct (free_requested_rounds keccak pr U rs PF t m ks H32 Iv Ft Kw Ku R) as (R1 & t1 & l & Eh & Sl).
  pose proof (C81_rounds keccak pr U rs t ks s H32 PF Fx Ft Kw Ku NS Es R1) as Q. rewrite Eh in Q. destruct Q as (s' & Ef & _).
  exists t, s, s', l. auto.
Qed.
Print Assumptions C81_history.

(** The entries 0, 1, 128 and 129 of a list trie, with keys of two and four nibbles; a subset without entry 1. *)
Definition ex_list_ops : list op := [OInsert (K 2 0x01) (big 1); OInsert (K 2 0x80) (big 2); OInsert (K 4 0x8180) (big 3); OGet (K 2 0x01); OInsert (K 4 0x8181) (big 4)].
Definition ex_list_keys : list nibbles := [K 2 0x80; K 4 0x8180; K 4 0x8181].
Definition ex_list_rounds : list round :=
  [([ODelete (K 4 0x8181); OGet (K 2 0x80)], [K 2 0x80; K 4 0x8180]); ([OInsert (K 4 0x8180) (big 5); ODelete (K 2 0x80)], [K 4 0x8180]); ([OGet (K 4 0x8180)], [])].
Definition is_val (e : option val_or_hash) : bool := match e with Some (Val _) => true | _ => false end.
Lemma ex_list_in k i : nseq k = index_nibbles i -> index_ok i -> indices (nseq k).
Proof. intros E H. exists i. auto. Qed.
Example C81_example : prefix_free indices /\ Forall (op_in indices) ex_list_ops /\ Forall op_bytes ex_list_ops /\ gets_findable kv_empty ex_list_ops /\
  Forall kwf ex_list_keys /\ (forall k, In k ex_list_keys -> indices (nseq k)) /\ (forall k, In k ex_list_keys -> findable (fst (spec_ops kv_empty ex_list_ops)) (nseq k)) /\
  free_requested (fst (spec_ops kv_empty ex_list_ops)) ex_list_keys ex_list_rounds /\
  exists t s, trie_ops Debug Empty ex_list_ops = Ok (t, snd (spec_ops kv_empty ex_list_ops)) /\ create_trie_subset keccak256 Debug t ex_list_keys = Ok (ROk s) /\ s <> t.
Proof.
  assert (U0 : indices (nseq (K 2 0x80))) by (apply (ex_list_in _ 0%nat); vm_compute; reflexivity).
  assert (U1 : indices (nseq (K 2 0x01))) by (apply (ex_list_in _ 1%nat); vm_compute; reflexivity).
  assert (U2 : indices (nseq (K 4 0x8180))) by (apply (ex_list_in _ 128%nat); vm_compute; reflexivity).
  assert (U3 : indices (nseq (K 4 0x8181))) by (apply (ex_list_in _ 129%nat); vm_compute; reflexivity).
  assert (W0 : kwf (K 2 0x80)) by (split; vm_compute; (reflexivity || (intro; discriminate))).
  assert (W1 : kwf (K 2 0x01)) by (split; vm_compute; (reflexivity || (intro; discriminate))).
  assert (W2 : kwf (K 4 0x8180)) by (split; vm_compute; (reflexivity || (intro; discriminate))).
  assert (W3 : kwf (K 4 0x8181)) by (split; vm_compute; (reflexivity || (intro; discriminate))).
  assert (V : forall x, x < 256 -> value_ok (big x)) by (intros x Hx; split; [discriminate|]; split; [unfold big; cbn [repeat]; repeat (constructor; [exact Hx|]); constructor|reflexivity]).
  split; [exact indices_pf|]. split.
  { unfold ex_list_ops. repeat (apply Forall_cons; [cbn [op_in]; repeat split; first [assumption|apply W0|apply W1|apply W2|apply W3|discriminate]|]). apply Forall_nil. }
  split; [unfold ex_list_ops; repeat (apply Forall_cons; [cbn [op_bytes]; first [exact Logic.I|apply V; reflexivity]|]); apply Forall_nil|].
  split; [unfold ex_list_ops; cbn [gets_findable]; repeat split; left; vm_compute; discriminate|].
  split; [unfold ex_list_keys; repeat (apply Forall_cons; [assumption|]); apply Forall_nil|].
  split; [intros k [<-|[<-|[<-|[]]]]; assumption|].
  split; [intros k [<-|[<-|[<-|[]]]]; left; vm_compute; discriminate|]. split.
  - unfold ex_list_rounds, ex_list_keys, ex_list_ops. cbn [free_requested spec_ops spec_op fst].
    change (nseq (K 2 0x01)) with [0;1]. change (nseq (K 2 0x80)) with [8;0]. change (nseq (K 4 0x8180)) with [8;1;8;0]. change (nseq (K 4 0x8181)) with [8;1;8;1].
    repeat match goal with |- _ /\ _ => split end.
    all: try exact Logic.I.
    all: try (intros k Ik; cbn [In] in *; tauto).
    all: try (repeat (apply Forall_cons; [cbn [op_on In]; first [split; [auto|apply V; reflexivity]|auto]|]); apply Forall_nil).
    all: try (intros k Ik; cbn [In] in Ik; repeat (destruct Ik as [<-|Ik]); try destruct Ik; left; vm_compute; discriminate).
    all: try (cbn [gets_findable]; repeat split; left; vm_compute; discriminate).
    all: cbn [neighbours_requested spec_op fst]; repeat match goal with |- _ /\ _ => split end; try exact Logic.I.
    all: change (nseq (K 2 0x80)) with [8;0]; change (nseq (K 4 0x8180)) with [8;1;8;0]; change (nseq (K 4 0x8181)) with [8;1;8;1].
    all: right; right; exists (K 4 0x8180); change (nseq (K 4 0x8180)) with [8;1;8;0].
    all: split; [cbn [In]; auto|split; [vm_compute; discriminate|split; [discriminate|]]].
    all: intros j; rewrite !kv_set_some; intros Hj Nj; repeat (destruct Hj as [[-> ?]|[? Hj]]); try (apply Nat.leb_le; vm_compute; reflexivity); unfold kv_empty in *; congruence.
  - assert (B : match trie_ops Debug Empty ex_list_ops with Ok (t, _) => match create_trie_subset keccak256 Debug t ex_list_keys with Ok (ROk s) => is_val (lk s [0;1]) = false | _ => False end | _ => False end) by (vm_compute; reflexivity).
    destruct (free_inv_ops Debug indices ex_list_ops Empty kv_empty indices_pf (inv_empty _)) as (t & E & _).
    + unfold ex_list_ops. repeat (apply Forall_cons; [cbn [op_in]; repeat split; first [assumption|apply W0|apply W1|apply W2|apply W3|discriminate]|]). apply Forall_nil.
    + unfold ex_list_ops; cbn [gets_findable]; repeat split; left; vm_compute; discriminate.
    + rewrite E in B. destruct (create_trie_subset keccak256 Debug t ex_list_keys) as [[s|]|] eqn:Es; try contradiction. exists t, s. split; [exact E|]. split; [exact Es|].
      intros ->. assert (Q : is_val (lk t [0;1]) = true); [|congruence]. assert (B' : match trie_ops Debug Empty ex_list_ops with Ok (t, _) => is_val (lk t [0;1]) = true | _ => False end) by (vm_compute; reflexivity). rewrite E in B'. exact B'.
Qed.
