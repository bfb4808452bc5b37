(** Property C88: callers with keys of their own do not disturb each other. *)
From Verif Require Import Base Nibbles NibblesSpec NibblesFacts NibblesFacts2 NibblesFacts3 Trie TrieSpec TrieHistSpec TrieFacts TrieInsert TrieGet TrieDelete TrieUnique TrieIter TrieHist TrieObs OrderSpec Rlp YellowPaper Hashing Keccak HashSpec HashFacts KeccakFacts HideSpec HideFacts Cache CacheSpec CacheFacts2 P_Cache P_Trie P_Hash ItemsFacts Subset SubsetSpec ReplaySpec ReplayFacts P_Subset P_Refresh FreeSpec FreeFacts P_Free TrieHistSpec RollSpec P_Roll CommuteSpec.
Open Scope N_scope.

Section C.
Variable U : list N -> Prop.
Hypothesis PF : prefix_free U.
Variable ks : nat -> list nibbles.
Hypothesis Kw : forall i, Forall kwf (ks i).
Hypothesis Ku : forall i k, In k (ks i) -> U (nseq k).
Hypothesis Ap : apart ks.
Variable pr : profile.

Lemma on_in i o : op_on (ks i) o -> op_in U o.
Proof.
  assert (G : forall k, In k (ks i) -> kwf k) by (pose proof (Kw i) as F; rewrite Forall_forall in F; exact F).
  destruct o as [k v|l|k|k]; cbn [op_on op_in].
  - intros (I & Hv & _). split; [auto|]. split; [eauto|exact Hv].
  - intros F. eapply Forall_impl; [|exact F]. intros e (I & Hv & _). split; [auto|]. split; [eauto|exact Hv].
  - intros I. split; [auto|eauto].
  - intros I. split; [auto|eauto].
Qed.
Lemma on_touched i o k : op_on (ks i) o -> In k (touched o) -> In k (ks i).
Proof.
  destruct o as [k' v|l|k'|k']; cbn [op_on touched].
  - intros (I & _) [<-|[]]. exact I.
  - intros F I. apply in_map_iff in I. destruct I as (e & <- & I). rewrite Forall_forall in F. apply (F e I).
  - intros I [<-|[]]. exact I.
  - intros _ [].
Qed.
Lemma long_reaches o t : free_trie U t -> get_long_key U o -> get_reaches t o.
Proof. intros Fu Go. destruct o as [| | |k]; try exact I. intros Q. destruct (short_longer U t _ Fu Q) as (j & Uj & Lj). specialize (Go j Uj). lia. Qed.

(** An operation of another caller. *)
Lemma other i j t s o s' x : i <> j -> op_on (ks i) o -> flike U (ks j) t s -> trie_op pr s o = Ok (s', x) -> flike U (ks j) t s'.
Proof.
  intros N O (Ft & Fs & A) E. destruct (kept_op U PF pr s o s' x Fs (on_in i o O) E) as [F' (Sm & Lk & _)].
  split; [exact Ft|]. split; [exact F'|]. intros k I. destruct (A k I) as [A1 A2]. split; [rewrite A1; apply same_hop, Sm|].
  intros H. rewrite (A2 H). symmetry. apply Lk. intros Q. apply in_map_iff in Q. destruct Q as (k' & Q & I'). exact (Ap i j k' k N (on_touched i o k' O I') I Q).
Qed.

Lemma of_cons i j o c : of i ((j, o) :: c) = if Nat.eqb j i then o :: of i c else of i c.
Proof. unfold of. cbn [filter fst]. destruct (Nat.eqb j i); reflexivity. Qed.

Lemma sched_reach c : forall T t, (forall i, flike U (ks i) (T i) t) -> owned ks c -> gets_reach pr t (map snd c) -> (forall i, gets_reach pr (T i) (of i c)) ->
  match trie_ops pr t (map snd c) with
  | Ok (t1, xs) => forall i, exists ti, trie_ops pr (T i) (of i c) = Ok (ti, answers i c xs) /\ flike U (ks i) ti t1
  | Panic => exists i, trie_ops pr (T i) (of i c) = Panic
  end.
Proof.
  induction c as [|[j o] c IH]; intros T t H Ow G Gi.
  - cbn. intros i. eauto.
  - inversion Ow as [|? ? Oo Oc]; subst. cbn [fst snd map trie_ops gets_reach] in *. destruct G as [R2 Gc].
    pose proof (H j) as Hj. pose proof (Gi j) as Gj. rewrite of_cons, Nat.eqb_refl in Gj. cbn [gets_reach] in Gj. destruct Gj as [R1 Gj].
    destruct (trie_op pr t o) as [[t1 x]|] eqn:E; cbn [bind].
    + destruct (flike_op U PF (ks j) (Kw j) (Ku j) pr t (T j) o t1 x (flike_sym U _ _ _ Hj) Oo R2 R1 E) as (u & Eu & Hu).
      set (T' := fun i => if Nat.eqb j i then u else T i).
      assert (H' : forall i, flike U (ks i) (T' i) t1).
      { intros i. unfold T'. destruct (Nat.eqb_spec j i) as [<-|N]; [apply flike_sym, Hu|]. exact (other j i (T i) t o t1 x N Oo (H i) E). }
      assert (Gi' : forall i, gets_reach pr (T' i) (of i c)).
      { intros i. unfold T'. specialize (Gi i). rewrite of_cons in Gi. destruct (Nat.eqb j i) eqn:B; [apply Nat.eqb_eq in B; subst i; exact (Gj u x Eu)|exact Gi]. }
      specialize (IH T' t1 H' Oc (Gc t1 x eq_refl) Gi'). destruct (trie_ops pr t1 (map snd c)) as [[t2 ys]|]; cbn [bind].
      * intros i. destruct (IH i) as (ti & Ei & Li). rewrite of_cons. cbn [answers]. unfold T' in Ei. destruct (Nat.eqb_spec j i) as [<-|N].
        -- cbn [trie_ops]. rewrite Eu. cbn [bind]. rewrite Ei. cbn [bind]. eauto.
        -- eauto.
      * destruct IH as (i & Ei). exists i. rewrite of_cons. unfold T' in Ei. destruct (Nat.eqb j i) eqn:B; [|exact Ei]. apply Nat.eqb_eq in B. subst i.
        cbn [trie_ops]. rewrite Eu. cbn [bind]. rewrite Ei. reflexivity.
    + exists j. rewrite of_cons, Nat.eqb_refl. cbn [trie_ops]. destruct (trie_op pr (T j) o) as [[u y]|] eqn:Eu; [|reflexivity].
      destruct (flike_op U PF (ks j) (Kw j) (Ku j) pr (T j) t o u y Hj Oo R1 R2 Eu) as (s & Es & _). congruence.
Qed.

Lemma owned_in c : owned ks c -> Forall (op_in U) (map snd c).
Proof. intros Ow. apply Forall_forall. intros o I. apply in_map_iff in I. destruct I as ([i q] & <- & I). unfold owned in Ow. rewrite Forall_forall in Ow. exact (on_in i q (Ow _ I)). Qed.
Lemma owned_of c i : owned ks c -> Forall (op_in U) (of i c).
Proof.
  intros Ow. pose proof (owned_in c Ow) as F. rewrite Forall_forall in *. intros o I. apply F. unfold of in I. apply in_map_iff in I. destruct I as (e & <- & I).
  apply filter_In in I. apply in_map, I.
Qed.

Lemma long_gets ops : forall t, free_trie U t -> Forall (op_in U) ops -> Forall (get_long_key U) ops -> gets_reach pr t ops.
Proof.
  induction ops as [|o ops IH]; intros t Ft F G; [exact Logic.I|]. inversion F as [|? ? Fo Fl]; subst. inversion G as [|? ? Go Gl]; subst.
  split; [exact (long_reaches o t Ft Go)|]. intros t1 x E. apply IH; auto. exact (proj1 (kept_op U PF pr t o t1 x Ft Fo E)).
Qed.
Lemma sched c T t : (forall i, flike U (ks i) (T i) t) -> owned ks c -> Forall (fun e => get_long_key U (snd e)) c ->
  match trie_ops pr t (map snd c) with
  | Ok (t1, xs) => forall i, exists ti, trie_ops pr (T i) (of i c) = Ok (ti, answers i c xs) /\ flike U (ks i) ti t1
  | Panic => exists i, trie_ops pr (T i) (of i c) = Panic
  end.
Proof.
  intros H Ow G. assert (G' : Forall (get_long_key U) (map snd c)) by (rewrite Forall_forall in *; intros o I; apply in_map_iff in I; destruct I as (e & <- & I); auto).
  apply sched_reach; [exact H|exact Ow|apply long_gets; [apply (H 0%nat)|exact (owned_in c Ow)|exact G']|].
  intros i. apply long_gets; [apply (H i)|exact (owned_of c i Ow)|]. rewrite Forall_forall in *. intros o I. apply G'. unfold of in I. apply in_map_iff in I. destruct I as (e & <- & I).
  apply filter_In in I. apply in_map, I.
Qed.

(** Same hash nodes, and the same as far as a key is concerned. *)
Lemma alike_same t a b k : wf 64 a -> wf 64 b -> same_hashes t a -> same_hashes t b -> kwf k -> U (nseq k) -> free_trie U a -> alike a b (nseq k) -> lk a (nseq k) = lk b (nseq k).
Proof.
  intros Wa Wb Sa Sb Hk Uk Fa [A1 A2]. destruct (free_insert U PF pr a k [1] Fa Hk Uk ltac:(discriminate)) as [[D _]|(D & _)]; [|exact (A2 D)].
  assert (D' : hash_on_path b (nseq k)) by (apply A1, D).
  assert (V : forall u, wf 64 u -> hash_on_path u (nseq k) -> forall v, lk u (nseq k) <> Some (Val v)) by (intros u W H v E; exact (hop_no_val u 64 _ v W H E)).
  destruct (lk a (nseq k)) as [[v|h]|] eqn:Ea; [destruct (V a Wa D v Ea)| |].
  - symmetry. apply Sb, Sa, Ea.
  - destruct (lk b (nseq k)) as [[v|h]|] eqn:Eb; [destruct (V b Wb D' v Eb)| |reflexivity]. apply Sb, Sa in Eb. congruence.
Qed.
End C.

Lemma flike_refl U ks t : free_trie U t -> flike U ks t t.
Proof. intros F. split; [exact F|]. split; [exact F|]. intros k I. split; [reflexivity|reflexivity]. Qed.

(** Callers that use keys of their own, taking turns in any way: every one gets the answers it would get alone, finds its keys at the end as it would have
    left them alone, and the keys that nobody changes stay as they are. *)
Theorem C88_alone : forall pr U ks t c t1 xs,
  prefix_free U -> free_trie U t -> (forall i, Forall kwf (ks i)) -> (forall i k, In k (ks i) -> U (nseq k)) -> apart ks ->
  owned ks c -> Forall (fun e => get_long_key U (snd e)) c -> trie_ops pr t (map snd c) = Ok (t1, xs) ->
  (forall i, exists ti, trie_ops pr t (of i c) = Ok (ti, answers i c xs) /\ forall k, In k (ks i) -> lk t1 (nseq k) = lk ti (nseq k)) /\
  (forall j, ~ In j (map nseq (flat_map touched (map snd c))) -> lk t1 j = lk t j).
Proof.
  intros pr U ks t c t1 xs PF Ft Kw Ku Ap Ow G E. pose proof (sched U PF ks Kw Ku Ap pr c (fun _ => t) t (fun i => flike_refl U (ks i) t Ft) Ow G) as H. rewrite E in H.
  destruct (kept_ops U PF pr (map snd c) t t1 xs Ft (owned_in U ks Kw Ku c Ow) E) as [F1 (Sm & Lk & _)]. split; [|exact Lk].
  intros i. destruct (H i) as (ti & Ei & Fi & _ & A). exists ti. split; [exact Ei|]. intros k I. symmetry.
  destruct (kept_ops U PF pr (of i c) t ti _ Ft (owned_of U ks Kw Ku c i Ow) Ei) as [_ (Sm' & _)].
  pose proof (Kw i) as Kwi. rewrite Forall_forall in Kwi.
  apply (alike_same U PF pr t ti t1 k); auto; [apply Fi|apply F1|eauto].
Qed.
Print Assumptions C88_alone.

(** It panics only if one of them would have panicked alone, and then in any case. *)
Theorem C88_panics : forall pr U ks t c,
  prefix_free U -> free_trie U t -> (forall i, Forall kwf (ks i)) -> (forall i k, In k (ks i) -> U (nseq k)) -> apart ks ->
  owned ks c -> Forall (fun e => get_long_key U (snd e)) c ->
  (trie_ops pr t (map snd c) = Panic <-> exists i, trie_ops pr t (of i c) = Panic).
Proof.
  intros pr U ks t c PF Ft Kw Ku Ap Ow G. pose proof (sched U PF ks Kw Ku Ap pr c (fun _ => t) t (fun i => flike_refl U (ks i) t Ft) Ow G) as H.
  destruct (trie_ops pr t (map snd c)) as [[t1 xs]|]; [|tauto]. split; [discriminate|]. intros (i & E). destruct (H i) as (ti & Ei & _). congruence.
Qed.
Print Assumptions C88_panics.

(** Both for gets of shorter keys, if no key of a get ends inside an extension node at the time: neither together nor alone. *)
Theorem C88_short : forall pr U ks t c,
  prefix_free U -> free_trie U t -> (forall i, Forall kwf (ks i)) -> (forall i k, In k (ks i) -> U (nseq k)) -> apart ks -> owned ks c ->
  gets_reach pr t (map snd c) -> (forall i, gets_reach pr t (of i c)) ->
  match trie_ops pr t (map snd c) with
  | Ok (t1, xs) => forall i, exists ti, trie_ops pr t (of i c) = Ok (ti, answers i c xs) /\ forall k, In k (ks i) -> lk t1 (nseq k) = lk ti (nseq k)
  | Panic => exists i, trie_ops pr t (of i c) = Panic
  end.
Proof.
  intros pr U ks t c PF Ft Kw Ku Ap Ow G Gi. pose proof (sched_reach U PF ks Kw Ku Ap pr c (fun _ => t) t (fun i => flike_refl U (ks i) t Ft) Ow G Gi) as H.
  destruct (trie_ops pr t (map snd c)) as [[t1 xs]|] eqn:E; [|exact H]. destruct (kept_ops U PF pr (map snd c) t t1 xs Ft (owned_in U ks Kw Ku c Ow) E) as [F1 (Sm & _)].
  intros i. destruct (H i) as (ti & Ei & Fi & _ & A). exists ti. split; [exact Ei|]. intros k I. symmetry.
  destruct (kept_ops U PF pr (of i c) t ti _ Ft (owned_of U ks Kw Ku c i Ow) Ei) as [_ (Sm' & _)]. pose proof (Kw i) as Kwi. rewrite Forall_forall in Kwi.
  apply (alike_same U PF pr t ti t1 k); auto; [apply Fi|apply F1|eauto].
Qed.
Print Assumptions C88_short.

(** How they take turns does not matter: the same trie at the end, so the same root hash, and the same answers. *)
Theorem C88_order : forall pr U ks t c c' t1 xs,
  prefix_free U -> free_trie U t -> (forall i, Forall kwf (ks i)) -> (forall i k, In k (ks i) -> U (nseq k)) -> apart ks ->
  owned ks c -> Forall (fun e => get_long_key U (snd e)) c -> (forall i, of i c' = of i c) -> trie_ops pr t (map snd c) = Ok (t1, xs) ->
  exists xs', trie_ops pr t (map snd c') = Ok (t1, xs') /\ forall i, answers i c' xs' = answers i c xs.
Proof.
  intros pr U ks t c c' t1 xs PF Ft Kw Ku Ap Ow G Q E.
  assert (Sub : forall e, In e c' -> In e c).
  { intros [i o] I. assert (J : In o (of i c')) by (apply in_map_iff; exists (i, o); split; [reflexivity|]; apply filter_In; split; [exact I|apply Nat.eqb_refl]).
    rewrite Q in J. apply in_map_iff in J. destruct J as ([i' o'] & Eo & J). apply filter_In in J. destruct J as [J B]. cbn [fst snd] in *. apply Nat.eqb_eq in B. congruence. }
  assert (Ow' : owned ks c') by (unfold owned in *; rewrite Forall_forall in *; auto).
  assert (G' : Forall (fun e => get_long_key U (snd e)) c') by (rewrite Forall_forall in *; auto).
  destruct (C88_alone pr U ks t c t1 xs PF Ft Kw Ku Ap Ow G E) as [H L].
  pose proof (C88_panics pr U ks t c' PF Ft Kw Ku Ap Ow' G') as P.
  destruct (trie_ops pr t (map snd c')) as [[t2 ys]|] eqn:E2.
  - destruct (C88_alone pr U ks t c' t2 ys PF Ft Kw Ku Ap Ow' G' E2) as [H' L'].
    destruct (kept_ops U PF pr (map snd c) t t1 xs Ft (owned_in U ks Kw Ku c Ow) E) as [(W1 & C1 & _) _].
    destruct (kept_ops U PF pr (map snd c') t t2 ys Ft (owned_in U ks Kw Ku c' Ow') E2) as [(W2 & C2 & _) _].
    assert (X : t2 = t1).
    { apply (C17_canonical t2 t1 W2 W1 C2 C1). intros j. destruct (in_dec (list_eq_dec N.eq_dec) j (map nseq (flat_map touched (map snd c)))) as [I|I].
      - apply in_map_iff in I. destruct I as (k & <- & I). apply in_flat_map in I. destruct I as (o & Io & Ik). apply in_map_iff in Io. destruct Io as ([i o'] & Eo & Io). cbn [snd] in Eo. subst o'.
        unfold owned in Ow. rewrite Forall_forall in Ow. pose proof (on_touched ks i o k (Ow _ Io) Ik) as J.
        destruct (H i) as (ti & Ei & Li). destruct (H' i) as (ti' & Ei' & Li'). rewrite Q, Ei in Ei'. injection Ei' as <- _. rewrite (Li k J), (Li' k J). reflexivity.
      - rewrite (L j I). apply L'. intros I'. apply I. apply in_map_iff in I'. destruct I' as (k & <- & I'). apply in_map, in_flat_map. apply in_flat_map in I'. destruct I' as (o & Io & Ik).
        exists o. split; [|exact Ik]. apply in_map_iff in Io. destruct Io as (e & <- & Ie). apply in_map, Sub, Ie. }
    subst t2. exists ys. split; [reflexivity|]. intros i. destruct (H i) as (ti & Ei & _). destruct (H' i) as (ti' & Ei' & _). rewrite Q, Ei in Ei'. congruence.
  - destruct (proj1 P eq_refl) as (i & Ei). rewrite Q in Ei. destruct (H i) as (ti & Ei' & _). congruence.
Qed.
Print Assumptions C88_order.

(** Callers that work at the same time, each with its own excerpt of the trie with its own keys: together they get the answers they would get by taking turns on
    the complete trie, however they do that; and one of them panics exactly if that does. *)
Theorem C88_excerpts : forall keccak pr U ks t s c,
  hash32 keccak -> prefix_free U -> free_trie U t -> fits t -> (forall i, Forall kwf (ks i)) -> (forall i k, In k (ks i) -> U (nseq k)) -> apart ks ->
  (pr = Debug \/ forall i k, In k (ks i) -> ~ too_short t (nseq k)) -> (forall i, create_trie_subset keccak pr t (ks i) = Ok (ROk (s i))) ->
  owned ks c -> Forall (fun e => get_long_key U (snd e)) c ->
  match trie_ops pr t (map snd c) with
  | Ok (_, xs) => forall i, exists si, trie_ops pr (s i) (of i c) = Ok (si, answers i c xs)
  | Panic => exists i, trie_ops pr (s i) (of i c) = Panic
  end.
Proof.
  intros keccak pr U ks t s c H32 PF Ft Fi Kw Ku Ap D Es Ow G.
  pose proof (sched U PF ks Kw Ku Ap pr c s t) as H.
  assert (X : forall i, flike U (ks i) (s i) t).
  { intros i. apply flike_sym. apply (subset_flike keccak pr U t (ks i) (s i) H32 Ft Fi (Kw i)); [|apply Es]. destruct D as [D|D]; [left; exact D|right; exact (D i)]. }
  specialize (H X Ow G). destruct (trie_ops pr t (map snd c)) as [[t1 xs]|]; [|exact H]. intros i. destruct (H i) as (si & E & _). eauto.
Qed.
Print Assumptions C88_excerpts.

Lemma run_hashed keccak pr l t os t1 zs h : from_iter pr l = Ok t -> trie_ops pr t os = Ok (t1, zs) -> hash_trie keccak pr t1 = Ok h ->
  exists hs, start keccak pr ([New l] ++ map (on 0) os ++ [HashOf 0]) = Ok (hs, [Done] ++ map seen zs ++ [Digest h]) /\ map erase hs = [t1].
Proof.
  intros El Ez Eh. apply (C29_clones_partial keccak pr ([New l] ++ map (on 0) os ++ [HashOf 0]) [t1] ([Done] ++ map seen zs ++ [Digest h])).
  - assert (Tm : Forall tame (map (on 0) os)) by (apply Forall_forall; intros q I; apply in_map_iff in I; destruct I as (o & <- & _); destruct o; exact Logic.I).
    repeat (apply Forall_app; split); try exact Tm; repeat constructor.
  - assert (S1 : vrun keccak pr [] [New l] = Ok ([t], [Done])) by (cbn [vrun vstep]; rewrite El; reflexivity).
    assert (S2 : vrun keccak pr [t1] [HashOf 0] = Ok ([t1], [Digest h])) by (cbn [vrun vstep]; unfold the; cbn [nth_error bind]; rewrite Eh; reflexivity).
    rewrite (vrun_app keccak pr [New l]), S1. cbn [bind]. rewrite (vrun_app keccak pr (map (on 0) os)), (vrun_on keccak pr [] os t t1 zs Ez). cbn [bind]. rewrite S2. reflexivity.
Qed.

(** The same with the trie that caches its hashes: two ways of taking turns give equal tries and the same hash. *)
Theorem C88_cached : forall keccak pr U ks l t c c' t1 xs h,
  prefix_free U -> from_iter pr l = Ok t -> free_trie U t -> (forall i, Forall kwf (ks i)) -> (forall i k, In k (ks i) -> U (nseq k)) -> apart ks ->
  owned ks c -> Forall (fun e => get_long_key U (snd e)) c -> (forall i, of i c' = of i c) -> trie_ops pr t (map snd c) = Ok (t1, xs) -> hash_trie keccak pr t1 = Ok h ->
  exists hs hs' ys,
    start keccak pr ([New l] ++ map (on 0) (map snd c) ++ [HashOf 0]) = Ok (hs, [Done] ++ map seen xs ++ [Digest h]) /\
    start keccak pr ([New l] ++ map (on 0) (map snd c') ++ [HashOf 0]) = Ok (hs', [Done] ++ map seen ys ++ [Digest h]) /\
    map erase hs = map erase hs'.
Proof.
  intros keccak pr U ks l t c c' t1 xs h PF El Ft Kw Ku Ap Ow G Q E Eh.
  destruct (C88_order pr U ks t c c' t1 xs PF Ft Kw Ku Ap Ow G Q E) as (ys & E' & _).
  destruct (run_hashed keccak pr l t _ t1 xs h El E Eh) as (hs & A & B). destruct (run_hashed keccak pr l t _ t1 ys h El E' Eh) as (hs' & A' & B'). exists hs, hs', ys. split; [exact A|]. split; [exact A'|]. congruence.
Qed.
Print Assumptions C88_cached.

(** Without the restriction on the keys of gets it is false: a get of a short key finds nothing when its caller is alone, and panics (in debug builds) when another caller
    has deleted a key before, as the root is an extension node then. *)
Definition com_list : list (nibbles * val_or_hash) := [(K 4 0x2000, Val [1]); (K 4 0x3456, Val [2]); (K 4 0x3457, Val [3])].
Definition com_trie : node := okn (from_iter Debug com_list).
Definition com_U (k : list N) : Prop := In k [[1]; [2;0;0;0]; [3;4;5;6]; [3;4;5;7]].
Definition com_ks (i : nat) : list nibbles := match i with 0%nat => [K 4 0x2000] | 1%nat => [K 1 1] | _ => [] end.
Definition com_c : list (nat * op) := [(0%nat, ODelete (K 4 0x2000)); (1%nat, OGet (K 1 1))].
Theorem C88_refuted : exists U ks t c,
  prefix_free U /\ free_trie U t /\ (forall i, Forall kwf (ks i)) /\ (forall i k, In k (ks i) -> U (nseq k)) /\ apart ks /\ owned ks c /\
  (forall i, trie_ops Debug t (of i c) <> Panic) /\ trie_ops Debug t (map snd c) = Panic.
Proof.
  exists com_U, com_ks, com_trie, com_c.
  assert (E : trie_extend Debug Empty com_list = Ok com_trie) by (vm_compute; reflexivity).
  assert (Fl : Forall pentry com_list).
  { unfold com_list. repeat (apply Forall_cons; [split; [split; vm_compute; (reflexivity || (intro; discriminate))|try exact Logic.I; discriminate]|]). apply Forall_nil. }
  destruct (extend_canon Debug com_list Empty com_trie (wf_empty 64) cn_empty Fl E) as [W C].
  split; [|split; [|split; [|split; [|split; [|split; [|split]]]]]].
  - intros k j Ik Ij (x & r & R). unfold com_U in *. cbn [In] in Ik, Ij.
    destruct Ik as [<-|[<-|[<-|[<-|[]]]]]; destruct Ij as [<-|[<-|[<-|[<-|[]]]]]; discriminate R.
  - split; [exact W|]. split; [exact C|].
    assert (B : forallb (fun e => match snd e with Val _ => existsb (fun j => if list_eq_dec N.eq_dec (fst e) j then true else false) [[1]; [2;0;0;0]; [3;4;5;6]; [3;4;5;7]] | HashV _ => false end) (entries com_trie) = true) by (vm_compute; reflexivity).
    rewrite forallb_forall in B. split; intros k x L; apply entries_lk in L; apply B in L; cbn [fst snd] in L; [|discriminate].
    apply existsb_exists in L. destruct L as (j & I & L). destruct (list_eq_dec N.eq_dec k j) as [->|]; [exact I|discriminate].
  - intros [|[|i]]; cbn [com_ks]; repeat constructor; vm_compute; (reflexivity || (intro; discriminate)).
  - intros [|[|i]] k; cbn [com_ks In]; [intros [<-|[]]|intros [<-|[]]|intros []]; unfold com_U; vm_compute; tauto.
  - intros [|[|i]] [|[|j]] k k' N; cbn [com_ks In]; intros I I'; try tauto; destruct I as [<-|[]], I' as [<-|[]]; vm_compute; discriminate.
  - repeat constructor.
  - intros [|[|i]]; vm_compute; discriminate.
  - vm_compute. reflexivity.
Qed.
Print Assumptions C88_refuted.

(** Two callers on the partial trie of C87, and another way of taking turns. *)
Definition two_ks (i : nat) : list nibbles := match i with 0%nat => [K 4 0x1234; K 4 0x3333] | 1%nat => [K 4 0x1256; K 4 0x2134] | _ => [] end.
Definition two_c : list (nat * op) :=
  [(0%nat, OInsert (K 4 0x1234) [5]); (1%nat, ODelete (K 4 0x1256)); (0%nat, OGet (K 4 0x1234)); (1%nat, OExtend [(K 4 0x2134, [6]); (K 4 0x1256, [8])]); (0%nat, ODelete (K 4 0x3333)); (0%nat, ODelete (K 4 0x1234))].
Definition two_c' : list (nat * op) :=
  [(1%nat, ODelete (K 4 0x1256)); (0%nat, OInsert (K 4 0x1234) [5]); (0%nat, OGet (K 4 0x1234)); (0%nat, ODelete (K 4 0x3333)); (0%nat, ODelete (K 4 0x1234)); (1%nat, OExtend [(K 4 0x2134, [6]); (K 4 0x1256, [8])])].
Example C88_example : prefix_free (fun k => length k = 4%nat) /\ free_trie (fun k => length k = 4%nat) roll_trie /\ fits roll_trie /\
  (forall i, Forall kwf (two_ks i)) /\ (forall i k, In k (two_ks i) -> length (nseq k) = 4%nat) /\ apart two_ks /\
  owned two_ks two_c /\ Forall (fun e => get_long_key (fun k => length k = 4%nat) (snd e)) two_c /\ (forall i, of i two_c' = of i two_c) /\ map snd two_c' <> map snd two_c /\
  (exists t1 xs, trie_ops Debug roll_trie (map snd two_c) = Ok (t1, xs)) /\
  exists s, forall i, create_trie_subset keccak256 Debug roll_trie (two_ks i) = Ok (ROk (s i)).
Proof.
  destruct C87_example as (PF & _ & Ft & _). split; [exact PF|]. split; [exact Ft|].
  assert (E : trie_extend Debug Empty roll_list = Ok roll_trie) by (vm_compute; reflexivity).
  split; [apply (extend_fits Debug roll_list Empty) in E; [exact E|exact Logic.I|]; repeat constructor; cbn; try (vm_compute; (reflexivity || (intro; discriminate)))|].
  split; [intros [|[|i]]; cbn [two_ks]; repeat constructor; vm_compute; (reflexivity || (intro; discriminate))|].
  split; [intros [|[|i]] k; cbn [two_ks In]; intros I; [destruct I as [<-|[<-|[]]]|destruct I as [<-|[<-|[]]]|destruct I]; vm_compute; reflexivity|].
  split; [intros [|[|i]] [|[|j]] k k' N; cbn [two_ks In]; intros I I'; try tauto; destruct I as [<-|[<-|[]]], I' as [<-|[<-|[]]]; vm_compute; discriminate|].
  split; [unfold owned, two_c; repeat (apply Forall_cons; [cbn [fst snd op_on two_ks]; repeat first [apply Forall_nil|apply Forall_cons|split]; cbn [fst snd In]; try tauto; try (vm_compute; (reflexivity || discriminate || (intro; discriminate)))|]); apply Forall_nil|].
  split; [unfold two_c; repeat (apply Forall_cons; [cbn [snd get_long_key]; try exact Logic.I; intros j ->; vm_compute; lia|]); apply Forall_nil|].
  split; [intros [|[|i]]; reflexivity|]. split; [discriminate|].
  split.
  - assert (B : match trie_ops Debug roll_trie (map snd two_c) with Ok _ => true | _ => false end = true) by (vm_compute; reflexivity).
    destruct (trie_ops Debug roll_trie (map snd two_c)) as [[t1 xs]|]; [eauto|discriminate].
  - set (s := fun ks => P_Subset.oks (create_trie_subset keccak256 Debug roll_trie ks)).
    exists (fun i => match i with 0%nat => s (two_ks 0%nat) | 1%nat => s (two_ks 1%nat) | _ => s [] end). intros [|[|i]]; vm_compute; reflexivity.
Qed.

(** A third caller that wants to change a key below the hash node: it panics alone, and so do they all together. *)
Definition three_ks (i : nat) : list nibbles := match i with 2%nat => [K 4 0x2034] | _ => two_ks i end.
Definition three_c : list (nat * op) := two_c ++ [(2%nat, ODelete (K 4 0x2034))].
Example C88_panics_example : (forall i, Forall kwf (three_ks i)) /\ (forall i k, In k (three_ks i) -> length (nseq k) = 4%nat) /\ apart three_ks /\
  owned three_ks three_c /\ Forall (fun e => get_long_key (fun k => length k = 4%nat) (snd e)) three_c /\
  trie_ops Debug roll_trie (of 2 three_c) = Panic /\ trie_ops Debug roll_trie (map snd three_c) = Panic.
Proof.
  destruct C88_example as (_ & _ & _ & Kw & Ku & Ap & Ow & G & _).
  split; [intros [|[|[|i]]]; [apply (Kw 0%nat)|apply (Kw 1%nat)| |constructor]; repeat constructor; vm_compute; (reflexivity || (intro; discriminate))|].
  split; [intros [|[|[|i]]] k; cbn [three_ks]; [apply (Ku 0%nat)|apply (Ku 1%nat)|intros [<-|[]]; vm_compute; reflexivity|intros []]|].
  split; [intros [|[|[|i]]] [|[|[|j]]] k k' N; cbn [three_ks two_ks In]; intros I I'; try tauto; repeat (destruct I as [<-|I]; [|]); try destruct I; repeat (destruct I' as [<-|I']; [|]); try destruct I'; vm_compute; discriminate|].
  split; [apply Forall_app; split; [|repeat constructor]|].
  - unfold owned in Ow. rewrite Forall_forall in *. intros [i o] I. pose proof (Ow _ I) as O. cbn [fst snd] in *. cbn [two_c In] in I. repeat (destruct I as [I|I]; [injection I as <- <-; exact O|]). destruct I.
  - split; [apply Forall_app; split; [exact G|repeat constructor]|]. split; vm_compute; reflexivity.
Qed.

(** On the trie of C88_refuted: a get of a short key while the root is a branch node. *)
Definition short_c : list (nat * op) := [(0%nat, OInsert (K 4 0x2000) [9]); (1%nat, OGet (K 1 1)); (0%nat, ODelete (K 4 0x2000))].
Lemma reach_insert_then t k v ops : (forall t1, trie_insert Debug t k (Val v) = Ok t1 -> gets_reach Debug t1 ops) -> gets_reach Debug t (OInsert k v :: ops).
Proof. intros H. split; [exact Logic.I|]. intros t1 x E. cbn [trie_op] in E. destruct (trie_insert Debug t k (Val v)) as [t2|]; [|discriminate]. cbn [bind] in E. injection E as <- _. auto. Qed.
Example C88_short_example : owned com_ks short_c /\ gets_reach Debug com_trie (map snd short_c) /\ (forall i, gets_reach Debug com_trie (of i short_c)) /\
  (forall i, trie_ops Debug com_trie (of i short_c) <> Panic) /\ ~ get_long_key com_U (OGet (K 1 1)).
Proof.
  split; [unfold owned, short_c; repeat (apply Forall_cons; [cbn [fst snd op_on com_ks]; repeat first [apply Forall_nil|apply Forall_cons|split]; cbn [fst snd In]; try tauto; try (vm_compute; (reflexivity || discriminate || (intro; discriminate)))|]); apply Forall_nil|].
  assert (D : forall t k, gets_reach Debug t [ODelete k]) by (intros t k; split; [exact Logic.I|intros; exact Logic.I]).
  assert (I0 : trie_insert Debug com_trie (K 4 0x2000) (Val [9]) = Ok (okn (trie_insert Debug com_trie (K 4 0x2000) (Val [9])))) by (vm_compute; reflexivity).
  split; [|split; [|split]].
  - cbn [map snd short_c]. apply reach_insert_then. intros t1 E. rewrite I0 in E. injection E as <-. split; [vm_compute; tauto|]. intros t2 x _. apply D.
  - intros [|[|i]]; cbn [short_c of filter fst snd map Nat.eqb].
    + apply reach_insert_then. intros t1 _. apply D.
    + split; [vm_compute; tauto|intros; exact Logic.I].
    + exact Logic.I.
  - intros [|[|i]]; vm_compute; discriminate.
  - intros G. specialize (G [2;0;0;0] ltac:(right; left; reflexivity)). vm_compute in G. lia.
Qed.
