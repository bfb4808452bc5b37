(** Property C89: only the last change of every key counts. *)
From Coq Require Import Permutation.
From Verif Require Import Base Nibbles NibblesSpec NibblesFacts NibblesFacts2 NibblesFacts3 Trie TrieSpec TrieHistSpec TrieFacts TrieInsert TrieGet TrieDelete TrieUnique TrieIter TrieHist TrieObs OrderSpec Rlp YellowPaper Hashing Keccak HashSpec HashFacts KeccakFacts HideSpec HideFacts Cache CacheSpec CacheFacts2 P_Cache P_Trie P_Hash ItemsFacts Subset SubsetSpec ReplaySpec ReplayFacts P_Subset P_Refresh FreeSpec FreeFacts P_Free TrieHistSpec RollSpec P_Roll CommuteSpec P_Commute NetSpec.
Open Scope N_scope.

Lemma changes_touched ops : map fst (changes ops) = flat_map touched ops.
Proof.
  induction ops as [|o ops IH]; [reflexivity|]. unfold changes in *. cbn [flat_map]. rewrite map_app, IH. f_equal.
  destruct o as [k v|l|k|k]; cbn [changes_of touched map fst]; try reflexivity. rewrite map_map. reflexivity.
Qed.

Lemma last_app a b j : last_change (a ++ b) j = match last_change b j with Some x => Some x | None => last_change a j end.
Proof. induction a as [|[k w] a IH]; cbn [app last_change]; [destruct (last_change b j); reflexivity|]. rewrite IH. destruct (last_change b j); reflexivity. Qed.

Lemma last_none l j : last_change l j = None <-> ~ In j (map nseq (map fst l)).
Proof.
  induction l as [|[k w] l IH]; cbn [last_change map fst]; [split; [intros _ []|reflexivity]|].
  destruct (last_change l j) as [x|]; [split; [discriminate|intros N; exfalso]|].
  - destruct IH as [_ IH]. assert (Some x = None); [|discriminate]. apply IH. intros I. apply N. right. exact I.
  - destruct (key_eqb_spec (nseq k) j) as [<-|N]; (split; [|]).
    + discriminate.
    + intros Q. exfalso. apply Q. left. reflexivity.
    + intros _ [Q|Q]; [exact (N Q)|]. exact (proj1 IH eq_refl Q).
    + reflexivity.
Qed.

Section N.
Variable U : list N -> Prop.
Hypothesis PF : prefix_free U.

Definition new (t : node) (c : option (option (list N))) (j : list N) : option val_or_hash :=
  match c with Some (Some v) => Some (Val v) | Some None => None | None => lk t j end.

Lemma insert_new pr t k v t1 : free_trie U t -> kwf k -> U (nseq k) -> v <> [] -> trie_insert pr t k (Val v) = Ok t1 ->
  free_trie U t1 /\ forall j, lk t1 j = new t (last_change [(k, Some v)] j) j.
Proof.
  intros Ft Hk Uk Hv E. destruct (free_insert U PF pr t k v Ft Hk Uk Hv) as [[_ Q]|(_ & t' & Q & Up & F1)]; [congruence|]. assert (t' = t1) by congruence. subst t'.
  split; [exact F1|]. intros j. rewrite (Up j). cbn [last_change]. destruct (key_eqb (nseq k) j); reflexivity.
Qed.
Lemma new_trans t t1 a b j : (forall j, lk t1 j = new t (last_change a j) j) -> new t1 (last_change b j) j = new t (last_change (a ++ b) j) j.
Proof. intros H. rewrite last_app. unfold new at 1. destruct (last_change b j) as [[v|]|]; [reflexivity|reflexivity|apply H]. Qed.

Lemma op_new pr t o t1 x : free_trie U t -> op_in U o -> trie_op pr t o = Ok (t1, x) -> free_trie U t1 /\ forall j, lk t1 j = new t (last_change (changes_of o) j) j.
Proof.
  intros Ft O E. destruct o as [k v|l|k|k]; cbn [op_in trie_op changes_of] in *.
  - destruct O as (Hk & Uk & Hv). destruct (trie_insert pr t k (Val v)) as [t2|] eqn:E1; [|discriminate]. cbn [bind] in E. injection E as <- _. eapply insert_new; eauto.
  - destruct (trie_extend pr t _) as [t2|] eqn:E1; [|discriminate]. cbn [bind] in E. injection E as <- _. clear x.
    revert t Ft E1. induction O as [|[k v] l (Hk & Uk & Hv) O IH]; intros t Ft E1; cbn [map trie_extend fst snd] in *.
    + injection E1 as <-. auto.
    + destruct (trie_insert pr t k (Val v)) as [t3|] eqn:E2; [|discriminate]. cbn [bind] in E1.
      destruct (insert_new pr t k v t3 Ft Hk Uk Hv E2) as [F3 K3]. destruct (IH t3 F3 E1) as [F2 K2]. split; [exact F2|]. intros j. rewrite K2. exact (new_trans t t3 [(k, Some v)] _ j K3).
  - destruct O as [Hk Uk]. destruct (free_delete U PF pr t k Ft Hk Uk) as [[_ Q]|(N & t' & Q & Up & F1)]; rewrite Q in E; [discriminate|].
    cbn [bind] in E. injection E as <- _. split; [exact F1|]. intros j. rewrite (Up j). cbn [last_change]. destruct (key_eqb (nseq k) j); reflexivity.
  - destruct (trie_get pr t k); [|discriminate]. cbn [bind] in E. injection E as <- _. split; [exact Ft|reflexivity].
Qed.

Lemma ops_new pr ops : forall t t1 xs, free_trie U t -> Forall (op_in U) ops -> trie_ops pr t ops = Ok (t1, xs) ->
  free_trie U t1 /\ forall j, lk t1 j = new t (last_change (changes ops) j) j.
Proof.
  induction ops as [|o ops IH]; intros t t1 xs Ft F E; cbn [trie_ops] in *.
  - injection E as <- _. split; [exact Ft|reflexivity].
  - inversion F as [|? ? Fo Fl]; subst. destruct (trie_op pr t o) as [[t2 x]|] eqn:E1; [|discriminate]. cbn [bind] in E.
    destruct (trie_ops pr t2 ops) as [[t3 ys]|] eqn:E2; [|discriminate]. cbn [bind] in E. injection E as <- _.
    destruct (op_new pr t o t2 x Ft Fo E1) as [F2 K2]. destruct (IH t2 t3 ys F2 Fl E2) as [F3 K3]. split; [exact F3|]. intros j. rewrite K3. exact (new_trans t t2 _ _ j K2).
Qed.

Lemma long_get t k : free_trie U t -> get_long_key U (OGet k) -> ~ too_short t (nseq k).
Proof. intros Fu Go Q. destruct (short_longer U t _ Fu Q) as (j & Uj & Lj). specialize (Go j Uj). lia. Qed.

(** An operation panics exactly if it changes a key at or below a hash node. *)
Lemma op_panics pr t o : free_trie U t -> op_in U o -> get_long_key U o -> (trie_op pr t o = Panic <-> exists k, In k (touched o) /\ hash_on_path t (nseq k)).
Proof.
  intros Ft O G. destruct o as [k v|l|k|k]; cbn [op_in trie_op touched] in *.
  - destruct O as (Hk & Uk & Hv). destruct (free_insert U PF pr t k v Ft Hk Uk Hv) as [[D ->]|(D & t1 & -> & _)]; cbn [bind].
    + split; [|reflexivity]. intros _. exists k. split; [left; reflexivity|exact D].
    + split; [discriminate|]. intros (k' & [<-|[]] & H). contradiction.
  - revert t Ft. induction O as [|[k v] l (Hk & Uk & Hv) O IH]; intros t Ft; cbn [map trie_extend fst snd bind] in *.
    + split; [discriminate|]. intros (k & [] & _).
    + destruct (free_insert U PF pr t k v Ft Hk Uk Hv) as [[D ->]|(D & t1 & E & Up & F1)]; cbn [bind].
      * split; [|reflexivity]. intros _. exists k. split; [left; reflexivity|exact D].
      * rewrite E. cbn [bind]. specialize (IH Logic.I t1 F1). etransitivity; [exact IH|].
        assert (Sm : same_hashes t t1) by (eapply updated_same; eauto; discriminate).
        split; intros (k' & I & H).
        -- exists k'. split; [right; exact I|]. apply (same_hop t t1 _ Sm), H.
        -- destruct I as [<-|I]; [contradiction|]. exists k'. split; [exact I|]. apply (same_hop t t1 _ Sm), H.
  - destruct O as [Hk Uk]. destruct (free_delete U PF pr t k Ft Hk Uk) as [[D ->]|(D & t1 & -> & _)]; cbn [bind].
    + split; [|reflexivity]. intros _. exists k. split; [left; reflexivity|exact D].
    + split; [discriminate|]. intros (k' & [<-|[]] & H). contradiction.
  - destruct O as [Hk Uk]. rewrite (free_get U PF pr t k Ft Hk Uk (long_get t k Ft G)). cbn [bind]. split; [discriminate|]. intros (k' & [] & _).
Qed.
End N.

(** What a history leaves: at each key its last change, elsewhere what was there. *)
Theorem C89_result : forall pr U t ops t1 xs,
  prefix_free U -> free_trie U t -> Forall (op_in U) ops -> trie_ops pr t ops = Ok (t1, xs) ->
  forall j, lk t1 j = match last_change (changes ops) j with Some (Some v) => Some (Val v) | Some None => None | None => lk t j end.
Proof. intros pr U t ops t1 xs PF Ft F E j. exact (proj2 (ops_new U PF pr ops t t1 xs Ft F E) j). Qed.
Print Assumptions C89_result.

(** When it panics: exactly if it changes a key at or below a hash node. *)
Theorem C89_panics : forall pr U t ops,
  prefix_free U -> free_trie U t -> Forall (op_in U) ops -> Forall (get_long_key U) ops ->
  (trie_ops pr t ops = Panic <-> exists k, In k (map fst (changes ops)) /\ hash_on_path t (nseq k)).
Proof.
  intros pr U t ops PF Ft F G. rewrite changes_touched. revert t Ft. induction ops as [|o ops IH]; intros t Ft; cbn [trie_ops flat_map].
  - split; [discriminate|]. intros (k & [] & _).
  - inversion F as [|? ? Fo Fl]; subst. inversion G as [|? ? Go Gl]; subst. pose proof (op_panics U PF pr t o Ft Fo Go) as P.
    destruct (trie_op pr t o) as [[t1 x]|] eqn:E; cbn [bind].
    + destruct (kept_op U PF pr t o t1 x Ft Fo E) as [F1 (Sm & _)]. specialize (IH Fl Gl t1 F1).
      assert (Q : trie_ops pr t1 ops = Panic <-> exists k, In k (flat_map touched ops) /\ hash_on_path t (nseq k)).
      { etransitivity; [exact IH|]. split; intros (k & I & H); exists k; (split; [exact I|]); apply (same_hop t t1 _ Sm), H. }
      destruct (trie_ops pr t1 ops) as [[t2 ys]|]; cbn [bind]; split; try discriminate; try reflexivity.
      * intros (k & I & H). apply in_app_or in I. destruct I as [I|I].
        -- assert (X : Ok (t1, x) = Panic) by (apply P; eauto). discriminate.
        -- assert (X : Ok (t2, ys) = Panic) by (apply Q; eauto). discriminate.
      * intros _. destruct (proj1 Q eq_refl) as (k & I & H). exists k. split; [apply in_or_app; right; exact I|exact H].
    + split; [|reflexivity]. intros _. destruct (proj1 P eq_refl) as (k & I & H). exists k. split; [apply in_or_app; left; exact I|exact H].
Qed.
Print Assumptions C89_panics.

(** Histories with the same last changes give the very same trie, so root hash: whatever else they change in between, in whatever order, in either build. *)
Theorem C89_net : forall pr pr' U t ops ops' t1 xs,
  prefix_free U -> free_trie U t -> Forall (op_in U) ops -> Forall (op_in U) ops' -> Forall (get_long_key U) ops' ->
  (forall j, last_change (changes ops') j = last_change (changes ops) j) -> trie_ops pr t ops = Ok (t1, xs) ->
  exists ys, trie_ops pr' t ops' = Ok (t1, ys).
Proof.
  intros pr pr' U t ops ops' t1 xs PF Ft F F' G' L E.
  destruct (ops_new U PF pr ops t t1 xs Ft F E) as [(W1 & C1 & _) N1].
  destruct (trie_ops pr' t ops') as [[t2 ys]|] eqn:E'.
  - destruct (ops_new U PF pr' ops' t t2 ys Ft F' E') as [(W2 & C2 & _) N2]. exists ys. do 2 f_equal. apply (C17_canonical t2 t1 W2 W1 C2 C1).
    intros j. rewrite N2, N1, L. reflexivity.
  - exfalso. destruct (proj1 (C89_panics pr' U t ops' PF Ft F' G') E') as (k & I & H).
    destruct (kept_ops U PF pr ops t t1 xs Ft F E) as [_ (_ & _ & Fk)]. rewrite <- changes_touched in Fk.
    assert (J : In (nseq k) (map nseq (map fst (changes ops)))).
    { destruct (in_dec (list_eq_dec N.eq_dec) (nseq k) (map nseq (map fst (changes ops)))) as [J|J]; [exact J|]. exfalso. apply last_none in J. rewrite <- L in J. apply last_none in J. apply J, in_map, I. }
    apply in_map_iff in J. destruct J as (k' & Q & J). rewrite Forall_forall in Fk. destruct (Fk k' J) as (_ & _ & NH). apply NH. rewrite Q. exact H.
Qed.
Print Assumptions C89_net.

Lemma last_lasts l j : last_change (lasts l) j = last_change l j.
Proof.
  induction l as [|[k w] l IH]; [reflexivity|]. cbn [lasts]. destruct (last_change l (nseq k)) as [x|] eqn:E; cbn [last_change]; rewrite IH; [|reflexivity].
  destruct (last_change l j) eqn:Ej; [reflexivity|]. destruct (key_eqb_spec (nseq k) j) as [<-|]; [congruence|reflexivity].
Qed.
Lemma lasts_sub l : incl (lasts l) l.
Proof.
  induction l as [|[k w] l IH]; [intros e []|]. cbn [lasts]. destruct (last_change l (nseq k)); [intros e I; right; apply IH, I|]. intros e [<-|I]; [left; reflexivity|right; apply IH, I].
Qed.
Lemma lasts_nodup l : NoDup (map nseq (map fst (lasts l))).
Proof.
  induction l as [|[k w] l IH]; [constructor|]. cbn [lasts]. destruct (last_change l (nseq k)) eqn:E; [exact IH|]. cbn [map fst]. constructor; [|exact IH].
  rewrite <- last_lasts in E. apply last_none, E.
Qed.
Lemma changes_map l : changes (map change_op l) = l.
Proof. induction l as [|[k [v|]] l IH]; [reflexivity| |]; unfold changes in *; cbn [map flat_map change_op snd fst changes_of app]; rewrite IH; reflexivity. Qed.

Lemma last_in l j w : NoDup (map nseq (map fst l)) -> (last_change l j = Some w <-> exists k, In (k, w) l /\ nseq k = j).
Proof.
  induction l as [|[k x] l IH]; cbn [map fst last_change]; intros ND; [split; [discriminate|intros (k & [] & _)]|]. inversion ND as [|? ? N ND']; subst. specialize (IH ND').
  destruct (last_change l j) as [y|] eqn:E.
  - split.
    + intros Q. injection Q as ->. destruct (proj1 IH eq_refl) as (k' & I & Q). exists k'. split; [right; exact I|exact Q].
    + intros (k' & [Q|I] & <-); [|apply IH; eauto]. injection Q as -> ->. apply last_none in N. congruence.
  - destruct (key_eqb_spec (nseq k) j) as [<-|Nj]; split.
    + intros Q. injection Q as ->. exists k. split; [left; reflexivity|reflexivity].
    + intros (k' & [Q|I] & Q'); [congruence|]. exfalso. apply N. rewrite <- Q'. apply in_map, in_map_iff. exists (k', w). split; [reflexivity|exact I].
    + discriminate.
    + intros (k' & [Q|I] & Q'); [congruence|]. apply IH; eauto.
Qed.
Lemma last_perm l l' j : NoDup (map nseq (map fst l)) -> Permutation l' l -> last_change l' j = last_change l j.
Proof.
  intros ND P. assert (ND' : NoDup (map nseq (map fst l'))) by (eapply Permutation_NoDup; [|exact ND]; apply Permutation_map, Permutation_map, Permutation_sym, P).
  destruct (last_change l j) as [w|] eqn:E.
  - apply (last_in l j w ND) in E. destruct E as (k & I & Q). apply (last_in l' j w ND'). exists k. split; [|exact Q]. eapply Permutation_in; [apply Permutation_sym, P|exact I].
  - destruct (last_change l' j) as [w|] eqn:E'; [|reflexivity]. apply (last_in l' j w ND') in E'. destruct E' as (k & I & Q).
    assert (X : last_change l j = Some w) by (apply (last_in l j w ND); exists k; split; [eapply Permutation_in; [exact P|exact I]|exact Q]). congruence.
Qed.

Lemma compact_in U ops ops' : Forall (op_in U) ops -> Permutation ops' (compact ops) -> Forall (op_in U) ops' /\ Forall (get_long_key U) ops'.
Proof.
  intros F P.
  assert (X : Forall (fun o => op_in U o /\ get_long_key U o) (compact ops)).
  { unfold compact. apply Forall_forall. intros o I. apply in_map_iff in I. destruct I as ([k w] & <- & I). apply lasts_sub in I. unfold changes in I. apply in_flat_map in I. destruct I as (o & Io & I).
    rewrite Forall_forall in F. specialize (F o Io). destruct o as [k' v'|l|k'|k']; cbn [changes_of op_in] in *.
    - destruct I as [Q|[]]. injection Q as <- <-. split; [exact F|exact Logic.I].
    - apply in_map_iff in I. destruct I as (e & Q & I). injection Q as <- <-. rewrite Forall_forall in F. split; [exact (F e I)|exact Logic.I].
    - destruct I as [Q|[]]. injection Q as <- <-. split; [exact F|exact Logic.I].
    - destruct I. }
  rewrite Forall_forall in X. split; apply Forall_forall; intros o I; apply X; eapply Permutation_in; eauto.
Qed.

(** So a history can be cut down to one operation for each key that it changes, in any order. *)
Theorem C89_compact : forall pr pr' U t ops ops',
  prefix_free U -> free_trie U t -> Forall (op_in U) ops -> Forall (get_long_key U) ops -> Permutation ops' (compact ops) ->
  NoDup (map nseq (flat_map touched ops')) /\
  match trie_ops pr t ops with
  | Ok (t1, _) => exists ys, trie_ops pr' t ops' = Ok (t1, ys)
  | Panic => trie_ops pr' t ops' = Panic
  end.
Proof.
  intros pr pr' U t ops ops' PF Ft F G P. destruct (compact_in U ops ops' F P) as [F' G'].
  assert (Pc : Permutation (changes ops') (lasts (changes ops))).
  { rewrite <- (changes_map (lasts (changes ops))). unfold changes at 1 2. apply Permutation_flat_map. exact P. }
  assert (L : forall j, last_change (changes ops') j = last_change (changes ops) j) by (intros j; rewrite (last_perm _ _ j (lasts_nodup _) Pc); apply last_lasts).
  split.
  - rewrite <- changes_touched. eapply Permutation_NoDup; [|apply (lasts_nodup (changes ops))]. apply Permutation_map, Permutation_map, Permutation_sym, Pc.
  - destruct (trie_ops pr t ops) as [[t1 xs]|] eqn:E; [exact (C89_net pr pr' U t ops ops' t1 xs PF Ft F F' G' L E)|].
    destruct (trie_ops pr' t ops') as [[t2 ys]|] eqn:E'; [|reflexivity]. destruct (C89_net pr' pr U t ops' ops t2 ys PF Ft F' F G (fun j => eq_sym (L j)) E') as (zs & Q). congruence.
Qed.
Print Assumptions C89_compact.

(** Callers that work apart, each with keys of its own (C88), can hand in what they changed when they are done, one after the other: that gives the trie that taking
    turns gives. *)
Lemma last_cons o ops j : last_change (changes (o :: ops)) j = match last_change (changes ops) j with Some x => Some x | None => last_change (changes_of o) j end.
Proof. unfold changes. cbn [flat_map]. apply last_app. Qed.
Lemma last_of_none o j : ~ In j (map nseq (touched o)) -> last_change (changes_of o) j = None.
Proof. intros N. apply last_none. pose proof (changes_touched [o]) as Q. unfold changes in Q. cbn [flat_map] in Q. rewrite !app_nil_r in Q. rewrite Q. exact N. Qed.
Lemma last_own ks c i k : apart ks -> owned ks c -> In k (ks i) -> last_change (changes (map snd c)) (nseq k) = last_change (changes (of i c)) (nseq k).
Proof.
  intros Ap Ow I. induction Ow as [|[j o] c Oo Oc IH]; [reflexivity|]. cbn [map snd fst] in *. rewrite of_cons, last_cons, IH. destruct (Nat.eqb_spec j i) as [<-|N]; [rewrite last_cons; reflexivity|].
  rewrite last_of_none; [destruct (last_change (changes (of i c)) (nseq k)); reflexivity|]. intros Q. apply in_map_iff in Q. destruct Q as (k' & Q & J). exact (Ap j i k' k N (on_touched ks j o k' Oo J) I Q).
Qed.
Lemma last_flat (g : nat -> list op) (is : list nat) j : last_change (changes (flat_map g is)) j = last_change (flat_map (fun i => changes (g i)) is) j.
Proof.
  f_equal. induction is as [|i is IH]; [reflexivity|]. cbn [flat_map]. rewrite <- IH. unfold changes. apply flat_map_app.
Qed.
Lemma last_one (g : nat -> list (nibbles * option (list N))) is i j : In i is -> (forall i', In i' is -> i' <> i -> last_change (g i') j = None) -> last_change (flat_map g is) j = last_change (g i) j.
Proof.
  assert (Z : forall is, (forall i', In i' is -> i' <> i -> last_change (g i') j = None) -> last_change (flat_map g is) j = if in_dec Nat.eq_dec i is then last_change (g i) j else None).
  { clear is. induction is as [|i' is IH]; intros H; [reflexivity|]. cbn [flat_map]. rewrite last_app, IH by (intros; apply H; [right|]; assumption).
    destruct (Nat.eq_dec i' i) as [->|N].
    - destruct (in_dec Nat.eq_dec i is), (in_dec Nat.eq_dec i (i :: is)) as [Y|Y]; try (exfalso; apply Y; left; reflexivity); [|reflexivity]. destruct (last_change (g i) j); reflexivity.
    - rewrite (H i' (or_introl eq_refl) N). destruct (in_dec Nat.eq_dec i is) as [Y|Y], (in_dec Nat.eq_dec i (i' :: is)) as [Y'|Y']; try reflexivity.
      + destruct (last_change (g i) j); reflexivity.
      + exfalso. apply Y'. right. exact Y.
      + destruct Y' as [Q|Q]; [destruct (N Q)|destruct (Y Q)]. }
  intros I H. rewrite (Z is H). destruct (in_dec Nat.eq_dec i is) as [|Y]; [reflexivity|destruct (Y I)].
Qed.

Theorem C89_parallel : forall pr pr' U ks t c t1 xs is,
  prefix_free U -> free_trie U t -> (forall i, Forall kwf (ks i)) -> (forall i k, In k (ks i) -> U (nseq k)) -> apart ks -> owned ks c ->
  trie_ops pr t (map snd c) = Ok (t1, xs) -> (forall e, In e c -> In (fst e) is) ->
  exists ys, trie_ops pr' t (flat_map (fun i => compact (of i c)) is) = Ok (t1, ys).
Proof.
  intros pr pr' U ks t c t1 xs is PF Ft Kw Ku Ap Ow E Is.
  assert (X : forall i, Forall (op_in U) (compact (of i c)) /\ Forall (get_long_key U) (compact (of i c))).
  { intros i. apply (compact_in U (of i c)); [apply (owned_of U ks Kw Ku c i Ow)|apply Permutation_refl]. }
  apply (C89_net pr pr' U t (map snd c) _ t1 xs PF Ft (owned_in U ks Kw Ku c Ow)); [| | |exact E].
  - apply Forall_forall. intros o I. apply in_flat_map in I. destruct I as (i & _ & I). destruct (X i) as [F _]. rewrite Forall_forall in F. auto.
  - apply Forall_forall. intros o I. apply in_flat_map in I. destruct I as (i & _ & I). destruct (X i) as [_ F]. rewrite Forall_forall in F. auto.
  - intros j. rewrite last_flat.
    assert (Y : forall i j, last_change (changes (compact (of i c))) j = last_change (changes (of i c)) j) by (intros i j'; unfold compact; rewrite changes_map; apply last_lasts).
    destruct (last_change (changes (map snd c)) j) as [w|] eqn:L.
    + assert (J : In j (map nseq (map fst (changes (map snd c))))).
      { destruct (in_dec (list_eq_dec N.eq_dec) j (map nseq (map fst (changes (map snd c))))) as [J|J]; [exact J|]. apply last_none in J. congruence. }
      rewrite changes_touched in J. apply in_map_iff in J. destruct J as (k & <- & J). apply in_flat_map in J. destruct J as (o & Io & J). apply in_map_iff in Io. destruct Io as ([i o'] & Q & Io). cbn [snd] in Q. subst o'.
      pose proof Ow as Ow'. unfold owned in Ow'. rewrite Forall_forall in Ow'. pose proof (on_touched ks i o k (Ow' _ Io) J) as I.
      rewrite (last_one _ is i (nseq k)); [rewrite Y, <- (last_own ks c i k Ap Ow I); exact L|exact (Is _ Io)|].
      intros i' _ N. rewrite Y. apply last_none. rewrite changes_touched. intros Q. apply in_map_iff in Q. destruct Q as (k' & Q & J'). apply in_flat_map in J'. destruct J' as (o' & Io' & J').
      unfold of in Io'. apply in_map_iff in Io'. destruct Io' as ([i2 o2] & Qo & Io'). apply filter_In in Io'. destruct Io' as [Io' B]. cbn [fst snd] in *. apply Nat.eqb_eq in B. subst i2 o2.
      exact (Ap i' i k' k N (on_touched ks i' o' k' (Ow' _ Io') J') I Q).
    + apply last_none. apply last_none in L. rewrite changes_touched in L. intros Q. apply L. apply in_map_iff in Q. destruct Q as (k & <- & Q). apply in_map.
      apply in_map_iff in Q. destruct Q as (e & <- & Q). apply in_flat_map in Q. destruct Q as (i & _ & Q). unfold compact in Q. rewrite changes_map in Q. apply lasts_sub in Q.
      rewrite <- changes_touched. apply in_map. unfold changes in *. apply in_flat_map in Q. destruct Q as (o & Io & Q). apply in_flat_map. exists o. split; [|exact Q].
      unfold of in Io. apply in_map_iff in Io. destruct Io as (e' & <- & Io). apply filter_In in Io. apply in_map, Io.
Qed.
Print Assumptions C89_parallel.

(** The same with the trie that caches its hashes. *)
Theorem C89_cached : forall keccak pr U l t ops ops' t1 xs h,
  prefix_free U -> from_iter pr l = Ok t -> free_trie U t -> Forall (op_in U) ops -> Permutation ops' (compact ops) -> trie_ops pr t ops = Ok (t1, xs) -> hash_trie keccak pr t1 = Ok h ->
  exists hs hs' ys,
    start keccak pr ([New l] ++ map (on 0) ops ++ [HashOf 0]) = Ok (hs, [Done] ++ map seen xs ++ [Digest h]) /\
    start keccak pr ([New l] ++ map (on 0) ops' ++ [HashOf 0]) = Ok (hs', [Done] ++ map seen ys ++ [Digest h]) /\
    map erase hs = map erase hs'.
Proof.
  intros keccak pr U l t ops ops' t1 xs h PF El Ft F P E Eh. destruct (compact_in U ops ops' F P) as [F' G'].
  assert (Pc : Permutation (changes ops') (lasts (changes ops))).
  { rewrite <- (changes_map (lasts (changes ops))). unfold changes at 1 2. apply Permutation_flat_map. exact P. }
  assert (L : forall j, last_change (changes ops') j = last_change (changes ops) j) by (intros j; rewrite (last_perm _ _ j (lasts_nodup _) Pc); apply last_lasts).
  destruct (C89_net pr pr U t ops ops' t1 xs PF Ft F F' G' L E) as (ys & E').
  destruct (run_hashed keccak pr l t ops t1 xs h El E Eh) as (hs & A & B). destruct (run_hashed keccak pr l t ops' t1 ys h El E' Eh) as (hs' & A' & B').
  exists hs, hs', ys. split; [exact A|]. split; [exact A'|]. congruence.
Qed.
Print Assumptions C89_cached.

(** With keys that are the start of others it is false: the key 1 takes the place of 123, or the other way round. *)
Theorem C89_refuted : forall pr, exists t a b t1 xs t2 ys,
  reach pr t /\ (forall j, last_change (changes a) j = last_change (changes b) j) /\
  trie_ops pr t a = Ok (t1, xs) /\ trie_ops pr t b = Ok (t2, ys) /\ lk t1 [1;2;3] = Some (Val [7]) /\ lk t2 [1;2;3] = Some (Val [9]).
Proof.
  intros pr. set (l := [(K 4 0x1234, Val [1]); (K 4 0x1235, Val [2])]).
  exists (okn (from_iter Debug l)), [OInsert (K 1 1) [9]; OInsert (K 3 0x123) [7]], [OInsert (K 3 0x123) [7]; OInsert (K 1 1) [9]]. do 4 eexists.
  assert (E : trie_extend Debug Empty l = Ok (okn (from_iter Debug l))) by (vm_compute; reflexivity).
  assert (Fl : Forall pentry l).
  { unfold l. repeat (apply Forall_cons; [split; [split; vm_compute; (reflexivity || (intro; discriminate))|discriminate]|]). apply Forall_nil. }
  destruct (extend_canon Debug l Empty _ (wf_empty 64) cn_empty Fl E) as [W C].
  split; [apply reach_start; assumption|]. split; [intros j; cbn [changes flat_map changes_of app last_change]; destruct (key_eqb_spec (nseq (K 1 1)) j) as [<-|]; [vm_compute; reflexivity|]; destruct (key_eqb (nseq (K 3 0x123)) j); reflexivity|].
  split; [destruct pr; vm_compute; reflexivity|]. split; [destruct pr; vm_compute; reflexivity|]. split; vm_compute; reflexivity.
Qed.
Print Assumptions C89_refuted.

(** The history of C87 on its partial trie, with keys changed twice, and another history with the same last changes. *)
Definition net_ops : list op := roll_ops ++ [OInsert (K 4 0x3333) [4]; ODelete (K 4 0x2134)].
Definition net_ops' : list op := [ODelete (K 4 0x2134); OInsert (K 4 0x1256) [8]; OInsert (K 4 0x3333) [4]; OInsert (K 4 0x1234) [5]].
Example C89_example : prefix_free (fun k => length k = 4%nat) /\ free_trie (fun k => length k = 4%nat) roll_trie /\
  Forall (op_in (fun k => length k = 4%nat)) net_ops /\ Forall (get_long_key (fun k => length k = 4%nat)) net_ops /\ Permutation net_ops' (compact net_ops) /\ compact net_ops <> net_ops' /\
  exists t1 xs, trie_ops Debug roll_trie net_ops = Ok (t1, xs) /\ t1 <> roll_trie /\ exists ys, trie_ops Release roll_trie net_ops' = Ok (t1, ys).
Proof.
  destruct C87_example as (PF & _ & Ft & _). assert (Fo : Forall (op_in (fun k => length k = 4%nat)) net_ops).
  { unfold net_ops, roll_ops. cbn [app]. repeat (apply Forall_cons; [cbn [op_in]; repeat first [apply Forall_nil|apply Forall_cons|split]; vm_compute; (reflexivity || discriminate || (intro; discriminate))|]). apply Forall_nil. }
  assert (G : Forall (get_long_key (fun k => length k = 4%nat)) net_ops) by (unfold net_ops, roll_ops; cbn [app]; repeat (apply Forall_cons; [cbn [get_long_key]; try exact Logic.I; intros j ->; vm_compute; lia|]); apply Forall_nil).
  assert (Ec : compact net_ops = [OInsert (K 4 0x1234) [5]; OInsert (K 4 0x1256) [8]; OInsert (K 4 0x3333) [4]; ODelete (K 4 0x2134)]) by (vm_compute; reflexivity).
  assert (P : Permutation net_ops' (compact net_ops)).
  { rewrite Ec. unfold net_ops'. set (a := OInsert (K 4 0x1234) [5]). set (b := OInsert (K 4 0x1256) [8]). set (c := OInsert (K 4 0x3333) [4]). set (d := ODelete (K 4 0x2134)).
    apply (Permutation_trans (l' := [b; c; a; d])); [exact (Permutation_cons_append [b; c; a] d)|].
    apply Permutation_sym. exact (Permutation_middle [b; c] [d] a). }
  split; [exact PF|]. split; [exact Ft|]. split; [exact Fo|]. split; [exact G|]. split; [exact P|]. split; [rewrite Ec; discriminate|].
  assert (B : match trie_ops Debug roll_trie net_ops with Ok (t1, _) => negb (node_eqb t1 roll_trie) | _ => false end = true) by (vm_compute; reflexivity).
  destruct (C89_compact Debug Release _ roll_trie net_ops net_ops' PF Ft Fo G P) as [_ X].
  destruct (trie_ops Debug roll_trie net_ops) as [[t1 xs]|]; [|discriminate]. exists t1, xs. split; [reflexivity|]. split; [|exact X].
  intros ->. assert (Q : node_eqb roll_trie roll_trie = true) by (apply node_eqb_spec; reflexivity). rewrite Q in B. discriminate.
Qed.

(** The two callers of C88. *)
Example C89_parallel_example : exists t1 xs ys,
  trie_ops Debug roll_trie (map snd two_c) = Ok (t1, xs) /\ trie_ops Release roll_trie (flat_map (fun i => compact (of i two_c)) [1; 0]%nat) = Ok (t1, ys).
Proof.
  destruct C88_example as (PF & Ft & _ & Kw & Ku & Ap & Ow & _ & _ & _ & (t1 & xs & E) & _).
  destruct (C89_parallel Debug Release (fun k => length k = 4%nat) two_ks roll_trie two_c t1 xs [1; 0]%nat PF Ft Kw Ku Ap Ow E) as (ys & E').
  - intros e. cbn [two_c In]. intros H. repeat (destruct H as [<-|H]; [cbn [fst In]; tauto|]). destruct H.
  - exists t1, xs, ys. split; [exact E|exact E'].
Qed.
