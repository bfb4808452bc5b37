(** Insertion of a list of entries, in any order. *)
From Verif Require Import Base Nibbles NibblesSpec NibblesFacts NibblesFacts2 NibblesFacts3 Trie TrieSpec TrieHistSpec TrieFacts TrieInsert TrieGet TrieDelete TrieUnique TrieIter TrieHist TrieObs HashSpec OrderSpec.
From Coq Require Import Permutation.
Open Scope N_scope.

Definition vtrie (t : node) : Prop := wf 64 t /\ canon t /\ hash_free t.

Lemma vtrie_empty : vtrie Empty.
Proof. split; [constructor|]. split; [constructor|]. intros k h. discriminate. Qed.

Lemma vinsert pr t k v : vtrie t -> kwf k -> v <> [] ->
  exists t', trie_insert pr t k (Val v) = Ok t' /\ vtrie t' /\
    forall j, lk t' j = if key_eqb (eff t (nseq k)) j then Some (Val v) else lk t j.
Proof.
  intros (W & C & HF) Hk Hv. destruct (tinsert pr t k (Val v) W (canon_shape _ C) Hk Hv) as [(t' & E & (P1 & _ & _ & P4 & P5) & _)|[_ B]].
  - exists t'. split; [exact E|]. split; [|exact P5]. split; [exact P1|]. split; [auto|].
    intros j h. rewrite P5. destruct (key_eqb _ _); [discriminate|apply HF].
  - exfalso. destruct B as [(p & h & B & _)|[[] _]]. exact (HF _ _ B).
Qed.

(** ** Orders in which every insertion lands at its key *)
Lemma run_ok pr l : forall t, vtrie t -> Forall ok_entry l ->
  (forall a k v b, l = a ++ (k, v) :: b -> forall t1, vtrie t1 -> (forall j, stored t1 j -> stored t j \/ In j (keys a)) -> insertable t1 (nseq k)) ->
  exists t', trie_extend pr t (vals l) = Ok t' /\ vtrie t' /\
    forall j, lk t' j = match last_value l j with Some v => Some (Val v) | None => lk t j end.
Proof.
  induction l as [|[k v] l IH]; intros t V F H.
  - exists t. split; [reflexivity|]. split; [exact V|reflexivity].
  - inversion F as [|? ? [Hk Hv] F']; subst. cbn [fst snd] in *.
    destruct (vinsert pr t k v V Hk Hv) as (t1 & E1 & V1 & P1).
    assert (Ee : eff t (nseq k) = nseq k).
    { apply (eff_insertable t 64); [apply V|apply V|]. apply (H [] k v l eq_refl t V). auto. }
    rewrite Ee in P1.
    destruct (IH t1 V1 F') as (t' & E' & V' & P').
    { intros a k' v' b -> t2 V2 S2. apply (H ((k, v) :: a) k' v' b eq_refl t2 V2). intros j Sj. apply S2 in Sj.
      cbn [keys map fst]. destruct Sj as [Sj|Sj]; [|right; right; exact Sj]. unfold stored in Sj. rewrite P1 in Sj.
      destruct (key_eqb_spec (nseq k) j) as [->|]; [right; left; reflexivity|left; exact Sj]. }
    exists t'. cbn [vals map fst snd trie_extend]. rewrite E1. cbn [bind]. split; [exact E'|]. split; [exact V'|].
    intros j. rewrite P', P1. cbn [last_value]. destruct (last_value l j); [reflexivity|]. destruct (key_eqb _ _); reflexivity.
Qed.

Lemma strict_split k j : strict_prefix k j -> exists x r, j = k ++ x :: r.
Proof. intros (x & r & ->). eauto. Qed.

(** If at most one of the stored keys continues [k] with any one nibble, [k] can be inserted. *)
Lemma spaced_insertable t k : vtrie t ->
  (forall x r s, stored t (k ++ x :: r) -> stored t (k ++ x :: s) -> r = s) -> insertable t k.
Proof.
  intros (W & C & HF) H. set (P := fun j => strict_prefix k j).
  destruct (existsb (fun e => key_eqb k (fst e)) (entries t)) eqn:E0.
  { left. apply existsb_exists in E0. destruct E0 as ((j & e) & I & E). cbn [fst] in E. destruct (key_eqb_spec k j) as [<-|]; [|discriminate].
    apply entries_lk in I. unfold stored. congruence. }
  assert (N0 : ~ stored t k).
  { intros S. unfold stored in S. destruct (lk t k) as [e|] eqn:E; [|congruence]. apply entries_lk in E.
    assert (existsb (fun e => key_eqb k (fst e)) (entries t) = true); [|congruence].
    apply existsb_exists. exists (k, e). split; [exact E|]. apply key_eqb_refl. }
  clear E0.
  destruct (existsb (fun e => match strip k (fst e) with Some (_ :: _) => true | _ => false end) (entries t)) eqn:E1.
  - apply existsb_exists in E1. destruct E1 as ((j & e) & I & E). cbn [fst] in E. destruct (strip k j) as [[|x r]|] eqn:Es; try discriminate.
    apply strip_some in Es. subst j. apply entries_lk in I.
    assert (Sx : stored t (k ++ x :: r)) by (unfold stored; congruence).
    destruct (existsb (fun e => match strip k (fst e) with Some (y :: _) => negb (N.eqb x y) | _ => false end) (entries t)) eqn:E2.
    + right. right. left. apply existsb_exists in E2. destruct E2 as ((j & e') & I' & E'). cbn [fst] in E'.
      destruct (strip k j) as [[|y s]|] eqn:Es; try discriminate. apply strip_some in Es. subst j. apply entries_lk in I'.
      exists x, y, r, s. split; [intros ->; rewrite N.eqb_refl in E'; discriminate|]. split; [exact Sx|]. unfold stored. congruence.
    + right. right. right. destruct e as [v|h]; [|exfalso; exact (HF _ _ I)].
      exists (k ++ x :: r), v. split; [exists x, r; reflexivity|]. split; [exact I|].
      intros j Sj [s ->]. destruct s as [|y s]; [rewrite app_nil_r in Sj; contradiction|].
      destruct (N.eq_dec x y) as [->|D]; [f_equal; f_equal; symmetry; eapply H; eassumption|]. exfalso.
      unfold stored in Sj. destruct (lk t (k ++ y :: s)) as [e|] eqn:Ey; [|congruence]. apply entries_lk in Ey.
      assert (existsb (fun e => match strip k (fst e) with Some (y :: _) => negb (N.eqb x y) | _ => false end) (entries t) = true); [|congruence].
      apply existsb_exists. exists (k ++ y :: s, e). split; [exact Ey|]. cbn [fst]. rewrite strip_app.
      destruct (N.eqb_spec x y); [contradiction|reflexivity].
  - right. left. intros j Sj (y & s & ->). unfold stored in Sj. destruct (lk t (k ++ y :: s)) as [e|] eqn:Ey; [|congruence]. apply entries_lk in Ey.
    assert (existsb (fun e => match strip k (fst e) with Some (_ :: _) => true | _ => false end) (entries t) = true); [|congruence].
    apply existsb_exists. exists (k ++ y :: s, e). split; [exact Ey|]. cbn [fst]. rewrite strip_app. reflexivity.
Qed.

(** ** Counting: if all keys end up stored, every insertion landed at its key *)
Definition total (ks : list (list N)) : nat := fold_right (fun k n => (length k + n)%nat) 0%nat ks.

Lemma total_perm a b : Permutation a b -> total a = total b.
Proof. induction 1; cbn [total fold_right] in *; unfold total in *; lia. Qed.

Lemma in_keys t j : In j (map fst (entries t)) <-> stored t j.
Proof.
  rewrite in_map_iff. unfold stored. split.
  - intros ((j' & e) & <- & I). apply entries_lk in I. cbn. congruence.
  - intros S. destruct (lk t j) as [e|] eqn:E; [|congruence]. exists (j, e). split; [reflexivity|]. apply entries_lk. exact E.
Qed.

Lemma step_keys pr t k v t' : vtrie t -> kwf k -> v <> [] -> trie_insert pr t k (Val v) = Ok t' ->
  vtrie t' /\ (forall j, lk t' j = if key_eqb (eff t (nseq k)) j then Some (Val v) else lk t j) /\
  (Permutation (map fst (entries t')) (map fst (entries t)) \/ Permutation (map fst (entries t')) (eff t (nseq k) :: map fst (entries t))).
Proof.
  intros V Hk Hv E. destruct (vinsert pr t k v V Hk Hv) as (t1 & E1 & V1 & P1). assert (t1 = t') by congruence. subst t1.
  split; [exact V1|]. split; [exact P1|]. set (q := eff t (nseq k)) in *.
  assert (S : forall j, stored t' j <-> q = j \/ stored t j).
  { intros j. unfold stored. rewrite P1. destruct (key_eqb_spec q j) as [->|D]; [split; [auto|discriminate]|tauto]. }
  destruct (in_dec (list_eq_dec N.eq_dec) q (map fst (entries t))) as [I|I].
  - left. apply NoDup_Permutation; try apply entries_nodup. intros j. rewrite !in_keys, S. apply in_keys in I. intuition congruence.
  - right. apply NoDup_Permutation; [apply entries_nodup|constructor; [exact I|apply entries_nodup]|].
    intros j. cbn [In]. rewrite !in_keys, S. reflexivity.
Qed.

Lemma run_count pr l : forall t t', vtrie t -> Forall ok_entry l -> trie_extend pr t (vals l) = Ok t' ->
  vtrie t' /\
  (length (entries t') <= length (entries t) + length l)%nat /\
  (length (entries t') = (length (entries t) + length l)%nat ->
   (total (map fst (entries t)) + total (keys l) <= total (map fst (entries t')))%nat /\
   (total (map fst (entries t')) = (total (map fst (entries t)) + total (keys l))%nat ->
    forall a k v b, l = a ++ (k, v) :: b -> exists t1, trie_extend pr t (vals a) = Ok t1 /\ vtrie t1 /\ eff t1 (nseq k) = nseq k)).
Proof.
  induction l as [|[k v] l IH]; intros t t' V F E.
  - cbn in E. assert (t = t') by congruence. subst. split; [exact V|]. cbn [length keys map total fold_right].
    split; [lia|]. intros _. split; [lia|]. intros _ a k v b Q. destruct a; discriminate.
  - inversion F as [|? ? [Hk Hv] F']; subst. cbn [fst snd vals map trie_extend] in *.
    destruct (trie_insert pr t k (Val v)) as [t1|] eqn:E1; cbn [bind] in E; [|discriminate].
    destruct (step_keys pr t k v t1 V Hk Hv E1) as (V1 & P1 & Pm). destruct (IH t1 t' V1 F' E) as (V' & Le & Eq).
    split; [exact V'|]. cbn [length]. rewrite <- !(map_length fst) in *.
    destruct (eff_prefix t (nseq k)) as [r Er].
    assert (Lq : length (eff t (nseq k)) = (length (nseq k) + length r)%nat) by (rewrite Er; apply app_length).
    destruct Pm as [Pm|Pm]; pose proof (Permutation_length Pm) as Lm; pose proof (total_perm _ _ Pm) as Tm; cbn [length total fold_right] in Lm, Tm; fold (total (map fst (entries t))) in Tm.
    { split; [lia|]. intros Q. lia. }
    split; [lia|]. intros Q. destruct Eq as [Eq1 Eq2]; [lia|]. cbn [keys map total fold_right fst]. fold (keys l). fold (total (keys l)).
    split; [lia|]. intros T. assert (r = []) by (destruct r; [reflexivity|cbn [length] in Lq; lia]). subst r. rewrite app_nil_r in Er.
    intros [|[k0 v0] a] k' v' b Q'; cbn [app] in Q'.
    + injection Q' as <- <- <-. exists t. split; [reflexivity|]. auto.
    + injection Q' as <- <- ->. destruct (Eq2 ltac:(lia) a k' v' b eq_refl) as (t2 & E2 & V2 & Ee). exists t2.
      cbn [vals map fst snd trie_extend]. rewrite E1. cbn [bind]. auto.
Qed.

(** ** The three orders *)
Lemma spaced_keys ks : ~ crowded ks -> forall k x r s, In k ks -> In (k ++ x :: r) ks -> In (k ++ x :: s) ks -> r = s.
Proof.
  intros NC k x r s Ik Ir Is. destruct (list_eq_dec N.eq_dec r s) as [|D]; [assumption|]. exfalso. apply NC. exists k, x, r, s. auto.
Qed.

Lemma run_spaced pr l : Forall ok_entry l -> ~ crowded (keys l) ->
  exists t, from_iter pr (vals l) = Ok t /\ vtrie t /\ holds t (last_value l).
Proof.
  intros F NC. destruct (run_ok pr l Empty vtrie_empty F) as (t & E & V & P).
  - intros a k v b -> t1 V1 S1. apply spaced_insertable; [exact V1|]. intros x r s Sr Ss.
    apply S1 in Sr, Ss. destruct Sr as [Sr|Sr]; [exfalso; exact (not_stored_empty _ Sr)|]. destruct Ss as [Ss|Ss]; [exfalso; exact (not_stored_empty _ Ss)|].
    unfold keys in *. rewrite map_app in NC. apply (spaced_keys _ NC (nseq k) x); apply in_or_app; [right; left; reflexivity|left; exact Sr|left; exact Ss].
  - exists t. split; [exact E|]. split; [exact V|]. intros j. rewrite P. destruct (last_value l j); reflexivity.
Qed.

Lemma short_first_app a e b : short_first (a ++ e :: b) -> forall f, In f a -> (length (nseq (fst f)) <= length (nseq (fst e)))%nat.
Proof.
  induction a as [|f a IH]; intros H g I; [contradiction|]. destruct H as [H1 H2]. destruct I as [<-|I]; [|apply IH; assumption].
  apply H1. apply in_or_app. right. left. reflexivity.
Qed.

Lemma run_short pr l : Forall ok_entry l -> short_first l ->
  exists t, from_iter pr (vals l) = Ok t /\ vtrie t /\ holds t (last_value l).
Proof.
  intros F SF. destruct (run_ok pr l Empty vtrie_empty F) as (t & E & V & P).
  - intros a k v b -> t1 V1 S1. right. left. intros j Sj (x & r & ->).
    apply S1 in Sj. destruct Sj as [Sj|Sj]; [exact (not_stored_empty _ Sj)|].
    unfold keys in Sj. apply in_map_iff in Sj. destruct Sj as (f & Ef & If).
    pose proof (short_first_app a (k, v) b SF f If) as Lf. rewrite Ef, app_length in Lf. cbn [fst length] in Lf. lia.
  - exists t. split; [exact E|]. split; [exact V|]. intros j. rewrite P. destruct (last_value l j); reflexivity.
Qed.

Lemma last_value_in l k : NoDup (keys l) -> forall v, last_value l k = Some v <-> exists j, In (j, v) l /\ nseq j = k.
Proof.
  unfold keys. induction l as [|[j w] l IH]; intros ND v; cbn [last_value].
  - split; [discriminate|intros (? & [] & _)].
  - cbn [map fst] in ND. inversion ND as [|? ? N1 N2]; subst. specialize (IH N2). destruct (last_value l k) as [u|] eqn:El.
    + split.
      * intros Q. assert (u = v) by congruence. subst. destruct (proj1 (IH v) eq_refl) as (i & Hi & Ei). exists i. split; [right; exact Hi|exact Ei].
      * intros (i & [Hi|Hi] & Ei).
        -- exfalso. destruct (proj1 (IH u) eq_refl) as (i' & Hi' & Ei'). apply N1. apply in_map_iff. exists (i', u). split; [cbn; congruence|exact Hi'].
        -- apply IH. eauto.
    + destruct (key_eqb_spec (nseq j) k) as [Ej|Nj]; split.
      * intros Q. exists j. split; [left; congruence|exact Ej].
      * intros (i & [Hi|Hi] & Ei); [congruence|]. assert (None = Some v) by (apply IH; eauto). discriminate.
      * discriminate.
      * intros (i & [Hi|Hi] & Ei); [congruence|]. assert (None = Some v) by (apply IH; eauto). discriminate.
Qed.

Lemma last_value_perm l l' : NoDup (keys l) -> Permutation l l' -> forall k, last_value l k = last_value l' k.
Proof.
  intros ND P k. assert (ND' : NoDup (keys l')) by (eapply Permutation_NoDup; [apply Permutation_map; exact P|exact ND]).
  assert (X : forall v, last_value l k = Some v <-> last_value l' k = Some v).
  { intros v. rewrite !last_value_in by assumption. split; intros (j & Hj & Ej); exists j; (split; [|exact Ej]).
    - eapply Permutation_in; [exact P|exact Hj].
    - eapply Permutation_in; [apply Permutation_sym; exact P|exact Hj]. }
  destruct (last_value l k) as [v|] eqn:A.
  - symmetry. apply X. reflexivity.
  - destruct (last_value l' k) as [v|] eqn:B; [|reflexivity]. exact (proj2 (X v) eq_refl).
Qed.

Lemma holds_unique t t' m m' : vtrie t -> vtrie t' -> holds t m -> holds t' m' -> (forall k, m k = m' k) -> t = t'.
Proof. intros (W & C & _) (W' & C' & _) H H' E. apply (canon_unique t 64 t' W W' C C'). intros k. rewrite H, H', E. reflexivity. Qed.

Fixpoint place (e : nibbles * list N) (l : list (nibbles * list N)) : list (nibbles * list N) :=
  match l with
  | [] => [e]
  | f :: l' => if Nat.leb (length (nseq (fst e))) (length (nseq (fst f))) then e :: l else f :: place e l'
  end.
Lemma place_perm e l : Permutation (e :: l) (place e l).
Proof.
  induction l as [|f l IH]; cbn [place]; [reflexivity|]. destruct (Nat.leb _ _); [reflexivity|].
  rewrite perm_swap. constructor. exact IH.
Qed.
Lemma place_short e l : short_first l -> short_first (place e l).
Proof.
  induction l as [|f l IH]; cbn [place]; intros H; [cbn; split; [contradiction|exact I]|].
  destruct H as [H1 H2]. destruct (Nat.leb_spec (length (nseq (fst e))) (length (nseq (fst f)))) as [Le|Lt].
  - split; [|split; assumption]. intros g [<-|Ig]; [exact Le|]. specialize (H1 g Ig). lia.
  - split; [|auto]. intros g Ig. apply (Permutation_in g (Permutation_sym (place_perm e l))) in Ig. destruct Ig as [<-|Ig]; [lia|auto].
Qed.
Lemma short_order l : exists l', Permutation l l' /\ short_first l'.
Proof.
  induction l as [|e l (l' & P & S)]; [exists []; split; [reflexivity|exact I]|].
  exists (place e l'). split; [|apply place_short; exact S]. rewrite P. apply place_perm.
Qed.

Lemma in_front {A} (x : A) l : In x l -> exists l', Permutation l (x :: l').
Proof. intros I. apply in_split in I. destruct I as (a & b & ->). exists (a ++ b). symmetry. apply Permutation_middle. Qed.

Lemma in_keys_front k l : In k (keys l) -> exists e l', nseq (fst e) = k /\ Permutation l (e :: l').
Proof.
  intros I. unfold keys in I. apply in_map_iff in I. destruct I as (e & E & I). destruct (in_front e l I) as (l' & P). eauto.
Qed.

(** An order of crowded keys in which some key is lost. *)
Lemma run_crowded pr l : Forall ok_entry l -> NoDup (keys l) -> crowded (keys l) ->
  exists l', Permutation l l' /\ forall t, from_iter pr (vals l') = Ok t -> ~ holds t (last_value l).
Proof.
  intros F ND (k & x & r & s & D & Ik & Ir & Is).
  destruct (in_keys_front _ _ Ir) as (e1 & l1 & E1 & P1).
  assert (Nrs : k ++ x :: r <> k ++ x :: s) by (intros Q; apply app_inv_head in Q; congruence).
  assert (Nk : forall z, k ++ x :: z <> k) by (intros z Q; apply (f_equal (@length N)) in Q; rewrite app_length in Q; cbn in Q; lia).
  pose proof (Permutation_map (fun e => nseq (fst e)) P1) as Q1. cbn [map] in Q1. fold (keys l) in Q1. fold (keys l1) in Q1.
  assert (Is1 : In (k ++ x :: s) (keys l1)) by (apply (Permutation_in _ Q1) in Is; destruct Is; [congruence|assumption]).
  assert (Ik1 : In k (keys l1)) by (apply (Permutation_in _ Q1) in Ik; destruct Ik as [Ik|]; [exfalso; apply (Nk r); congruence|assumption]).
  destruct (in_keys_front _ _ Is1) as (e2 & l2 & E2 & P2).
  pose proof (Permutation_map (fun e => nseq (fst e)) P2) as Q2. cbn [map] in Q2. fold (keys l1) in Q2. fold (keys l2) in Q2.
  assert (Ik2 : In k (keys l2)) by (apply (Permutation_in _ Q2) in Ik1; destruct Ik1 as [Ik1|]; [exfalso; apply (Nk s); congruence|assumption]).
  destruct (in_keys_front _ _ Ik2) as (e3 & l3 & E3 & P3).
  assert (P : Permutation l (e1 :: e2 :: e3 :: l3)).
  { rewrite P1. constructor. rewrite P2. constructor. exact P3. }
  exists (e1 :: e2 :: e3 :: l3). split; [exact P|]. intros t E H.
  assert (F' : Forall ok_entry (e1 :: e2 :: e3 :: l3)) by (eapply Permutation_Forall; eauto).
  destruct (run_count pr _ Empty t vtrie_empty F' E) as (V & _ & G).
  assert (PK : Permutation (map fst (entries t)) (keys l)).
  { apply NoDup_Permutation; [apply entries_nodup|exact ND|]. intros j. rewrite in_keys. unfold stored. rewrite H. split.
    - destruct (last_value l j) as [v|] eqn:El; [|cbn; congruence]. intros _. apply last_value_in in El; [|exact ND].
      destruct El as (i & Ii & <-). unfold keys. apply in_map_iff. exists (i, v). auto.
    - intros I. unfold keys in I. apply in_map_iff in I. destruct I as ((i & v) & <- & I). 
      assert (El : last_value l (nseq i) = Some v) by (apply last_value_in; [exact ND|eauto]). cbn [fst]. rewrite El. discriminate. }
  pose proof (Permutation_map (fun e => nseq (fst e)) P) as PQ. fold (keys l) in PQ. fold (keys (e1 :: e2 :: e3 :: l3)) in PQ.
  assert (Len : length (entries t) = length (e1 :: e2 :: e3 :: l3)).
  { rewrite <- (map_length fst), (Permutation_length PK), (Permutation_length PQ). apply map_length. }
  destruct (G Len) as [_ G']. clear G.
  assert (T : total (map fst (entries t)) = total (keys (e1 :: e2 :: e3 :: l3))) by (rewrite (total_perm _ _ PK), (total_perm _ _ PQ); reflexivity).
  specialize (G' T).
  destruct e1 as [k1 v1]. destruct e2 as [k2 v2]. destruct e3 as [k3 v3]. cbn [fst] in *.
  inversion F' as [|? ? [Hk1 Hv1] F1]; subst. inversion F1 as [|? ? [Hk2 Hv2] F2]; subst. cbn [fst snd] in *.
  destruct (G' [] k1 v1 _ eq_refl) as (t0 & A0 & V0 & B0). injection A0 as <-.
  destruct (G' [(k1, v1)] k2 v2 _ eq_refl) as (t1 & A1 & V1 & B1).
  destruct (G' [(k1, v1); (k2, v2)] k3 v3 _ eq_refl) as (t2 & A2 & V2 & B2).
  destruct (vinsert pr Empty k1 v1 vtrie_empty Hk1 Hv1) as (t1' & C1 & _ & D1).
  cbn [vals map fst snd trie_extend] in A1, A2. rewrite C1 in A1, A2. cbn [bind] in A1, A2. assert (t1' = t1) by congruence. subst t1'.
  destruct (vinsert pr t1 k2 v2 V1 Hk2 Hv2) as (t2' & C2 & _ & D2). rewrite C2 in A2. cbn [bind] in A2. assert (t2' = t2) by congruence. subst t2'.
  rewrite B0 in D1. rewrite B1 in D2.
  assert (S2 : forall j, stored t2 j <-> j = nseq k1 \/ j = nseq k2).
  { intros j. unfold stored. rewrite D2, D1. destruct (key_eqb_spec (nseq k2) j); [split; [auto|discriminate]|].
    destruct (key_eqb_spec (nseq k1) j); [split; [auto|discriminate]|]. cbn [lk]. split; [congruence|intuition congruence]. }
  apply (eff_insertable t2 64) in B2; [|apply V2|apply V2]. rewrite E1, E2 in S2.
  set (k := nseq k3) in *.
  destruct B2 as [B|[B|[(y & z & r' & s' & Dyz & B & B')|(q & w & _ & _ & B)]]].
  - apply S2 in B. destruct B as [B|B]; symmetry in B; exact (Nk _ B).
  - apply (B (k ++ x :: r)); [apply S2; auto|exists x, r; reflexivity].
  - apply S2 in B, B'. destruct B as [B|B]; destruct B' as [B'|B']; apply app_inv_head in B, B'; congruence.
  - assert (A : k ++ x :: r = q) by (apply B; [apply S2; auto|exists (x :: r); reflexivity]).
    assert (A' : k ++ x :: s = q) by (apply B; [apply S2; auto|exists (x :: s); reflexivity]). congruence.
Qed.
