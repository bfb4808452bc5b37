(** Facts about the model of the random tests: deletion. *)
From Verif Require Import Base Nibbles NibblesSpec NibblesFacts NibblesFacts2 NibblesFacts3 Trie TrieSpec TrieHistSpec TrieFacts TrieInsert TrieGet TrieDelete TrieUnique TrieIter TrieHist TrieObs HashSpec
  YellowPaper TextFacts OrderSpec OrderFacts OrderExact GetSpec GetExact P_Trie P_Order Cache P_Cache RandomTests RandomFacts RandomFacts2.
From Coq Require Import Permutation.
Open Scope N_scope.

Lemma last_value_tail k v l j : Forall (fun e => kwf (fst e)) ((k, v) :: l) -> ~ In (nseq k) (keys l) ->
  (if key_eqb (nseq k) j then None else last_value ((k, v) :: l) j) = last_value l j.
Proof.
  intros F N. cbn [last_value]. destruct (key_eqb_spec (nseq k) j) as [<-|D]; [|destruct (last_value l j); reflexivity].
  destruct (last_value l (nseq k)) eqn:E; [|reflexivity]. exfalso. apply N, last_value_keys. congruence.
Qed.

Section Del.
Variable U : list N -> Prop.
Hypothesis PF : prefix_free U.

Lemma fork_parts t ks q : (forall j, stored t j <-> In j ks) -> (forall j, In j ks -> U j) -> (fork t q <-> parts ks q).
Proof.
  intros S HU. split.
  - intros [[A (j & B & C)]|(x & y & r & s & D & A & B)]; [exfalso; apply S in A, B; exact (PF q j (HU _ A) (HU _ B) C)|]. exists x, y, r, s. rewrite <- !S. auto.
  - intros (x & y & r & s & D & A & B). right. exists x, y, r, s. rewrite !S. auto.
Qed.
Lemma ends_between_iff t ks k : hash_free t -> (forall j, stored t j <-> In j ks) -> (forall j, In j ks -> U j) ->
  (ends_between ks k <-> exists q p, ends_in t k q p).
Proof.
  intros HF S HU. split.
  - intros (q & p & s & -> & L & Q & A & P). exists q, p. split; [|exists s; auto]. split; [|split; [|split]].
    + destruct Q as [->|(q0 & d & -> & Q)]; [auto|]. right. exists q0, d. split; [reflexivity|]. apply (fork_parts t ks); auto.
    + intros ->. cbn in L. lia.
    + intros j I. apply A, S, I.
    + left. apply (fork_parts t ks); auto.
  - intros (q & p & (Q & N & A & P) & s & -> & L). exists q, p, s. split; [reflexivity|]. split; [exact L|]. split; [|split].
    + destruct Q as [->|(q0 & d & -> & Q)]; [auto|]. right. exists q0, d. split; [reflexivity|]. apply (fork_parts t ks); auto.
    + intros j I. apply A, S, I.
    + destruct P as [P|(h & P)]; [apply (fork_parts t ks) in P; auto|]. exfalso. exact (HF _ _ P).
Qed.

Lemma get_deleted pr t l k : vtrie t -> holds t (last_value l) -> (forall j, In j (keys l) -> U j) -> kwf k -> U (nseq k) -> ~ In (nseq k) (keys l) ->
  (pr = Debug /\ ends_between (keys l) (nseq k) /\ trie_get pr t k = Panic) \/
  ((pr = Release \/ ~ ends_between (keys l) (nseq k)) /\ trie_get pr t k = Ok None).
Proof.
  intros V H HU Hk Uk Nk. pose proof V as (W & C & HF). pose proof (OrderExact.holds_stored t l H) as S.
  destruct (C12_exact_partial t k W C Hk) as [X1 X2].
  pose proof (ends_between_iff t (keys l) (nseq k) HF S HU) as EB.
  assert (NS : forall j v, lk t j = Some (Val v) -> U j) by (intros j v E; apply HU, S; unfold stored; congruence).
  destruct (kwf_ex k Hk) as (d & Ed & Es & Hd & Ld).
  destruct (get_exact t 64 d W ltac:(lia) C Hd ltac:(lia)) as [(q & p & A & _)|(A & _)]; rewrite <- Es in A.
  - destruct (X1 q p A) as [G1 G2]. destruct pr; [left; split; [reflexivity|split; [apply EB; eauto|exact G1]]|]. right. split; [auto|]. rewrite G2. f_equal. unfold beyond.
    destruct (key_eqb p (repeat 0 (length p))); [|reflexivity]. destruct (lk t (q ++ p)) as [[v|h]|] eqn:E; try reflexivity. exfalso.
    destruct A as [(_ & _ & _ & [[[_ (j & B & P)]|(x & y & r & s & _ & B & _)]|(h & B)]) _].
    + apply (PF (q ++ p) j); [eapply NS; eassumption|apply HU, S, B|exact P].
    + apply (PF (q ++ p) ((q ++ p) ++ x :: r)); [eapply NS; eassumption|apply HU, S, B|exists x, r; reflexivity].
    + congruence.
  - right. split; [right; rewrite EB; intros (q & p & B); exact (A q p B)|]. destruct (X2 A pr) as (r & E & G). rewrite E. f_equal. destruct r as [v|]; [|reflexivity]. exfalso.
    destruct (proj1 (G v) eq_refl) as [B|[(j & B & P & _)|(j & B & P & _)]].
    + apply Nk, S. unfold stored. congruence.
    + exact (PF j (nseq k) (NS _ _ B) Uk P).
    + exact (PF (nseq k) j Uk (NS _ _ B) P).
Qed.

Lemma delete_one pr t k v l : vtrie t -> holds t (last_value ((k, v) :: l)) -> (forall j, In j (keys ((k, v) :: l)) -> U j) ->
  Forall (fun e => kwf (fst e)) ((k, v) :: l) -> NoDup (keys ((k, v) :: l)) ->
  exists t', trie_delete pr t k = Ok (t', Some v) /\ vtrie t' /\ holds t' (last_value l).
Proof.
  intros (W & C & HF) H HU F ND. inversion ND as [|? ? N1 N2]; subst. fold (keys l) in *. cbn [fst] in N1.
  assert (I0 : inv U t (last_value ((k, v) :: l))).
  { split; [exact W|]. split; [exact C|]. split; [exact H|]. intros j E. apply HU, last_value_keys, E. }
  assert (Hk : kwf k) by (inversion F; assumption).
  assert (Ev : last_value ((k, v) :: l) (nseq k) = Some v).
  { cbn [last_value]. destruct (last_value l (nseq k)) eqn:E; [exfalso; apply N1, last_value_keys; congruence|]. rewrite key_eqb_refl. reflexivity. }
  destruct (inv_op pr U t _ (ODelete k) PF I0) as (t' & E & (W' & C' & H' & _)).
  { split; [exact Hk|]. apply HU. left. reflexivity. }
  cbn [trie_op spec_op fst snd] in *. rewrite Ev in E. destruct (trie_delete pr t k) as [[t1 w]|]; [|discriminate]. cbn [bind] in E. injection E as -> ->.
  exists t'. split; [reflexivity|].
  assert (H2 : holds t' (last_value l)) by (intros j; rewrite H'; unfold kv_set; rewrite last_value_tail; auto).
  split; [|exact H2]. split; [exact W'|]. split; [exact C'|]. intros j h. rewrite H2. destruct (last_value l j); discriminate.
Qed.

Lemma delete_each_exact pr b : forall a t, vtrie t -> holds t (last_value (a ++ b)) -> (forall j, In j (keys (a ++ b)) -> U j) ->
  Forall (fun e => kwf (fst e)) (a ++ b) -> NoDup (keys (a ++ b)) ->
  (exists t', delete_each pr t a = Ok t' /\ vtrie t' /\ holds t' (last_value b) /\ (pr = Debug -> forall c k v d, a = c ++ (k, v) :: d -> ~ ends_between (keys (d ++ b)) (nseq k))) \/
  (delete_each pr t a = Panic /\ pr = Debug /\ exists c k v d, a = c ++ (k, v) :: d /\ ends_between (keys (d ++ b)) (nseq k)).
Proof.
  induction a as [|[k v] a IH]; intros t V H HU F ND.
  - left. exists t. cbn [delete_each app] in *. repeat split; auto; try apply V. intros _ [|? c] k v d E; discriminate.
  - cbn [app] in *. destruct (delete_one pr t k v (a ++ b) V H HU F ND) as (t1 & E1 & V1 & H1).
    cbn [delete_each]. rewrite E1. cbn [bind]. inversion ND as [|? ? N1 N2]; subst. fold (keys (a ++ b)) in *. cbn [fst] in N1. inversion F as [|? ? Hk F']; subst. cbn [fst] in Hk.
    assert (HU' : forall j, In j (keys (a ++ b)) -> U j) by (intros j I; apply HU; right; exact I).
    destruct (get_deleted pr t1 (a ++ b) k V1 H1 HU' Hk (HU _ (or_introl eq_refl)) N1) as [(-> & EB & G)|(NB & G)]; rewrite G; cbn [bind].
    + right. split; [reflexivity|]. split; [reflexivity|]. exists [], k, v, a. auto.
    + cbn [is_none assert bind]. replace (is_some (Some v) v) with true by (symmetry; apply is_some_iff; reflexivity). cbn [assert bind].
      destruct (IH t1 V1 H1 HU' F' N2) as [(t' & E & V' & H' & NB')|(E & Ep & c & k' & v' & d & Ea & EB)].
      * left. exists t'. split; [exact E|]. split; [exact V'|]. split; [exact H'|]. intros Ep [|e c] k' v' d Ea; [injection Ea as <- <- <-; destruct NB as [NB|NB]; [congruence|exact NB]|].
        injection Ea as <- Ea. eapply NB'; eassumption.
      * right. split; [exact E|]. split; [exact Ep|]. exists ((k, v) :: c), k', v', d. rewrite Ea. auto.
Qed.
End Del.

Lemma deletion_exact pr (es : list entry) : Forall ok_entry es -> NoDup (keys es) -> prefix_free (fun j => In j (keys es)) ->
  (deletion_massive pr es = Ok tt <->
   (pr = Debug -> forall a k v b, firstn (Nat.div2 (length es)) es = a ++ (k, v) :: b -> ~ ends_between (keys (b ++ skipn (Nat.div2 (length es)) es)) (nseq k))).
Proof.
  intros F ND PF. assert (T : in_time es).
  { apply C34_in_time. right. intros (k & x & r & s & _ & I0 & I1 & _). apply (PF _ _ I0 I1). exists x, r. reflexivity. }
  destruct (run_in_time pr es F T) as (t & E & V & H). unfold deletion_massive. rewrite E. cbn [bind]. cbv zeta. set (half := Nat.div2 (length es)) in *.
  assert (Fk : Forall (fun e => kwf (fst e)) es) by (eapply Forall_impl; [|exact F]; intros e [A _]; exact A).
  pose proof (firstn_skipn half es) as Sp.
  pose proof (delete_each_exact _ PF pr (skipn half es) (firstn half es) t V) as X. unfold entry in *. rewrite Sp in X.
  destruct (X H (fun j I => I) Fk ND) as [(t' & E' & V' & H' & NB)|(E' & Ep & c & k & v & d & Ea & EB)]; clear X.
  - rewrite E'. cbn [bind]. split; [intros _; exact NB|]. intros _.
    assert (NDs : NoDup (keys (skipn half es))).
    { rewrite <- Sp in ND. unfold keys in ND. rewrite map_app in ND. clear - ND. induction (map (fun e => nseq (fst e)) (firstn half es)) as [|x l IH]; [exact ND|]. inversion ND; auto. }
    assert (Fs : Forall (fun e => kwf (fst e)) (skipn half es)) by (rewrite <- Sp in Fk; apply Forall_app in Fk; tauto).
    apply (all_found_iff pr t' (skipn half es)); auto.
    + intros e I. unfold keys. apply in_map_iff. exists e. auto.
    + intros k v I. apply nodup_last; assumption.
  - rewrite E'. cbn [bind]. split; [discriminate|]. intros A. exfalso. exact (A Ep c k v d Ea EB).
Qed.
