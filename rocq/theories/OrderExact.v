(** Insertion of a list of entries in the given order: exactly when the trie has the given contents. *)
From Verif Require Import Base Nibbles NibblesSpec NibblesFacts NibblesFacts2 NibblesFacts3 Trie TrieSpec TrieHistSpec TrieFacts TrieInsert TrieGet TrieDelete TrieUnique TrieIter TrieHist TrieObs HashSpec OrderSpec OrderFacts.
From Coq Require Import Permutation.
Open Scope N_scope.

Lemma stored_in t j : vtrie t -> stored t j -> exists v, lk t j = Some (Val v).
Proof. intros (_ & _ & HF) S. unfold stored in S. destruct (lk t j) as [[v|h]|] eqn:E; [eauto| |congruence]. exfalso. exact (HF _ _ E). Qed.

(** With the stored keys known, a key can be inserted unless it is buried. *)
Lemma insertable_buried t ks k : vtrie t -> (forall j, stored t j <-> In j ks) -> (insertable t k <-> ~ buried ks k).
Proof.
  intros V S. split.
  - intros In0 (Nk & x & r & s & D & I1 & I2 & A). destruct In0 as [B|[B|[(y & z & r' & s' & Dyz & B & B')|(q & w & _ & _ & B)]]].
    + apply S in B. contradiction.
    + apply (B (k ++ x :: r)); [apply S; exact I1|exists x, r; reflexivity].
    + apply S in B, B'. apply A in B, B'. congruence.
    + assert (E1 : k ++ x :: r = q) by (apply B; [apply S; exact I1|exists (x :: r); reflexivity]).
      assert (E2 : k ++ x :: s = q) by (apply B; [apply S; exact I2|exists (x :: s); reflexivity]).
      apply D. rewrite <- E2 in E1. apply app_inv_head in E1. congruence.
  - intros NB. destruct (in_dec (list_eq_dec N.eq_dec) k ks) as [Ik|Nk]; [left; apply S; exact Ik|].
    set (f := fun j => match strip k j with Some (_ :: _) => true | _ => false end).
    destruct (existsb f ks) eqn:E1.
    2: { right. left. intros j Sj (y & s & ->). apply S in Sj. assert (existsb f ks = true); [|congruence].
         apply existsb_exists. exists (k ++ y :: s). split; [exact Sj|]. unfold f. rewrite strip_app. reflexivity. }
    apply existsb_exists in E1. destruct E1 as (j & Ij & E). unfold f in E. destruct (strip k j) as [[|x r]|] eqn:Es; try discriminate.
    apply strip_some in Es. subst j. clear E f.
    set (g := fun j => match strip k j with Some (y :: _) => negb (N.eqb x y) | _ => false end).
    destruct (existsb g ks) eqn:E2.
    { right. right. left. apply existsb_exists in E2. destruct E2 as (j & Ij' & E'). unfold g in E'.
      destruct (strip k j) as [[|y s]|] eqn:Es; try discriminate. apply strip_some in Es. subst j.
      exists x, y, r, s. split; [intros ->; rewrite N.eqb_refl in E'; discriminate|]. split; apply S; assumption. }
    assert (A : forall y q, In (k ++ y :: q) ks -> y = x).
    { intros y q I. destruct (N.eq_dec x y) as [->|D]; [reflexivity|]. exfalso. assert (existsb g ks = true); [|congruence].
      apply existsb_exists. exists (k ++ y :: q). split; [exact I|]. unfold g. rewrite strip_app. destruct (N.eqb_spec x y); [contradiction|reflexivity]. }
    clear g E2. right. right. right.
    destruct (stored_in t (k ++ x :: r) V) as (v & Ev); [apply S; exact Ij|].
    exists (k ++ x :: r), v. split; [exists x, r; reflexivity|]. split; [exact Ev|].
    intros j Sj [q ->]. apply S in Sj. destruct q as [|y q]; [rewrite app_nil_r in Sj; contradiction|].
    pose proof (A _ _ Sj) as ->. destruct (list_eq_dec N.eq_dec q r) as [->|D]; [reflexivity|].
    exfalso. apply NB. split; [exact Nk|]. exists x, q, r. auto.
Qed.

Lemma last_value_snoc a k v j : last_value (a ++ [(k, v)]) j = if key_eqb (nseq k) j then Some v else last_value a j.
Proof.
  induction a as [|[k0 v0] a IH]; cbn [app last_value]; [destruct (key_eqb (nseq k) j); reflexivity|].
  rewrite IH. destruct (key_eqb (nseq k) j); reflexivity.
Qed.
Lemma last_value_keys l j : last_value l j <> None <-> In j (keys l).
Proof.
  induction l as [|[k v] l IH]; cbn [last_value keys map fst In]; [split; [congruence|contradiction]|]. fold (keys l).
  destruct (last_value l j) as [w|] eqn:E.
  - split; [|discriminate]. intros _. right. apply IH. discriminate.
  - destruct (key_eqb_spec (nseq k) j) as [->|D]; [split; [auto|discriminate]|]. split; [congruence|]. intros [H|H]; [contradiction|]. apply IH in H. congruence.
Qed.
Lemma holds_stored t l : holds t (last_value l) -> forall j, stored t j <-> In j (keys l).
Proof.
  intros H j. rewrite <- last_value_keys. unfold stored. rewrite H. destruct (last_value l j); cbn; split; congruence.
Qed.
Lemma extend_snoc pr t l k v : trie_extend pr t (vals (l ++ [(k, v)])) = (t' <- trie_extend pr t (vals l) ;; trie_insert pr t' k (Val v)).
Proof.
  revert t. induction l as [|[k0 v0] l IH]; intros t; cbn [app vals map fst snd trie_extend].
  - cbn [bind]. destruct (trie_insert pr t k (Val v)); reflexivity.
  - destruct (trie_insert pr t k0 (Val v0)) as [t1|]; cbn [bind]; [|reflexivity]. apply IH.
Qed.
Lemma in_time_snoc a e : in_time (a ++ [e]) <-> in_time a /\ ~ buried (keys a) (nseq (fst e)).
Proof.
  split.
  - intros H. split; [|apply (H a e []); reflexivity]. intros b f c ->. apply (H b f (c ++ [e])). rewrite <- app_assoc. reflexivity.
  - intros [H1 H2] b f c E. destruct c as [|g c] using rev_ind.
    + apply app_inj_tail in E. destruct E as [<- <-]. exact H2.
    + clear IHc. rewrite app_comm_cons, app_assoc in E. apply app_inj_tail in E. destruct E as [-> <-]. apply (H1 b f c). reflexivity.
Qed.

Lemma run_in_time pr l : Forall ok_entry l -> in_time l -> exists t, from_iter pr (vals l) = Ok t /\ vtrie t /\ holds t (last_value l).
Proof.
  unfold from_iter. induction l as [|[k v] l IH] using rev_ind; intros F T.
  - exists Empty. split; [reflexivity|]. split; [apply vtrie_empty|]. intros j. reflexivity.
  - apply Forall_app in F. destruct F as [F F1]. inversion F1 as [|? ? [Hk Hv] _]; subst. cbn [fst snd] in *.
    apply in_time_snoc in T. destruct T as [T NB]. destruct (IH F T) as (t & E & V & H).
    destruct (vinsert pr t k v V Hk Hv) as (t' & E' & V' & P').
    assert (Ee : eff t (nseq k) = nseq k).
    { apply (eff_insertable t 64); [apply V|apply V|]. apply (insertable_buried t (keys l) (nseq k) V); [apply holds_stored; exact H|exact NB]. }
    rewrite Ee in P'. exists t'. rewrite extend_snoc, E. cbn [bind]. split; [exact E'|]. split; [exact V'|].
    intros j. rewrite P', last_value_snoc. destruct (key_eqb (nseq k) j); [reflexivity|apply H].
Qed.

(** If all entries end up stored, none was inserted too late. *)
Lemma run_late pr l t : Forall ok_entry l -> NoDup (keys l) -> from_iter pr (vals l) = Ok t -> (forall j, In j (keys l) -> stored t j) -> in_time l.
Proof.
  intros F ND E H.
  destruct (run_count pr l Empty t vtrie_empty F E) as (V & Le & G).
  cbn [entries length] in Le, G. rewrite Nat.add_0_l in Le, G.
  assert (Inc : incl (keys l) (map fst (entries t))) by (intros j I; apply in_keys; auto).
  assert (Le' : (length (map fst (entries t)) <= length (keys l))%nat) by (unfold keys; rewrite !map_length; exact Le).
  assert (PK : Permutation (keys l) (map fst (entries t))) by (apply NoDup_Permutation_bis; assumption).
  assert (Len : length (entries t) = length l).
  { rewrite <- (map_length fst), <- (Permutation_length PK). apply map_length. }
  destruct (G Len) as [_ G']. clear G. specialize (G' ltac:(rewrite <- (total_perm _ _ PK); reflexivity)).
  assert (Pre : forall a b, l = a ++ b -> exists t1, from_iter pr (vals a) = Ok t1 /\ vtrie t1 /\ holds t1 (last_value a)).
  { unfold from_iter. induction a as [|[k v] a IH] using rev_ind; intros b ->.
    - exists Empty. split; [reflexivity|]. split; [apply vtrie_empty|]. intros j. reflexivity.
    - rewrite <- app_assoc in *. cbn [app] in *. destruct (IH _ eq_refl) as (t1 & E1 & V1 & H1). destruct (G' a k v b eq_refl) as (t1' & E1' & _ & Ee).
      assert (t1' = t1) by congruence. subst t1'. apply Forall_app in F. destruct F as [_ F]. inversion F as [|? ? [Hk Hv] _]; subst. cbn [fst snd] in *.
      destruct (vinsert pr t1 k v V1 Hk Hv) as (t2 & E2 & V2 & P2). rewrite Ee in P2. exists t2. rewrite extend_snoc, E1. cbn [bind].
      split; [exact E2|]. split; [exact V2|]. intros j. rewrite P2, last_value_snoc. destruct (key_eqb (nseq k) j); [reflexivity|apply H1]. }
  intros a [k v] b El. destruct (Pre a ((k, v) :: b) El) as (t1 & E1 & V1 & H1). destruct (G' a k v b El) as (t1' & E1' & _ & Ee).
  unfold from_iter in E1. assert (t1' = t1) by congruence. subst t1'. cbn [fst].
  apply (insertable_buried t1 (keys a) (nseq k) V1); [apply holds_stored; exact H1|]. apply (eff_insertable t1 64); [apply V1|apply V1|exact Ee].
Qed.
