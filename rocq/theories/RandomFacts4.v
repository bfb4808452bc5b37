(** Facts about the model of the random tests: root hashes after each change. *)
From Verif Require Import Base Nibbles NibblesSpec NibblesFacts NibblesFacts2 NibblesFacts3 Trie TrieSpec TrieHistSpec TrieFacts TrieInsert TrieGet TrieDelete TrieUnique TrieIter TrieHist TrieObs
  Hashing YellowPaper HashSpec InsertWf HideFacts TextFacts OrderSpec OrderFacts OrderExact P_Nibbles P_Trie P_Hash P_Order Cache CacheSpec P_Cache EthSpec EthFacts UserSpec RandomTests RandomFacts RandomFacts2 RandomFacts3.
From Coq Require Import Permutation.
Open Scope N_scope.
Notation holds := TrieHistSpec.holds.

Lemma lib_key_even pr k : kwf k -> N.even (count k) = true -> lib_key pr k = Ok (nseq k).
Proof.
  intros Hk Ev. unfold lib_key. destruct (kwf_ex k Hk) as (l & E & Es & H & L).
  assert (El : Nat.even (length (nseq k)) = true).
  { rewrite nseq_length. apply N.even_spec in Ev. destruct Ev as [m ->]. apply Nat.even_spec. exists (N.to_nat m). lia. }
  rewrite C07_bytes_be_partial by (destruct Hk; split; [assumption|lia]). rewrite El. cbn [bind]. rewrite unpair_pair_up; [reflexivity|rewrite Es; exact H|exact El].
Qed.

Definition table_of (J : list (list N * list N)) (m : kvmap) : Prop := NoDup (map fst J) /\ forall k, find k J = m k.
Lemma table_lists J m : table_of J m -> lists_map J m.
Proof. intros [ND H]. split; [exact ND|]. intros k v. rewrite <- H. apply find_in, ND. Qed.
Lemma table_assign J m m' k v : table_of J m -> (forall j, m' j = if key_eqb k j then Some v else m j) -> table_of (assign k v J) m'.
Proof. intros [ND H] E. split; [apply assign_nodup, ND|]. intros j. rewrite find_assign, E, H. reflexivity. Qed.
Lemma table_remove J m m' k : table_of J m -> (forall j, m' j = if key_eqb k j then None else m j) -> table_of (remove k J) m'.
Proof. intros [ND H] E. split; [apply remove_nodup, ND|]. intros j. rewrite find_remove, E, H. reflexivity. Qed.

Section Hashes.
Variable keccak : list N -> list N.
Variable pr : profile.
Hypothesis H32 : hash32 keccak.

Lemma hash_table t J m : vtrie t -> fits t -> holds t m -> table_of J m -> hash_trie keccak pr t = Ok (yp_root keccak J).
Proof. intros (W & C & _) F H T. apply C19_canonical; auto. apply (lists_holds J t m); [apply table_lists, T|exact H]. Qed.

Definition good (e : entry) : Prop := ok_entry e /\ (bytesl (snd e) /\ len (snd e) < 2147483648) /\ N.even (count (fst e)) = true.

Lemma insert_step a k v t : in_time (a ++ [(k, v)]) -> good (k, v) -> vtrie t -> fits t -> holds t (last_value a) ->
  exists t', trie_insert pr t k (Val v) = Ok t' /\ vtrie t' /\ fits t' /\ holds t' (last_value (a ++ [(k, v)])).
Proof.
  intros T ([Hk Hv] & Hb & _) V Ft H. cbn [fst snd] in *. apply in_time_snoc in T. destruct T as [_ NB]. cbn [fst] in NB.
  destruct (vinsert pr t k v V Hk Hv) as (t' & E' & V' & P').
  assert (Ee : eff t (nseq k) = nseq k).
  { apply (eff_insertable t 64); [apply V|apply V|]. apply (insertable_buried t (keys a) (nseq k) V); [apply OrderExact.holds_stored; exact H|exact NB]. }
  rewrite Ee in P'. exists t'. split; [exact E'|]. split; [exact V'|]. split; [eapply insert_fits; [exact Ft| |exact E']; exact Hb|].
  intros j. rewrite P', last_value_snoc. destruct (key_eqb (nseq k) j); [reflexivity|apply H].
Qed.

Lemma in_time_app a b : in_time (a ++ b) -> in_time a.
Proof. intros H c e d ->. apply (H c e (d ++ b)). rewrite <- app_assoc. reflexivity. Qed.

Definition ihops (es : list entry) : list CacheSpec.op := flat_map (fun e => [Insert 0 (fst e) (Val (snd e)); HashOf 0]) es.
Lemma hashes_run b : forall a t J, in_time (a ++ b) -> Forall good b -> vtrie t -> fits t -> holds t (last_value a) -> table_of J (last_value a) ->
  exists t' xs hs, vrun keccak pr [t] (ihops b) = Ok ([t'], xs) /\ lib_hashes keccak pr J b = Ok hs /\ digests xs = hs.
Proof.
  induction b as [|[k v] b IH]; intros a t J T F V Ft H TJ; [exists t, [], []; auto|].
  inversion F as [|? ? G F']; subst. replace (a ++ (k, v) :: b) with ((a ++ [(k, v)]) ++ b) in T by (rewrite <- app_assoc; reflexivity).
  destruct (insert_step a k v t (in_time_app _ _ T) G V Ft H) as (t1 & E1 & V1 & F1 & H1).
  assert (TJ1 : table_of (assign (nseq k) v J) (last_value (a ++ [(k, v)]))) by (eapply table_assign; [exact TJ|]; intros j; apply last_value_snoc).
  destruct (IH _ t1 _ T F' V1 F1 H1 TJ1) as (t2 & xs & hs & E2 & E3 & E4).
  cbn [ihops flat_map fst snd app]. fold (ihops b). cbn [vrun vstep the nth_error bind]. rewrite E1. cbn [bind replace vrun vstep the nth_error firstn skipn app].
  rewrite (hash_table t1 _ _ V1 F1 H1 TJ1). cbn [bind]. rewrite E2. cbn [bind].
  destruct G as ([Hk _] & _ & Ev). cbn [fst] in *.
  exists t2, (Done :: Digest (yp_root keccak (assign (nseq k) v J)) :: xs), (yp_root keccak (assign (nseq k) v J) :: hs). split; [reflexivity|].
  cbn [lib_hashes]. rewrite (lib_key_even pr k Hk Ev). cbn [bind]. rewrite E3. cbn [bind digests flat_map app]. split; [reflexivity|]. fold (digests xs). rewrite E4. reflexivity.
Qed.

Lemma same_refl hs : assert_same hs hs = Ok tt.
Proof.
  unfold assert_same. apply assert_ok, forallb_forall. intros [a b] I. cbn [fst snd]. apply key_eqb_iff.
  induction hs as [|h hs IH]; [destruct I|]. cbn [combine] in I. destruct I as [[= <- <-]|I]; auto.
Qed.

Lemma insert_hashes_ok es : Forall good es -> in_time es -> insert_hashes_agree keccak pr es = Ok tt.
Proof.
  intros F T. destruct (hashes_run es [] Empty [] T F vtrie_empty Logic.I (fun j => eq_refl) (conj (NoDup_nil _) (fun j => eq_refl))) as (t & xs & hs & E1 & E2 & E3).
  assert (E0 : vrun keccak pr [] (New [] :: ihops es) = Ok ([t], Done :: xs)).
  { cbn [vrun vstep]. unfold from_iter. cbn [trie_extend bind app]. rewrite E1. reflexivity. }
  destruct (C29_clones_partial keccak pr (New [] :: ihops es) [t] (Done :: xs)) as (ths & Es & _); [|exact E0|].
  { constructor; [exact Logic.I|]. unfold ihops. apply Forall_forall. intros o I. apply in_flat_map in I. destruct I as (e & _ & [<-|[<-|[]]]); exact Logic.I. }
  unfold insert_hashes_agree, our_hashes. fold (ihops es). rewrite Es. cbn [rmap snd bind digests flat_map app]. fold (digests xs). rewrite E2. cbn [bind]. rewrite E3. apply same_refl.
Qed.

(** ** Deletion *)
Definition dhops (ks : list nibbles) : list CacheSpec.op := flat_map (fun k => [Delete 0 k; HashOf 0]) ks.
Lemma hash_inv U t J m : inv U t m -> fits t -> table_of J m -> hash_trie keccak pr t = Ok (yp_root keccak J).
Proof. intros (W & C & H & _) F T. apply C19_canonical; auto. apply (lists_holds J t m); [apply table_lists, T|exact H]. Qed.
Lemma delete_hashes_run U ks : prefix_free U -> forall t J m, inv U t m -> fits t -> table_of J m -> Forall (fun k => kwf k /\ N.even (count k) = true /\ U (nseq k)) ks ->
  exists t' xs hs, vrun keccak pr [t] (dhops ks) = Ok ([t'], xs) /\ lib_delete_hashes keccak pr J ks = Ok hs /\ digests xs = hs.
Proof.
  intros PF. induction ks as [|k ks IH]; intros t J m I0 Ft TJ F; [exists t, [], []; auto|]. inversion F as [|? ? (Hk & Ev & Uk) F']; subst.
  destruct (inv_op pr U t m (ODelete k) PF I0 (conj Hk Uk)) as (t1 & E1 & I1). cbn [trie_op spec_op fst snd] in *.
  destruct (trie_delete pr t k) as [[t1' w]|] eqn:Ed; [|discriminate]. cbn [bind] in E1. injection E1 as -> ->. pose proof (tdelete_fits pr t k _ _ Ft Ed) as F1.
  assert (TJ1 : table_of (remove (nseq k) J) (kv_set m (nseq k) None)) by (eapply table_remove; [exact TJ|]; reflexivity).
  destruct (IH t1 _ _ I1 F1 TJ1 F') as (t2 & xs & hs & E2 & E3 & E4).
  cbn [dhops flat_map app]. fold (dhops ks). cbn [vrun vstep the nth_error bind]. rewrite Ed. cbn [bind replace vrun vstep the nth_error firstn skipn app].
  rewrite (hash_inv U t1 _ _ I1 F1 TJ1). cbn [bind]. rewrite E2. cbn [bind].
  exists t2, (Value (m (nseq k)) :: Digest (yp_root keccak (remove (nseq k) J)) :: xs), (yp_root keccak (remove (nseq k) J) :: hs). split; [reflexivity|].
  cbn [lib_delete_hashes]. rewrite (lib_key_even pr k Hk Ev). cbn [bind]. rewrite E3. cbn [bind digests flat_map app]. split; [reflexivity|]. fold (digests xs). rewrite E4. reflexivity.
Qed.
Lemma lib_inserts_table b : forall a J, table_of J (last_value a) -> Forall good b -> exists J', lib_inserts pr J b = Ok J' /\ table_of J' (last_value (a ++ b)).
Proof.
  induction b as [|[k v] b IH]; intros a J T F; [exists J; rewrite app_nil_r; auto|]. inversion F as [|? ? ([Hk _] & _ & Ev) F']; subst. cbn [fst] in *.
  cbn [lib_inserts]. rewrite (lib_key_even pr k Hk Ev). cbn [bind].
  destruct (IH (a ++ [(k, v)]) (assign (nseq k) v J)) as (J' & E & T'); [eapply table_assign; [exact T|]; intros j; apply last_value_snoc|exact F'|].
  exists J'. split; [exact E|]. rewrite <- app_assoc in T'. exact T'.
Qed.
Lemma prefix_free_in_time es : prefix_free (fun j => In j (keys es)) -> in_time es.
Proof. intros PF. apply C34_in_time. right. intros (k & x & r & s & _ & I0 & I1 & _). apply (PF _ _ I0 I1). exists x, r. reflexivity. Qed.
Lemma good_fits es t : Forall good es -> from_iter pr (vals es) = Ok t -> fits t.
Proof.
  intros F E. apply (extend_fits pr (vals es) Empty t); [exact Logic.I| |exact E]. unfold vals. rewrite Forall_map. eapply Forall_impl; [|exact F]. intros e (_ & B & _). exact B.
Qed.
Lemma deletion_hashes_ok es : Forall good es -> prefix_free (fun j => In j (keys es)) -> deletion_hashes_agree keccak pr es = Ok tt.
Proof.
  intros F PF. assert (Fo : Forall ok_entry es) by (eapply Forall_impl; [|exact F]; intros e (A & _); exact A).
  destruct (run_in_time pr es Fo (prefix_free_in_time es PF)) as (t & E & (W & C & HF) & H).
  destruct (lib_inserts_table es [] [] (conj (NoDup_nil _) (fun j => eq_refl)) F) as (J & EJ & TJ). cbn [app] in TJ.
  set (U := fun j => In j (keys es)) in *. assert (I0 : inv U t (last_value es)).
  { split; [exact W|]. split; [exact C|]. split; [exact H|]. intros j D. apply last_value_keys, D. }
  set (ks := map fst (firstn (Nat.div2 (length es)) es)).
  assert (Fk : Forall (fun k => kwf k /\ N.even (count k) = true /\ U (nseq k)) ks).
  { apply Forall_forall. intros k Ik. unfold ks in Ik. apply in_map_iff in Ik. destruct Ik as (e & <- & Ie).
    assert (Ie' : In e es) by (rewrite <- (firstn_skipn (Nat.div2 (length es)) es); apply in_app_iff; auto).
    rewrite Forall_forall in F. destruct (F e Ie') as ([Hk _] & _ & Ev). split; [exact Hk|]. split; [exact Ev|]. unfold U, keys. apply in_map_iff. exists e. auto. }
  destruct (delete_hashes_run U ks PF t J _ I0 (good_fits es t F E) TJ Fk) as (t' & xs & hs & E1 & E2 & E3).
  assert (E0 : vrun keccak pr [] (New (vals es) :: dhops ks) = Ok ([t'], Done :: xs)).
  { cbn [vrun vstep]. rewrite E. cbn [bind app]. rewrite E1. reflexivity. }
  destruct (C29_clones_partial keccak pr (New (vals es) :: dhops ks) [t'] (Done :: xs)) as (ths & Es & _); [|exact E0|].
  { constructor; [exact Logic.I|]. unfold dhops. apply Forall_forall. intros o I. apply in_flat_map in I. destruct I as (e & _ & [<-|[<-|[]]]); exact Logic.I. }
  unfold deletion_hashes_agree. fold ks. fold (dhops ks). rewrite Es. cbn [rmap snd bind digests flat_map app]. fold (digests xs). rewrite EJ. cbn [bind]. rewrite E2. cbn [bind]. rewrite E3. apply same_refl.
Qed.
End Hashes.
