(** Property C68: lists stored under the RLP of their indices, as Ethereum stores transactions and receipts. *)
From Coq Require Import Permutation.
From Verif Require Import Base Nibbles NibblesSpec NibblesFacts NibblesFacts2 NibblesFacts3 Trie TrieSpec TrieHistSpec TrieFacts TrieInsert TrieGet TrieDelete TrieUnique TrieIter TrieHist TrieObs Hashing YellowPaper HashSpec HideFacts OrderSpec OrderFacts ListSpec ListFacts P_Trie P_Hash P_Order.
Open Scope N_scope.

Definition tells (m : kvmap) (l : list (list N)) : Prop :=
  (forall i, index_ok i -> m (index_nibbles i) = nth_error l i) /\ (forall k, m k <> None -> below (length l) k).
Definition stores (t : node) (l : list (list N)) : Prop :=
  wf 64 t /\ canon t /\ (forall i, (i < length l)%nat -> index_ok i) /\ exists m, holds t m /\ tells m l.

Lemma stores_empty : stores Empty [].
Proof.
  split; [constructor|]. split; [constructor|]. split; [cbn; lia|]. exists kv_empty. split; [intros j; reflexivity|].
  split; [intros [|i] _; reflexivity|]. intros k H. exfalso. apply H. reflexivity.
Qed.
Lemma put_length l i v : length (put l i v) = length l.
Proof. revert i. induction l as [|x l IH]; intros [|i]; cbn [put length]; auto. Qed.
Lemma put_nth l i v j : nth_error (put l i v) j = if Nat.eqb i j then (if (j <? length l)%nat then Some v else None) else nth_error l j.
Proof.
  revert i j. induction l as [|x l IH]; intros [|i] [|j]; cbn [put nth_error length Nat.eqb]; try reflexivity.
  - destruct (Nat.eqb i j); reflexivity.
  - rewrite IH. reflexivity.
Qed.

Lemma set_tells m l l' i v :
  index_ok i -> tells m l -> (i < length l')%nat -> (length l <= length l')%nat -> (forall j, nth_error l' j = if Nat.eqb i j then Some v else nth_error l j) ->
  tells (kv_set m (index_nibbles i) (Some v)) l'.
Proof.
  intros Hi [T1 T2] Li Ll N. split.
  - intros j Hj. unfold kv_set. rewrite N. destruct (key_eqb_spec (index_nibbles i) (index_nibbles j)) as [E|E].
    + apply index_inj in E; [|assumption..]. subst j. rewrite Nat.eqb_refl. reflexivity.
    + destruct (Nat.eqb_spec i j) as [->|_]; [congruence|]. apply T1, Hj.
  - intros k. unfold kv_set. destruct (key_eqb_spec (index_nibbles i) k) as [<-|_].
    + intros _. exists i. auto.
    + intros H. destruct (T2 k H) as (j & Lj & Hj & E). exists j. split; [lia|]. auto.
Qed.
Lemma stores_inv t l m : holds t m -> tells m l -> wf 64 t -> canon t -> inv indices t m.
Proof. intros H [_ T] W C. split; [exact W|]. split; [exact C|]. split; [exact H|]. intros k Hk. destruct (T k Hk) as (i & _ & Hi & ->). exists i. auto. Qed.

Lemma stores_insert pr t l l' i v : stores t l -> index_ok i -> v <> [] -> (i < length l')%nat -> (length l <= length l')%nat ->
  (forall j, (j < length l')%nat -> index_ok j) ->
  (forall j, nth_error l' j = if Nat.eqb i j then Some v else nth_error l j) ->
  exists t', trie_insert pr t (enc (index_nibbles i)) (Val v) = Ok t' /\ stores t' l'.
Proof.
  intros (W & C & Ix & m & H & T) Hi Hv Li Ll Ix' N. destruct (index_kwf i Hi) as [Kw Ks].
  destruct (inv_insert pr indices t m (enc (index_nibbles i)) v indices_pf (stores_inv t l m H T W C) Kw ltac:(rewrite Ks; exists i; auto) Hv) as (t' & E & (W' & C' & H' & _)).
  rewrite Ks in H'. exists t'. split; [exact E|]. split; [exact W'|]. split; [exact C'|]. split; [exact Ix'|].
  exists (kv_set m (index_nibbles i) (Some v)). split; [exact H'|]. eapply set_tells; eauto.
Qed.

Lemma step_ok pr t l o : stores t l -> list_op_ok l o ->
  exists t', indexed_step pr (t, length l) o = Ok ((t', length (fst (list_step l o))), snd (list_step l o)) /\ stores t' (fst (list_step l o)) /\
    (fits t -> list_op_bytes o -> fits t').
Proof.
  intros S O. destruct o as [v|i v| |i]; cbn [list_op_ok list_step fst snd indexed_step list_op_bytes] in *.
  - destruct O as [Hv Hi]. destruct (stores_insert pr t l (l ++ [v]) (length l) v S Hi Hv) as (t' & E & S'); rewrite ?app_length; cbn [length]; try lia.
    + intros j Hj. destruct S as (_ & _ & Ix & _). destruct (Nat.eq_dec j (length l)) as [->|]; [exact Hi|]. apply Ix. lia.
    + intros j. destruct (Nat.eqb_spec (length l) j) as [<-|Nj]; [rewrite nth_error_app2, Nat.sub_diag by lia; reflexivity|].
      destruct (Nat.lt_ge_cases j (length l)); [rewrite nth_error_app1 by lia; reflexivity|]. rewrite (proj2 (nth_error_None l j)) by lia. apply nth_error_None. rewrite app_length. cbn. lia.
    + exists t'. rewrite (index_key_enc _ Hi). cbn [bind]. rewrite E. cbn [bind]. rewrite Nat.add_1_r. split; [reflexivity|]. split; [exact S'|].
      intros F B. exact (insert_fits pr t _ (Val v) t' F B E).
  - destruct O as [Hv Li]. pose proof S as (_ & _ & Ix & _). pose proof (Ix i Li) as Hi.
    destruct (stores_insert pr t l (put l i v) i v S Hi Hv) as (t' & E & S'); rewrite ?put_length; try assumption; try lia.
    + intros j. rewrite put_nth. destruct (Nat.eqb_spec i j) as [->|]; [|reflexivity]. destruct (Nat.ltb_spec j (length l)); [reflexivity|lia].
    + exists t'. rewrite (index_key_enc _ Hi). cbn [bind]. rewrite E. cbn [bind]. split; [reflexivity|]. split; [exact S'|].
      intros F B. exact (insert_fits pr t _ (Val v) t' F B E).
  - destruct (exists_last O) as (l0 & v & ->). clear O. rewrite removelast_last, app_length. cbn [length]. rewrite Nat.add_1_r. cbn [Nat.sub]. rewrite Nat.sub_0_r.
    rewrite nth_error_app2, Nat.sub_diag by lia. cbn [nth_error].
    destruct S as (W & C & Ix & m & H & T). pose proof (Ix (length l0) ltac:(rewrite app_length; cbn; lia)) as Hi. destruct (index_kwf _ Hi) as [Kw Ks].
    destruct (inv_op pr indices t m (ODelete (enc (index_nibbles (length l0)))) indices_pf (stores_inv t _ m H T W C)) as (t' & E & (W' & C' & H' & _)).
    { split; [exact Kw|]. rewrite Ks. exists (length l0). auto. }
    cbn [trie_op spec_op fst snd] in *. rewrite Ks in *. destruct T as [T1 T2]. rewrite (T1 _ Hi), nth_error_app2, Nat.sub_diag in E by lia. cbn [nth_error] in E.
    rewrite (index_key_enc _ Hi). cbn [bind]. destruct (trie_delete pr t (enc (index_nibbles (length l0)))) as [[t1 w]|] eqn:D; [|discriminate]. cbn [bind] in *. injection E as -> ->.
    exists t'. split; [reflexivity|]. split.
    + split; [exact W'|]. split; [exact C'|]. split; [intros j Hj; apply Ix; rewrite app_length; cbn; lia|]. exists (kv_set m (index_nibbles (length l0)) None). split; [exact H'|]. split.
      * intros j Hj. unfold kv_set. destruct (key_eqb_spec (index_nibbles (length l0)) (index_nibbles j)) as [E|E].
        -- apply index_inj in E; [|assumption..]. subst j. symmetry. apply nth_error_None. lia.
        -- rewrite (T1 j Hj). destruct (Nat.lt_ge_cases j (length l0)); [apply nth_error_app1; lia|]. assert (j <> length l0) by congruence.
           rewrite (proj2 (nth_error_None l0 j)) by lia. apply nth_error_None. rewrite app_length. cbn. lia.
      * intros k. unfold kv_set. destruct (key_eqb_spec (index_nibbles (length l0)) k) as [|Nk]; [congruence|]. intros Hk. destruct (T2 k Hk) as (j & Lj & Hj & ->).
        rewrite app_length in Lj. cbn in Lj. exists j. split; [|auto]. assert (j <> length l0) by congruence. lia.
    + intros F _. exact (tdelete_fits pr t _ _ _ F D).
  - exists t. rewrite (index_key_enc _ O). cbn [bind]. split; [|auto]. destruct S as (W & C & Ix & m & H & T). pose proof T as [T1 T2]. destruct (index_kwf _ O) as [Kw Ks].
    destruct (Nat.lt_ge_cases i (length l)) as [Li|Li].
    + destruct (nth_error l i) as [v|] eqn:Nv; [|apply nth_error_None in Nv; lia].
      rewrite (get_found pr t 64 (index_nibbles i) v W ltac:(lia)); [reflexivity|]. rewrite H, (T1 i O), Nv. reflexivity.
    + destruct (inv_op pr (below (S i)) t m (OGet (enc (index_nibbles i))) (below_pf _)) as (t' & E & _).
      * split; [exact W|]. split; [exact C|]. split; [exact H|]. intros k Hk. destruct (T2 k Hk) as (j & Lj & Hj & E). exists j. split; [lia|]. auto.
      * cbn [op_ok]. rewrite Ks. split; [exact Kw|]. split; [exists i; auto|]. intros j (j0 & Lj & Hj & ->). apply index_mono; [lia|exact O].
      * cbn [trie_op spec_op snd] in E. rewrite Ks in E. destruct (trie_get pr t (enc (index_nibbles i))) as [w|]; [|discriminate]. cbn [bind] in *. injection E as _ ->.
        rewrite (T1 i O). reflexivity.
Qed.

Lemma run_ok pr ops : forall t l, stores t l -> list_ops_ok l ops ->
  exists t', indexed_run pr (t, length l) ops = Ok ((t', length (fst (list_run l ops))), snd (list_run l ops)) /\ stores t' (fst (list_run l ops)) /\
    (fits t -> Forall list_op_bytes ops -> fits t').
Proof.
  induction ops as [|o ops IH]; intros t l S O; cbn [indexed_run list_run list_ops_ok] in *; [exists t; auto|]. destruct O as [Oo Os].
  destruct (step_ok pr t l o S Oo) as (t1 & E1 & S1 & F1). rewrite E1. cbn [bind]. destruct (list_step l o) as [l1 x]. cbn [fst snd] in *.
  destruct (IH t1 l1 S1 Os) as (t2 & E2 & S2 & F2). rewrite E2. cbn [bind]. destruct (list_run l1 ops) as [l2 xs]. cbn [fst snd] in *.
  exists t2. split; [reflexivity|]. split; [exact S2|]. intros F B. inversion B; subst. auto.
Qed.

Lemma in_combine_seq {A} (l : list A) n k v : In (k, v) (combine (map index_nibbles (seq n (length l))) l) <-> exists i, k = index_nibbles (n + i) /\ nth_error l i = Some v.
Proof.
  revert n. induction l as [|x l IH]; intros n; cbn [length seq map combine In].
  - split; [tauto|]. intros ([|i] & _ & H); discriminate H.
  - rewrite IH. split.
    + intros [[= <- <-]|(i & -> & Hi)]; [exists 0%nat; rewrite Nat.add_0_r; auto|]. exists (S i). rewrite <- Nat.add_succ_comm. auto.
    + intros ([|i] & -> & Hi); [left; cbn in Hi; rewrite Nat.add_0_r; congruence|]. right. exists i. rewrite Nat.add_succ_comm. auto.
Qed.
Lemma index_pairs_in l k v : In (k, v) (index_pairs l) <-> exists i, k = index_nibbles i /\ nth_error l i = Some v.
Proof. exact (in_combine_seq l 0 k v). Qed.
Lemma map_fst_combine {A B} (a : list A) (b : list B) : length a = length b -> map fst (combine a b) = a.
Proof. revert b. induction a as [|x a IH]; intros [|y b] H; try discriminate; [reflexivity|]. cbn. f_equal. apply IH. cbn in H. lia. Qed.
Lemma index_pairs_keys l : map fst (index_pairs l) = map index_nibbles (seq 0 (length l)).
Proof. apply map_fst_combine. rewrite map_length, seq_length. reflexivity. Qed.
Lemma index_nodup n : (forall i, (i < n)%nat -> index_ok i) -> NoDup (map index_nibbles (seq 0 n)).
Proof.
  intros H. apply NoDup_nth_error. rewrite map_length, seq_length. intros i j Hi E. rewrite !nth_error_map in E.
  assert (Ni : nth_error (seq 0 n) i = Some i) by (rewrite (nth_error_nth' _ 0%nat) by (rewrite seq_length; lia); rewrite seq_nth by lia; reflexivity).
  rewrite Ni in E. cbn [option_map] in E. destruct (nth_error (seq 0 n) j) as [j'|] eqn:Nj; [|discriminate]. cbn [option_map] in E.
  assert (Lj : (j < n)%nat) by (rewrite <- (seq_length n 0); apply nth_error_Some; congruence).
  rewrite (nth_error_nth' _ 0%nat), seq_nth in Nj by (rewrite ?seq_length; lia). injection Nj as <-. apply index_inj; auto. congruence.
Qed.
Lemma stores_map l m : (forall i, (i < length l)%nat -> index_ok i) -> tells m l -> lists_map (index_pairs l) m.
Proof.
  intros Ix [T1 T2]. split; [rewrite index_pairs_keys; apply index_nodup, Ix|]. intros k v. rewrite index_pairs_in. split.
  - intros E. destruct (T2 k ltac:(congruence)) as (i & Li & Hi & ->). exists i. split; [reflexivity|]. rewrite <- (T1 i Hi). exact E.
  - intros (i & -> & E). rewrite (T1 i); [exact E|]. apply Ix, nth_error_Some. congruence.
Qed.
Lemma stores_lists t l : stores t l -> lists (index_pairs l) t.
Proof. intros (_ & _ & Ix & m & H & T). eapply lists_holds; [apply stores_map; eassumption|exact H]. Qed.

(** Any program that uses the trie as a list (append, overwrite, remove the last entry, look up any index, inside or beyond the list) sees what
    it would with a list, in both builds and without panics. At the end the root hash is the root of the list as the Yellow Paper defines it,
    the receipts or transactions root of a block. *)
Theorem C68_list : forall keccak pr ops l xs,
  hash32 keccak -> list_ops_ok [] ops -> Forall list_op_bytes ops -> list_run [] ops = (l, xs) ->
  exists t, indexed_run pr (Empty, 0%nat) ops = Ok ((t, length l), xs) /\ hash_trie keccak pr t = Ok (yp_root keccak (index_pairs l)).
Proof.
  intros keccak pr ops l xs HK O B E. destruct (run_ok pr ops Empty [] stores_empty O) as (t & R & S & F). rewrite E in *. cbn [fst snd length] in *.
  exists t. split; [exact R|]. pose proof S as (W & C & _). apply C19_canonical; auto; [|apply stores_lists; exact S]. apply F; [exact I|exact B].
Qed.
Print Assumptions C68_list.

Lemma run_nonempty ops : forall l, list_ops_ok l ops -> Forall (fun v => v <> []) l -> Forall (fun v => v <> []) (fst (list_run l ops)).
Proof.
  induction ops as [|o ops IH]; intros l O F; cbn [list_run list_ops_ok] in *; [exact F|]. destruct O as [Oo Os].
  assert (G : Forall (fun v => v <> []) (fst (list_step l o))).
  { destruct o as [v|i v| |i]; cbn [list_step fst list_op_ok] in *.
    - apply Forall_app. split; [exact F|]. constructor; [apply Oo|constructor].
    - destruct Oo as [Nv _]. clear - F Nv. revert i. induction F as [|x l Hx F IH]; intros [|i]; cbn [put]; constructor; auto.
    - destruct (exists_last Oo) as (l0 & v & ->). rewrite removelast_last. apply Forall_app in F. apply F.
    - exact F. }
  destruct (list_step l o) as [l1 x]. cbn [fst] in *. specialize (IH l1 Os G). destruct (list_run l1 ops). exact IH.
Qed.
Lemma entries_pairs l es : (forall i, (i < length l)%nat -> index_ok i) -> index_entries l es ->
  map (fun e => (nseq (fst e), snd e)) es = index_pairs l /\ Forall (fun e => kwf (fst e) /\ indices (nseq (fst e))) es.
Proof.
  intros Ix [<- F]. rewrite map_length in *. unfold index_pairs. rewrite map_length.
  assert (G : forall n, Forall2 (fun i e => index_key i = Ok (fst e)) (seq n (length es)) es -> (forall i, (i < n + length es)%nat -> index_ok i) ->
    map (fun e => (nseq (fst e), snd e)) es = combine (map index_nibbles (seq n (length es))) (map snd es) /\ Forall (fun e => kwf (fst e) /\ indices (nseq (fst e))) es).
  { clear. induction es as [|[k v] es IH]; intros n F Ix; [split; constructor|]. cbn [length seq map combine fst snd] in *. inversion F as [|? ? ? ? E F']; subst. cbn [fst] in E.
    pose proof (Ix n ltac:(lia)) as Hn. rewrite (index_key_enc n Hn) in E. injection E as <-. destruct (index_kwf n Hn) as [A B].
    destruct (IH (S n) F' ltac:(intros i Hi; apply Ix; lia)) as [G1 G2]. split; [rewrite B, G1; reflexivity|]. constructor; [|exact G2]. cbn [fst]. rewrite B. split; [exact A|]. exists n. auto. }
  exact (G 0%nat F Ix).
Qed.

(** The trie contains the entries of the list under the keys of their indices and nothing else, and building it from those entries in any
    order gives the same trie. *)
Theorem C68_contents : forall pr ops l xs es es',
  list_ops_ok [] ops -> list_run [] ops = (l, xs) -> index_entries l es -> Permutation es es' ->
  exists t its, indexed_run pr (Empty, 0%nat) ops = Ok ((t, length l), xs) /\ from_iter pr (vals es') = Ok t /\
    (exists F, forall fuel, (F <= fuel)%nat -> trie_items fuel pr t = Some (Ok its)) /\ Permutation its (vals es).
Proof.
  intros pr ops l xs es es' O E Es P. destruct (run_ok pr ops Empty [] stores_empty O) as (t & R & S & _). rewrite E in *. cbn [fst snd length] in *.
  pose proof (run_nonempty ops [] O (Forall_nil _)) as NE. rewrite E in NE. cbn [fst] in NE.
  pose proof S as (W & C & Ix & m & H & T). destruct (entries_pairs l es Ix Es) as [EP EK].
  assert (ND : NoDup (keys es)).
  { unfold keys. replace (map (fun e : nibbles * list N => nseq (fst e)) es) with (map fst (index_pairs l)); [rewrite index_pairs_keys; apply index_nodup, Ix|].
    rewrite <- EP, map_map. reflexivity. }
  assert (EN : Forall (fun e => snd e <> []) es) by (destruct Es as [<- _]; rewrite Forall_map in NE; exact NE).
  assert (OE : Forall ok_entry es).
  { apply Forall_forall. intros e He. rewrite Forall_forall in EK, EN. split; [apply EK, He|apply EN, He]. }
  destruct (stores_map l m Ix T) as [_ HM].
  assert (LM : forall k, last_value es k = m k).
  { intros k. assert (X : forall v, last_value es k = Some v <-> m k = Some v).
    { intros v. rewrite (last_value_in es k ND v), HM, <- EP, in_map_iff. split.
      - intros (j & Hj & Ej). exists (j, v). cbn [fst snd]. split; [congruence|exact Hj].
      - intros ([j w] & Ej & Hj). cbn [fst snd] in Ej. injection Ej as <- <-. eauto. }
    destruct (last_value es k) as [v|]; [symmetry; apply X; reflexivity|]. destruct (m k) as [v|]; [apply X; reflexivity|reflexivity]. }
  destruct (C16_items pr t (reach_start pr t W C)) as (its & HI & NDI & II).
  exists t, its. split; [exact R|]. split; [|split; [exact HI|]].
  - destruct (run_spaced pr es') as (t' & E' & V' & H').
    + eapply Permutation_Forall; eassumption.
    + intros (k & x & r & s & _ & K1 & K2 & _). unfold keys in *. rewrite in_map_iff in K1, K2. destruct K1 as (e1 & A1 & B1), K2 as (e2 & A2 & B2).
      apply (Permutation_in _ (Permutation_sym P)) in B1, B2. rewrite Forall_forall in EK. apply (indices_pf (nseq (fst e1)) (nseq (fst e2))); [apply EK, B1|apply EK, B2|].
      exists x, r. congruence.
    + rewrite E'. f_equal. destruct V' as (W' & C' & _). apply (canon_unique t' 64 t W' W C' C). intros k. rewrite H', H. f_equal. rewrite <- LM. symmetry. apply last_value_perm; assumption.
  - apply NoDup_Permutation.
    + eapply NoDup_map_inv. exact NDI.
    + apply (NoDup_map_inv (fun e => nseq (fst e))). unfold vals. rewrite map_map. exact ND.
    + intros [k e]. rewrite II, H. unfold vals. rewrite in_map_iff. split.
      * intros [Hk Hm]. destruct (m (nseq k)) as [v|] eqn:Em; [|discriminate]. cbn [option_map] in Hm. injection Hm as <-. apply HM in Em. rewrite <- EP, in_map_iff in Em.
        destruct Em as ([j w] & Ej & Hj). cbn [fst snd] in Ej. injection Ej as Ej <-. exists (j, w). cbn [fst snd]. split; [|exact Hj]. f_equal.
        rewrite Forall_forall in EK. destruct (EK _ Hj) as [Kj _]. cbn [fst] in Kj. destruct (kwf_ex j Kj) as (a & -> & E1 & _). destruct (kwf_ex k Hk) as (b & -> & E2 & _). congruence.
      * intros ([j w] & Ej & Hj). cbn [fst snd] in Ej. injection Ej as <- <-. rewrite Forall_forall in EK. destruct (EK _ Hj) as [Kj _]. split; [exact Kj|].
        rewrite (proj2 (HM (nseq j) w)); [reflexivity|]. rewrite <- EP, in_map_iff. exists (j, w). auto.
Qed.
Print Assumptions C68_contents.

(** 200 entries are pushed, so that both kinds of RLP keys occur, one is overwritten, two are removed, and entries are looked up inside and
    beyond the list. *)
Definition ex_list_ops : list list_op :=
  map (fun i => Push [N.of_nat i; 7]) (seq 0 200) ++ [Put 128 [5]; Pop; Pop; At 128; At 197; At 198; At 5000].
Definition ex_list : list (list N) := put (map (fun i => [N.of_nat i; 7]) (seq 0 198)) 128 [5].
Lemma pushes_ok f g ops n : forall a l, length l = a -> N.of_nat (a + n) < 2 ^ 64 ->
  (forall i, f i <> []) -> (forall l, g l = l ++ map f (seq (length l) n)) -> list_ops_ok (g l) ops -> list_ops_ok l (map (fun i => Push (f i)) (seq a n) ++ ops).
Proof.
  revert g. induction n as [|n IH]; intros g a l L B Hf Hg O; cbn [seq map app list_ops_ok].
  - rewrite Hg in O. cbn [seq map] in O. rewrite app_nil_r in O. exact O.
  - split; [split; [apply Hf|unfold index_ok; lia]|]. cbn [list_step fst]. apply (IH (fun l => l ++ map f (seq (length l) n))); auto.
    + rewrite app_length. cbn. lia.
    + lia.
    + rewrite Hg in O. cbn [seq map] in O. rewrite <- app_assoc, app_length. cbn [app length]. rewrite Nat.add_1_r, L in *. exact O.
Qed.
Example C68_example :
  list_ops_ok [] ex_list_ops /\ Forall list_op_bytes ex_list_ops /\ fst (list_run [] ex_list_ops) = ex_list /\
  skipn 200 (snd (list_run [] ex_list_ops)) =
    [ODone; OValue (Some [199; 7]); OValue (Some [198; 7]); OValue (Some [5]); OValue (Some [197; 7]); OValue None; OValue None] /\
  index_bytes 0 = [0x80] /\ index_bytes 1 = [1] /\ index_bytes 128 = [0x81; 0x80] /\ index_bytes 1000 = [0x82; 3; 0xe8].
Proof.
  split; [|split; [|repeat (split; [vm_compute; reflexivity|]); vm_compute; reflexivity]].
  - unfold ex_list_ops. apply (pushes_ok (fun i => [N.of_nat i; 7]) (fun l => l ++ map (fun i => [N.of_nat i; 7]) (seq (length l) 200))); try reflexivity; [discriminate|].
    vm_compute. repeat split; try discriminate; lia.
  - unfold ex_list_ops. apply Forall_app. split.
    + apply Forall_map, Forall_forall. intros i Hi. apply in_seq in Hi. split; [|reflexivity]. repeat constructor; lia.
    + repeat constructor.
Qed.

Example C68_contents_example : exists es, index_entries ex_list es /\ nth_error es 128 = Some (K 4 0x8180, [5]).
Proof.
  exists (combine (map (fun i => enc (index_nibbles i)) (seq 0 198)) ex_list). split; [|vm_compute; reflexivity]. split; [vm_compute; reflexivity|].
  assert (G : forall n (l : list (list N)), (n + length l < 1000)%nat -> Forall2 (fun i e => index_key i = Ok (fst e)) (seq n (length l)) (combine (map (fun i => enc (index_nibbles i)) (seq n (length l))) l)).
  { intros n l. revert n. induction l as [|v l IH]; intros n H; cbn [length seq map combine]; constructor; [|apply IH; cbn [length] in H; lia].
    cbn [fst length] in *. apply index_key_enc. unfold index_ok. change (2 ^ 64) with 18446744073709551616. lia. }
  exact (G 0%nat ex_list ltac:(apply Nat.ltb_lt; vm_compute; reflexivity)).
Qed.

(** The list must be dense for lookups: with the entries 128 and 129 alone, looking up entry 0 panics in debug builds. *)
Theorem C68_sparse_refuted :
  exists k0 k128 k129 t, index_key 0 = Ok k0 /\ index_key 128 = Ok k128 /\ index_key 129 = Ok k129 /\
    from_iter Debug (vals [(k128, [1]); (k129, [2])]) = Ok t /\ trie_get Debug t k0 = Panic.
Proof.
  exists (K 2 0x80), (K 4 0x8180), (K 4 0x8181), (Extension (K 3 0x818) (Branch (Leaf (K 0 0) [1] :: Leaf (K 0 0) [2] :: repeat Empty 14) [])).
  repeat (split; [vm_compute; reflexivity|]). vm_compute. reflexivity.
Qed.
Print Assumptions C68_sparse_refuted.

Lemma int_key i : index_ok i -> kwf (to_nibbles 64 (N.of_nat i)) /\ undigits (nseq (to_nibbles 64 (N.of_nat i))) = N.of_nat i /\
  length (nseq (to_nibbles 64 (N.of_nat i))) = N.to_nat ((N.size (N.of_nat i) + 3) / 4).
Proof.
  intros H. destruct (to_nibbles_nseq 64 _ H) as [A B]. destruct (to_nibbles_spec 64 _ H) as [C D]. split; [|split; [exact A|]].
  - split; [exact B|]. rewrite C. assert (N.size (N.of_nat i) <= 64); [|apply N.div_le_upper_bound; lia].
    destruct (N.eq_dec (N.of_nat i) 0) as [->|Ni]; [cbn; lia|]. rewrite N.size_log2 by lia. unfold index_ok in H. apply N.log2_lt_pow2 in H; lia.
  - rewrite nseq_length, C. reflexivity.
Qed.
(** With the plain integers as keys ([i.to_nibbles()], of different lengths and prefixes of each other) a list put in
    in the order of the indices is still right: every entry is found and the root is that of the Yellow Paper. *)
Theorem C68_integers : forall keccak pr l es,
  hash32 keccak -> N.of_nat (length l) < 2 ^ 64 -> Forall (fun v => v <> [] /\ bytesl v /\ len v < 2147483648) l -> integer_entries l es ->
  exists t, from_iter pr (vals es) = Ok t /\ (forall k v, In (k, v) es -> trie_get pr t k = Ok (Some v)) /\
    hash_trie keccak pr t = Ok (yp_root keccak (map (fun e => (nseq (fst e), snd e)) es)).
Proof.
  intros keccak pr l es HK HL FV [Es Ek]. rewrite <- Es in *. rewrite map_length in *. rewrite Forall_map in FV.
  assert (KS : forall a, (a + length es)%nat = (a + length es)%nat -> N.of_nat (a + length es) < 2 ^ 64 -> map fst es = map (fun i => to_nibbles 64 (N.of_nat i)) (seq a (length es)) ->
    Forall (fun e => kwf (fst e)) es /\ short_first es /\ NoDup (keys es) /\ forall e, In e es -> exists i, (a <= i)%nat /\ index_ok i /\ fst e = to_nibbles 64 (N.of_nat i)).
  { clear. induction es as [|[k v] es IH]; intros a _ HL Ek; cbn [map seq length fst short_first keys] in *; [repeat split; [constructor|constructor|intros ? []]|].
    injection Ek as Ek1 Ek2. destruct (IH (S a) eq_refl ltac:(lia) Ek2) as (A & B & C & D). assert (Ha : index_ok a) by (unfold index_ok; lia).
    destruct (int_key a Ha) as (K1 & K2 & K3). rewrite <- Ek1 in *. split; [constructor; assumption|]. split; [split; [|exact B]|split].
    - intros f Hf. destruct (D f Hf) as (i & Li & Hi & ->). destruct (int_key i Hi) as (_ & _ & ->). rewrite K3.
      assert (N.size (N.of_nat a) <= N.size (N.of_nat i)); [|pose proof (N.div_le_mono (N.size (N.of_nat a) + 3) (N.size (N.of_nat i) + 3) 4); lia].
      destruct (N.eq_dec (N.of_nat a) 0) as [->|Na]; [cbn; lia|]. rewrite !N.size_log2 by lia. pose proof (N.log2_le_mono (N.of_nat a) (N.of_nat i)). lia.
    - constructor; [|exact C]. intros Hin. unfold keys in Hin. apply in_map_iff in Hin. destruct Hin as (f & Ef & Hf). destruct (D f Hf) as (i & Li & Hi & Ei).
      destruct (int_key i Hi) as (_ & U & _). rewrite Ei in Ef. rewrite Ef in U. rewrite K2 in U. lia.
    - intros e [<-|He]; [exists a; auto|]. destruct (D e He) as (i & Li & Hi & Ei). exists i. split; [lia|]. auto. }
  destruct (KS 0%nat eq_refl ltac:(cbn; exact HL) Ek) as (FK & SF & ND & _). clear KS.
  assert (OE : Forall ok_entry es).
  { apply Forall_forall. intros e He. rewrite Forall_forall in FK, FV. split; [apply FK, He|apply (FV e He)]. }
  assert (LM : lists_map (map (fun e => (nseq (fst e), snd e)) es) (last_value es)).
  { split; [rewrite map_map; exact ND|]. intros k v. rewrite (last_value_in es k ND v), in_map_iff. split.
    - intros (j & Hj & Ej). exists (j, v). cbn [fst snd]. split; [congruence|exact Hj].
    - intros ([j w] & Ej & Hj). cbn [fst snd] in Ej. injection Ej as <- <-. eauto. }
  destruct (C19_any_keys keccak pr es (map (fun e => (nseq (fst e), snd e)) es) HK OE) as (t & E & HT); [|apply C34_in_time; auto|exact LM|].
  { eapply Forall_impl; [|exact FV]. intros e He. apply He. }
  exists t. split; [exact E|]. split; [|exact HT]. destruct (run_short pr es OE SF) as (t' & E' & (W & _) & H). assert (t' = t) by congruence. subst t'.
  intros k v Hin. rewrite Forall_forall in FK. destruct (kwf_ex k (FK _ Hin)) as (j & -> & Ej & _).
  apply (get_found pr t 64 j v W ltac:(lia)). rewrite H, (proj2 (last_value_in es j ND v)); [reflexivity|]. exists (enc j). auto.
Qed.
Print Assumptions C68_integers.

(** But then looking up an index beyond the list can return the value of another entry: in a list of two, entry 0x12 is found, with the value
    of entry 1. *)
Theorem C68_integers_refuted : forall pr, exists t,
  from_iter pr (vals [(to_nibbles 64 0, [5]); (to_nibbles 64 1, [6])]) = Ok t /\ trie_get pr t (to_nibbles 64 0x12) = Ok (Some [6]).
Proof.
  intros pr. exists (Branch (Empty :: Leaf (K 0 0) [6] :: repeat Empty 14) [5]). split; destruct pr; vm_compute; reflexivity.
Qed.
Print Assumptions C68_integers_refuted.
Example C68_integers_example : forall keccak, hash32 keccak ->
  exists es t, integer_entries ex_list es /\ from_iter Debug (vals es) = Ok t /\ hash_trie keccak Debug t = Ok (yp_root keccak (map (fun e => (nseq (fst e), snd e)) es)).
Proof.
  intros keccak HK. exists (combine (map (fun i => to_nibbles 64 (N.of_nat i)) (seq 0 198)) ex_list).
  destruct (C68_integers keccak Debug ex_list (combine (map (fun i => to_nibbles 64 (N.of_nat i)) (seq 0 198)) ex_list) HK) as (t & E & _ & H).
  - vm_compute. reflexivity.
  - apply Forall_forall. intros v Hv. assert (G : forallb (fun v => match v with [] => false | _ => forallb (fun b => b <? 256) v && (len v <? 100) end) ex_list = true) by (vm_compute; reflexivity).
    rewrite forallb_forall in G. specialize (G v Hv). destruct v as [|x v]; [discriminate|]. apply andb_prop in G as [G1 G2]. split; [discriminate|].
    split; [|apply N.ltb_lt in G2; lia]. apply Forall_forall. intros b Hb. rewrite forallb_forall in G1. apply N.ltb_lt, G1, Hb.
  - split; vm_compute; reflexivity.
  - exists t. split; [split; vm_compute; reflexivity|]. auto.
Qed.
