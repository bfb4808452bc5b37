(** Property C87: taking changes back. *)
From Verif Require Import Base Nibbles NibblesSpec NibblesFacts NibblesFacts2 NibblesFacts3 Trie TrieSpec TrieHistSpec TrieFacts TrieInsert TrieGet TrieDelete TrieUnique TrieIter TrieHist TrieObs OrderSpec Rlp YellowPaper Hashing Keccak HashSpec HashFacts KeccakFacts HideSpec HideFacts Cache CacheSpec CacheFacts2 P_Cache P_Trie P_Hash ItemsFacts ReplaySpec ReplayFacts SubsetSpec P_Refresh FreeSpec FreeFacts P_Free TrieHistSpec RollSpec.
Open Scope N_scope.

Section R.
Variable U : list N -> Prop.
Hypothesis PF : prefix_free U.

(** What a history does at the keys it does not touch, and that hash nodes stay. *)
Definition kept (t t1 : node) (ks : list nibbles) : Prop :=
  same_hashes t t1 /\ (forall j, ~ In j (map nseq ks) -> lk t1 j = lk t j) /\ Forall (fun k => kwf k /\ U (nseq k) /\ ~ hash_on_path t (nseq k)) ks.

Lemma same_hop t t1 k : same_hashes t t1 -> (hash_on_path t k <-> hash_on_path t1 k).
Proof. intros S. split; intros (p & h & L & P); exists p, h; (split; [apply S; exact L|exact P]). Qed.

Lemma kept_trans t t1 t2 ks ks' : kept t t1 ks -> kept t1 t2 ks' -> kept t t2 (ks ++ ks').
Proof.
  intros (A1 & B1 & C1) (A2 & B2 & C2). split; [eapply same_trans; eassumption|]. split.
  - intros j N. rewrite map_app in N. rewrite B2, B1; [reflexivity| |]; intros I; apply N, in_or_app; auto.
  - apply Forall_app. split; [exact C1|]. eapply Forall_impl; [|exact C2]. intros k (H1 & H2 & H3). split; [exact H1|]. split; [exact H2|]. intros H. apply H3. apply (same_hop t t1 _ A1). exact H.
Qed.

Lemma kept_insert pr t k v t1 : free_trie U t -> kwf k -> U (nseq k) -> v <> [] -> trie_insert pr t k (Val v) = Ok t1 -> free_trie U t1 /\ kept t t1 [k].
Proof.
  intros Ft Hk Uk Hv E. destruct (free_insert U PF pr t k v Ft Hk Uk Hv) as [[_ Q]|(N & t' & Q & Up & F1)]; [congruence|]. assert (t' = t1) by congruence. subst t'.
  split; [exact F1|]. split; [eapply updated_same; eauto; discriminate|]. split; [|constructor; auto]. intros j Nj. rewrite (Up j). destruct (key_eqb_spec (nseq k) j) as [<-|]; [|reflexivity].
  exfalso. apply Nj. left. reflexivity.
Qed.

Lemma kept_op pr t o t1 x : free_trie U t -> op_in U o -> trie_op pr t o = Ok (t1, x) -> free_trie U t1 /\ kept t t1 (touched o).
Proof.
  assert (Self : forall s, kept s s []) by (intros s; split; [intros p h; reflexivity|split; [reflexivity|constructor]]).
  intros Ft O E. destruct o as [k v|l|k|k]; cbn [op_in trie_op touched] in *.
  - destruct O as (Hk & Uk & Hv). destruct (trie_insert pr t k (Val v)) as [t2|] eqn:E1; [|discriminate]. cbn [bind] in E. injection E as <- _. eapply kept_insert; eauto.
  - destruct (trie_extend pr t _) as [t2|] eqn:E1; [|discriminate]. cbn [bind] in E. injection E as <- _. clear x.
    revert t Ft E1. induction O as [|[k v] l (Hk & Uk & Hv) O IH]; intros t Ft E1; cbn [map trie_extend fst snd] in *.
    + injection E1 as <-. auto.
    + destruct (trie_insert pr t k (Val v)) as [t3|] eqn:E2; [|discriminate]. cbn [bind] in E1.
      destruct (kept_insert pr t k v t3 Ft Hk Uk Hv E2) as [F3 K3]. destruct (IH t3 F3 E1) as [F2 K2]. split; [exact F2|]. exact (kept_trans _ _ _ [k] _ K3 K2).
  - destruct O as [Hk Uk]. destruct (free_delete U PF pr t k Ft Hk Uk) as [[_ Q]|(N & t' & Q & Up & F1)]; rewrite Q in E; [discriminate|].
    cbn [bind] in E. injection E as <- _. split; [exact F1|]. split; [eapply updated_same; eauto; discriminate|]. split; [|constructor; auto].
    intros j Nj. rewrite (Up j). destruct (key_eqb_spec (nseq k) j) as [<-|]; [|reflexivity]. exfalso. apply Nj. left. reflexivity.
  - destruct (trie_get pr t k); [|discriminate]. cbn [bind] in E. injection E as <- _. auto.
Qed.

Lemma kept_ops pr ops : forall t t1 xs, free_trie U t -> Forall (op_in U) ops -> trie_ops pr t ops = Ok (t1, xs) -> free_trie U t1 /\ kept t t1 (flat_map touched ops).
Proof.
  induction ops as [|o ops IH]; intros t t1 xs Ft F E; cbn [trie_ops flat_map] in *.
  - injection E as <- _. split; [exact Ft|]. split; [intros p h; reflexivity|split; [reflexivity|constructor]].
  - inversion F as [|? ? Fo Fl]; subst. destruct (trie_op pr t o) as [[t2 x]|] eqn:E1; [|discriminate]. cbn [bind] in E.
    destruct (trie_ops pr t2 ops) as [[t3 ys]|] eqn:E2; [|discriminate]. cbn [bind] in E. injection E as <- _.
    destruct (kept_op pr t o t2 x Ft Fo E1) as [F2 K2]. destruct (IH t2 t3 ys F2 Fl E2) as [F3 K3]. split; [exact F3|]. eapply kept_trans; eauto.
Qed.

(** Putting back keys, one after the other. *)
Lemma put_back_all pr t : free_trie U t -> forall ks t1, free_trie U t1 -> same_hashes t t1 ->
  Forall (fun k => kwf k /\ U (nseq k) /\ ~ hash_on_path t (nseq k)) ks -> (forall j, ~ In j (map nseq ks) -> lk t1 j = lk t j) ->
  exists ys, trie_ops pr t1 (map (put_back t) ks) = Ok (t, ys).
Proof.
  intros Ft. pose proof Ft as (W & C & _). induction ks as [|k ks IH]; intros t1 F1 Sm F Lk.
  - exists []. cbn [map trie_ops]. pose proof F1 as (W1 & C1 & _). assert (t1 = t); [|congruence]. apply (C17_canonical t1 t W1 W C1 C). intros j. apply Lk. intros [].
  - inversion F as [|? ? (Hk & Uk & Nh) F']; subst. cbn [map trie_ops].
    assert (Nh1 : ~ hash_on_path t1 (nseq k)) by (intros H; apply Nh; apply (same_hop t t1 _ Sm); exact H).
    assert (X : exists t2 y, trie_op pr t1 (put_back t k) = Ok (t2, y) /\ free_trie U t2 /\ same_hashes t1 t2 /\ updated t1 t2 (nseq k) (lk t (nseq k))).
    { unfold put_back. destruct (lk t (nseq k)) as [[w|h]|] eqn:L; cbn [trie_op].
      - assert (Hw : w <> []) by (intros ->; exact (stored_nonempty t _ (canon_shape _ C) L)).
        destruct (free_insert U PF pr t1 k w F1 Hk Uk Hw) as [[Q _]|(_ & t2 & -> & Up & F2)]; [contradiction|]. cbn [bind]. exists t2, ODone. repeat (split; [first [reflexivity|assumption]|]). split; [|exact Up].
        eapply updated_same; eauto; discriminate.
      - exfalso. apply Nh. exists (nseq k), h. split; [exact L|apply prefix_refl].
      - destruct (free_delete U PF pr t1 k F1 Hk Uk) as [[Q _]|(_ & t2 & -> & Up & F2)]; [contradiction|]. cbn [bind]. eexists t2, _. split; [reflexivity|]. split; [exact F2|]. split; [|exact Up].
        eapply updated_same; eauto; discriminate. }
    destruct X as (t2 & y & -> & F2 & S2 & Up). cbn [bind]. destruct (IH t2 F2 (same_trans _ _ _ Sm S2) F') as (ys & ->).
    + intros j Nj. rewrite (Up j). destruct (key_eqb_spec (nseq k) j) as [<-|N]; [reflexivity|]. apply Lk. intros [Q|Q]; [exact (N Q)|exact (Nj Q)].
    + cbn [bind]. eauto.
Qed.
End R.

(** Putting every key that a history touched back to what it was, in any order, restores the very same trie: with hash nodes as well, and in any build. *)
Theorem C87_restore : forall pr pr' U t ops t1 xs ks,
  prefix_free U -> free_trie U t -> Forall (op_in U) ops -> trie_ops pr t ops = Ok (t1, xs) ->
  (forall k, In k ks <-> In k (flat_map touched ops)) ->
  exists ys, trie_ops pr' t1 (map (put_back t) ks) = Ok (t, ys).
Proof.
  intros pr pr' U t ops t1 xs ks PF Ft F E Ks. destruct (kept_ops U PF pr ops t t1 xs Ft F E) as [F1 (Sm & Lk & Fk)].
  apply (put_back_all U PF pr' t Ft ks t1 F1 Sm).
  - rewrite Forall_forall in *. intros k I. apply Fk, Ks, I.
  - intros j Nj. apply Lk. intros I. apply Nj. apply in_map_iff in I. destruct I as (k & Q & I). apply in_map_iff. exists k. split; [exact Q|]. apply Ks, I.
Qed.
Print Assumptions C87_restore.

(** So does replaying the journal. *)
Lemma ops_app pr a b : forall t, trie_ops pr t (a ++ b) = ('(t1, xs) <- trie_ops pr t a ;; '(t2, ys) <- trie_ops pr t1 b ;; Ok (t2, xs ++ ys)).
Proof.
  induction a as [|o a IH]; intros t; cbn [app trie_ops bind].
  - destruct (trie_ops pr t b) as [[t2 ys]|]; reflexivity.
  - destruct (trie_op pr t o) as [[t1 x]|]; cbn [bind]; [|reflexivity]. rewrite IH. destruct (trie_ops pr t1 a) as [[t2 xs]|]; cbn [bind]; [|reflexivity].
    destruct (trie_ops pr t2 b) as [[t3 ys]|]; reflexivity.
Qed.
Theorem C87_journal : forall pr pr' U ops t t1 xs,
  prefix_free U -> free_trie U t -> Forall (op_in U) ops -> trie_ops pr t ops = Ok (t1, xs) ->
  exists ys, trie_ops pr' t1 (journal pr t ops) = Ok (t, ys).
Proof.
  intros pr pr' U ops. induction ops as [|o ops IH]; intros t t1 xs PF Ft F E; cbn [trie_ops journal] in *.
  - injection E as <- _. exists []. reflexivity.
  - inversion F as [|? ? Fo Fl]; subst. destruct (trie_op pr t o) as [[t2 x]|] eqn:E1; [|discriminate]. cbn [bind] in E.
    destruct (trie_ops pr t2 ops) as [[t3 zs]|] eqn:E2; [|discriminate]. cbn [bind] in E. injection E as <- _.
    destruct (kept_op U PF pr t o t2 x Ft Fo E1) as [F2 _]. destruct (IH t2 t3 zs PF F2 Fl E2) as (ys & Ej). rewrite ops_app, Ej. cbn [bind].
    destruct (C87_restore pr pr' U t [o] t2 [x] (touched o) PF Ft) as (ws & ->).
    + constructor; [exact Fo|constructor].
    + cbn [trie_ops]. rewrite E1. reflexivity.
    + intros k. cbn [flat_map]. rewrite app_nil_r. reflexivity.
    + cbn [bind]. eauto.
Qed.
Print Assumptions C87_journal.

(** What to write down beforehand can be read with [get], if the key does not end inside an extension node; with keys of one length always. *)
Theorem C87_read : forall pr U t k,
  prefix_free U -> free_trie U t -> kwf k -> U (nseq k) -> ~ too_short t (nseq k) ->
  exists w, trie_get pr t k = Ok w /\ put_back t k = match w with Some v => OInsert k v | None => ODelete k end.
Proof.
  intros pr U t k PF Ft Hk Uk NS. rewrite (free_get U PF pr t k Ft Hk Uk NS). eexists. split; [reflexivity|]. unfold put_back. destruct (lk t (nseq k)) as [[v|h]|]; reflexivity.
Qed.
Print Assumptions C87_read.
Theorem C87_read_fixed : forall pr n t k,
  fixed_trie n t -> kwf k -> length (nseq k) = n ->
  exists w, trie_get pr t k = Ok w /\ put_back t k = match w with Some v => OInsert k v | None => ODelete k end.
Proof.
  intros pr n t k Ft Hk Ln. rewrite (fixed_get n pr t k Ft Hk Ln). eexists. split; [reflexivity|]. unfold put_back. destruct (lk t (nseq k)) as [[v|h]|]; reflexivity.
Qed.
Print Assumptions C87_read_fixed.

(** The same with the trie that caches its hashes: taking a checkpoint (a clone and a hash), changing the trie, hashing it, and putting the keys back gives the hash
    of the checkpoint and a trie that is equal to it. *)
Lemma vrun_on keccak pr rest ops : forall t t1 xs, trie_ops pr t ops = Ok (t1, xs) -> vrun keccak pr (t :: rest) (map (on 0) ops) = Ok (t1 :: rest, map seen xs).
Proof.
  induction ops as [|o ops IH]; intros t t1 xs E; cbn [trie_ops map] in *.
  - injection E as <- <-. reflexivity.
  - destruct (trie_op pr t o) as [[t2 x]|] eqn:E1; [|discriminate]. cbn [bind] in E.
    destruct (trie_ops pr t2 ops) as [[t3 ys]|] eqn:E2; [|discriminate]. cbn [bind] in E. injection E as <- <-. cbn [vrun map].
    assert (X : vstep keccak pr (t :: rest) (on 0 o) = Ok (t2 :: rest, seen x)).
    { destruct o as [k v|l|k|k]; cbn [trie_op on vstep] in *; unfold the; cbn [nth_error bind].
      - destruct (trie_insert pr t k (Val v)); [|discriminate]. cbn [bind] in *. injection E1 as <- <-. reflexivity.
      - destruct (trie_extend pr t _); [|discriminate]. cbn [bind] in *. injection E1 as <- <-. reflexivity.
      - destruct (trie_delete pr t k) as [[t' w]|]; [|discriminate]. cbn [bind] in *. injection E1 as <- <-. reflexivity.
      - destruct (trie_get pr t k); [|discriminate]. cbn [bind] in *. injection E1 as <- <-. reflexivity. }
    rewrite X. cbn [bind]. rewrite (IH t2 t3 ys E2). reflexivity.
Qed.
Lemma vrun_app keccak pr a b : forall ts, vrun keccak pr ts (a ++ b) = ('(ts1, xs) <- vrun keccak pr ts a ;; '(ts2, ys) <- vrun keccak pr ts1 b ;; Ok (ts2, xs ++ ys)).
Proof.
  induction a as [|o a IH]; intros ts; cbn [app vrun bind].
  - destruct (vrun keccak pr ts b) as [[t2 ys]|]; reflexivity.
  - destruct (vstep keccak pr ts o) as [[t1 x]|]; cbn [bind]; [|reflexivity]. rewrite IH. destruct (vrun keccak pr t1 a) as [[t2 xs]|]; cbn [bind]; [|reflexivity].
    destruct (vrun keccak pr t2 b) as [[t3 ys]|]; reflexivity.
Qed.

Theorem C87_cached : forall keccak pr U l t ops t1 xs ks h h1,
  prefix_free U -> from_iter pr l = Ok t -> free_trie U t -> Forall (op_in U) ops -> trie_ops pr t ops = Ok (t1, xs) ->
  (forall k, In k ks <-> In k (flat_map touched ops)) -> hash_trie keccak pr t = Ok h -> hash_trie keccak pr t1 = Ok h1 ->
  exists hs ys,
    start keccak pr ([New l; HashOf 0; Clone 0] ++ map (on 0) ops ++ [HashOf 0] ++ map (on 0) (map (put_back t) ks) ++ [HashOf 0; Equal 0 1]) =
      Ok (hs, [Done; Digest h; Done] ++ map seen xs ++ [Digest h1] ++ ys ++ [Digest h; Answer true]) /\
    map erase hs = [t; t].
Proof.
  intros keccak pr U l t ops t1 xs ks h h1 PF El Ft F E Ks Eh Eh1. destruct (C87_restore pr pr U t ops t1 xs ks PF Ft F E Ks) as (zs & Ez).
  destruct (C29_clones_partial keccak pr ([New l; HashOf 0; Clone 0] ++ map (on 0) ops ++ [HashOf 0] ++ map (on 0) (map (put_back t) ks) ++ [HashOf 0; Equal 0 1])
    [t; t] ([Done; Digest h; Done] ++ map seen xs ++ [Digest h1] ++ map seen zs ++ [Digest h; Answer true])) as (hs & Es & M); [| |eauto].
  - assert (Tm : forall os, Forall tame (map (on 0) os)) by (intros os; apply Forall_forall; intros q I; apply in_map_iff in I; destruct I as (o & <- & _); destruct o; exact Logic.I).
    repeat (apply Forall_app; split); try apply Tm; repeat constructor.
  - assert (Q : node_eqb t t = true) by (apply node_eqb_spec; reflexivity).
    assert (S1 : vrun keccak pr [] [New l; HashOf 0; Clone 0] = Ok ([t; t], [Done; Digest h; Done])).
    { cbn [vrun vstep]. rewrite El. cbn [bind app]. unfold the. cbn [nth_error bind]. rewrite Eh. reflexivity. }
    assert (S2 : vrun keccak pr [t1; t] [HashOf 0] = Ok ([t1; t], [Digest h1])) by (cbn [vrun vstep]; unfold the; cbn [nth_error bind]; rewrite Eh1; reflexivity).
    assert (S3 : vrun keccak pr [t; t] [HashOf 0; Equal 0 1] = Ok ([t; t], [Digest h; Answer true])).
    { cbn [vrun vstep]. unfold the. cbn [nth_error bind]. rewrite Eh. cbn [bind nth_error]. rewrite Q. reflexivity. }
    rewrite (vrun_app keccak pr [New l; HashOf 0; Clone 0]), S1. cbn [bind]. rewrite (vrun_app keccak pr (map (on 0) ops)), (vrun_on keccak pr [t] ops t t1 xs E). cbn [bind].
    rewrite (vrun_app keccak pr [HashOf 0]), S2. cbn [bind]. rewrite (vrun_app keccak pr (map (on 0) (map (put_back t) ks))), (vrun_on keccak pr [t] _ t1 t zs Ez). cbn [bind]. rewrite S3. reflexivity.
Qed.
Print Assumptions C87_cached.

(** With keys that may be the start of others the value of another key can be lost: inserting at 1 replaces the value at 123, and deleting 1 then removes it. *)
Theorem C87_refuted : forall pr, exists t t1 xs t2 ys,
  reach pr t /\ kwf (K 1 1) /\ put_back t (K 1 1) = ODelete (K 1 1) /\
  trie_ops pr t [OInsert (K 1 1) [9]] = Ok (t1, xs) /\ trie_ops pr t1 [put_back t (K 1 1)] = Ok (t2, ys) /\
  lk t [1;2;3] = Some (Val [7]) /\ lk t2 [1;2;3] = None.
Proof.
  intros pr. set (l := [(K 4 0x1234, Val [1]); (K 4 0x1235, Val [2]); (K 3 0x123, Val [7])]).
  exists (okn (from_iter Debug l)). eexists. eexists. eexists. eexists.
  assert (E : trie_extend Debug Empty l = Ok (okn (from_iter Debug l))) by (vm_compute; reflexivity).
  assert (Fl : Forall pentry l).
  { unfold l. repeat (apply Forall_cons; [split; [split; vm_compute; (reflexivity || (intro; discriminate))|discriminate]|]). apply Forall_nil. }
  destruct (extend_canon Debug l Empty _ (wf_empty 64) cn_empty Fl E) as [W C].
  split; [apply reach_start; assumption|]. split; [split; vm_compute; (reflexivity || (intro; discriminate))|]. split; [vm_compute; reflexivity|].
  split; [destruct pr; vm_compute; reflexivity|]. split; [destruct pr; vm_compute; reflexivity|]. split; vm_compute; reflexivity.
Qed.
Print Assumptions C87_refuted.

(** A partial trie, a history with an overwritten, a deleted and two new keys, and a list of the keys in another order. *)
Definition roll_list : list (nibbles * val_or_hash) := [(K 4 0x1234, Val [1]); (K 4 0x1256, Val [2]); (K 2 0x20, HashV (repeat 7 32))].
Definition roll_trie : node := okn (from_iter Debug roll_list).
Definition roll_ops : list op := [OInsert (K 4 0x1234) [5]; ODelete (K 4 0x1256); OGet (K 4 0x1234); OExtend [(K 4 0x2134, [6]); (K 4 0x1256, [8])]; ODelete (K 4 0x3333)].
Definition roll_keys : list nibbles := [K 4 0x3333; K 4 0x2134; K 4 0x1256; K 4 0x1234].
Example C87_example : prefix_free (fun k => length k = 4%nat) /\ fixed_trie 4 roll_trie /\ free_trie (fun k => length k = 4%nat) roll_trie /\
  Forall (op_in (fun k => length k = 4%nat)) roll_ops /\ (forall k, In k roll_keys <-> In k (flat_map touched roll_ops)) /\
  exists t1 xs, trie_ops Debug roll_trie roll_ops = Ok (t1, xs) /\ t1 <> roll_trie /\ exists ys, trie_ops Release t1 (map (put_back roll_trie) roll_keys) = Ok (roll_trie, ys).
Proof.
  assert (E : trie_extend Debug Empty roll_list = Ok roll_trie) by (vm_compute; reflexivity).
  assert (Fl : Forall pentry roll_list).
  { unfold roll_list. repeat (apply Forall_cons; [split; [split; vm_compute; (reflexivity || (intro; discriminate))|try exact Logic.I; discriminate]|]). apply Forall_nil. }
  destruct (extend_canon Debug roll_list Empty roll_trie (wf_empty 64) cn_empty Fl E) as [W C].
  assert (Fx : fixed_trie 4 roll_trie).
  { split; [exact W|]. split; [exact C|]. assert (B : forallb (fun e => match snd e with Val _ => Nat.eqb (length (fst e)) 4 | HashV _ => Nat.leb (length (fst e)) 4 end) (entries roll_trie) = true) by (vm_compute; reflexivity).
    rewrite forallb_forall in B. split; intros k x L; apply entries_lk in L; apply B in L; cbn [fst snd] in L; [apply Nat.eqb_eq, L|apply Nat.leb_le, L]. }
  destruct (C81_fixed 4 roll_trie Fx) as [Ft PF]. assert (Fo : Forall (op_in (fun k => length k = 4%nat)) roll_ops).
  { unfold roll_ops. repeat (apply Forall_cons; [cbn [op_in]; repeat first [apply Forall_nil|apply Forall_cons|split]; vm_compute; (reflexivity || discriminate || (intro; discriminate))|]). apply Forall_nil. }
  assert (Ks : forall k, In k roll_keys <-> In k (flat_map touched roll_ops)) by (intros k; cbn [roll_keys roll_ops flat_map touched map fst app In]; tauto).
  split; [exact PF|]. split; [exact Fx|]. split; [exact Ft|]. split; [exact Fo|]. split; [exact Ks|].
  assert (B : match trie_ops Debug roll_trie roll_ops with Ok (t1, _) => negb (node_eqb t1 roll_trie) | _ => false end = true) by (vm_compute; reflexivity).
  destruct (trie_ops Debug roll_trie roll_ops) as [[t1 xs]|] eqn:E1; [|discriminate]. exists t1, xs. split; [reflexivity|]. split.
  - intros ->. assert (Q : node_eqb roll_trie roll_trie = true) by (apply node_eqb_spec; reflexivity). rewrite Q in B. discriminate.
  - exact (C87_restore Debug Release _ roll_trie roll_ops t1 xs roll_keys PF Ft Fo E1 Ks).
Qed.
Definition hashes (r : res (list N)) : bool := match r with Ok _ => true | Panic => false end.
Lemma roll_hashes : hashes (hash_trie keccak256 Debug roll_trie) = true.
Proof. vm_compute. reflexivity. Qed.
Definition hashes_after (r : res (node * list out)) : bool := match r with Ok (t1, _) => hashes (hash_trie keccak256 Debug t1) | Panic => false end.
Lemma roll_hashes_after : hashes_after (trie_ops Debug roll_trie roll_ops) = true.
Proof. vm_compute. reflexivity. Qed.
Lemma hashes_ok r : hashes r = true -> exists h, r = Ok h.
Proof. destruct r; [eauto|discriminate]. Qed.
Lemma hashes_after_ok r : hashes_after r = true -> exists t1 xs h1, r = Ok (t1, xs) /\ hash_trie keccak256 Debug t1 = Ok h1.
Proof. destruct r as [[t1 xs]|]; [|discriminate]. intros H. destruct (hashes_ok _ H) as (h1 & E). eauto. Qed.
Lemma roll_built : from_iter Debug roll_list = Ok roll_trie.
Proof. vm_compute. reflexivity. Qed.
Example C87_cached_example : from_iter Debug roll_list = Ok roll_trie /\ (exists h, hash_trie keccak256 Debug roll_trie = Ok h) /\
  exists t1 xs h1, trie_ops Debug roll_trie roll_ops = Ok (t1, xs) /\ hash_trie keccak256 Debug t1 = Ok h1.
Proof. split; [exact roll_built|]. split; [exact (hashes_ok _ roll_hashes)|exact (hashes_after_ok _ roll_hashes_after)]. Qed.
