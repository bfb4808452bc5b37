(** Property C91: transactions, with the trie that caches its hashes. *)
From Coq Require Import Permutation.
From Verif Require Import Base Nibbles NibblesSpec NibblesFacts NibblesFacts2 NibblesFacts3 Trie TrieSpec TrieHistSpec TrieFacts TrieInsert TrieGet TrieDelete TrieUnique TrieIter TrieHist TrieObs OrderSpec Rlp YellowPaper Hashing Keccak HashSpec HashFacts KeccakFacts HideSpec HideFacts Cache CacheSpec CacheFacts2 P_Cache P_Trie P_Hash ItemsFacts Subset SubsetSpec ReplaySpec ReplayFacts P_Subset P_Refresh FreeSpec FreeFacts P_Free UserSpec P_User TrieHistSpec RollSpec P_Roll CommuteSpec P_Commute NetSpec P_Net P_Log TxSpec P_Tx TxUserSpec.
Open Scope N_scope.

Lemma commit_ne pr vs p back vs1 r : commit pr vs p back = Ok (vs1, r) -> vs <> [] -> vs1 <> [].
Proof.
  unfold commit. destruct (nth_error vs back) as [[old ks]|]; [|intros E; injection E as <- <-; auto]. destruct (tx_run pr old p) as [[o l]|]; [|discriminate]. cbn [bind].
  destruct (clash _ _); [intros E; injection E as <- <-; auto|]. destruct (trie_ops pr (newest vs) _) as [[t ys]|]; [|discriminate]. cbn [bind]. intros E. injection E as <- <-. discriminate.
Qed.
Lemma commits_ne pr cs : forall vs rs, commits pr vs cs = Ok ([], rs) -> vs = [].
Proof.
  induction cs as [|[p back] cs IH]; intros vs rs E; cbn [commits] in E; [injection E as <- _; reflexivity|].
  destruct (commit pr vs p back) as [[vs2 r]|] eqn:E1; [|discriminate]. cbn [bind] in E. destruct (commits pr vs2 cs) as [[vs3 rs']|] eqn:E2; [|discriminate]. cbn [bind] in E. injection E as -> _.
  specialize (IH vs2 rs' E2). destruct vs as [|v vs]; [reflexivity|]. exfalso. exact (commit_ne pr (v :: vs) p back vs2 r E1 ltac:(discriminate) IH).
Qed.

Section V.
Variable keccak : list N -> list N.
Variable pr : profile.

Lemma the_last ts (t : node) : CacheSpec.the (ts ++ [t]) (length ts) = Ok t.
Proof. unfold CacheSpec.the. rewrite nth_error_app2, Nat.sub_diag by lia. reflexivity. Qed.
Lemma replace_last ts (t t1 : node) : CacheSpec.replace (ts ++ [t]) (length ts) t1 = ts ++ [t1].
Proof. induction ts as [|a ts IH]; cbn [app length CacheSpec.replace]; [reflexivity|]. rewrite IH. reflexivity. Qed.

Lemma on_step ts t o t1 x : trie_op pr t o = Ok (t1, x) -> vstep keccak pr (ts ++ [t]) (on (length ts) o) = Ok (ts ++ [t1], seen x).
Proof.
  intros E. destruct o as [k v|l|k|k]; cbn [trie_op on vstep] in *; rewrite the_last; cbn [bind].
  - destruct (trie_insert pr t k (Val v)) as [t2|]; [|discriminate]. cbn [bind] in *. injection E as <- <-. rewrite replace_last. reflexivity.
  - destruct (trie_extend pr t _) as [t2|]; [|discriminate]. cbn [bind] in *. injection E as <- <-. rewrite replace_last. reflexivity.
  - destruct (trie_delete pr t k) as [[t2 w]|]; [|discriminate]. cbn [bind] in *. injection E as <- <-. rewrite replace_last. reflexivity.
  - destruct (trie_get pr t k) as [w|]; [|discriminate]. cbn [bind] in *. injection E as <- <-. reflexivity.
Qed.
Lemma heard_seen x : heard (seen x) = x.
Proof. destruct x; reflexivity. Qed.

Lemma tx_user_run ts p : forall t t1 l, tx_run pr t p = Ok (t1, l) -> vplay keccak pr (ts ++ [t]) (tx_user (length ts) p) = Ok (ts ++ [t1], l).
Proof.
  induction p as [|o next IH]; intros t t1 l E; cbn [tx_run tx_user vplay] in *.
  - injection E as <- <-. reflexivity.
  - destruct (trie_op pr t o) as [[t2 x]|] eqn:E1; [|discriminate]. cbn [bind] in E. destruct (tx_run pr t2 (next x)) as [[t3 l']|] eqn:E2; [|discriminate]. cbn [bind] in E. injection E as <- <-.
    rewrite (on_step ts t o t2 x E1). cbn [bind]. rewrite vplay_bind, !heard_seen, (IH x t2 t3 l' E2). reflexivity.
Qed.
Lemma ops_user_run ts w : forall t t1 ys, trie_ops pr t w = Ok (t1, ys) -> vplay keccak pr (ts ++ [t]) (ops_user (length ts) w) = Ok (ts ++ [t1], tt).
Proof.
  induction w as [|o w IH]; intros t t1 ys E; cbn [trie_ops ops_user vplay] in *.
  - injection E as <- <-. reflexivity.
  - destruct (trie_op pr t o) as [[t2 x]|] eqn:E1; [|discriminate]. cbn [bind] in E. destruct (trie_ops pr t2 w) as [[t3 l']|] eqn:E2; [|discriminate]. cbn [bind] in E. injection E as <- <-.
    rewrite (on_step ts t o t2 x E1). cbn [bind]. eauto.
Qed.

(** The handles of the versions. *)
Definition handles (ts : list node) (hv : nat * list nibbles) (v : node * list nibbles) : Prop := nth_error ts (fst hv) = Some (fst v) /\ snd hv = snd v.
Lemma handles_app ts ts' hvs vs : Forall2 (handles ts) hvs vs -> Forall2 (handles (ts ++ ts')) hvs vs.
Proof.
  intros F. induction F as [|hv v hvs vs [A B] F IH]; constructor; [|exact IH]. split; [|exact B]. rewrite nth_error_app1; [exact A|]. apply nth_error_Some. congruence.
Qed.
Lemma handles_changed ts hvs vs : Forall2 (handles ts) hvs vs -> forall back, flat_map snd (firstn back hvs) = flat_map snd (firstn back vs).
Proof. intros F. induction F as [|hv v hvs vs [A B] F IH]; intros [|back]; cbn [firstn flat_map]; try reflexivity. rewrite B, IH. reflexivity. Qed.
Lemma handles_nth ts hvs vs : Forall2 (handles ts) hvs vs -> forall back, match nth_error hvs back, nth_error vs back with
  | Some (h, _), Some (t, _) => nth_error ts h = Some t | None, None => True | _, _ => False end.
Proof.
  intros F. induction F as [|[h ks] [t ks'] hvs vs [A B] F IH]; intros [|back]; cbn [nth_error]; try exact Logic.I; [exact A|apply IH].
Qed.

Lemma commit_user_run ts hvs vs p back vs1 r : Forall2 (handles ts) hvs vs -> commit pr vs p back = Ok (vs1, r) ->
  exists ts1 hvs1, vplay keccak pr ts (commit_user (length ts) hvs p back) = Ok (ts1, (length ts1, hvs1, r)) /\ Forall2 (handles ts1) hvs1 vs1.
Proof.
  intros F E. unfold commit in E. unfold commit_user. pose proof (handles_nth ts hvs vs F back) as Hn.
  destruct (nth_error hvs back) as [[h ks]|] eqn:Eh, (nth_error vs back) as [[old ks']|] eqn:Ev; try contradiction.
  2:{ injection E as <- <-. exists ts, hvs. split; [destruct hvs as [|[? ?] ?]; reflexivity|exact F]. }
  destruct (tx_run pr old p) as [[o1 l]|] eqn:Er; [|discriminate]. cbn [bind] in E.
  assert (N0 : exists now nk hvs0 now_h nh vs0, hvs = (now_h, nh) :: hvs0 /\ vs = (now, nk) :: vs0 /\ nth_error ts now_h = Some now).
  { destruct F as [|[a b] [c d] hvs0 vs0 [A B] F]; [destruct back; discriminate|]. do 6 eexists. split; [reflexivity|]. split; [reflexivity|exact A]. }
  destruct N0 as (now & nk & hvs0 & now_h & nh & vs0 & Qh & Qv & Nn). subst hvs vs. cbn [vplay vstep]. set (hvs := (now_h, nh) :: hvs0) in *. set (vs := (now, nk) :: vs0) in *. unfold CacheSpec.the at 1. rewrite Hn. cbn [bind].
  rewrite vplay_bind, (tx_user_run ts p old o1 l Er). cbn [bind]. rewrite (handles_changed ts hvs vs F back).
  destruct (clash _ _) eqn:C.
  - injection E as <- <-. exists (ts ++ [o1]), hvs. cbn [vplay]. split; [rewrite app_length, Nat.add_1_r; reflexivity|apply handles_app, F].
  - destruct (trie_ops pr (newest vs) (compact (map fst l))) as [[t ys]|] eqn:Ew; [|discriminate]. cbn [bind] in E. injection E as <- <-.
    cbv zeta. cbn [vplay vstep]. unfold CacheSpec.the. rewrite (nth_error_app1 ts [o1]) by (apply nth_error_Some; congruence). rewrite Nn. cbn [bind].
    assert (Ew' : trie_ops pr now (compact (map fst l)) = Ok (t, ys)) by exact Ew.
    replace (S (length ts)) with (length (ts ++ [o1])) by (rewrite app_length, Nat.add_1_r; reflexivity).
    rewrite vplay_bind, (ops_user_run (ts ++ [o1]) (compact (map fst l)) now t ys Ew'). cbn [bind vplay].
    exists ((ts ++ [o1]) ++ [t]), ((length (ts ++ [o1]), flat_map touched (compact (map fst l))) :: hvs). split; [rewrite (app_length (ts ++ [o1])), Nat.add_1_r; reflexivity|].
    constructor; [split; [cbn [fst]; rewrite nth_error_app2, Nat.sub_diag by lia; reflexivity|reflexivity]|]. rewrite <- app_assoc. apply handles_app, F.
Qed.

Lemma commits_user_run cs : forall ts hvs vs vs1 rs, Forall2 (handles ts) hvs vs -> commits pr vs cs = Ok (vs1, rs) ->
  exists ts1 hvs1, vplay keccak pr ts (commits_user (length ts) hvs cs) = Ok (ts1, (hvs1, rs)) /\ Forall2 (handles ts1) hvs1 vs1.
Proof.
  induction cs as [|[p back] cs IH]; intros ts hvs vs vs1 rs F E; cbn [commits commits_user vplay] in *.
  - injection E as <- <-. eauto.
  - destruct (commit pr vs p back) as [[vs2 r]|] eqn:E1; [|discriminate]. cbn [bind] in E. destruct (commits pr vs2 cs) as [[vs3 rs']|] eqn:E2; [|discriminate]. cbn [bind] in E. injection E as <- <-.
    destruct (commit_user_run ts hvs vs p back vs2 r F E1) as (ts2 & hvs2 & P2 & F2). destruct (IH ts2 hvs2 vs2 vs3 rs' F2 E2) as (ts3 & hvs3 & P3 & F3).
    rewrite vplay_bind, P2. cbn [bind fst snd]. rewrite vplay_bind, P3. cbn [bind vplay fst snd]. eauto.
Qed.

(** None of the calls takes a part of a trie. *)
Lemma on_tame h o : tame (on h o).
Proof. destruct o; exact Logic.I. Qed.
Lemma tx_user_tame h p : every tame (tx_user h p).
Proof. induction p as [|o next IH]; cbn [tx_user every]; [exact Logic.I|]. split; [apply on_tame|]. intros x. apply every_bind; [apply IH|]. intros l. exact Logic.I. Qed.
Lemma ops_user_tame h w : every tame (ops_user h w).
Proof. induction w as [|o w IH]; cbn [ops_user every]; [exact Logic.I|]. split; [apply on_tame|]. intros _. exact IH. Qed.
Lemma commit_user_tame n vs p back : every tame (commit_user n vs p back).
Proof.
  unfold commit_user. destruct (nth_error vs back) as [[old ks]|]; [|exact Logic.I]. destruct vs as [|[now nk] vs]; [exact Logic.I|]. cbn [every]. split; [exact Logic.I|]. intros _.
  apply every_bind; [apply tx_user_tame|]. intros l. destruct (clash _ _); [exact Logic.I|]. cbv zeta. cbn [every]. split; [exact Logic.I|]. intros _. apply every_bind; [apply ops_user_tame|]. intros _. exact Logic.I.
Qed.
Lemma commits_user_tame cs : forall n vs, every tame (commits_user n vs cs).
Proof.
  induction cs as [|[p back] cs IH]; intros n vs; cbn [commits_user]; [exact Logic.I|]. apply every_bind; [apply commit_user_tame|]. intros r. apply every_bind; [apply IH|]. intros q. exact Logic.I.
Qed.
End V.

(** The same with [HashedPartialTrie], where the versions and the tries the programs run on are clones that share nodes and cached hashes: the same are refused, the others get
    the same answers, and at the end [hash()] of the newest version is the root hash that running them one after the other gives. *)
Theorem C91_cached : forall keccak pr U l t cs vs rs h,
  prefix_free U -> from_iter pr l = Ok t -> free_trie U t -> Forall (fun c => tx_in U (fst c)) cs -> commits pr [(t, [])] cs = Ok (vs, rs) -> hash_trie keccak pr (newest vs) = Ok h ->
  (exists hs, play keccak pr (server l cs) = Ok (hs, (rs, Digest h))) /\
  exists t1, serial pr t (map fst (accepted cs rs)) = Ok (t1, map snd (accepted cs rs)) /\ hash_trie keccak pr t1 = Ok h.
Proof.
  intros keccak pr U l t cs vs rs h PF El Ft F E Eh. split; [|exists (newest vs); split; [exact (C91_serial pr U t cs vs rs PF Ft F E)|exact Eh]].
  destruct (commits_user_run keccak pr cs [t] [(0%nat, [])] [(t, [])] vs rs) as (ts1 & hvs1 & P & Fh); [constructor; [split; reflexivity|constructor]|exact E|].
  assert (V : vplay keccak pr [] (server l cs) = Ok (ts1, (rs, Digest h))).
  { unfold server. cbn [vplay vstep]. rewrite El. cbn [bind app]. rewrite vplay_bind. change 1%nat with (length [t]). rewrite P. cbn [bind fst snd vplay vstep].
    destruct Fh as [|[a b] [c d] hvs0 vs0 [A B] Fh]; [pose proof (commits_ne pr cs _ _ E); discriminate|]. unfold CacheSpec.the. cbn [fst] in A. rewrite A. cbn [bind newest] in *. rewrite Eh. reflexivity. }
  destruct (C72_uncloned keccak pr _ (server l cs) ts1 (rs, Digest h)) as (hs & Ep & _); [|exact V|exists hs; exact Ep].
  right. unfold server. cbn [every]. split; [exact Logic.I|]. intros _. apply every_bind; [apply commits_user_tame|]. intros r. cbn [every]. split; [exact Logic.I|auto].
Qed.
Print Assumptions C91_cached.

(** The programs of [tx_cs] (P_Tx.v). *)
Example C91_cached_example : from_iter Debug roll_list = Ok roll_trie /\ exists vs h hs, commits Debug [(roll_trie, [])] tx_cs = Ok (vs, tx_rs) /\ hash_trie keccak256 Debug (newest vs) = Ok h /\
  play keccak256 Debug (server roll_list tx_cs) = Ok (hs, (tx_rs, Digest h)).
Proof.
  split; [exact roll_built|]. destruct C91_example as (PF & Ft & F & vs & E & _).
  assert (B : match commits Debug [(roll_trie, [])] tx_cs with Ok (vs, _) => hashes (hash_trie keccak256 Debug (newest vs)) | Panic => false end = true) by (vm_compute; reflexivity).
  rewrite E in B. destruct (hash_trie keccak256 Debug (newest vs)) as [h|] eqn:Eh; [|discriminate].
  destruct (C91_cached keccak256 Debug four roll_list roll_trie tx_cs vs tx_rs h PF roll_built Ft ltac:(eapply Forall_impl; [|exact F]; intros c H; apply H) E Eh) as ((hs & P) & _). exists vs, h, hs. auto.
Qed.
