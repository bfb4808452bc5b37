(** Properties C44 and C45: saving and loading tries, and differences between handles with cached hashes. *)
From Verif Require Import Base Nibbles Trie TrieSpec TrieFacts HashSpec Hashing Keccak Query Diff Serde DiffCache Subset Cache CacheSpec CacheFacts ReloadFacts CacheFacts2 CacheFacts3 CacheFacts4 FullFacts P_Trie P_Hash P_Cache P_Diff.
Open Scope N_scope.

(** * C44: what was saved is what is loaded *)
(** The tries of the Rust types: a branch has an array of 16 children. *)
Inductive typed : node -> Prop :=
| typed_empty : typed Empty
| typed_hash h : typed (Hash h)
| typed_branch ch v : length ch = 16%nat -> (forall c, In c ch -> typed c) -> typed (Branch ch v)
| typed_extension n c : typed c -> typed (Extension n c)
| typed_leaf n v : typed (Leaf n v).
Lemma typed_full t : typed t <-> full t = true.
Proof.
  split.
  - induction t as [|h|ch v IH|n c IH|n v] using node_ind'; intros T; inversion T; subst; try reflexivity.
    + apply full_branch. split; [assumption|]. rewrite Forall_forall in *. auto.
    + cbn [full]. auto.
  - induction t as [|h|ch v IH|n c IH|n v] using node_ind'; intros F; try constructor.
    + apply full_branch in F. apply F.
    + intros c I. apply full_branch in F. destruct F as [_ F]. rewrite Forall_forall in *. auto.
    + auto.
Qed.

(** Keys: any of them. *)
Theorem C44_nibbles : forall n, de_nibbles (ser_nibbles n) = Some n.
Proof. exact de_ser_nibbles. Qed.

(** [StandardTrie]: any trie, also one that no operation makes. *)
Theorem C44_roundtrip : forall t, typed t -> deserialize (serialize t) = Some t.
Proof. intros t T. rewrite deserialize_serialize. apply typed_full in T. rewrite T. reflexivity. Qed.
Example C44_typed_example : typed (Branch (repeat Empty 15 ++ [Leaf (K 2 0x12) [1]]) []) /\ typed (Extension (K 0 0x12) Empty) /\
  serialize (Leaf (K 2 0x12) [1]) =
    DNewtype (DStructVariant v_Leaf [(f_nibbles, DStruct [(f_count, DU64 2); (f_packed, DU512 0x12)]); (f_value, DSeq [DU8 1])]).
Proof. repeat split; try (apply typed_full; reflexivity). Qed.

(** The type rules out nothing that happens: all tries in all histories are of the type, in the model as well, whatever the keys. *)
Theorem C44_histories : forall keccak pr os ts xs,
  vrun keccak pr [] os = Ok (ts, xs) -> forall t, In t ts -> typed t /\ deserialize (serialize t) = Some t.
Proof.
  intros keccak pr os ts xs E t I. assert (T : typed t).
  { apply typed_full. pose proof (full_run keccak pr os [] ts xs (Forall_nil _) E) as F. rewrite Forall_forall in F. auto. }
  split; [exact T|apply C44_roundtrip, T].
Qed.

(** Different tries are saved as different data. *)
Theorem C44_injective : forall a b, typed a -> typed b -> serialize a = serialize b -> a = b.
Proof. intros a b A B E. apply C44_roundtrip in A, B. congruence. Qed.

(** Whatever data is loaded, the result is an error or a trie of the type, and that trie can be saved and loaded again. *)
Lemma deserialize_full d : forall t, deserialize d = Some t -> full t = true.
Proof.
  revert d. fix IH 1. intros d. destruct d as [| | | | | | | |d'| | | |]; try discriminate. destruct d'; try discriminate; cbn [deserialize].
  - destruct v; try discriminate. intros t [= <-]. reflexivity.
  - destruct v, d'; try discriminate. intros t [= <-]. reflexivity.
  - destruct v; try discriminate; destruct fields as [|[[] d1] [|[[] d2] [|]]]; try discriminate; try (destruct d1; discriminate).
    + destruct d1; try discriminate. destruct (sixteen l) eqn:L; [|discriminate]. intros t.
      match goal with |- match ?f l with _ => _ end = _ -> _ =>
        assert (S : forall l ch, f l = Some ch -> length ch = length l /\ forallb full ch = true)
      end.
      { clear - IH. fix IHl 1. intros [|d l] ch; [intros [= <-]; split; reflexivity|].
        destruct (deserialize d) as [c|] eqn:Ed; [|discriminate].
        match goal with |- match ?m with _ => _ end = _ -> _ => destruct m as [cs|] eqn:El; [|discriminate] end. intros [= <-].
        apply IH in Ed. apply IHl in El. destruct El as [El1 El2]. split; [cbn [length]; congruence|]. cbn [forallb]. rewrite Ed. exact El2. }
      match goal with |- match ?m with _ => _ end = _ -> _ => destruct m as [cs|] eqn:El; [|discriminate] end. apply S in El. destruct El as [E1 E2].
      destruct (de_bytes d2); [|discriminate]. intros [= <-]. cbn [full]. unfold sixteen in *. rewrite E1, L. exact E2.
    + intros t. destruct (de_nibbles d1); [|discriminate]. destruct (deserialize d2) as [c|] eqn:Ed; [|discriminate]. intros [= <-].
      cbn [full]. apply (IH d2), Ed.
    + intros t. destruct (de_nibbles d1); [|discriminate]. destruct (de_bytes d2); [|discriminate]. intros [= <-]. reflexivity.
Qed.
Theorem C44_loaded : forall d t, deserialize d = Some t -> typed t /\ deserialize (serialize t) = Some t.
Proof. intros d t E. apply deserialize_full in E. apply typed_full in E. split; [exact E|apply C44_roundtrip, E]. Qed.

(** [HashedPartialTrie]: whatever cells there are and whatever they hold, the contents are as saved. *)
Lemma exec_bind {A B} (p : prog A) (f : A -> prog B) s n :
  exec (pbind p f) s n = match exec p s n with Ok (x, s', n') => exec (f x) s' n' | Panic => Panic end.
Proof. revert s n. induction p as [x| |c k IH|c o p IH|k IH]; intros s n; cbn [pbind exec]; auto. Qed.

(** The data of a handle, when its cells hold [s]. *)
Fixpoint saved (s : store) (t : hnode) : data :=
  DStruct [(f_node, match t with
                    | HEmpty _ => DUnitVariant v_Empty
                    | HHash _ h => DNewtypeVariant v_Hash (DH256 h)
                    | HBranch _ ch v => DStructVariant v_Branch [(f_children, DTuple (map (saved s) ch)); (f_value, ser_bytes v)]
                    | HExtension _ n c => DStructVariant v_Extension [(f_nibbles, ser_nibbles n); (f_child, saved s c)]
                    | HLeaf _ n v => DStructVariant v_Leaf [(f_nibbles, ser_nibbles n); (f_value, ser_bytes v)]
                    end); (f_hash, ser_cached (s (cell t)))].
Lemma exec_hserialize t s n : exec (hserialize t) s n = Ok (saved s t, s, n).
Proof.
  induction t as [c|c h|c ch v IH|c k t IH|c k v] using hnode_ind'; cbn [hserialize saved]; try reflexivity.
  - rewrite exec_bind, exec_bind.
    match goal with |- context[exec (?f ch) s n] => assert (G : exec (f ch) s n = Ok (map (saved s) ch, s, n)) end.
    { induction IH as [|t ch Ht F IHc]; [reflexivity|]. rewrite exec_bind, Ht, exec_bind, IHc. reflexivity. }
    rewrite G. reflexivity.
  - rewrite exec_bind, exec_bind, IH. reflexivity.
Qed.
Lemma exec_hdeserialize s t : full (erase t) = true -> forall s0 n0, exists u s1 n1, exec (hdeserialize (saved s t)) s0 n0 = Ok (Some u, s1, n1) /\ erase u = erase t /\ n0 <= n1.
Proof.
  induction t as [c|c h|c ch v IH|c k t IH|c k v] using hnode_ind'; intros F s0 n0; cbn [hdeserialize saved].
  - rewrite de_ser_cached. cbn. eexists _, _, _. split; [reflexivity|]. split; [reflexivity|lia].
  - rewrite de_ser_cached. cbn. eexists _, _, _. split; [reflexivity|]. split; [reflexivity|lia].
  - cbn [erase full] in F. apply andb_true_iff in F. destruct F as [L F]. unfold sixteen in *. rewrite map_length in *. rewrite L.
    rewrite de_ser_cached, de_ser_bytes, exec_bind, exec_bind.
    match goal with |- context[exec (?f (map (saved s) ch)) s0 n0] =>
      assert (G : exists us s1 n1, exec (f (map (saved s) ch)) s0 n0 = Ok (Some us, s1, n1) /\ map erase us = map erase ch /\ n0 <= n1) end.
    { clear L. revert F s0 n0. induction IH as [|t ch Ht IH IHc]; intros F s0 n0; [exists [], s0, n0; repeat split; lia|].
      cbn [map forallb] in F. apply andb_true_iff in F. destruct F as [Ft F]. cbn [map]. rewrite exec_bind.
      destruct (Ht Ft s0 n0) as (u & s1 & n1 & -> & Eu & L1). rewrite exec_bind. destruct (IHc F s1 n1) as (us & s2 & n2 & -> & Eus & L2).
      cbn [exec]. eexists _, _, _. split; [reflexivity|]. cbn [map]. split; [congruence|lia]. }
    destruct G as (us & s1 & n1 & -> & Eus & L1). cbn [exec]. cbn. eexists _, _, _. split; [reflexivity|]. split; [cbn [erase]; congruence|lia].
  - rewrite de_ser_nibbles, de_ser_cached, exec_bind, exec_bind. destruct (IH F s0 n0) as (u & s1 & n1 & -> & Eu & L1). cbn.
    eexists _, _, _. split; [reflexivity|]. split; [cbn [erase]; congruence|lia].
  - rewrite de_ser_nibbles, de_ser_bytes, de_ser_cached. cbn. eexists _, _, _. split; [reflexivity|]. split; [reflexivity|lia].
Qed.
Theorem C44_handle_contents : forall t s n, typed (erase t) ->
  exists u s' n', exec (hreload t) s n = Ok (u, s', n') /\ erase u = erase t /\ heqb u t = true.
Proof.
  intros t s n T. apply typed_full in T. unfold hreload. rewrite exec_bind, exec_hserialize, exec_bind.
  destruct (exec_hdeserialize s t T s n) as (u & s1 & n1 & -> & E & _). exists u, s1, n1. split; [reflexivity|]. split; [exact E|].
  apply C31_equal_iff, E.
Qed.
Example C44_handle_example : typed (erase (HExtension 7 (K 2 0x12) (HBranch 7 (repeat (HEmpty 3) 16) [1]))).
Proof. apply typed_full. reflexivity. Qed.

(** Loading never panics, whatever the data. *)
Lemma hdeserialize_total d : forall s n, exec (hdeserialize d) s n <> Panic.
Proof.
  revert d. fix IH 1. intros d s n.
  destruct d as [| | | | | | | | |fields| | |]; try discriminate. destruct fields as [|[[] dn] [|[[] dh] [|]]]; try discriminate.
  cbn [hdeserialize]. rewrite exec_bind.
  match goal with |- match ?m with _ => _ end <> _ => assert (G : m <> Panic) end.
  { destruct dn; try discriminate.
    - destruct v; discriminate.
    - destruct v, dn; discriminate.
    - destruct v; try discriminate; destruct fields as [|[[] d1] [|[[] d2] [|]]]; try discriminate; try (destruct d1; discriminate).
      + destruct d1; try discriminate. destruct (sixteen l); [|discriminate]. rewrite exec_bind.
        match goal with |- match exec (?f l) s n with _ => _ end <> _ => assert (S : forall l s n, exec (f l) s n <> Panic) end.
        { clear - IH. fix IHl 1. intros [|d l] s n; [discriminate|]. rewrite exec_bind. pose proof (IH d s n) as D.
          destruct (exec (hdeserialize d) s n) as [[[[c|] s1] n1]|]; [|discriminate|contradiction].
          rewrite exec_bind. pose proof (IHl l s1 n1) as D'.
          match goal with |- match ?m with _ => _ end <> _ => destruct m as [[[[cs|] s2] n2]|]; try discriminate; contradiction end. }
        specialize (S l s n). match goal with |- match ?m with _ => _ end <> _ => destruct m as [[[cs s2] n2]|]; [discriminate|contradiction] end.
      + destruct (de_nibbles d1); [|discriminate]. rewrite exec_bind. pose proof (IH d2 s n) as D.
        destruct (exec (hdeserialize d2) s n) as [[[c s1] n1]|]; [discriminate|contradiction]. }
  match goal with |- match ?m with _ => _ end <> _ => destruct m as [[[[mk|] s2] n2]|]; [|discriminate|contradiction] end.
  destruct (de_cached dh); discriminate.
Qed.
Theorem C44_handle_loads : forall d s n, exec (hdeserialize d) s n <> Panic.
Proof. exact hdeserialize_total. Qed.

(** A loaded handle has no node in common with the one that was saved. So in any program without handles for inner nodes, without
    assignments and without handles made children of nodes made by hand, saving and loading in place of each [clone()] gives right hashes, also where clones give wrong ones (C29). *)
Definition by_reload (o : op) : op := match o with Clone i => Reload i | _ => o end.
Definition whole (o : op) : Prop := match o with SubTrie _ _ | Assign _ _ => False | Make p => taken p = [] | _ => True end.
Theorem C44_copies : forall keccak pr os ts xs,
  Forall whole os -> vrun keccak pr [] os = Ok (ts, xs) ->
  exists hs, start keccak pr (map by_reload os) = Ok (hs, xs) /\ map erase hs = ts.
Proof.
  intros keccak pr os ts xs W E. apply C29_uncloned_partial.
  - apply Forall_map. eapply Forall_impl; [|exact W]. intros o. destruct o; cbn; auto.
  - rewrite <- E. clear E W.
    assert (G : forall os us, Forall (fun t => is_full t) us -> vrun keccak pr us (map by_reload os) = vrun keccak pr us os).
    { clear. induction os as [|o os IH]; intros us F; [reflexivity|]. cbn [map vrun].
      assert (S : vstep keccak pr us (by_reload o) = vstep keccak pr us o).
      { destruct o; try reflexivity. cbn [by_reload vstep]. unfold the. destruct (nth_error us i) as [t|] eqn:Et; [|reflexivity]. cbn [bind].
        rewrite reload_eq. rewrite Forall_forall in F. rewrite (F t) by (eapply nth_error_In, Et). reflexivity. }
      rewrite S. destruct (vstep keccak pr us o) as [[us' x]|] eqn:Ev; [|reflexivity]. cbn [bind]. rewrite IH; [reflexivity|].
      eapply full_step; eassumption. }
    apply G. constructor.
Qed.
(** The program of [C29_clone_refuted]. *)
Example C44_copies_example : Forall whole bad_clone /\ map by_reload bad_clone <> bad_clone /\ vrun keccak256 Debug [] bad_clone = Ok (clone_ts, clone_xs).
Proof. split; [repeat constructor|]. split; [discriminate|vm_compute; reflexivity]. Qed.

(** In general, for the discipline of C29: the loaded handle compares equal, and has the hash of the contents. *)
Theorem C44_handle_hash_partial : forall keccak pr K os i ts xs t h,
  respects keccak pr K [] (os ++ [Reload i; Equal i (length ts); HashOf (length ts)]) ->
  vrun keccak pr [] os = Ok (ts, xs) -> nth_error ts i = Some t -> hash_trie keccak pr t = Ok h ->
  exists hs, start keccak pr (os ++ [Reload i; Equal i (length ts); HashOf (length ts)]) = Ok (hs, xs ++ [Done; Answer true; Digest h]) /\
             map erase hs = ts ++ [t].
Proof.
  intros keccak pr K os i ts xs t h R E Et Eh. apply (C29_discipline_partial keccak pr K _ _ _ R).
  assert (F : full t = true).
  { pose proof (full_run keccak pr os [] ts xs (Forall_nil _) E) as F. rewrite Forall_forall in F. eapply F, nth_error_In, Et. }
  assert (T1 : the ts i = Ok t) by (unfold the; rewrite Et; reflexivity).
  assert (L : (i < length ts)%nat) by (apply nth_error_Some; congruence).
  assert (T2 : the (ts ++ [t]) i = Ok t) by (unfold the; rewrite nth_error_app1, Et by exact L; reflexivity).
  assert (T3 : the (ts ++ [t]) (length ts) = Ok t) by (unfold the; rewrite nth_error_app2, Nat.sub_diag by lia; reflexivity).
  assert (A : forall os us, vrun keccak pr us os = Ok (ts, xs) -> vrun keccak pr us (os ++ [Reload i; Equal i (length ts); HashOf (length ts)]) = Ok (ts ++ [t], xs ++ [Done; Answer true; Digest h])).
  { clear os R E. revert xs. intros xs os. revert xs. induction os as [|o os IH]; intros xs us E; cbn [vrun app] in E |- *.
    - injection E as <- <-. cbn [vstep]. rewrite T1. cbn [bind]. rewrite reload_eq, F. cbn [bind vrun vstep].
      rewrite T2. cbn [bind]. rewrite T3. cbn [bind vrun vstep]. rewrite ?T3. cbn [bind]. rewrite Eh. cbn [bind app]. replace (node_eqb t t) with true by (symmetry; apply node_eqb_spec; reflexivity). reflexivity.
    - destruct (vstep keccak pr us o) as [[us' x]|]; [|discriminate]. cbn [bind] in E |- *.
      destruct (vrun keccak pr us' os) as [[us2 ys]|] eqn:E2; [|discriminate]. cbn [bind] in E. injection E as -> <-.
      rewrite (IH ys us' E2). reflexivity. }
  apply A, E.
Qed.
Definition ex_reload : list op := [New big_list; HashOf 0; Insert 0 (K 4 0x5611) (Val [7])].
Definition ex_reload_r := Eval vm_compute in match vrun keccak256 Debug [] ex_reload with Ok r => r | Panic => ([], []) end.
Definition ex_reload_h := Eval vm_compute in match hash_trie keccak256 Debug (nth 0 (fst ex_reload_r) Empty) with Ok h => h | Panic => [] end.
Example C44_hash_example : respects keccak256 Debug (fun _ => Single) [] (ex_reload ++ [Reload 0; Equal 0 1; HashOf 1]) /\
  vrun keccak256 Debug [] ex_reload = Ok ex_reload_r /\ length (fst ex_reload_r) = 1%nat /\
  hash_trie keccak256 Debug (nth 0 (fst ex_reload_r) Empty) = Ok ex_reload_h.
Proof.
  split; [apply (respects_all keccak256 Debug _ uncloned); [apply uncloned_legal|repeat constructor]|].
  split; [vm_compute; reflexivity|]. split; [reflexivity|vm_compute; reflexivity].
Qed.

(** ** What does not hold *)
(** Handles that compare equal may be saved as different data: the cached hashes are part of it. *)
Definition two_equal : list op := let l := [(K 4 0x1234, Val (big 1)); (K 4 0x1256, Val (big 2))] in [New l; New l; HashOf 0].
Theorem C44_equal_refuted : forall pr, exists a b da db s xs n, exec (hrun keccak256 pr [] two_equal) (fun _ => None) 0 = Ok (([a; b], xs), s, n) /\
  heqb a b = true /\ exec (hserialize a) s n = Ok (da, s, n) /\ exec (hserialize b) s n = Ok (db, s, n) /\ da <> db.
Proof.
  intros pr.
  assert (H : match exec (hrun keccak256 pr [] two_equal) (fun _ => None) 0 with
              | Ok ([HExtension ca na a; HExtension cb nb b], _, s, _) =>
                  andb (heqb (HExtension ca na a) (HExtension cb nb b)) (match s (cell a), s (cell b) with Some _, None => true | _, _ => false end)
              | _ => false end = true) by (destruct pr; vm_compute; reflexivity).
  revert H. generalize (exec (hrun keccak256 pr [] two_equal) (fun _ => None) 0). intros [[[[hs xs] s] n]|]; [|discriminate].
  destruct hs as [|[| | |ca na a|] [|[| | |cb nb b|] [|]]]; try discriminate. rewrite andb_true_iff. intros [H C].
  exists (HExtension ca na a), (HExtension cb nb b), (saved s (HExtension ca na a)), (saved s (HExtension cb nb b)), s, xs, n.
  split; [reflexivity|]. split; [exact H|]. split; [apply exec_hserialize|]. split; [apply exec_hserialize|].
  cbn [saved]. intros E. injection E as E1 E2 E3 E4.
  assert (X : forall t, exists d, saved s t = DStruct [d; (f_hash, ser_cached (s (cell t)))]) by (intros []; eexists; reflexivity).
  destruct (X a) as [d Ea]. destruct (X b) as [d' Eb]. rewrite Ea, Eb in E3. injection E3 as _ E3.
  destruct (s (cell a)), (s (cell b)); discriminate.
Qed.

(** Data that was not saved by the library loads without an error and may hold a wrong hash, which [hash()] of a trie with that node
    then uses ... *)
Definition forged (k : N) : data :=
  DStruct [(f_node, DStructVariant v_Extension [(f_nibbles, ser_nibbles (K 2 0x12));
     (f_child, DStruct [(f_node, DStructVariant v_Leaf [(f_nibbles, ser_nibbles (K 2 0x34)); (f_value, ser_bytes (big 1))]); (f_hash, DSome (DH256 (repeat k 32)))])]);
   (f_hash, DNone)].
Theorem C44_forged_refuted : forall pr, exists t s n h h',
  exec (hdeserialize (forged 7)) (fun _ => None) 0 = Ok (Some t, s, n) /\
  rmap (fun r => fst (fst r)) (exec (hhash_of keccak256 pr t) s n) = Ok h /\ hash_trie keccak256 pr (erase t) = Ok h' /\ h <> h'.
Proof.
  intros pr.
  assert (H : match exec (hdeserialize (forged 7)) (fun _ => None) 0 with
              | Ok (Some t, s, n) =>
                  match rmap (fun r => fst (fst r)) (exec (hhash_of keccak256 pr t) s n), hash_trie keccak256 pr (erase t) with
                  | Ok h, Ok h' => negb (bytes_eqb h h')
                  | _, _ => false
                  end
              | _ => false end = true) by (destruct pr; vm_compute; reflexivity).
  revert H. generalize (exec (hdeserialize (forged 7)) (fun _ => None) 0). intros [[[[t|] s] n]|]; try discriminate.
  destruct (hash_trie keccak256 pr (erase t)) as [h'|] eqn:Eh'; [|destruct (rmap _ _); discriminate]. destruct (rmap (fun r => fst (fst r)) (exec (hhash_of keccak256 pr t) s n)) as [h|] eqn:Eh; [|discriminate].
  intros H. exists t, s, n, h, h'. split; [reflexivity|]. split; [exact Eh|]. split; [exact Eh'|].
  intros <-. destruct (bytes_eqb_spec h h); [discriminate|contradiction].
Qed.
(** ... or a key with more nibbles than fit into 512 bits, after which even [get] and [hash()] panic. *)
Theorem C44_malformed_refuted : exists d t, deserialize d = Some t /\
  forall keccak pr, trie_get pr t (K 4 0x1234) = Panic /\ hash_trie keccak pr t = Panic.
Proof.
  exists (DNewtype (DStructVariant v_Leaf [(f_nibbles, DStruct [(f_count, DU64 200); (f_packed, DU512 0)]); (f_value, DSeq [DU8 1])])), (Leaf (K 200 0) [1]).
  split; [reflexivity|]. intros keccak []; split; vm_compute; reflexivity.
Qed.

(** * C45: differences between handles *)
(** In programs that keep to the discipline of C29 the hashes that the comparison reads from the cells are right: the result is that
    of comparing the contents (C36), for any cached hashes. *)
Lemma differ_run keccak pr os : forall us ts xs i j a b d, vrun keccak pr us os = Ok (ts, xs) -> nth_error ts i = Some a -> nth_error ts j = Some b ->
  create_diff keccak pr a b = Ok d -> vrun keccak pr us (os ++ [Differ i j]) = Ok (ts, xs ++ [Difference d]).
Proof.
  induction os as [|o os IH]; intros us ts xs i j a b d E Ea Eb Ed; cbn [vrun app] in E |- *.
  - injection E as <- <-. cbn [vstep]. unfold the. rewrite Ea, Eb. cbn [bind]. rewrite Ed. reflexivity.
  - destruct (vstep keccak pr us o) as [[us' x]|]; [|discriminate]. cbn [bind] in E |- *.
    destruct (vrun keccak pr us' os) as [[us2 ys]|] eqn:E2; [|discriminate]. cbn [bind] in E. injection E as -> <-.
    rewrite (IH _ _ _ _ _ _ _ _ E2 Ea Eb Ed). reflexivity.
Qed.
Lemma respects_app keccak pr K os o : forall us ts xs, respects keccak pr K us os -> vrun keccak pr us os = Ok (ts, xs) -> legal K (length ts) o ->
  respects keccak pr K us (os ++ [o]).
Proof.
  induction os as [|p os IH]; intros us ts xs R E L; cbn [vrun app respects] in *.
  - injection E as <- <-. split; [exact L|]. destruct (vstep keccak pr us o) as [[us' x]|]; exact I.
  - destruct R as [R1 R2]. split; [exact R1|]. destruct (vstep keccak pr us p) as [[us' x]|]; [|exact I]. cbn [bind] in E.
    destruct (vrun keccak pr us' os) as [[us2 ys]|] eqn:E2; [|discriminate]. cbn [bind] in E. injection E as -> <-. eapply IH; eassumption.
Qed.
Theorem C45_contents_partial : forall keccak pr K os i j ts xs a b d,
  respects keccak pr K [] os -> vrun keccak pr [] os = Ok (ts, xs) -> nth_error ts i = Some a -> nth_error ts j = Some b ->
  create_diff keccak pr a b = Ok d ->
  exists hs, start keccak pr (os ++ [Differ i j]) = Ok (hs, xs ++ [Difference d]) /\ map erase hs = ts.
Proof.
  intros keccak pr K os i j ts xs a b d R E Ea Eb Ed. apply (C29_discipline_partial keccak pr K).
  - eapply respects_app; [exact R|exact E|exact I].
  - eapply differ_run; eassumption.
Qed.
(** So no difference is reported between handles for tries with the same hash, and a reported one is real. *)
Theorem C45_equal_partial : forall keccak pr K os i j ts xs a b,
  hash32 keccak -> respects keccak pr K [] os -> vrun keccak pr [] os = Ok (ts, xs) -> nth_error ts i = Some a -> nth_error ts j = Some b ->
  wf 64 a -> wf 64 b -> fits a -> fits b -> hash_trie keccak pr a = hash_trie keccak pr b ->
  exists hs, start keccak pr (os ++ [Differ i j]) = Ok (hs, xs ++ [Difference None]).
Proof.
  intros keccak pr K os i j ts xs a b H32 R E Ea Eb Wa Wb Fa Fb H.
  destruct (C45_contents_partial keccak pr K os i j ts xs a b None R E Ea Eb) as (hs & S & _); [apply C36_equal; assumption|]. eauto.
Qed.
Definition ex_differ : list op := [New big_list; Clone 0; HashOf 0; Insert 1 (K 4 0x1299) (Val (big 9)); HashOf 1].
Definition ex_differ_r := Eval vm_compute in match vrun keccak256 Debug [] ex_differ with Ok r => r | Panic => ([], []) end.
Definition ex_differ_d := Eval vm_compute in match create_diff keccak256 Debug (nth 0 (fst ex_differ_r) Empty) (nth 1 (fst ex_differ_r) Empty) with Ok d => d | Panic => None end.
Example C45_example : Forall tame ex_differ /\ vrun keccak256 Debug [] ex_differ = Ok ex_differ_r /\ length (fst ex_differ_r) = 2%nat /\
  create_diff keccak256 Debug (nth 0 (fst ex_differ_r) Empty) (nth 1 (fst ex_differ_r) Empty) = Ok ex_differ_d /\ ex_differ_d <> None.
Proof. split; [repeat constructor|]. split; [vm_compute; reflexivity|]. split; [reflexivity|]. split; [vm_compute; reflexivity|discriminate]. Qed.
Definition ex_same : list op := [New big_list; New (rev big_list); HashOf 1].
Definition ex_same_r := Eval vm_compute in match vrun keccak256 Debug [] ex_same with Ok r => r | Panic => ([], []) end.
Example C45_equal_example : Forall tame ex_same /\ vrun keccak256 Debug [] ex_same = Ok ex_same_r /\ fst ex_same_r = [ex_big; ex_big] /\
  wf 64 ex_big /\ fits ex_big.
Proof.
  split; [repeat constructor|]. split; [vm_compute; reflexivity|]. split; [vm_compute; reflexivity|]. destruct ex_big_ok as (_ & W & _ & F). split; [exact W|exact F].
Qed.

(** Without the discipline a difference may be missed: the original and the changed clone of [C29_clone_refuted]. *)
Definition bad_differ : list op := [New big_list; Clone 0; Insert 1 (K 4 0x1299) (Val (big 9)); Subset 1 []; Differ 0 1].
Definition bad_differ_ts := Eval vm_compute in match vrun keccak256 Debug [] bad_differ with Ok (ts, _) => ts | Panic => [] end.
Definition bad_differ_hs := Eval vm_compute in match start keccak256 Debug bad_differ with Ok (hs, _) => hs | Panic => [] end.
Definition bad_differ_p := Eval vm_compute in match vrun keccak256 Debug [] bad_differ with Ok (_, [_; _; _; _; Difference d]) => d | _ => None end.
Theorem C45_clone_refuted : forall pr, exists ts hs p,
  vrun keccak256 pr [] bad_differ = Ok (ts, [Done; Done; Done; Done; Difference (Some p)]) /\
  start keccak256 pr bad_differ = Ok (hs, [Done; Done; Done; Done; Difference None]) /\
  map erase (firstn 2 hs) = firstn 2 ts /\ i_hash (a_info p) <> i_hash (b_info p).
Proof.
  intros pr. unfold bad_differ.
  exists bad_differ_ts, bad_differ_hs, (match bad_differ_p with Some p => p | None => DiffPoint 0 [] nib_default (NodeInfo nib_default None Query.TEmpty []) (NodeInfo nib_default None Query.TEmpty []) end).
  destruct pr; repeat match goal with |- _ /\ _ => split end; vm_compute; try reflexivity; intro; discriminate.
Qed.
Print Assumptions C44_nibbles.
Print Assumptions C44_roundtrip.
Print Assumptions C44_histories.
Print Assumptions C44_injective.
Print Assumptions C44_loaded.
Print Assumptions C44_handle_contents.
Print Assumptions C44_handle_loads.
Print Assumptions C44_copies.
Print Assumptions C44_handle_hash_partial.
Print Assumptions C44_equal_refuted.
Print Assumptions C44_forged_refuted.
Print Assumptions C44_malformed_refuted.
Print Assumptions C45_contents_partial.
Print Assumptions C45_equal_partial.
Print Assumptions C45_clone_refuted.
