(** Property C37: path queries. *)
From Verif Require Import Base Nibbles NibblesSpec NibblesFacts NibblesFacts2 NibblesFacts3 Trie TrieSpec TrieHistSpec TrieFacts TrieHist TrieGet P_Trie Query QuerySpec CacheFacts2.
Open Scope N_scope.

Lemma next_clamped pr k n : hexl k -> (length k <= 127)%nat -> next_nibbles_clamped pr (enc k) (N.of_nat n) = Ok (enc (firstn n k)).
Proof.
  intros H L. unfold next_nibbles_clamped, get_next_nibbles. rewrite count_enc, <- Nat2N.inj_min.
  change 0 with (N.of_nat 0). rewrite get_nibble_range_enc by (assumption || lia). rewrite Nat.sub_0_r, skipn_O. f_equal. f_equal.
  destruct (Nat.le_ge_cases n (length k)); [rewrite Nat.min_l by assumption; reflexivity|].
  rewrite Nat.min_r, firstn_all, firstn_all2 by assumption. reflexivity.
Qed.

Lemma strip_firstn p : forall k, strip p k = if key_eqb p (firstn (length p) k) then Some (skipn (length p) k) else None.
Proof.
  induction p as [|x p IH]; intros [|y k]; cbn [strip length firstn skipn key_eqb]; try reflexivity.
  rewrite IH. destruct (x =? y); reflexivity.
Qed.

Lemma nib_eqb_enc a b : hexl a -> hexl b -> nib_eqb (enc a) (enc b) = key_eqb a b.
Proof.
  intros A B. destruct (nib_eqb_spec (enc a) (enc b)) as [E|E], (key_eqb_spec a b) as [F|F]; try reflexivity.
  - apply enc_inj in E; congruence.
  - subst. congruence.
Qed.

Definition nilb (l : list N) : bool := match l with [] => true | _ => false end.
Definition add_found (b : bool) (o : query_output) : query_output := QOut (q_key o) (node_path o) (extra_node_info o) (node_found o || b).

Lemma is_empty_enc k : is_empty (enc k) = nilb k.
Proof. destruct k; reflexivity. Qed.

Lemma rec_walk pr t : forall L k out, wf L t -> hexl k -> (length k <= 127)%nat -> (L <= 127)%nat ->
  get_path_rec pr t (enc k) out =
    match walk t k with
    | None => Panic
    | Some (ns, p, r) => Ok (enc r, QOut (q_key out) (node_path out ++ p) (extra_node_info out ++ map extra_of ns) (node_found out || nilb r))
    end.
Proof.
  assert (Fin : forall (k : list N) o, (if is_empty (enc k) then QOut (q_key o) (node_path o) (extra_node_info o) true else o) =
                          QOut (q_key o) (node_path o) (extra_node_info o) (node_found o || nilb k)).
  { intros k [a b c d]. rewrite is_empty_enc. destruct (nilb k); cbn [q_key node_path extra_node_info node_found]; [rewrite orb_true_r|rewrite orb_false_r]; reflexivity. }
  assert (Add : forall k0 p0 e0 f0 r, QOut (q_key (QOut k0 p0 e0 f0)) (node_path (QOut k0 p0 e0 f0)) (extra_node_info (QOut k0 p0 e0 f0))
                            (node_found (QOut k0 p0 e0 f0) || nilb r) = QOut k0 p0 e0 (f0 || nilb r)) by reflexivity.
  induction t as [|h|ch w IH|n c IH|n w] using node_ind'; intros L k out W Hk Lk HL; inversion W; subst;
    cbn [get_path_rec key_piece_pulling bind get_segment type_of walk extra_of].
  - rewrite Fin, Add. reflexivity.
  - rewrite Fin, Add. reflexivity.
  - destruct k as [|d k].
    { destruct pr; [reflexivity|]. vm_compute (get_next_nibbles Release (enc []) 1). cbn [bind].
      vm_compute (get_nibble Release _ 0). cbn [bind]. vm_compute (pop_next_nibble_front Release (enc [])). reflexivity. }
    cbn [length] in Lk. assert (Hd : d < 16) by (inversion Hk; assumption). assert (Hk' : hexl k) by (inversion Hk; assumption).
    assert (E1 : get_next_nibbles pr (enc (d :: k)) 1 = Ok (enc [d])).
    { unfold get_next_nibbles. change 0 with (N.of_nat 0). change 1 with (N.of_nat 1).
      rewrite get_nibble_range_enc by (cbn [length]; (assumption || lia)). reflexivity. }
    rewrite E1. cbn [bind].
    assert (E2 : get_nibble pr (enc [d]) 0 = Ok d).
    { change 0 with (N.of_nat 0). apply get_nibble_enc; [constructor; [exact Hd|constructor]|cbn; lia|reflexivity]. }
    rewrite E2. cbn [bind]. rewrite pop_front_enc by (assumption || (cbn [length]; lia)). cbn [bind].
    rewrite with_child_nth, at_child_nth, nth_error_child by assumption.
    assert (Wc : wf L0 (child ch d)) by (destruct (child_in ch d) as [->|I]; [constructor|rewrite Forall_forall in *; auto]).
    assert (IHc : forall k out, hexl k -> (length k <= 127)%nat -> get_path_rec pr (child ch d) (enc k) out =
       match walk (child ch d) k with None => Panic
       | Some (ns, p, r) => Ok (enc r, QOut (q_key out) (node_path out ++ p) (extra_node_info out ++ map extra_of ns) (node_found out || nilb r)) end).
    { intros k0 out0 A B. destruct (child_in ch d) as [Ec|I].
      - rewrite Ec. cbn [get_path_rec key_piece_pulling bind get_segment type_of walk extra_of]. rewrite Fin, Add. reflexivity.
      - rewrite Forall_forall in *. eapply IH; eauto. lia. }
    rewrite IHc by (assumption || lia). destruct (walk (child ch d) k) as [[[ns p] r]|]; [|reflexivity].
    cbn [bind]. rewrite Fin, Add. cbn [q_key node_path extra_node_info node_found map]. rewrite <- !app_assoc, <- orb_assoc, orb_diag. reflexivity.
  - rewrite count_enc, next_clamped by assumption. cbn [bind]. rewrite (IH L0) by (assumption || lia).
    destruct (walk c k) as [[[ns p] r]|]; [|reflexivity].
    cbn [bind]. rewrite Fin, Add. cbn [q_key node_path extra_node_info node_found map]. rewrite <- !app_assoc, <- orb_assoc, orb_diag. reflexivity.
  - rewrite count_enc, next_clamped by assumption. cbn [bind]. rewrite nib_eqb_enc by (try apply hexl_firstn; assumption).
    rewrite nseq_enc by assumption. rewrite strip_firstn. destruct (key_eqb_spec l (firstn (length l) k)) as [E|E].
    + rewrite count_enc. rewrite pop_nibbles_front_enc by (try assumption; rewrite firstn_length; lia). cbn [bind].
      rewrite Fin, Add. rewrite <- E. reflexivity.
    + cbn [bind]. rewrite Fin, Add. reflexivity.
Qed.

Lemma walk_route t : forall L k p, wf L t -> route t k = Some p -> Forall not_extension p ->
  exists r, walk t k = Some (visited t k, p, r) /\ (r = [] <-> stored t k \/ length p = S (length k)).
Proof.
  induction t as [|h|ch w IH|n c IH|n w] using node_ind'; intros L k p W E F; inversion W; subst; cbn [route] in E.
  - injection E as <-. exists k. split; [reflexivity|]. cbn. unfold stored. cbn. destruct k; cbn; [tauto|].
    split; [discriminate|]. intros [[]|X]; [reflexivity|discriminate].
  - injection E as <-. exists k. split; [reflexivity|]. cbn. unfold stored. cbn. destruct k; cbn; [tauto|].
    split; [discriminate|]. intros [[]|X]; [reflexivity|discriminate].
  - destruct k as [|d k]; [discriminate|]. rewrite at_child_nth in E. cbn [walk visited]. rewrite !at_child_nth.
    destruct (nth_error ch (N.to_nat d)) as [c|] eqn:Ec; [|discriminate]. destruct (route c k) as [q|] eqn:Eq; [|discriminate].
    injection E as <-. inversion F; subst. rewrite Forall_forall in *. assert (I : In c ch) by (eapply nth_error_In; eauto).
    destruct (IH c I L0 k q ltac:(auto) Eq ltac:(apply Forall_forall; assumption)) as (r & Er & Hr). exists r. rewrite Er. split; [reflexivity|].
    unfold stored in *. cbn [lk]. rewrite at_child_nth, Ec. cbn [length]. rewrite Hr. split; intros [A|A]; auto; right; lia.
  - destruct (strip (nseq (enc l)) k); [destruct (route c l0); [|discriminate]|]; injection E as <-; inversion F; subst; contradiction.
  - injection E as <-. cbn [walk visited]. eexists. split; [reflexivity|]. unfold stored. cbn [lk]. rewrite nseq_enc by assumption.
    destruct (strip l k) as [r|] eqn:Es.
    + apply strip_some in Es. subst k. destruct (key_eqb_spec l (l ++ r)) as [El|El].
      * split; [left; discriminate|]. intros _. rewrite <- (app_nil_r l) in El at 1. apply app_inv_head in El. congruence.
      * split; [intros ->; rewrite app_nil_r in El; congruence|]. intros [[]|X]; [reflexivity|]. cbn [length] in X. destruct l, r; cbn in X; try discriminate; congruence.
    + destruct (key_eqb_spec l k) as [->|El]; [exfalso|].
      { rewrite <- (app_nil_r k) in Es at 2. rewrite strip_app in Es. discriminate. }
      destruct k; cbn [length]; split; auto; try discriminate. intros [[]|X]; [reflexivity|discriminate].
Qed.

(** ** C37 is false *)

(** The query panics for some stored keys: those that end at a branch node. *)
Theorem C37_panic_refuted : forall pr, exists t k v,
  reach pr t /\ kwf k /\ lk t (nseq k) = Some (Val v) /\ get_path_from_query pr t k = Panic.
Proof.
  intros pr. set (l := [(K 2 0x12, Val [1]); (K 2 0x13, Val [2]); (K 2 0x24, Val [3]); (K 1 1, Val [4])]).
  exists (okn (from_iter Debug l)), (K 1 1), [4]. split; [|split; [kwf_tac|destruct pr; split; vm_compute; reflexivity]].
  apply reach_start; apply (extend_canon Debug l Empty); try constructor; try (vm_compute; reflexivity);
    repeat constructor; cbn; try (vm_compute; (reflexivity || (intro; discriminate))).
Qed.

(** Keys of equal length: a stored key reported as not found, with a path that is not that of the lookup. *)
Definition ex_ext_list : list (nibbles * val_or_hash) := [(K 4 0x1234, Val [1]); (K 4 0x1256, Val [2])].
Definition ex_ext : node := okn (from_iter Debug ex_ext_list).
Lemma ex_ext_reach pr : reach pr ex_ext.
Proof.
  apply reach_start; apply (extend_canon Debug ex_ext_list Empty); try constructor; try (vm_compute; reflexivity);
    repeat constructor; cbn; try (vm_compute; (reflexivity || (intro; discriminate))).
Qed.
Theorem C37_stored_refuted : forall pr, exists t k v out p,
  reach pr t /\ kwf k /\ lk t (nseq k) = Some (Val v) /\ get_path_from_query pr t k = Ok out /\
  node_found out = false /\ route t (nseq k) = Some p /\ node_path out <> p.
Proof.
  intros pr. exists ex_ext, (K 4 0x1234), [1], (QOut (K 4 0x1234) [SExtension (K 2 0x12); SBranch 1; SEmpty] [None; Some (XBranch 40); None] false),
    [SExtension (K 2 0x12); SBranch 3; SLeaf (K 1 4)].
  split; [apply ex_ext_reach|]. split; [kwf_tac|]. destruct pr; repeat split; try (vm_compute; reflexivity); discriminate.
Qed.
(** Keys that are not stored reported as found: in a trie of 4-digit keys, one that ends at an empty slot and the empty key above
    a leaf. *)
Theorem C37_absent_refuted : forall pr, exists t,
  reach pr t /\
  (exists k out, kwf k /\ ~ stored t (nseq k) /\ get_path_from_query pr t k = Ok out /\ node_found out = true /\ node_path out = [SBranch 1; SEmpty]) /\
  (exists k out, kwf k /\ ~ stored t (nseq k) /\ get_path_from_query pr t k = Ok out /\ node_found out = true /\ node_path out = [SBranch 3; SLeaf (K 3 0x456)]).
Proof.
  intros pr. set (l := [(K 4 0x3456, Val [1]); (K 4 0x7890, Val [2])]). exists (okn (from_iter Debug l)). split.
  - apply reach_start; apply (extend_canon Debug l Empty); try constructor; try (vm_compute; reflexivity);
      repeat constructor; cbn; try (vm_compute; (reflexivity || (intro; discriminate))).
  - split.
    + exists (K 1 1), (QOut (K 1 1) [SBranch 1; SEmpty] [Some (XBranch 136); None] true). split; [kwf_tac|].
      split; [intros X; apply X; vm_compute; reflexivity|]. destruct pr; repeat split; vm_compute; reflexivity.
    + exists (K 1 3), (QOut (K 1 3) [SBranch 3; SLeaf (K 3 0x456)] [Some (XBranch 136); Some (XLeaf [1])] true). split; [kwf_tac|].
      split; [intros X; apply X; vm_compute; reflexivity|]. destruct pr; repeat split; vm_compute; reflexivity.
Qed.

(** ** What holds *)

(** When the lookup meets no extension node and does not end at a branch, the path is that of the lookup, with the details of the
    nodes visited; stored keys are found, and a key that is found but not stored ends exactly at the last node of the path. *)
Theorem C37_path_partial : forall pr t k p,
  wf 64 t -> kwf k -> route t (nseq k) = Some p -> Forall not_extension p ->
  exists out, get_path_from_query pr t k = Ok out /\ q_key out = k /\ node_path out = p /\
    extra_node_info out = map extra_of (visited t (nseq k)) /\
    (node_found out = true <-> stored t (nseq k) \/ length p = S (length (nseq k))).
Proof.
  intros pr t k p W Hk E F. destruct (kwf_ex k Hk) as (l & -> & Es & Hl & Ll). rewrite Es in *.
  destruct (walk_route t 64 l p W E F) as (r & Er & Hr). unfold get_path_from_query.
  rewrite (rec_walk pr t 64) by (assumption || lia). rewrite Er. cbn [bind]. eexists. split; [reflexivity|]. cbn.
  repeat split; try reflexivity; destruct r; cbn; try tauto; try discriminate. intros X. apply Hr in X. discriminate.
Qed.

(** The exact behaviour on every trie and key: the query walks down as a lookup would, except that extension nodes do not use up
    digits of the key; it panics exactly when the key is used up at a branch; and it says found when the key is used up. *)
Theorem C37_exact_partial : forall pr t k, wf 64 t -> kwf k ->
  get_path_from_query pr t k =
    match walk t (nseq k) with
    | None => Panic
    | Some (ns, p, r) => Ok (QOut k p (map extra_of ns) (match r with [] => true | _ => false end))
    end.
Proof.
  intros pr t k W Hk. destruct (kwf_ex k Hk) as (l & -> & Es & Hl & Ll). rewrite Es.
  unfold get_path_from_query. rewrite (rec_walk pr t 64) by (assumption || lia).
  destruct (walk t l) as [[[ns p] r]|]; reflexivity.
Qed.

(** In particular a stored key is reported with its path, found, in every trie without extension nodes on the way; and no query
    panics for a key at least as long as the trie is deep. *)
Fixpoint depth_ok (t : node) (n : nat) : Prop :=
  match t with
  | Branch ch _ => match n with O => False | S n' => (fix all l := match l with [] => True | c :: l' => depth_ok c n' /\ all l' end) ch end
  | Extension _ c => depth_ok c n
  | _ => True
  end.
Theorem C37_no_panic_partial : forall pr t k, wf 64 t -> kwf k -> depth_ok t (length (nseq k)) -> exists out, get_path_from_query pr t k = Ok out.
Proof.
  intros pr t k W Hk D. rewrite (C37_exact_partial pr t k W Hk).
  assert (H : forall t L l, wf L t -> hexl l -> depth_ok t (length l) -> walk t l <> None).
  { clear. induction t as [|h|ch w IH|n c IH|n w] using node_ind'; intros L l W Hl D; inversion W; subst; cbn [walk]; try discriminate.
    - destruct l as [|d l]; [destruct D|]. cbn [depth_ok length] in D. assert (Hl' : hexl l) by (inversion Hl; assumption). assert (Hd : d < 16) by (inversion Hl; assumption). clear Hl.
      rewrite at_child_nth, nth_error_child by assumption.
      assert (A : walk (child ch d) l <> None).
      { destruct (child_in ch d) as [->|I]; [discriminate|]. assert (Wc : wf L0 (child ch d)) by (rewrite Forall_forall in *; auto). rewrite Forall_forall in IH. apply (IH _ I L0 l Wc Hl').
        clear - D I. revert I. generalize (child ch d) as x. intros x I. induction ch as [|c ch IHc]; [destruct I|]. destruct D as [D1 D2]. destruct I as [<-|I]; [exact D1|exact (IHc D2 I)]. }
      destruct (walk (child ch d) l) as [[[? ?] ?]|]; congruence.
    - specialize (IH L0 l ltac:(assumption) Hl D). destruct (walk c l) as [[[? ?] ?]|]; congruence. }
  specialize (H t 64%nat (nseq k) W (nseq_hexl k) D). destruct (walk t (nseq k)) as [[[ns p] r]|]; [eauto|congruence].
Qed.

(** Every output has a path that starts at the root, one entry of details per path segment, and segments of the types of the nodes
    walked over (so printing it indexes within bounds). *)
Theorem C37_output : forall pr t k out, wf 64 t -> kwf k -> get_path_from_query pr t k = Ok out ->
  q_key out = k /\ length (extra_node_info out) = length (node_path out) /\
  exists s p, node_path out = s :: p /\ seg_type s = type_of t.
Proof.
  intros pr t k out W Hk E. rewrite (C37_exact_partial pr t k W Hk) in E.
  assert (H : forall t l ns p r, walk t l = Some (ns, p, r) -> length ns = length p /\ exists s q, p = s :: q /\ seg_type s = type_of t).
  { clear. induction t as [|h|ch w IH|n c IH|n w] using node_ind'; intros l ns p r E; cbn [walk] in E;
      try (injection E as <- <- _; split; [reflexivity|eexists; eexists; split; reflexivity]).
    - destruct l as [|d l]; [discriminate|]. rewrite at_child_nth in E. destruct (nth_error ch (N.to_nat d)) as [c|] eqn:Ec; [|discriminate].
      destruct (walk c l) as [[[ns' p'] r']|] eqn:Ew; [|discriminate]. injection E as <- <- _.
      rewrite Forall_forall in IH. destruct (IH c ltac:(eapply nth_error_In; eauto) _ _ _ _ Ew) as [A _].
      split; [cbn; congruence|eexists; eexists; split; reflexivity].
    - destruct (walk c l) as [[[ns' p'] r']|] eqn:Ew; [|discriminate]. injection E as <- <- _.
      destruct (IH _ _ _ _ Ew) as [A _]. split; [cbn; congruence|eexists; eexists; split; reflexivity]. }
  destruct (walk t (nseq k)) as [[[ns p] r]|] eqn:Ew; [|discriminate]. injection E as <-. cbn.
  destruct (H _ _ _ _ _ Ew) as [A B]. rewrite map_length. auto.
Qed.

(** The child mask of a branch: bit [i] tells whether child [i] is non-empty; the number shown is that of the non-empty children. *)
Definition nonempty (t : node) : bool := match t with Empty => false | _ => true end.
Lemma mask_loop_spec ch : forall i m j, N.testbit (child_mask_loop i ch m) j =
  N.testbit m j || ((i <=? j) && nonempty (nth (N.to_nat (j - i)) ch Empty)).
Proof.
  induction ch as [|c ch IH]; intros i m j; cbn [child_mask_loop].
  - destruct (N.to_nat (j - i)); cbn [nth nonempty]; rewrite andb_false_r, orb_false_r; reflexivity.
  - rewrite IH. assert (B : N.testbit (N.lor m (N.shiftl 1 i)) j = N.testbit m j || (i =? j)).
    { rewrite N.lor_spec. f_equal. rewrite N.shiftl_1_l. destruct (N.eqb_spec i j) as [->|]; [apply N.pow2_bits_true|apply N.pow2_bits_false; assumption]. }
    destruct (N.leb_spec (i + 1) j), (N.leb_spec i j); try lia.
    + replace (N.to_nat (j - i)) with (S (N.to_nat (j - (i + 1)))) by lia. cbn [nth].
      destruct (node_is_empty c); [reflexivity|]. rewrite B. destruct (N.eqb_spec i j); [lia|]. rewrite orb_false_r. reflexivity.
    + assert (i = j) by lia. subst. rewrite N.sub_diag. cbn [N.to_nat nth andb]. rewrite orb_false_r.
      destruct c; cbn [node_is_empty nonempty]; rewrite ?B, ?N.eqb_refl, ?orb_false_r; reflexivity.
    + cbn [andb]. destruct (node_is_empty c); [reflexivity|]. rewrite B. destruct (N.eqb_spec i j); [lia|]. rewrite orb_false_r. reflexivity.
Qed.
Lemma land_bit m i : (0 <? N.land m (N.shiftl 1 i)) = N.testbit m i.
Proof.
  rewrite N.shiftl_1_l. destruct (N.testbit m i) eqn:E.
  - apply N.ltb_lt. destruct (N.eq_dec (N.land m (2 ^ i)) 0) as [X|]; [|lia].
    apply (f_equal (fun x => N.testbit x i)) in X. rewrite N.land_spec, E, N.pow2_bits_true in X. discriminate.
  - replace (N.land m (2 ^ i)) with 0; [reflexivity|]. symmetry. apply N.bits_inj. intros j. rewrite N.land_spec, N.bits_0.
    destruct (N.eq_dec i j) as [<-|]; [rewrite E; reflexivity|]. rewrite N.pow2_bits_false by assumption. apply andb_false_r.
Qed.
Lemma count_loop_spec ch : forall i m acc, (forall j, (j < length ch)%nat -> N.testbit m (i + N.of_nat j) = nonempty (nth j ch Empty)) ->
  count_mask_loop (length ch) i m acc = acc + N.of_nat (length (filter nonempty ch)).
Proof.
  induction ch as [|c ch IH]; intros i m acc H; cbn [length count_mask_loop filter]; [cbn; lia|].
  rewrite land_bit. rewrite IH.
  - pose proof (H 0%nat ltac:(cbn; lia)) as H0. cbn [nth N.of_nat] in H0. rewrite N.add_0_r in H0. rewrite H0.
    destruct (nonempty c); cbn [length]; lia.
  - intros j Hj. specialize (H (S j) ltac:(cbn; lia)). cbn [nth] in H. rewrite <- H. f_equal. lia.
Qed.
Theorem C37_mask : forall ch, length ch = 16%nat ->
  (forall i, N.testbit (create_child_mask ch) i = nonempty (nth (N.to_nat i) ch Empty)) /\
  create_child_mask ch < 2 ^ 16 /\
  count_children_from_mask (create_child_mask ch) = N.of_nat (length (filter nonempty ch)).
Proof.
  intros ch L. assert (B : forall i, N.testbit (create_child_mask ch) i = nonempty (nth (N.to_nat i) ch Empty)).
  { intros i. unfold create_child_mask. rewrite firstn_all2 by lia. rewrite mask_loop_spec, N.bits_0, N.sub_0_r.
    destruct (N.leb_spec 0 i); [reflexivity|lia]. }
  split; [exact B|]. split.
  - destruct (N.eq_dec (create_child_mask ch) 0) as [->|Z]; [reflexivity|].
    apply N.log2_lt_pow2; [lia|]. pose proof (N.bit_log2 _ Z) as X. rewrite B in X.
    destruct (N.ltb_spec (N.log2 (create_child_mask ch)) 16); [assumption|]. rewrite nth_overflow in X by lia. discriminate.
  - unfold count_children_from_mask. rewrite <- L. rewrite count_loop_spec; [reflexivity|]. intros j _. rewrite B. f_equal. f_equal. lia.
Qed.

(** The hypotheses are met: in the trie of C37_absent_refuted and in [ex_trie]. *)
Example C37_path_example : exists p, route (okn (from_iter Debug [(K 4 0x3456, Val [1]); (K 4 0x7890, Val [2])])) (nseq (K 4 0x3456)) = Some p /\
  Forall not_extension p /\ p = [SBranch 3; SLeaf (K 3 0x456)].
Proof. eexists. split; [vm_compute; reflexivity|]. split; [repeat constructor|reflexivity]. Qed.
Example C37_depth_example : wf 64 ex_trie /\ kwf (K 4 0x1234) /\ depth_ok ex_trie (length (nseq (K 4 0x1234))) /\
  exists out, get_path_from_query Debug ex_trie (K 4 0x1234) = Ok out /\ node_found out = true.
Proof.
  split; [apply ex_trie_ok|]. split; [kwf_tac|]. split; [vm_compute; repeat split|]. eexists. split; vm_compute; reflexivity.
Qed.
Print Assumptions C37_panic_refuted.
Print Assumptions C37_stored_refuted.
Print Assumptions C37_absent_refuted.
Print Assumptions C37_path_partial.
Print Assumptions C37_exact_partial.
Print Assumptions C37_no_panic_partial.
Print Assumptions C37_output.
Print Assumptions C37_mask.
