(** C55 and C63 for caching tries: the errors of [create_trie_subset] and [create_trie_subsets] of a [HashedPartialTrie]. *)
From Coq Require Import String.
From Verif Require Import Base Nibbles NibblesSpec NibblesFacts NibblesFacts2 Text TextSpec TextFacts Rlp Hashing Keccak HashSpec Trie TrieSpec TrieFacts TrieHist Query Diff P_Trie P_Diff
  DebugText DebugTextSpec DebugTextFacts DebugTextFacts2 DebugTextFacts3 P_DebugText Cache CacheSpec CacheFacts CacheFacts2 CacheFacts3 CacheFacts4 FailFacts Subset SubsetSpec SubsetFacts HErrors HErrorsSpec HErrorsFacts.
Open Scope N_scope.
Open Scope list_scope.

(** Making the text changes nothing: with and without a text, the functions end with the same subsets, the same panic or an error about the
    same node, and leave the same cells. *)
Theorem C55_handle_same : forall keccak pr locked t s n,
  (forall ks, tells t locked (exec (hcreate_trie_subset keccak pr t ks) s n) (exec (htext_subset keccak pr locked t ks) s n)) /\
  (forall kss, tells t locked (exec (hcreate_trie_subsets keccak pr t kss) s n) (exec (htext_subsets keccak pr locked t kss) s n)).
Proof. intros keccak pr locked t s n. split; intros l; [apply htext_subset_tells|apply htext_subsets_tells, track_tracks]. Qed.

Lemma first_stop_key t ks p q c h : Forall kwf ks -> first_stop t ks p q c h -> short (enc q) /\ hexl q.
Proof.
  intros K (ks1 & k & ks2 & -> & _ & E & _). rewrite Forall_forall in K. destruct (kwf_ex k (K k ltac:(apply in_or_app; right; left; reflexivity))) as (l & -> & El & Hl & Ll).
  rewrite El in E. subst l. apply hexl_app in Hl. rewrite app_length in Ll. split; [|tauto]. unfold short. rewrite count_enc. lia.
Qed.
Lemma message pr q h x : short (enc q) -> hexl q -> text_error_text pr (UnexpectedKeyText (enc q) (line_stop h x)) = Ok (line_message q h x).
Proof. intros S H. cbn [text_error_text]. rewrite key_text_digits by exact S. cbn [bind]. rewrite nseq_enc by exact H. reflexivity. Qed.

(** Every error has a message. It shows the first key that leads into a hash node, without the digits that lead to the hash node, the hash of
    this hash node, and what is in its cell. *)
Theorem C55_handle_subset : forall keccak pr locked t ks s n e s' n', wf 64 (erase t) -> Forall kwf ks ->
  exec (htext_subset keccak pr locked t ks) s n = Ok (RErr e, s', n') ->
  exists p q c h, first_stop t ks p q c h /\ lk (erase t) p = Some (HashV h) /\ text_error_text pr e = Ok (line_message q h (sees locked (s c))).
Proof.
  intros keccak pr locked t ks s n e s' n' W K E. destruct (exec_subset_error keccak pr locked t ks s n e s' n' W K E) as (p & q & c & h & F & -> & -> & ->). exists p, q, c, h. split; [exact F|].
  destruct (first_stop_key _ _ _ _ _ _ K F) as [S H]. split; [|apply message; assumption]. destruct F as (_ & _ & _ & _ & _ & _ & _ & Ld). eapply leads_lk; eauto.
Qed.
(** For many lists it is the first such key of the first list with such a key. The cell is as the subsets for the lists before have left it. *)
Lemma first_list_key t kss p q c h : Forall (Forall kwf) kss -> first_list t kss p q c h -> short (enc q) /\ hexl q /\ lk (erase t) p = Some (HashV h).
Proof.
  intros K (kss1 & ks & kss2 & -> & _ & F). rewrite Forall_forall in K. pose proof (K ks ltac:(apply in_or_app; right; left; reflexivity)) as Kk.
  destruct (first_stop_key _ _ _ _ _ _ Kk F) as [S H]. split; [exact S|]. split; [exact H|]. destruct F as (_ & _ & _ & _ & _ & _ & _ & Ld). eapply leads_lk; eauto.
Qed.
Theorem C55_handle_subsets : forall keccak pr locked t kss s n e s' n', wf 64 (erase t) -> Forall (Forall kwf) kss ->
  exec (htext_subsets keccak pr locked t kss) s n = Ok (RErr e, s', n') ->
  exists p q c h, first_list t kss p q c h /\ lk (erase t) p = Some (HashV h) /\ text_error_text pr e = Ok (line_message q h (sees locked (s' c))).
Proof.
  intros keccak pr locked t kss s n e s' n' W K E. destruct (exec_subsets_error keccak pr locked t kss e s' n' W K _ s n (track_tracks _) E) as (p & q & c & h & F & ->). exists p, q, c, h. split; [exact F|].
  destruct (first_list_key _ _ _ _ _ _ K F) as (S & H & L). split; [exact L|]. apply message; assumption.
Qed.

(** Whatever other threads write to the cells meanwhile: the same, with something that the cell may hold. *)
Theorem C55_handle_any_threads : forall keccak pr locked R t e, wf 64 (erase t) ->
  (forall ks, Forall kwf ks -> may R (htext_subset keccak pr locked t ks) (RErr e) ->
     exists p q c h x, first_stop t ks p q c h /\ lk (erase t) p = Some (HashV h) /\ sight_in R c x /\ (locked = false -> x <> Locked) /\
       text_error_text pr e = Ok (line_message q h x)) /\
  (forall kss, Forall (Forall kwf) kss -> may R (htext_subsets keccak pr locked t kss) (RErr e) ->
     exists p q c h x, first_list t kss p q c h /\ lk (erase t) p = Some (HashV h) /\ sight_in R c x /\ (locked = false -> x <> Locked) /\
       text_error_text pr e = Ok (line_message q h x)).
Proof.
  intros keccak pr locked R t e W. split.
  - intros ks K M. destruct (may_subset_error keccak pr locked R t ks e W K M) as (p & q & c & h & x & F & S1 & S2 & ->). exists p, q, c, h, x. split; [exact F|].
    destruct (first_stop_key _ _ _ _ _ _ K F) as [S H]. split; [destruct F as (_ & _ & _ & _ & _ & _ & _ & Ld); eapply leads_lk; eauto|]. split; [exact S1|]. split; [exact S2|]. apply message; assumption.
  - intros kss K M. destruct (may_subsets_error keccak pr locked R t kss e W K _ (track_tracks _) M) as (p & q & c & h & x & F & S1 & S2 & ->). exists p, q, c, h, x. split; [exact F|].
    destruct (first_list_key _ _ _ _ _ _ K F) as (S & H & L). split; [exact L|]. split; [exact S1|]. split; [exact S2|]. apply message; assumption.
Qed.

(** In a pool of threads where some make subsets and the others run programs, all on clones of the handles of a tame program: a thread that
    makes subsets does not fail, and ends with the subsets, or with an error that shows the hash node, and at its cell that the lock is
    taken, or nothing, or the hash of this hash node. *)
Inductive asking : Type := Works (hs : list hnode) (os : list op) | Asks (locked : bool) (t : hnode) (kss : list (list nibbles)).
Definition asking_prog keccak pr (x : asking) : prog (list obs + result (list hnode) text_error) :=
  match x with
  | Works hs os => r <~ hrun keccak pr hs os ;; Ret (inl (snd r))
  | Asks locked t kss => r <~ htext_subsets keccak pr locked t kss ;; Ret (inr r)
  end.
Definition asking_ok keccak pr (hs : list hnode) (x : asking) : Prop :=
  match x with
  | Works hs' os => incl hs' hs /\ Forall tame os /\ exists r, vrun keccak pr (map erase hs') os = Ok r
  | Asks _ t kss => In t hs /\ ~ In [] kss /\ exists r, create_trie_subsets keccak pr (erase t) kss = Ok r
  end.
(** What [create_trie_subsets] of the contents gives, with a text in the error. *)
Definition told (t : hnode) (locked : bool) (v : result (list node) subset_error) (r : result (list hnode) text_error) : Prop :=
  match v with
  | ROk l => exists hs, r = ROk hs /\ map erase hs = l
  | RErr (UnexpectedKey k u) => exists p c h x, u = Hash h /\ leads t p (HHash c h) /\ In x [Locked; Holds None; Holds (Some h)] /\ (locked = false -> x <> Locked) /\
      r = RErr (UnexpectedKeyText k (line_stop h x))
  end.
Definition asking_post keccak pr (x : asking) (r : list obs + result (list hnode) text_error) : Prop :=
  match x with
  | Works hs os => exists ts xs, vrun keccak pr (map erase hs) os = Ok (ts, xs) /\ r = inl xs
  | Asks locked t kss => exists v r', create_trie_subsets keccak pr (erase t) kss = Ok v /\ r = inr r' /\ told t locked v r'
  end.
Lemma wp_asks keccak pr locked t kss v b V : handle_ok keccak pr b V t -> ~ In [] kss -> create_trie_subsets keccak pr (erase t) kss = Ok v ->
  wp (htext_subsets keccak pr locked t kss) b V (fun r _ _ => told t locked v r).
Proof.
  intros Ho Ne E. pose proof Ho as (Kt & Ct & Rt).
  apply (wp_subsets_text keccak pr locked t kss _ b V (fun r b' V' => ext b V b' V' /\ match v with ROk l => exists hs, r = ROk hs /\ map erase hs = l | RErr e => r = RErr e end)).
  - apply track_tracks.
  - apply (wp_hsubsets keccak pr (fun _ _ => (None, true)) t kss 0 (track (erase t)) v); [apply track_tracks|exact Kt|tauto|exact E|].
    destruct v as [xs|e]; [intros l b' V' X _ <-; split; [exact X|]; exists l; auto|auto].
  - intros l b' V' X [_ H]. unfold told. destruct v as [xs|e]; [|discriminate H]. destruct H as (hs & [= <-] & <-). exists l. auto.
  - intros k p c h b' V' X Ld [_ H]. destruct v as [xs|e]; [destruct H as (hs & H & _); discriminate H|]. injection H as <-. cbn [told].
    pose proof (leads_nodes _ _ _ Ld) as In0. apply (handle_ok_ext keccak pr _ _ _ _ _ X) in Ho. destruct Ho as (Kt' & Ct' & Rt').
    assert (Cb : c < b' /\ (fst (V' c) = None \/ fst (V' c) = Some h)).
    { rewrite nodes_below in In0. destruct In0 as [->|In0].
      - split; [exact Ct'|]. cbn [cell erase] in Rt'. destruct (fst (V' c)) as [h'|]; [|auto]. right. specialize (Rt' h' eq_refl). unfold hashed_of in Rt'. cbn in Rt'. congruence.
      - unfold kids in Kt'. rewrite Forall_forall in Kt'. destruct (Kt' _ In0) as [A B]. split; [exact A|]. right. unfold right_hash in B. cbn [cell erase] in B. rewrite B. reflexivity. }
    destruct Cb as [Cb Fb]. unfold stop, lock_dbg. destruct locked; cbn [pbind wp].
    + exists p, c, h, Locked. split; [reflexivity|]. split; [exact Ld|]. split; [left; reflexivity|]. split; [discriminate|]. rewrite <- line_stop_put. reflexivity.
    + split; [exact Cb|]. intros o Ao. exists p, c, h, (Holds o). split; [reflexivity|]. split; [exact Ld|]. split; [|split; [discriminate|rewrite <- line_stop_put; reflexivity]].
      destruct Ao as [->| ->]; [right; left; reflexivity|]. destruct Fb as [->| ->]; [right; left|right; right; left]; reflexivity.
Qed.
Theorem C55_handle_threads : forall keccak pr os ts xs hs s n tasks js j x,
  Forall tame os -> vrun keccak pr [] os = Ok (ts, xs) -> exec (hrun keccak pr [] os) (fun _ => None) 0 = Ok ((hs, xs), s, n) ->
  Forall (asking_ok keccak pr hs) tasks -> nth_error tasks j = Some x ->
  exists p, nth_error (threads (sched_run (Pool (map (asking_prog keccak pr) tasks) s n) js)) j = Some p /\ p <> Fail /\
  forall r, p = Ret r -> asking_post keccak pr x r.
Proof.
  intros keccak pr os ts xs hs s n tasks js j x T E Ex FT Ej.
  destruct (tame_state keccak pr os ts xs T E) as (hs1 & s1 & n1 & V & Ex1 & _ & Iv & Kp). rewrite Ex in Ex1. injection Ex1 as <- <- <-.
  set (Qs := fun (i : nat) (r : list obs + result (list hnode) text_error) => exists x, nth_error tasks i = Some x /\ asking_post keccak pr x r).
  set (w0 := Pool (map (asking_prog keccak pr) tasks) s n).
  assert (P0 : pool_ok Qs w0).
  { exists V. cbn [w0 next_cell cells threads]. split; [exact Kp|]. intros i p Ep. rewrite nth_error_map in Ep.
    destruct (nth_error tasks i) as [y|] eqn:Ei; [|discriminate]. cbn [option_map] in Ep. injection Ep as <-.
    rewrite Forall_forall in FT. pose proof (FT _ (nth_error_In _ _ Ei)) as Ok1.
    apply (wp_conseq _ _ _ (fun r _ _ => asking_post keccak pr y r)); [|intros a b' V' _ H; exists y; auto]. destruct y as [hs' os'|lo u kss]; cbn [asking_prog asking_ok asking_post] in *.
    - destruct Ok1 as (Inc & Tm & [[tsr xsr] Er]). apply wp_bind. eapply wp_conseq; [apply wp_hrun; [eapply inv_clones; eauto|exact Tm|exact Er]|].
      intros a b' V' _ [_ R]. cbn [wp]. exists tsr, xsr. split; [exact Er|]. rewrite R. reflexivity.
    - destruct Ok1 as (Iu & Ne & [v Ev]). apply wp_bind. apply inv_handles in Iv. rewrite Forall_forall in Iv.
      eapply wp_conseq; [exact (wp_asks keccak pr lo u kss v _ _ (Iv u Iu) Ne Ev)|]. intros a b' V' _ R. cbn [wp]. exists v, a. auto. }
  destruct (sched_run_ok Qs js _ P0) as (V' & _ & W). set (w := sched_run w0 js) in *.
  assert (Len : length (threads w) = length tasks).
  { unfold w. rewrite sched_run_length. cbn [w0 threads]. apply map_length. }
  destruct (nth_error (threads w) j) as [p|] eqn:Ep.
  - exists p. split; [reflexivity|]. specialize (W j p Ep). split; [intros ->; exact W|]. intros r ->.
    cbn [wp] in W. destruct W as (y & Ey & Px). rewrite Ej in Ey. injection Ey as <-. exact Px.
  - exfalso. apply nth_error_None in Ep. assert (j < length tasks)%nat by (apply nth_error_Some; congruence). lia.
Qed.

(** The claim "for equal tries the message is the same" fails: after [hash()] the cell of the hash node is not empty. *)
Definition stop_list : list (nibbles * val_or_hash) := [(K 4 0x1234, Val [1]); (K 4 0x1256, HashV (repeat 0xcd 32))].
Definition error_text_of {A} (r : result A text_error) : list N :=
  match r with RErr e => match text_error_text Debug e with Ok l => l | Panic => [] end | ROk _ => [] end.
Definition asked_before_and_after : prog (list N * list N) :=
  t <~ hfrom_iter Debug stop_list ;; a <~ htext_subset keccak256 Debug false t [K 6 0x125678] ;;
  _ <~ hhash_of keccak256 Debug t ;; b <~ htext_subset keccak256 Debug false t [K 6 0x125678] ;; Ret (error_text_of a, error_text_of b).
Theorem C55_handle_equal_refuted : exists a b s n, exec asked_before_and_after (fun _ => None) 0 = Ok ((a, b), s, n) /\ a <> b /\
  a = line_message [7; 8] (repeat 0xcd 32) (Holds None) /\ b = line_message [7; 8] (repeat 0xcd 32) (Holds (Some (repeat 0xcd 32))).
Proof.
  assert (D : match exec asked_before_and_after (fun _ => None) 0 with Ok (a, b, _, _) => Some (a, b) | Panic => None end =
              Some (line_message [7; 8] (repeat 0xcd 32) (Holds None), line_message [7; 8] (repeat 0xcd 32) (Holds (Some (repeat 0xcd 32))))) by (vm_compute; reflexivity).
  destruct (exec asked_before_and_after (fun _ => None) 0) as [[[[a b] s] n]|]; [|discriminate D]. injection D as -> ->.
  exists (line_message [7; 8] (repeat 0xcd 32) (Holds None)), (line_message [7; 8] (repeat 0xcd 32) (Holds (Some (repeat 0xcd 32)))), s, n. split; [reflexivity|]. split; [|auto]. vm_compute. discriminate.
Qed.
Example C55_handle_example :
  let t := HExtension 1 (K 1 5) (HBranch 2 (HHash 4 [171] :: repeat (HEmpty 3) 15) []) in
  wf 64 (erase t) /\ Forall kwf [K 2 0x51; K 4 0x5012] /\
  exec (htext_subset keccak256 Debug false t [K 2 0x51; K 4 0x5012]) (fun c => if c =? 4 then Some [1; 255] else None) 9 =
    Ok (RErr (UnexpectedKeyText (K 2 0x12) (line_stop [171] (Holds (Some [1; 255])))), fun c => if c =? 4 then Some [1; 255] else None, 9) /\
  text_error_text Debug (UnexpectedKeyText (K 2 0x12) (line_stop [171] (Holds (Some [1; 255])))) = Ok
    (txt "Tried to mark nodes in a tracked trie for a key that does not exist! (Key: 0x12, trie: TrackedNode { node: Hash, info: TrackedNodeInfo { underlying_node: HashedPartialTrie { node: Hash(0xab), hash: RwLock { data: Some(0x01ff) } }, touched: true } })").
Proof.
  cbn zeta. split; [|split; [|split]].
  - cbn [erase map repeat]. change (K 1 5) with (enc [5]). apply (wf_ext 63 [5]); [repeat constructor|]. constructor; [reflexivity|repeat constructor].
  - repeat constructor; vm_compute; congruence.
  - vm_compute. reflexivity.
  - vm_compute. reflexivity.
Qed.

(** One thread hashes the trie, the other asks for a subset: the message depends on the schedule. *)
Definition stop_start := match exec (hrun keccak256 Debug [] [New stop_list]) (fun _ => None) 0 with Ok r => r | Panic => (([], []), fun _ => None, 0) end.
Definition stop_tasks (hs : list hnode) : list asking := [Asks false (nth 0 hs (HEmpty 0)) [[K 4 0x1234; K 6 0x125678]]; Works hs [HashOf 0]].
Definition stop_text (js : list nat) : list N :=
  let '((hs, _), s, n) := stop_start in
  match nth_error (threads (sched_run (Pool (map (asking_prog keccak256 Debug) (stop_tasks hs)) s n) js)) 0 with Some (Ret (inr r)) => error_text_of r | _ => [] end.
Example C55_handle_threads_example :
  let hs := fst (fst (fst stop_start)) in
  (exists xs, exec (hrun keccak256 Debug [] [New stop_list]) (fun _ => None) 0 = Ok ((hs, xs), snd (fst stop_start), snd stop_start)) /\
  Forall (asking_ok keccak256 Debug hs) (stop_tasks hs) /\
  stop_text (repeat 0%nat 100) = line_message [7; 8] (repeat 0xcd 32) (Holds None) /\
  stop_text (repeat 1%nat 100 ++ repeat 0%nat 100) = line_message [7; 8] (repeat 0xcd 32) (Holds (Some (repeat 0xcd 32))).
Proof.
  cbn zeta. split; [|split; [|split]].
  - exists [Done]. unfold stop_start. destruct (exec (hrun keccak256 Debug [] [New stop_list]) (fun _ => None) 0) as [[[[hs xs] s] n]|] eqn:E.
    + cbn [fst snd]. assert (D : match exec (hrun keccak256 Debug [] [New stop_list]) (fun _ => None) 0 with Ok (_, xs, _, _) => xs | Panic => [] end = [Done]) by (vm_compute; reflexivity).
      rewrite E in D. subst xs. reflexivity.
    + exfalso. assert (D : match exec (hrun keccak256 Debug [] [New stop_list]) (fun _ => None) 0 with Ok _ => true | Panic => false end = true) by (vm_compute; reflexivity).
      rewrite E in D. discriminate D.
  - constructor; [|constructor; [|constructor]].
    + split; [vm_compute; left; reflexivity|]. split; [intros [E|[]]; discriminate|]. eexists. vm_compute. reflexivity.
    + split; [apply incl_refl|]. split; [repeat constructor|]. eexists. vm_compute. reflexivity.
  - vm_compute. reflexivity.
  - vm_compute. reflexivity.
Qed.

(** ** [Debug] of the error *)
Theorem C63_handle_subset_error : forall pr k h x, short k -> bytesl h -> sight_in hash_bytes 0 x ->
  exists d, text_error_dbg pr (UnexpectedKeyText k (line_stop h x)) = Ok d /\
  put false d = txt "UnexpectedKey(" ++ line_key k ++ txt ", """ ++ line_stop h x ++ txt """)" /\
  put false d = one_line (After 0) (put true d).
Proof.
  intros pr k h x S B X. unfold text_error_dbg. rewrite key_dbg_ok by exact S. cbn [bind]. eexists. split; [reflexivity|].
  assert (F : forall c, word c = false -> Forall (fun x => x <> c) (txt "TrackedNode { node: Hash, info: TrackedNodeInfo { underlying_node: HashedPartialTrie { node: Hash(0x") ->
     Forall (fun x => x <> c) (txt "), hash: RwLock { data: ") -> Forall (fun x => x <> c) (txt " } }, touched: true } }") -> Forall (fun x => x <> c) (txt "<locked>") -> Forall (fun x => x <> c) (txt "None") ->
     Forall (fun x => x <> c) (txt "Some(0x") -> Forall (fun x => x <> c) (txt ")") -> Forall (fun x => x <> c) (line_stop h x)).
  { intros c C0 C1 C2 C3 C4 C5 C6 C7. unfold line_stop. repeat (apply Forall_app; split; [assumption || (apply free_words; [exact C0|apply words_bytes, B])|]). apply Forall_app. split; [|exact C3].
    destruct x as [|[hh|]]; cbn [line_sight]; try assumption. unfold line_hash. change (txt "Some(" ++ (txt "0x" ++ shown_bytes hh) ++ txt ")") with (txt "Some(0x" ++ shown_bytes hh ++ txt ")").
    repeat (apply Forall_app; split; [assumption || (apply free_words; [exact C0|apply words_bytes, X])|]). exact C7. }
  split.
  - rewrite put_tuple by discriminate. unfold commas. cbn [map join]. rewrite put_key by apply nseq_hexl.
    match goal with |- context[put false (DText ?l)] => change (put false (DText l)) with ([34] ++ escape l ++ [34]) end.
    rewrite escape_none by (apply F; [reflexivity|..]; vm_compute; repeat constructor; discriminate). unfold line_key. rewrite <- !app_assoc. reflexivity.
  - symmetry. apply put_one_line. constructor; [wl_tac|discriminate|]. constructor; [apply dk_ok|]. constructor; [|constructor]. constructor.
    apply F; [reflexivity|..]; vm_compute; repeat constructor; discriminate.
Qed.

Example C63_handle_subset_error_example : exists d, text_error_dbg Debug (UnexpectedKeyText (K 2 0x12) (line_stop [171] Locked)) = Ok d /\ put false d =
  txt "UnexpectedKey(Nibbles { count: 2, packed: ""0x12"" }, ""TrackedNode { node: Hash, info: TrackedNodeInfo { underlying_node: HashedPartialTrie { node: Hash(0xab), hash: RwLock { data: <locked> } }, touched: true } }"")".
Proof. eexists. split; vm_compute; reflexivity. Qed.

Print Assumptions C55_handle_same.
Print Assumptions C55_handle_subset.
Print Assumptions C55_handle_subsets.
Print Assumptions C55_handle_any_threads.
Print Assumptions C55_handle_threads.
Print Assumptions C55_handle_equal_refuted.
Print Assumptions C63_handle_subset_error.
