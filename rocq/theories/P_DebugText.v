(** Property C63: the [Debug] output, [{:?}] and [{:#?}], of keys, values, tries, caching tries, reports of the debug tools and errors. *)
From Coq Require Import String.
From Verif Require Import Base Nibbles NibblesSpec NibblesFacts NibblesFacts2 NibblesFacts3 Trie TrieSpec TrieFacts TrieHistSpec TrieHist Query Diff P_Query Text TextSpec TextFacts.
From Verif Require Import Rlp Hashing Keccak HashSpec Subset Cache CacheSpec CacheFacts CacheFacts2 CacheFacts3 CacheFacts4 FailFacts P_Trie P_Hash P_Cache.
From Verif Require Import P_Diff DebugText DebugTextSpec DebugTextFacts DebugTextFacts2 DebugTextFacts3.
From Verif Require Import Trie TrieSpec Cache Query Diff.
Open Scope N_scope.
Open Scope list_scope.

(** * Tries *)
(** The exact texts, on one line and indented. Keys of up to 128 nibbles can be shown; the API makes keys of up to 64. *)
Theorem C63_trie : forall pr t, Forall short (node_keys t) -> byte_values t ->
  debug_trie pr false t = Ok (line_trie t) /\ debug_trie pr true t = Ok (tall_trie 0 t).
Proof.
  intros pr t S B. unfold debug_trie. rewrite trie_dbg_ok by exact S. cbn [bind]. rewrite put_trie, put_tall, tree_trie by (apply dok_trie, B). auto.
Qed.
Definition dbg_list : list (nibbles * val_or_hash) := [(K 4 0x1234, Val [1; 200]); (K 4 0x1256, Val []); (K 4 0x1299, HashV [171; 205])].
Definition dbg_trie : node := Eval vm_compute in match from_iter Debug dbg_list with Ok t => t | Panic => Empty end.
Example C63_trie_example : from_iter Debug dbg_list = Ok dbg_trie /\ Forall short (node_keys dbg_trie) /\ byte_values dbg_trie /\
  debug_trie Debug false (Extension (K 2 0x0c) (Leaf (K 1 3) [1; 200])) = Ok (txt
    "StandardTrie(Extension { nibbles: Nibbles { count: 2, packed: ""0x0c"" }, child: StandardTrie(Leaf { nibbles: Nibbles { count: 1, packed: ""0x3"" }, value: [1, 200] }) })") /\
  debug_trie Debug true (Leaf (K 1 3) [7]) = Ok (join newline (map txt
    ["StandardTrie("; "    Leaf {"; "        nibbles: Nibbles {"; "            count: 1,"; "            packed: ""0x3"","; "        },"; "        value: ["; "            7,"; "        ],"; "    },"; ")"]%string)).
Proof.
  split; [vm_compute; reflexivity|]. split; [vm_compute; repeat constructor; discriminate|].
  split; [vm_compute; repeat split; repeat constructor|]. split; vm_compute; reflexivity.
Qed.

(** A key with more than 128 nibbles, which only comes from a caller that sets the fields of [Nibbles], makes it panic. *)
Theorem C63_long_panics : forall pr pretty t, Forall (fun n => count n < 2 ^ 64 - 1) (node_keys t) -> (exists n, In n (node_keys t) /\ 128 < count n) ->
  debug_trie pr pretty t = Panic.
Proof. intros pr pretty t K H. unfold debug_trie. rewrite trie_dbg_long by assumption. reflexivity. Qed.
Example C63_long_panics_example : debug_trie Debug false (Leaf (Nib 129 0) []) = Panic /\ exists l, debug_trie Debug false (Leaf (Nib 128 0) []) = Ok l.
Proof. split; [vm_compute; reflexivity|]. eexists. vm_compute. reflexivity. Qed.

(** Two tries have the same text exactly if they are the same up to bits above the digits of their keys; in either form. *)
Theorem C63_same_iff : forall pr pr' pretty t t', Forall short (node_keys t) -> Forall short (node_keys t') -> byte_values t -> byte_values t' ->
  debug_trie pr pretty t = debug_trie pr' pretty t' <-> trim t = trim t'.
Proof.
  intros pr pr' pretty t t' S S' B B'. unfold debug_trie. rewrite !trie_dbg_ok by assumption. cbn [bind]. split.
  - intros [= E]. apply dtrie_inj; [assumption..|]. apply dok_trie in B, B'. destruct pretty; [apply put_tall_inj; assumption|apply put_inj; assumption].
  - intros E. rewrite <- (dtrie_trim t), E, dtrie_trim. reflexivity.
Qed.
(** So the text identifies a trie whose keys have no such bits, and these are all tries that the API makes. *)
Theorem C63_identifies : forall pr pr' pretty t t', Forall short (node_keys t) -> Forall short (node_keys t') -> byte_values t -> byte_values t' ->
  Forall exact (node_keys t) -> Forall exact (node_keys t') -> debug_trie pr pretty t = debug_trie pr' pretty t' <-> t = t'.
Proof. intros pr pr' pretty t t' S S' B B' X X'. rewrite C63_same_iff by assumption. rewrite !trim_exact by assumption. reflexivity. Qed.
Lemma wf_keys t : forall L, wf L t -> (L <= 128)%nat -> Forall short (node_keys t) /\ Forall exact (node_keys t).
Proof.
  assert (E : forall l, hexl l -> (length l <= 128)%nat -> short (enc l) /\ exact (enc l)).
  { intros l H Le. split; [unfold short; cbn [count enc]; lia|]. unfold exact. cbn [count packed enc]. apply undigits_lt, H. }
  induction t as [|h|ch v IH|n c IH|n v] using node_ind'; intros L W Le; inversion W; subst; cbn [node_keys]; auto.
  - assert (G : forall c, In c ch -> Forall short (node_keys c) /\ Forall exact (node_keys c)).
    { rewrite Forall_forall in *. intros c Ic. eapply IH; eauto. lia. }
    split; apply Forall_flat; apply Forall_forall; intros c Ic; apply G, Ic.
  - match goal with H : hexl _, H' : wf _ c |- _ => destruct (E _ H ltac:(lia)), (IH _ H' ltac:(lia)) end. split; constructor; assumption.
  - match goal with H : hexl _ |- _ => destruct (E _ H ltac:(lia)) end. split; constructor; auto.
Qed.
Theorem C63_api_tries : forall pr t, reach pr t -> Forall short (node_keys t) /\ Forall exact (node_keys t).
Proof. intros pr t R. apply reach_valid in R as [W _]. apply (wf_keys t 64 W). lia. Qed.
Definition deep_trie : node := Eval vm_compute in match from_iter Debug [(K 4 0x1234, Val [1; 200]); (K 4 0x1256, Val [])] with Ok t => t | Panic => Empty end.
Example C63_same_example : reach Debug (Leaf (K 64 1) [1]) /\ debug_trie Debug false deep_trie <> debug_trie Debug false (Leaf (K 64 1) [1]) /\
  debug_trie Debug false (Leaf (Nib 1 0x123) []) = debug_trie Debug false (Leaf (Nib 1 3) []).
Proof.
  split; [|split; [vm_compute; discriminate|vm_compute; reflexivity]].
  apply reach_start; [|constructor; discriminate]. change (K 64 1) with (enc (repeat 0 63 ++ [1])). constructor; [vm_compute; repeat constructor|vm_compute; repeat constructor].
Qed.
(** The claim "different tries have different texts" fails for keys with bits above their digits, made by setting the fields. *)
Theorem C63_hidden_bits_refuted : exists t t', node_eqb t t' = false /\ byte_values t /\ byte_values t' /\
  forall pr pretty, debug_trie pr pretty t = debug_trie pr pretty t' /\ exists text, debug_trie pr pretty t = Ok text.
Proof.
  exists (Leaf (Nib 1 0x123) [5]), (Leaf (Nib 1 3) [5]). split; [reflexivity|]. split; [repeat constructor|]. split; [repeat constructor|].
  intros pr pretty. destruct pr, pretty; (split; [|eexists]); vm_compute; reflexivity.
Qed.

(** * The two forms *)
(** The text on one line is the indented one without the line breaks. *)
Theorem C63_one_line : forall pr t text, byte_values t -> Forall short (node_keys t) -> debug_trie pr true t = Ok text ->
  debug_trie pr false t = Ok (one_line (After 0) text).
Proof.
  intros pr t text B S. unfold debug_trie. rewrite trie_dbg_ok by exact S. cbn [bind]. intros [= <-]. rewrite put_one_line by (apply dok_trie, B). reflexivity.
Qed.
Example C63_one_line_example : exists text, debug_trie Debug true dbg_trie = Ok text /\ In 10 text /\ debug_trie Debug false dbg_trie = Ok (one_line (After 0) text) /\
  ~ In 10 (one_line (After 0) text).
Proof.
  eexists. split; [vm_compute; reflexivity|]. assert (D : forall l, existsb (fun c => c =? 10) l = true <-> In 10 l).
  { intros l. rewrite existsb_exists. split; [intros (x & I & E); apply N.eqb_eq in E; subst; exact I|intros I; exists 10; split; [exact I|reflexivity]]. }
  rewrite <- !D. split; [vm_compute; reflexivity|]. split; vm_compute; [reflexivity|discriminate].
Qed.

(** * Caching tries *)
(** The exact texts of a [HashedPartialTrie], for any locks that are found locked; the cells stay as they are. *)
Theorem C63_handle : forall pr locked t s n, Forall short (node_keys (erase t)) -> byte_values (erase t) -> (forall c, hash_bytes c (s c)) ->
  exec (debug_handle pr locked false t) s n = Ok (line_handle (seen locked s) [] t, s, n) /\
  exec (debug_handle pr locked true t) s n = Ok (tall_handle 0 (seen locked s) [] t, s, n).
Proof.
  intros pr locked t s n S B H. unfold debug_handle. rewrite !exec_pbind, exec_handle by exact S. cbn [exec]. rewrite put_handle, put_tall, tree_handle; [auto|].
  apply dok_handle; [|exact B]. intros p c. unfold seen, sight_ok. specialize (H c). destruct (locked p); [exact Logic.I|]. destruct (s c); auto.
Qed.
Theorem C63_handle_panics : forall pr locked pretty t s n, Forall (fun n => count n < 2 ^ 64 - 1) (node_keys (erase t)) -> (exists n, In n (node_keys (erase t)) /\ 128 < count n) ->
  exec (debug_handle pr locked pretty t) s n = Panic.
Proof. intros pr locked pretty t s n K H. unfold debug_handle. rewrite exec_pbind, exec_handle_long by assumption. reflexivity. Qed.
Lemma sight_ok_seen locked s : (forall c, hash_bytes c (s c)) -> forall p c, sight_ok (seen locked s p c).
Proof. intros H p c. unfold seen, sight_ok. specialize (H c). destruct (locked p); [exact Logic.I|]. destruct (s c); auto. Qed.
(** Two caching tries have the same text exactly if they have the same contents and show the same cached hashes. *)
Theorem C63_handle_same_iff : forall pr pr' locked locked' pretty t t' s s' n n' text text',
  Forall short (node_keys (erase t)) -> Forall short (node_keys (erase t')) -> byte_values (erase t) -> byte_values (erase t') ->
  (forall c, hash_bytes c (s c)) -> (forall c, hash_bytes c (s' c)) ->
  exec (debug_handle pr locked pretty t) s n = Ok (text, s, n) -> exec (debug_handle pr' locked' pretty t') s' n' = Ok (text', s', n') ->
  text = text' <-> trim (erase t) = trim (erase t') /\ sights (seen locked s) [] t = sights (seen locked' s') [] t'.
Proof.
  intros pr pr' locked locked' pretty t t' s s' n n' text text' S S' B B' H H'. unfold debug_handle. rewrite !exec_pbind, !exec_handle by assumption. cbn [exec].
  intros [= <-] [= <-]. pose proof (sight_ok_seen locked s H) as Z. pose proof (sight_ok_seen locked' s' H') as Z'. clear H H'. rename Z into H, Z' into H'.
  pose proof (dok_handle _ _ H B []) as D. pose proof (dok_handle _ _ H' B' []) as D'. split.
  - intros E. apply dhandle_inj; try assumption. destruct pretty; [apply put_tall_inj; assumption|apply put_inj; assumption].
  - intros [E1 E2]. destruct (dhandle_same (seen locked s) (seen locked' s') t t' [] [] [] [] E1) as [-> _]; [rewrite !app_nil_r; exact E2|reflexivity].
Qed.
(** The claim "equal caching tries have the same text" fails: [hash()] fills cells, which the text shows, and [==] does not look at. *)
Definition shown_before_and_after : prog (list N * list N * bool) :=
  t <~ hfrom_iter Debug big_list ;; a <~ debug_handle Debug alone false t ;; _ <~ hhash_of keccak256 Debug t ;; b <~ debug_handle Debug alone false t ;; Ret (a, b, heqb t t).
Theorem C63_equal_refuted : exists a b s n, exec shown_before_and_after (fun _ => None) 0 = Ok ((a, b, true), s, n) /\ a <> b.
Proof.
  destruct (exec shown_before_and_after (fun _ => None) 0) as [[[[[a b] q] s] n]|] eqn:E.
  - assert (D : match exec shown_before_and_after (fun _ => None) 0 with Ok (a, b, q, _, _) => negb (bytes_eqb a b) && q | Panic => false end = true) by (vm_compute; reflexivity).
    rewrite E in D. apply andb_true_iff in D as [D1 D2]. destruct q; [|discriminate D2]. exists a, b, s, n. split; [reflexivity|]. intros ->.
    destruct (bytes_eqb_spec b b); [discriminate D1|congruence].
  - exfalso. revert E. assert (D : match exec shown_before_and_after (fun _ => None) 0 with Ok _ => true | Panic => false end = true) by (vm_compute; reflexivity).
    intros E. rewrite E in D. discriminate D.
Qed.
Example C63_handle_example : exec (debug_handle Debug alone false (HExtension 3 (K 1 5) (HHash 7 [171]))) (fun c => if c =? 7 then Some [1; 255] else None) 9 = Ok
  (txt "HashedPartialTrie { node: Extension { nibbles: Nibbles { count: 1, packed: ""0x5"" }, child: HashedPartialTrie { node: Hash(0xab), hash: RwLock { data: Some(0x01ff) } } }, hash: RwLock { data: None } }",
   fun c => if c =? 7 then Some [1; 255] else None, 9) /\
  exec (debug_handle Release (fun p => match p with [] => true | _ => false end) true (HExtension 3 (K 1 5) (HHash 7 [171]))) (fun _ => None) 9 = Ok
  (join newline (map txt ["HashedPartialTrie {"; "    node: Extension {"; "        nibbles: Nibbles {"; "            count: 1,"; "            packed: ""0x5"","; "        },";
     "        child: HashedPartialTrie {"; "            node: Hash("; "                0xab,"; "            ),"; "            hash: RwLock {"; "                data: None,"; "            },"; "        },";
     "    },"; "    hash: RwLock {"; "        data: <locked>,"; "    },"; "}"]%string), fun _ => None, 9).
Proof. split; vm_compute; reflexivity. Qed.

(** * Other threads *)
(** Whatever other threads write to the cells while the text is made: it is a text of this form, so the contents of the trie can be told from it. *)
Theorem C63_any_threads : forall pr locked t text, Forall short (node_keys (erase t)) -> byte_values (erase t) ->
  (may hash_bytes (debug_handle pr locked false t) text -> exists see, (forall q c, sight_in hash_bytes c (see q c)) /\ text = line_handle see [] t) /\
  (may hash_bytes (debug_handle pr locked true t) text -> exists see, (forall q c, sight_in hash_bytes c (see q c)) /\ text = tall_handle 0 see [] t).
Proof.
  intros pr locked t text S B.
  assert (G : forall pretty, may hash_bytes (debug_handle pr locked pretty t) text -> exists see, (forall q c, sight_in hash_bytes c (see q c)) /\ text = put pretty (dhandle see [] t)).
  { intros pretty M. revert M. apply (reads_may hash_bytes (fun _ => True) _ (fun text => exists see, (forall q c, sight_in hash_bytes c (see q c)) /\ text = put pretty (dhandle see [] t))). unfold debug_handle. apply reads_bind. eapply reads_weaken; [|apply reads_handle; [exact S|]].
    - intros d (see & H & ->). cbn [reads]. exists see. auto.
    - apply Forall_forall. auto. }
  split; intros M; destruct (G _ M) as (see & H & ->); exists see; (split; [exact H|]); [apply put_handle|].
  rewrite put_tall, tree_handle; [reflexivity|]. apply dok_handle; [|exact B]. intros p c. specialize (H p c). destruct (see p c) as [|[h|]]; auto.
Qed.
Theorem C63_any_threads_identifies : forall pr pr' locked locked' pretty t t' text,
  Forall short (node_keys (erase t)) -> Forall short (node_keys (erase t')) -> byte_values (erase t) -> byte_values (erase t') ->
  may hash_bytes (debug_handle pr locked pretty t) text -> may hash_bytes (debug_handle pr' locked' pretty t') text -> trim (erase t) = trim (erase t').
Proof.
  intros pr pr' locked locked' pretty t t' text S S' B B' M M'.
  assert (G : forall pr locked t, Forall short (node_keys (erase t)) -> byte_values (erase t) -> may hash_bytes (debug_handle pr locked pretty t) text ->
     exists see, (forall p c, sight_ok (see p c)) /\ text = put pretty (dhandle see [] t)).
  { clear. intros pr locked t S B. apply (reads_may hash_bytes (fun _ => True) _ (fun text => exists see, (forall p c, sight_ok (see p c)) /\ text = put pretty (dhandle see [] t))). unfold debug_handle. apply reads_bind. eapply reads_weaken; [|apply reads_handle; [exact S|]].
    - intros d (see & H & ->). cbn [reads]. exists see. split; [|reflexivity]. intros p c. specialize (H p c). destruct (see p c) as [|[h|]]; auto.
    - apply Forall_forall. auto. }
  destruct (G _ _ _ S B M) as (see & H & ->). destruct (G _ _ _ S' B' M') as (see' & H' & E).
  pose proof (dok_handle _ _ H B []) as D. pose proof (dok_handle _ _ H' B' []) as D'.
  apply (dhandle_inj see see' t H H' t' [] [] B B'). destruct pretty; [apply put_tall_inj; assumption|apply put_inj; assumption].
Qed.

(** In a pool of threads where some make texts and the others run programs, all on clones of the handles of a tame program: making a text
    never fails, and the text shows at every node that its lock is taken, or nothing, or the right hash of that node. *)
Inductive task : Type := Runs (hs : list hnode) (os : list op) | Shows (locked : list nat -> bool) (pretty : bool) (t : hnode).
Definition task_prog keccak pr (x : task) : prog (list obs + list N) :=
  match x with
  | Runs hs os => r <~ hrun keccak pr hs os ;; Ret (inl (snd r))
  | Shows locked pretty t => l <~ debug_handle pr locked pretty t ;; Ret (inr l)
  end.
Definition task_ok keccak pr (hs : list hnode) (x : task) : Prop :=
  match x with
  | Runs hs' os => incl hs' hs /\ Forall tame os /\ exists r, vrun keccak pr (map erase hs') os = Ok r
  | Shows _ _ t => In t hs /\ Forall short (node_keys (erase t))
  end.
Definition right_sight keccak pr (t : hnode) (see : list nat -> N -> sight) : Prop :=
  forall x q, In x (nodes t) ->
    match see q (cell x) with Holds (Some h) => rlp_encode_and_hash_node keccak pr (erase x) = Ok (Hashed h) | _ => True end.
Lemma hashed_bytes keccak pr t h : (forall b, bytesl (keccak b)) -> byte_values t -> rlp_encode_and_hash_node keccak pr t = Ok (Hashed h) -> bytesl h.
Proof.
  intros Kb B E. assert (G : forall b, hash_bytes_if_large_enough keccak b = Hashed h -> bytesl h).
  { intros b. unfold hash_bytes_if_large_enough. destruct (_ <=? _); [|discriminate]. intros [= <-]. apply Kb. }
  destruct t as [|h'|ch v|k c|k v]; cbn [rlp_encode_and_hash_node] in E; repeat okbind E; try (injection E as E; revert E; apply G); [discriminate|].
  injection E as <-. exact B.
Qed.
Definition task_post keccak pr V (x : task) (r : list obs + list N) : Prop :=
  match x with
  | Runs hs os => exists ts xs, vrun keccak pr (map erase hs) os = Ok (ts, xs) /\ r = inl xs
  | Shows locked pretty t => exists see, (forall q c, sight_in (allowed V) c (see q c)) /\ r = inr (put pretty (dhandle see [] t))
  end.
Lemma tasks_ok keccak pr hs V s n tasks js j x : inv keccak pr (fun _ => Plain) None n V hs -> keeps n V s ->
  Forall (task_ok keccak pr hs) tasks -> nth_error tasks j = Some x ->
  exists p, nth_error (threads (sched_run (Pool (map (task_prog keccak pr) tasks) s n) js)) j = Some p /\ p <> Fail /\
  forall r, p = Ret r -> task_post keccak pr V x r.
Proof.
  intros Iv Kp FT Ej.
  set (Qs := fun (i : nat) (r : list obs + list N) => exists x, nth_error tasks i = Some x /\ task_post keccak pr V x r).
  set (w0 := Pool (map (task_prog keccak pr) tasks) s n).
  assert (P0 : pool_ok Qs w0).
  { exists V. cbn [w0 next_cell cells threads]. split; [exact Kp|]. intros i p Ep. rewrite nth_error_map in Ep.
    destruct (nth_error tasks i) as [y|] eqn:Ei; [|discriminate]. cbn [option_map] in Ep. injection Ep as <-.
    rewrite Forall_forall in FT. pose proof (FT _ (nth_error_In _ _ Ei)) as Ok1.
    apply (wp_conseq _ _ _ (fun r _ _ => task_post keccak pr V y r)); [|intros a b' V' _ H; exists y; auto]. destruct y as [hs' os'|lo pre u]; cbn [task_prog task_ok task_post] in *.
    - destruct Ok1 as (Inc & Tm & [[tsr xsr] Er]). apply wp_bind. eapply wp_conseq; [apply wp_hrun; [eapply inv_clones; eauto|exact Tm|exact Er]|].
      intros a b' V' _ [_ R]. cbn [wp]. exists tsr, xsr. split; [exact Er|]. rewrite R. reflexivity.
    - destruct Ok1 as [Iu Su]. apply wp_bind. unfold debug_handle. apply wp_bind.
      apply (wp_conseq _ _ _ (fun d _ _ => exists see, (forall q c, sight_in (allowed V) c (see q c)) /\ d = dhandle see [] u)).
      + apply reads_wp. apply reads_handle; [exact Su|]. apply inv_handles in Iv. rewrite Forall_forall in Iv. destruct (Iv u Iu) as (Ku & Cu & _).
        rewrite nodes_below. constructor; [exact Cu|]. eapply Forall_impl; [|exact Ku]. intros y Hy. apply Hy.
      + intros d b' V' _ (see & S & ->). cbn [wp]. exists see. auto. }
  destruct (sched_run_ok Qs js _ P0) as (V' & _ & W). set (w := sched_run w0 js) in *.
  assert (Len : length (threads w) = length tasks).
  { unfold w. rewrite sched_run_length. cbn [w0 threads]. apply map_length. }
  destruct (nth_error (threads w) j) as [p|] eqn:Ep.
  - exists p. split; [reflexivity|]. specialize (W j p Ep). split; [intros ->; exact W|]. intros r ->.
    cbn [wp] in W. destruct W as (y & Ey & Px). rewrite Ej in Ey. injection Ey as <-. exact Px.
  - exfalso. apply nth_error_None in Ep. assert (j < length tasks)%nat by (apply nth_error_Some; congruence). lia.
Qed.
Theorem C63_threads : forall keccak pr os ts xs hs s n tasks js j locked pretty t,
  Forall tame os -> vrun keccak pr [] os = Ok (ts, xs) -> exec (hrun keccak pr [] os) (fun _ => None) 0 = Ok ((hs, xs), s, n) ->
  Forall (task_ok keccak pr hs) tasks -> nth_error tasks j = Some (Shows locked pretty t) ->
  exists p, nth_error (threads (sched_run (Pool (map (task_prog keccak pr) tasks) s n) js)) j = Some p /\ p <> Fail /\
  forall r, p = Ret r -> exists see, right_sight keccak pr t see /\
    (pretty = false -> r = inr (line_handle see [] t)) /\
    (pretty = true -> byte_values (erase t) -> (forall b, bytesl (keccak b)) -> r = inr (tall_handle 0 see [] t)).
Proof.
  intros keccak pr os ts xs hs s n tasks js j locked pretty t T E Ex FT Ej.
  destruct (tame_state keccak pr os ts xs T E) as (hs1 & s1 & n1 & V & Ex1 & _ & Iv & Kp). rewrite Ex in Ex1. injection Ex1 as <- <- <-.
  destruct (tasks_ok keccak pr hs V s n tasks js j _ Iv Kp FT Ej) as (p & Ep & NF & P). exists p. split; [exact Ep|]. split; [exact NF|].
  intros r ->. destruct (P r eq_refl) as (see & S & ->).
  exists see. assert (R : right_sight keccak pr t see); [|split; [exact R|split]].
  - intros x q Ix. specialize (S q (cell x)). destruct (see q (cell x)) as [|[h|]]; auto. cbn [sight_in] in S. destruct S as [S|S]; [discriminate|].
    rewrite Forall_forall in FT. pose proof (FT _ (nth_error_In _ _ Ej)) as [It _]. apply inv_handles in Iv. rewrite Forall_forall in Iv. destruct (Iv t It) as (Kt & Ct & Rt).
    assert (Hx : hashed_of keccak pr (erase x) = Some h).
    { rewrite nodes_below in Ix. destruct Ix as [<-|Ix]; [apply Rt; congruence|]. unfold kids in Kt. rewrite Forall_forall in Kt. destruct (Kt x Ix) as [_ Rx].
      unfold right_hash in Rx. rewrite Rx in S. cbn [fst] in S. congruence. }
    unfold hashed_of in Hx. destruct (rlp_encode_and_hash_node keccak pr (erase x)) as [[b|h']|]; try discriminate Hx. injection Hx as ->. reflexivity.
  - intros ->. rewrite put_handle. reflexivity.
  - intros -> B Kb. rewrite tall_handle_put; [reflexivity|exact B|]. intros x q Ix. specialize (R x q Ix). destruct (see q (cell x)) as [|[h|]]; cbn; auto.
    eapply hashed_bytes; [exact Kb|eapply byte_values_nodes; eauto|exact R].
Qed.
(** The other threads observe what they observe on plain values, whatever texts are made meanwhile. *)
Theorem C63_undisturbed : forall keccak pr os ts xs hs s n tasks js j hs' os',
  Forall tame os -> vrun keccak pr [] os = Ok (ts, xs) -> exec (hrun keccak pr [] os) (fun _ => None) 0 = Ok ((hs, xs), s, n) ->
  Forall (task_ok keccak pr hs) tasks -> nth_error tasks j = Some (Runs hs' os') ->
  exists p, nth_error (threads (sched_run (Pool (map (task_prog keccak pr) tasks) s n) js)) j = Some p /\ p <> Fail /\
  forall r, p = Ret r -> exists ts' xs', vrun keccak pr (map erase hs') os' = Ok (ts', xs') /\ r = inl xs'.
Proof.
  intros keccak pr os ts xs hs s n tasks js j hs' os' T E Ex FT Ej.
  destruct (tame_state keccak pr os ts xs T E) as (hs1 & s1 & n1 & V & Ex1 & _ & Iv & Kp). rewrite Ex in Ex1. injection Ex1 as <- <- <-.
  exact (tasks_ok keccak pr hs V s n tasks js j _ Iv Kp FT Ej).
Qed.
(** One thread shows the trie while another hashes it: depending on the schedule the text has all hashes, none, or some. *)
Definition dbg_start := match exec (hrun keccak256 Debug [] [New big_list]) (fun _ => None) 0 with Ok r => r | Panic => (([], []), fun _ => None, 0) end.
Definition dbg_tasks (hs : list hnode) : list task := [Shows alone false (nth 0 hs (HEmpty 0)); Runs hs [HashOf 0; Insert 0 (K 4 0x5611) (Val [7])]; Shows alone true (nth 0 hs (HEmpty 0))].
Definition dbg_text (js : list nat) : option (list N) :=
  let '((hs, _), s, n) := dbg_start in
  match nth_error (threads (sched_run (Pool (map (task_prog keccak256 Debug) (dbg_tasks hs)) s n) js)) 0 with Some (Ret (inr l)) => Some l | _ => None end.
Definition distinct (l : list (option (list N))) : bool :=
  match l with
  | [Some a; Some b; Some c] => negb (bytes_eqb a b) && negb (bytes_eqb a c) && negb (bytes_eqb b c)
  | _ => false
  end.
Example C63_threads_example :
  let hs := fst (fst (fst dbg_start)) in
  (exists xs, exec (hrun keccak256 Debug [] [New big_list]) (fun _ => None) 0 = Ok ((hs, xs), snd (fst dbg_start), snd dbg_start)) /\
  Forall (task_ok keccak256 Debug hs) (dbg_tasks hs) /\ byte_values (erase (nth 0 hs (HEmpty 0))) /\
  distinct [dbg_text (repeat 0%nat 60); dbg_text (repeat 1%nat 60 ++ repeat 0%nat 60); dbg_text (repeat 1%nat 12 ++ repeat 0%nat 60)] = true.
Proof.
  cbn zeta. split; [|split; [|split]].
  - exists [Done]. unfold dbg_start. destruct (exec (hrun keccak256 Debug [] [New big_list]) (fun _ => None) 0) as [[[[hs xs] s] n]|] eqn:E.
    + cbn [fst snd]. assert (D : match exec (hrun keccak256 Debug [] [New big_list]) (fun _ => None) 0 with Ok (_, xs, _, _) => xs | Panic => [] end = [Done]) by (vm_compute; reflexivity).
      rewrite E in D. subst xs. reflexivity.
    + exfalso. assert (D : match exec (hrun keccak256 Debug [] [New big_list]) (fun _ => None) 0 with Ok _ => true | Panic => false end = true) by (vm_compute; reflexivity).
      rewrite E in D. discriminate D.
  - assert (Z : In (nth 0 (fst (fst (fst dbg_start))) (HEmpty 0)) (fst (fst (fst dbg_start))) /\ Forall short (node_keys (erase (nth 0 (fst (fst (fst dbg_start))) (HEmpty 0))))).
    { split; [vm_compute; left; reflexivity|]. vm_compute. repeat constructor; discriminate. }
    constructor; [exact Z|]. constructor; [|constructor; [exact Z|constructor]]. split; [apply incl_refl|]. split; [repeat constructor|]. eexists. vm_compute. reflexivity.
  - vm_compute. repeat split; repeat constructor.
  - vm_compute. reflexivity.
Qed.

Lemma Ok_inj {A} (a b : A) : Ok a = Ok b -> a = b.
Proof. congruence. Qed.
(** * Keys and values *)
Theorem C63_key : forall pr n, short n ->
  debug_nibbles pr false n = Ok (line_key n) /\ (forall text, debug_nibbles pr true n = Ok text -> line_key n = one_line (After 0) text) /\
  forall pr' pretty n', short n' -> debug_nibbles pr pretty n = debug_nibbles pr' pretty n' <-> nseq n = nseq n'.
Proof.
  intros pr n S. unfold debug_nibbles. rewrite key_dbg_ok by exact S. cbn [bind]. pose proof (dok_key _ (nseq_hexl n)) as D. split; [|split].
  - rewrite put_key by apply nseq_hexl. reflexivity.
  - intros text E. apply Ok_inj in E as <-. rewrite put_one_line by exact D. symmetry. apply put_key, nseq_hexl.
  - intros pr' pretty n' S'. rewrite key_dbg_ok by exact S'. cbn [bind]. pose proof (dok_key _ (nseq_hexl n')) as D'. split; [|intros ->; reflexivity].
    intros E. apply Ok_inj in E. apply dkey_inj; [apply nseq_hexl|apply nseq_hexl|]. destruct pretty; [apply put_tall_inj; assumption|apply put_inj; assumption].
Qed.
Theorem C63_value : forall v, value_bytes v ->
  debug_val false v = line_value v /\ line_value v = one_line (After 0) (debug_val true v) /\
  forall pretty w, value_bytes w -> debug_val pretty v = debug_val pretty w <-> v = w.
Proof.
  intros v B. unfold debug_val. split; [apply put_value|]. split; [rewrite put_one_line by (apply value_ok, B); symmetry; apply put_value|].
  intros pretty w B'. split; [|intros ->; reflexivity]. intros E. apply value_inj; try assumption. apply value_ok in B, B'. destruct pretty; [apply put_tall_inj; assumption|apply put_inj; assumption].
Qed.
Example C63_key_example : debug_nibbles Debug false (K 3 0x0a1) = Ok (txt "Nibbles { count: 3, packed: ""0x0a1"" }") /\
  debug_nibbles Debug true (K 3 0x0a1) = Ok (join newline (map txt ["Nibbles {"; "    count: 3,"; "    packed: ""0x0a1"","; "}"]%string)) /\
  debug_val false (Val []) = txt "Val([])" /\ debug_val false (HashV [1; 2]) = txt "Hash(0x0102)" /\ debug_val true (Val [1]) = join newline (map txt ["Val("; "    ["; "        1,"; "    ],"; ")"]%string).
Proof. repeat split; vm_compute; reflexivity. Qed.

(** * Reports of the debug tools *)
Theorem C63_query : forall pr k ps, short k ->
  debug_query pr false k ps = Ok (line_query k ps) /\ (forall text, debug_query pr true k ps = Ok text -> line_query k ps = one_line (After 0) text) /\
  forall pr' pretty k' ps', short k' -> exact k -> exact k' -> debug_query pr pretty k ps = debug_query pr' pretty k' ps' <-> k = k' /\ ps = ps'.
Proof.
  intros pr k ps S. unfold debug_query. rewrite query_dbg_ok by exact S. cbn [bind]. pose proof (dquery_ok k ps) as D. split; [|split].
  - rewrite put_dquery. reflexivity.
  - intros text E. apply Ok_inj in E as <-. rewrite put_one_line by exact D. symmetry. apply put_dquery.
  - intros pr' pretty k' ps' S' X X'. rewrite query_dbg_ok by exact S'. cbn [bind]. pose proof (dquery_ok k' ps') as D'. split; [|intros [-> ->]; reflexivity].
    intros E. apply Ok_inj in E. apply dquery_inj; try assumption. destruct pretty; [apply put_tall_inj; assumption|apply put_inj; assumption].
Qed.
Theorem C63_query_output : forall pr out ps, Forall short (output_keys out) -> Forall bytesl (output_hashes out) ->
  debug_output pr false out ps = Ok (line_output out ps) /\ (forall text, debug_output pr true out ps = Ok text -> line_output out ps = one_line (After 0) text) /\
  forall pr' pretty out' ps', Forall short (output_keys out') -> Forall bytesl (output_hashes out') -> Forall exact (output_keys out) -> Forall exact (output_keys out') ->
    debug_output pr pretty out ps = debug_output pr' pretty out' ps' <-> out = out' /\ ps = ps'.
Proof.
  intros pr out ps S B. unfold debug_output. rewrite output_dbg_ok by exact S. cbn [bind]. pose proof (doutput_ok out ps B) as D. split; [|split].
  - rewrite put_doutput. reflexivity.
  - intros text E. apply Ok_inj in E as <-. rewrite put_one_line by exact D. symmetry. apply put_doutput.
  - intros pr' pretty out' ps' S' B' X X'. rewrite output_dbg_ok by exact S'. cbn [bind]. pose proof (doutput_ok out' ps' B') as D'. split; [|intros [-> ->]; reflexivity].
    intros E. apply Ok_inj in E. apply doutput_inj; try assumption. destruct pretty; [apply put_tall_inj; assumption|apply put_inj; assumption].
Qed.
Theorem C63_diff : forall pr d, Forall short (diff_keys d) -> Forall bytesl (diff_hashes d) ->
  debug_diff pr false d = Ok (line_diff d) /\ (forall text, debug_diff pr true d = Ok text -> line_diff d = one_line (After 0) text) /\
  forall pr' pretty d', Forall short (diff_keys d') -> Forall bytesl (diff_hashes d') -> Forall exact (diff_keys d) -> Forall exact (diff_keys d') ->
    debug_diff pr pretty d = debug_diff pr' pretty d' <-> d = d'.
Proof.
  intros pr d S B. unfold debug_diff. rewrite diff_dbg_ok by exact S. cbn [bind]. pose proof (ddiff_ok d B) as D. split; [|split].
  - rewrite put_ddiff. reflexivity.
  - intros text E. apply Ok_inj in E as <-. rewrite put_one_line by exact D. symmetry. apply put_ddiff.
  - intros pr' pretty d' S' B' X X'. rewrite diff_dbg_ok by exact S'. cbn [bind]. pose proof (ddiff_ok d' B') as D'. split; [|intros ->; reflexivity].
    intros E. apply Ok_inj in E. apply ddiff_inj; try assumption. destruct pretty; [apply put_tall_inj; assumption|apply put_inj; assumption].
Qed.
(** A real output and a real difference meet the conditions. *)
Definition dbg_out : query_output := Eval vm_compute in match get_path_from_query Debug dbg_trie (K 4 0x1234) with Ok o => o | Panic => QOut (K 1 0) [] [] false end.
Definition other_trie : node := Eval vm_compute in match from_iter Debug [(K 4 0x1334, Val [1]); (K 4 0x1357, Val [2])] with Ok t => t | Panic => Empty end.
Definition dbg_diff : option diff_point := Eval vm_compute in match create_diff toy Debug deep_trie other_trie with Ok d => d | Panic => None end.
Example C63_reports_example :
  get_path_from_query Debug dbg_trie (K 4 0x1234) = Ok dbg_out /\ Forall short (output_keys dbg_out) /\ Forall exact (output_keys dbg_out) /\ Forall bytesl (output_hashes dbg_out) /\
  debug_output Debug false (QOut (K 2 0x34) [SBranch 3; SLeaf (K 1 4)] [Some (XBranch 8); Some (XLeaf [9; 10]); None] true) default_params = Ok (txt
    "DebugQueryOutput { k: Nibbles { count: 2, packed: ""0x34"" }, node_path: NodePath([Branch(3), Leaf(Nibbles { count: 1, packed: ""0x4"" })]), extra_node_info: [Some(Branch { child_mask: 8 }), Some(Leaf { value: [9, 10] }), None], node_found: true, params: DebugQueryParams { include_key_piece_per_node: true, include_node_type: true, include_node_specific_values: false } }") /\
  (exists p, dbg_diff = Some p) /\ create_diff toy Debug deep_trie other_trie = Ok dbg_diff /\
  Forall short (diff_keys dbg_diff) /\ Forall exact (diff_keys dbg_diff) /\ Forall bytesl (diff_hashes dbg_diff) /\ debug_diff Debug true None = Ok (join newline (map txt ["TrieDiff {"; "    latest_diff_res: None,"; "}"]%string)).
Proof.
  repeat match goal with |- _ /\ _ => split end; try (vm_compute; reflexivity); try (vm_compute; repeat constructor; discriminate); try (vm_compute; repeat constructor).
  eexists. reflexivity.
Qed.

(** * Errors *)
Theorem C63_bytes_error : forall e, put false (bytes_error_dbg e) = line_bytes_error e /\ line_bytes_error e = one_line (After 0) (put true (bytes_error_dbg e)) /\
  forall pretty e', put pretty (bytes_error_dbg e) = put pretty (bytes_error_dbg e') <-> e = e'.
Proof.
  intros e. assert (P : put false (bytes_error_dbg e) = line_bytes_error e) by (destruct e; reflexivity). split; [exact P|].
  split; [rewrite put_one_line by apply bytes_error_ok; symmetry; exact P|]. intros pretty e'. split; [|intros ->; reflexivity]. intros E. apply bytes_error_inj.
  destruct pretty; [apply put_tall_inj|apply put_inj]; auto using bytes_error_ok.
Qed.
(** The error of the decoder of hex-prefix bytes, for any bytes. *)
Theorem C63_hp_error : forall bytes e, bytesl bytes -> bytes <> [] -> from_hex_prefix_encoding bytes = Ok (RErr e) ->
  put false (hp_error_dbg e) =
    (if (33 <? N.of_nat (length bytes)) then txt "TooLong(""" ++ shown_bytes bytes ++ txt """, " ++ dec (N.of_nat (length bytes)) ++ txt ")"
     else txt "InvalidFlags(" ++ dec (hd 0 bytes / 16) ++ txt ")") /\
  put false (hp_error_dbg e) = one_line (After 0) (put true (hp_error_dbg e)) /\
  forall pretty bytes' e', bytesl bytes' -> bytes' <> [] -> from_hex_prefix_encoding bytes' = Ok (RErr e') ->
    put pretty (hp_error_dbg e) = put pretty (hp_error_dbg e') <-> e = e'.
Proof.
  assert (G : forall bytes e, bytesl bytes -> bytes <> [] -> from_hex_prefix_encoding bytes = Ok (RErr e) -> (33 <? N.of_nat (length bytes)) = false -> e = InvalidFlags (hd 0 bytes / 16)).
  { intros bytes e B Ne E L. destruct bytes as [|b0 rest]; [congruence|]. apply N.ltb_ge in L. rewrite from_hp_spec in E by (assumption || cbn [length] in *; lia).
    destruct (b0 / 16 <=? 3); [discriminate|]. injection E as <-. reflexivity. }
  assert (D : forall bytes e, bytesl bytes -> bytes <> [] -> from_hex_prefix_encoding bytes = Ok (RErr e) -> dok (hp_error_dbg e)).
  { intros bytes e B Ne E. apply hp_error_ok. destruct (33 <? N.of_nat (length bytes)) eqn:L; [|rewrite (G bytes e B Ne E L); exact Logic.I].
    unfold from_hex_prefix_encoding in E. rewrite L in E. injection E as <-. change (hex_encode false bytes) with (hex_text bytes). rewrite hex_text_eq. apply words_bytes, B. }
  intros bytes e B Ne E. pose proof (D bytes e B Ne E) as De. split; [|split].
  - destruct (33 <? N.of_nat (length bytes)) eqn:L; [|rewrite (G bytes e B Ne E L); reflexivity].
    unfold from_hex_prefix_encoding in E. rewrite L in E. injection E as <-. cbn [hp_error_dbg]. rewrite put_tuple by discriminate. unfold commas. cbn [map join put num_dbg].
    change (hex_encode false bytes) with (hex_text bytes). rewrite hex_text_eq. rewrite escape_none by (apply free_words; [reflexivity|apply words_bytes, B]). rewrite <- !app_assoc. reflexivity.
  - symmetry. apply put_one_line, De.
  - intros pretty bytes' e' B' Ne' E'. pose proof (D bytes' e' B' Ne' E') as De'. split; [|intros ->; reflexivity]. intros X. apply hp_error_inj.
    destruct pretty; [apply put_tall_inj|apply put_inj]; assumption.
Qed.
(** The error of [create_trie_subset] for a hash node that is in the way. *)
Theorem C63_subset_error : forall pr k h, short k -> bytesl h ->
  exists d, subset_error_dbg pr (UnexpectedKey k (Hash h)) = Ok d /\
  put false d = txt "UnexpectedKey(" ++ line_key k ++
    txt ", ""TrackedNode { node: Hash, info: TrackedNodeInfo { underlying_node: StandardTrie(Hash(0x" ++ shown_bytes h ++ txt ")), touched: true } }"")" /\
  put false d = one_line (After 0) (put true d).
Proof.
  intros pr k h S B. unfold subset_error_dbg. rewrite key_dbg_ok by exact S. cbn [bind]. rewrite trie_dbg_ok by constructor. cbn [bind dtrie]. eexists. split; [reflexivity|].
  assert (T : put false (tracked_hash_dbg (DTuple (txt "StandardTrie") [DTuple (txt "Hash") [h256_dbg h]])) =
    txt "TrackedNode { node: Hash, info: TrackedNodeInfo { underlying_node: StandardTrie(Hash(0x" ++ shown_bytes h ++ txt ")), touched: true } }").
  { unfold tracked_hash_dbg. putters. rewrite put_hash. unfold line_hash. rewrite <- ?app_assoc. reflexivity. }
  rewrite T.
  assert (F : forall c, word c = false -> Forall (fun x => x <> c) (txt "TrackedNode { node: Hash, info: TrackedNodeInfo { underlying_node: StandardTrie(Hash(0x") -> Forall (fun x => x <> c) (txt ")), touched: true } }") ->
     Forall (fun x => x <> c) (txt "TrackedNode { node: Hash, info: TrackedNodeInfo { underlying_node: StandardTrie(Hash(0x" ++ shown_bytes h ++ txt ")), touched: true } }")).
  { intros c C1 C2 C3. apply Forall_app. split; [exact C2|]. apply Forall_app. split; [|exact C3]. apply free_words; [exact C1|apply words_bytes, B]. }
  split.
  - rewrite put_tuple by discriminate. unfold commas. cbn [map join]. rewrite put_key by apply nseq_hexl.
    match goal with |- context[put false (DText ?l)] => change (put false (DText l)) with ([34] ++ escape l ++ [34]) end.
    rewrite escape_none by (apply F; [reflexivity|..]; vm_compute; repeat constructor; discriminate). unfold line_key. rewrite <- !app_assoc. reflexivity.
  - symmetry. apply put_one_line. constructor; [wl_tac|discriminate|]. constructor; [apply dk_ok|]. constructor; [|constructor]. constructor.
    apply F; [reflexivity|..]; vm_compute; repeat constructor; discriminate.
Qed.
Example C63_errors_example : from_hex_prefix_encoding [0x51; 2] = Ok (RErr (InvalidFlags 5)) /\ put false (hp_error_dbg (InvalidFlags 5)) = txt "InvalidFlags(5)" /\
  put false (bytes_error_dbg (TooManyBytes 41)) = txt "TooManyBytes(41)" /\
  (exists e, from_hex_prefix_encoding (repeat 7 40) = Ok (RErr e)) /\
  create_trie_subset keccak256 Debug (Hash [171]) [K 2 0x12] = Ok (RErr (UnexpectedKey (K 2 0x12) (Hash [171]))).
Proof. repeat match goal with |- _ /\ _ => split end; try (vm_compute; reflexivity). eexists. vm_compute. reflexivity. Qed.
Print Assumptions C63_trie.
Print Assumptions C63_long_panics.
Print Assumptions C63_same_iff.
Print Assumptions C63_identifies.
Print Assumptions C63_api_tries.
Print Assumptions C63_hidden_bits_refuted.
Print Assumptions C63_one_line.
Print Assumptions C63_handle.
Print Assumptions C63_handle_panics.
Print Assumptions C63_handle_same_iff.
Print Assumptions C63_equal_refuted.
Print Assumptions C63_any_threads.
Print Assumptions C63_any_threads_identifies.
Print Assumptions C63_threads.
Print Assumptions C63_undisturbed.
Print Assumptions C63_key.
Print Assumptions C63_value.
Print Assumptions C63_query.
Print Assumptions C63_query_output.
Print Assumptions C63_diff.
Print Assumptions C63_bytes_error.
Print Assumptions C63_hp_error.
Print Assumptions C63_subset_error.
