(** Properties C28 and C64, continued: working on partial tries when nothing but the partial trie is known. *)
From Verif Require Import Base Nibbles NibblesSpec NibblesFacts NibblesFacts2 NibblesFacts3 Trie TrieSpec TrieHistSpec TrieFacts TrieInsert TrieGet TrieDelete TrieUnique TrieIter TrieHist TrieObs InsertWf YellowPaper Hashing Keccak HashSpec HideSpec HashFacts HashBind KeccakFacts HideFacts HideBind HideDelete JoinFacts P_Trie P_Hash P_Join ReplaySpec PartialSpec.
Open Scope N_scope.

Lemma collapse_merge keccak t : forall L t' k, hides keccak t t' -> wf L t -> hexl k -> ~ hash_on_path t' k -> collapse_visible t' k -> merge_visible t t' k.
Proof.
  induction t as [|h|ch v IH|n c IH|n v] using node_ind'; intros L t' k H W Hk NP C; inversion H as [| |? ch' ? F|? ? c' Hc| |t0 N0 G]; subst; try exact I.
  - inversion W as [| |L0 ? ? Hlen Fw| |]; subst. pose proof (Forall2_length _ _ _ F) as El. rewrite Hlen in El. symmetry in El.
    destruct k as [|d k]; [exact I|]. inversion Hk as [|? ? Hd Hk']; subst. cbn [merge_visible collapse_visible] in *.
    rewrite at_child_nth, nth_error_child in * by assumption. destruct C as [C1 C2]. pose proof (hides_child keccak ch ch' d F) as Hh.
    assert (NP' : ~ hash_on_path (child ch' d) k) by (intros Q; apply NP, hop_branch, Q). fold (child ch d). fold (child ch' d) in *. split.
    + assert (J : In (child ch d) ch) by (apply (nth_error_In _ (N.to_nat d)), nth_error_child; assumption).
      rewrite Forall_forall in IH, Fw. exact (IH _ J L0 _ k Hh (Fw _ J) Hk' NP' C1).
    + intros O. assert (O' : (occupied ch' [] <= 2)%nat) by (unfold occupied in *; rewrite (hides_filter keccak _ _ F); exact O). specialize (C2 O').
      destruct (child ch d) as [| | | |m w] eqn:E; try exact I. inversion Hh as [| | | |? ? E1 E2|? ? ? E1 E2]; subst.
      * rewrite <- E2 in C2. intros Q i Hi. specialize (C2 Q i). destruct (nth i ch' Empty) as [|h| | |]; try exact I. destruct (C2 h Hi eq_refl).
      * exfalso. apply NP'. rewrite <- E2. eexists [], _. split; [reflexivity|]. exists k. reflexivity.
  - inversion W as [| | |L0 q c0 Hq Wc EL|]; subst. cbn [merge_visible collapse_visible] in *. rewrite nseq_enc in * by assumption.
    destruct (strip q k) as [k'|] eqn:E; [|exact I]. apply strip_some in E. subst k. apply (IH L0); auto.
    + apply Forall_app in Hk. apply Hk.
    + intros Q. apply NP, hop_ext; assumption.
Qed.

(** Deleting from a partial trie of which one knows that no collapse meets a hash node gives the root hash of the full trie, whatever the full trie is. *)
Theorem C28_local_partial : forall keccak pr t t' k r' w,
  hash32 keccak -> wf 64 t -> shape t -> fits t -> hides keccak t t' -> kwf k -> collapse_visible t' (nseq k) ->
  trie_delete pr t' k = Ok (r', w) ->
  exists r, trie_delete pr t k = Ok (r, w) /\ hides keccak r r' /\ hash_trie keccak pr r' = hash_trie keccak pr r.
Proof.
  intros keccak pr t t' k r' w K W Sh F H Hk CV E. apply (C28_delete_partial keccak pr t t' k r' w); auto.
  destruct (kwf_ex k Hk) as (q & Eq & Es & Hq & Lq). rewrite Es in *. apply (collapse_merge keccak t 64 t' q H W Hq); [|exact CV].
  intros (p & h & A & B). pose proof (tdelete pr t' k (hides_wf keccak t 64 t' H W) (hides_shape keccak t t' H Sh) Hk) as P. rewrite E in P.
  rewrite Es in P. pose proof (hop_prefix t' q p h A B) as Hp. destruct w; cbn [tdel_post] in P; tauto.
Qed.

Lemma op_keeps pr t o t1 x : wf 64 t -> shape t -> fits t -> op_write o -> trie_op pr t o = Ok (t1, x) -> wf 64 t1 /\ shape t1 /\ fits t1.
Proof.
  intros W Sh F V E.
  assert (G : wf 64 t1 /\ shape t1).
  { assert (Ins : forall t k v r, wf 64 t -> shape t -> kwf k -> value_ok v -> trie_insert pr t k (Val v) = Ok r -> wf 64 r /\ shape r).
    { intros a k v r Wa Sa Hk (Nv & _) Er. destruct (tinsert pr a k (Val v) Wa Sa Hk Nv) as [(r1 & E1 & P & _)|[E1 _]]; [|congruence].
      assert (r1 = r) by congruence. subst r1. split; apply P. }
    destruct o as [k v|l|k|k]; cbn [trie_op op_write] in *.
    - destruct (trie_insert pr t k (Val v)) as [r|] eqn:Er; [|discriminate]. injection E as <- _. apply (Ins t k v); tauto.
    - destruct (trie_extend pr t _) as [r|] eqn:Er; [|discriminate]. injection E as <- _. clear F. revert t W Sh Er. induction l as [|[k v] l IH]; intros t W Sh Er; cbn [map trie_extend fst snd] in Er.
      + injection Er as <-. auto.
      + inversion V as [|? ? [Hk Hv] V']; subst. destruct (trie_insert pr t k (Val v)) as [r1|] eqn:E1; [|discriminate]. cbn [bind] in Er.
        destruct (Ins t k v r1 W Sh Hk Hv E1) as [W1 S1]. exact (IH V' r1 W1 S1 Er).
    - destruct (trie_delete pr t k) as [[r w]|] eqn:Er; [|discriminate]. injection E as <- _. pose proof (tdelete pr t k W Sh V) as P. rewrite Er in P.
      destruct w; cbn [tdel_post] in P; [tauto|]. destruct P as [-> _]. auto.
    - destruct (trie_get pr t k); [|discriminate]. injection E as <- _. auto. }
  split; [apply G|]. split; [apply G|]. apply (ops_fits pr [o] t t1 [x] F).
  - constructor; [|constructor]. destruct o as [k v|l|k|k]; cbn [op_write op_bytes] in *; [apply V| |exact I|exact I]. eapply Forall_impl; [|exact V]. intros e (_ & _ & A). exact A.
  - cbn [trie_ops]. rewrite E. reflexivity.
Qed.

Lemma hides_op keccak pr t s o s1 y : hash32 keccak -> wf 64 t -> shape t -> fits t -> hides keccak t s -> op_write o ->
  match o with ODelete k => collapse_visible s (nseq k) | _ => True end -> trie_op pr s o = Ok (s1, y) ->
  exists t1, trie_op pr t o = Ok (t1, y) /\ hides keccak t1 s1.
Proof.
  intros K W Sh F H V CV E. destruct o as [k v|l|k|k]; cbn [trie_op op_write] in *.
  - destruct (trie_insert pr s k (Val v)) as [r|] eqn:Er; [|discriminate]. injection E as <- <-. destruct V as (Hk & _ & Hv).
    destruct (C27_insert keccak pr t s k (Val v) r K W F H Hk Hv Er) as (r0 & -> & Hr & _). cbn [bind]. eauto 6.
  - destruct (trie_extend pr s _) as [r|] eqn:Er; [|discriminate]. injection E as <- <-.
    apply (C27_extend keccak pr t s _ r K W F H) in Er.
    + destruct Er as (r0 & -> & Hr & _). cbn [bind]. eauto 6.
    + rewrite Forall_map. eapply Forall_impl; [|exact V]. intros e (A & _). exact A.
    + rewrite Forall_map. eapply Forall_impl; [|exact V]. intros e (_ & _ & A). exact A.
  - destruct (trie_delete pr s k) as [[r w]|] eqn:Er; [|discriminate]. injection E as <- <-.
    destruct (C28_local_partial keccak pr t s k r w K W Sh F H V CV Er) as (r0 & -> & Hr & _). cbn [bind]. eauto 6.
  - destruct V.
Qed.

(** Any history of inserts, extends and deletes on a partial trie that does not panic and in which no delete's collapse meets a hash node: the same history on
    the full trie gives the same outputs and the same root hash. *)
Theorem C28_history_partial : forall keccak pr ops t t' r' xs,
  hash32 keccak -> wf 64 t -> shape t -> fits t -> hides keccak t t' -> Forall op_write ops -> collapses_visible pr t' ops ->
  trie_ops pr t' ops = Ok (r', xs) ->
  exists r, trie_ops pr t ops = Ok (r, xs) /\ hides keccak r r' /\ hash_trie keccak pr r' = hash_trie keccak pr r.
Proof.
  intros keccak pr ops. induction ops as [|o ops IH]; intros t t' r' xs K W Sh F H V CV E; cbn [trie_ops] in E.
  - injection E as <- <-. exists t. split; [reflexivity|]. split; [exact H|]. apply C20_hiding_keeps_root; auto.
  - inversion V as [|? ? Vo Vl]; subst. destruct CV as [C0 C1]. destruct (trie_op pr t' o) as [[s1 y]|] eqn:E1; [|discriminate]. cbn [bind] in E.
    destruct (trie_ops pr s1 ops) as [[s2 ys]|] eqn:E2; [|discriminate]. cbn [bind] in E. injection E as <- <-.
    destruct (hides_op keccak pr t t' o s1 y K W Sh F H Vo C0 E1) as (t1 & Et & H1). destruct (op_keeps pr t o t1 y W Sh F Vo Et) as (W1 & S1 & F1).
    destruct (IH t1 s1 s2 ys K W1 S1 F1 H1 Vl (C1 s1 y eq_refl) E2) as (r & Er & Hr & Q). exists r. cbn [trie_ops]. rewrite Et. cbn [bind]. rewrite Er. auto.
Qed.

(** Of the writes, only empty extends succeed on a bare hash. *)
Lemma bare_ops pr h ops : forall r xs, Forall op_write ops -> trie_ops pr (Hash h) ops = Ok (r, xs) -> r = Hash h /\ Forall (fun o => o = OExtend []) ops.
Proof.
  induction ops as [|o ops IH]; intros r xs V E; cbn [trie_ops] in E; [injection E as <- _; auto|]. inversion V as [|? ? Vo Vl]; subst.
  destruct (trie_op pr (Hash h) o) as [[s y]|] eqn:Eo; [|discriminate]. cbn [bind] in E. destruct (trie_ops pr s ops) as [[s2 ys]|] eqn:E2; [|discriminate]. cbn [bind] in E. injection E as <- <-.
  assert (A : s = Hash h /\ o = OExtend []).
  { destruct o as [k v|[|[k v] l]|k|k]; cbn in Eo; try discriminate; [injection Eo as <- _; auto|destruct Vo]. }
  destruct A as [-> ->]. destruct (IH s2 ys Vl E2) as [-> A]. auto.
Qed.
Lemma empty_extends pr t ops : Forall (fun o => o = OExtend []) ops -> trie_ops pr t ops = Ok (t, map (fun _ => ODone) ops).
Proof.
  induction ops as [|o ops IH]; intros A; [reflexivity|]. inversion A as [|? ? Ao Al]; subst. cbn [trie_ops trie_op map trie_extend bind]. rewrite (IH Al). reflexivity.
Qed.

(** Two partial tries with one root hash: the same history of writes on both, if it succeeds on both and no collapse meets a hash node, returns the same values
    and leaves them with one root hash. *)
Theorem C64_history : forall keccak pr1 pr2 pr t1 t2 ops r1 r2 xs1 xs2,
  hash32 keccak -> wf 64 t1 -> wf 64 t2 -> shape t1 -> shape t2 -> fits t1 -> fits t2 ->
  hash_trie keccak pr1 t1 = hash_trie keccak pr2 t2 -> Forall op_write ops ->
  collapses_visible pr t1 ops -> collapses_visible pr t2 ops ->
  trie_ops pr t1 ops = Ok (r1, xs1) -> trie_ops pr t2 ops = Ok (r2, xs2) ->
  (xs1 = xs2 /\ hash_trie keccak pr r1 = hash_trie keccak pr r2) \/ collision keccak (encodings keccak t1) (encodings keccak t2).
Proof.
  intros keccak pr1 pr2 pr t1 t2 ops r1 r2 xs1 xs2 K W1 W2 S1 S2 F1 F2 E V C1 C2 X1 X2.
  destruct (C64_common_trie keccak pr1 pr2 t1 t2 K W1 W2 F1 F2 E) as [(t & W & F & H1 & H2 & Sh & _)|[(h & Eh & T)|Q]]; auto; left.
  - destruct (C28_history_partial keccak pr ops t t1 r1 xs1 K W (Sh S1 S2) F H1 V C1 X1) as (r & Er & _ & ->).
    destruct (C28_history_partial keccak pr ops t t2 r2 xs2 K W (Sh S1 S2) F H2 V C2 X2) as (r' & Er' & _ & ->). split; congruence.
  - (* A bare hash: only empty extends succeed. *)
    assert (A : Forall (fun o => o = OExtend []) ops) by (destruct T as [-> | ->]; [apply (bare_ops pr h ops r1 xs1)|apply (bare_ops pr h ops r2 xs2)]; assumption).
    rewrite (empty_extends pr t1 ops A) in X1. rewrite (empty_extends pr t2 ops A) in X2. injection X1 as <- <-. injection X2 as <- <-. split; [reflexivity|].
    rewrite (hash_trie_ok keccak K pr1 t1 W1 F1), (hash_trie_ok keccak K pr2 t2 W2 F2) in E.
    rewrite (hash_trie_ok keccak K pr t1 W1 F1), (hash_trie_ok keccak K pr t2 W2 F2). exact E.
Qed.
Theorem C64_delete : forall keccak pr1 pr2 pr t1 t2 k r1 r2 w1 w2,
  hash32 keccak -> wf 64 t1 -> wf 64 t2 -> shape t1 -> shape t2 -> fits t1 -> fits t2 ->
  hash_trie keccak pr1 t1 = hash_trie keccak pr2 t2 -> kwf k -> collapse_visible t1 (nseq k) -> collapse_visible t2 (nseq k) ->
  trie_delete pr t1 k = Ok (r1, w1) -> trie_delete pr t2 k = Ok (r2, w2) ->
  (w1 = w2 /\ hash_trie keccak pr r1 = hash_trie keccak pr r2) \/ collision keccak (encodings keccak t1) (encodings keccak t2).
Proof.
  intros keccak pr1 pr2 pr t1 t2 k r1 r2 w1 w2 K W1 W2 S1 S2 F1 F2 E Hk C1 C2 X1 X2.
  destruct (C64_history keccak pr1 pr2 pr t1 t2 [ODelete k] r1 r2 [OValue w1] [OValue w2] K W1 W2 S1 S2 F1 F2 E) as [[Q R]|Q]; auto.
  - split; [exact C1|]. intros. exact I.
  - split; [exact C2|]. intros. exact I.
  - cbn [trie_ops trie_op]. rewrite X1. reflexivity.
  - cbn [trie_ops trie_op]. rewrite X2. reflexivity.
  - left. split; [congruence|exact R].
Qed.
(** The two partial views of [C64_example], and a history in which the delete collapses a branch. *)
Definition ex_writes : list op := [OInsert (K 4 0x9999) (big 7); OExtend [(K 4 0x9998, big 8)]; ODelete (K 4 0x9999)].
Example C64_history_example :
  let t1 := hide_child 5 ex_big in let t2 := hide_child 1 ex_big in
  shape t1 /\ shape t2 /\ hides keccak256 ex_big t1 /\ Forall op_write ex_writes /\ collapses_visible Debug t1 ex_writes /\ collapses_visible Debug t2 ex_writes /\
  exists r1 r2, trie_ops Debug t1 ex_writes = Ok (r1, [ODone; ODone; OValue (Some (big 7))]) /\ trie_ops Debug t2 ex_writes = Ok (r2, [ODone; ODone; OValue (Some (big 7))]) /\ r1 <> r2.
Proof.
  cbv zeta. destruct C20_example as (H1 & H5 & _). destruct ex_big_ok as (_ & W & C & F).
  split; [exact (hides_shape _ _ _ H5 (canon_shape _ C))|]. split; [exact (hides_shape _ _ _ H1 (canon_shape _ C))|]. split; [exact H5|]. split.
  { assert (V : forall b, b < 256 -> value_ok (big b)) by (intros b Hb; split; [discriminate|]; split; [repeat constructor; exact Hb|reflexivity]).
    unfold ex_writes. repeat (apply Forall_cons; [cbn [op_write]|]); try apply Forall_nil; try (apply Forall_cons; [|apply Forall_nil]); cbn [fst snd];
      repeat match goal with |- _ /\ _ => split | |- value_ok _ => apply V; reflexivity | |- kwf _ => split end; vm_compute; (reflexivity || (intro; discriminate)). }
  assert (G : forall t t2, trie_ops Debug t (firstn 2 ex_writes) = Ok (t2, [ODone; ODone]) -> collapse_visible t2 [9;9;9;9] -> collapses_visible Debug t ex_writes).
  { intros t t2 E V. cbn [ex_writes firstn trie_ops] in E. unfold ex_writes. split; [exact I|]. intros ta xa Ea. rewrite Ea in E. cbn [bind] in E. split; [exact I|]. intros tb xb Eb.
    rewrite Eb in E. cbn [bind] in E. injection E as <- _ _. split; [exact V|]. intros. exact I. }
  assert (Vis : forall t2, t2 = okn (r <- trie_ops Debug (hide_child 5 ex_big) (firstn 2 ex_writes) ;; Ok (fst r)) \/ t2 = okn (r <- trie_ops Debug (hide_child 1 ex_big) (firstn 2 ex_writes) ;; Ok (fst r)) ->
    collapse_visible t2 [9;9;9;9]).
  { intros t2 [-> | ->]; vm_compute; (split; [|intros; exact I]); (split; [exact I|]); intros _ _ i h Hi; do 17 (destruct i as [|i]; [discriminate|]); discriminate. }
  split; [apply (G _ (okn (r <- trie_ops Debug (hide_child 5 ex_big) (firstn 2 ex_writes) ;; Ok (fst r)))); [vm_compute; reflexivity|auto]|].
  split; [apply (G _ (okn (r <- trie_ops Debug (hide_child 1 ex_big) (firstn 2 ex_writes) ;; Ok (fst r)))); [vm_compute; reflexivity|auto]|].
  do 2 eexists. split; [vm_compute; reflexivity|]. split; [vm_compute; reflexivity|]. discriminate.
Qed.

Print Assumptions C28_local_partial.
Print Assumptions C28_history_partial.
Print Assumptions C64_history.
Print Assumptions C64_delete.
