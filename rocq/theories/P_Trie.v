(** Properties C10-C18, C33, C34: trie operations. *)
From Verif Require Import Base Nibbles NibblesSpec NibblesFacts NibblesFacts2 NibblesFacts3 Trie TrieSpec TrieHistSpec TrieFacts TrieInsert TrieGet TrieDelete TrieUnique TrieIter TrieHist TrieObs AbsentFacts GetSpec GetExact OrderSpec.
From Coq Require Import Permutation.
Open Scope N_scope.

(** ** Every reachable trie satisfies the structural invariant, and insertions keep tries canonical *)
Theorem C11_reachable_invariant : forall pr t, reach pr t -> wf 64 t /\ shape t.
Proof. exact reach_valid. Qed.

Lemma insert_canon pr t k v t' : wf 64 t -> canon t -> kwf k -> proper v -> trie_insert pr t k v = Ok t' -> wf 64 t' /\ canon t'.
Proof.
  intros W C Hk Pv E. destruct (tinsert pr t k v W (canon_shape _ C) Hk Pv) as [(t1 & E1 & (P1 & _ & _ & P4 & _) & _)|[E1 _]]; [|congruence].
  assert (t1 = t') by congruence. subst. auto.
Qed.

Lemma extend_canon pr l : forall t t', wf 64 t -> canon t -> Forall (fun e => kwf (fst e) /\ proper (snd e)) l ->
  trie_extend pr t l = Ok t' -> wf 64 t' /\ canon t'.
Proof.
  induction l as [|[k v] l IH]; intros t t' W C F E; cbn [trie_extend] in E.
  - assert (t = t') by congruence. subst. auto.
  - inversion F as [|? ? [A B] F']; subst. cbn [fst snd] in *.
    destruct (trie_insert pr t k v) as [t1|] eqn:E1; cbn [bind] in E; [|discriminate].
    destruct (insert_canon pr t k v t1 W C A B E1). eapply IH; eauto.
Qed.

(** The running example: five keys of different lengths, one a prefix of another (handmade_trie_1 of the test suite). *)
Definition K (n x : N) : nibbles := Nib n x.
Definition ex_list : list (nibbles * val_or_hash) :=
  [(K 4 0x1234, Val [1]); (K 4 0x1324, Val [2]); (K 9 0x132400005, Val [3]); (K 4 0x2001, Val [4]); (K 4 0x2002, Val [5])].
Definition ex_trie : node := match from_iter Debug ex_list with Ok t => t | Panic => Empty end.
(** A trie with a hash node under 0x31. *)
Definition ex_hash : node := match trie_insert Debug ex_trie (K 2 0x31) (HashV (repeat 7 32)) with Ok t => t | Panic => Empty end.

Definition okn (r : res node) : node := match r with Ok t => t | Panic => Empty end.
Definition okd (r : res (node * option (list N))) : node := match r with Ok (t, _) => t | Panic => Empty end.
Ltac wit pr := destruct pr; repeat split; vm_compute; (reflexivity || discriminate || (intro; discriminate)).

Ltac kwf_tac := split; vm_compute; (reflexivity || (intro; discriminate)).

Lemma ex_trie_ok : from_iter Debug ex_list = Ok ex_trie /\ wf 64 ex_trie /\ canon ex_trie.
Proof.
  assert (E : from_iter Debug ex_list = Ok ex_trie) by (vm_compute; reflexivity). split; [exact E|].
  apply (extend_canon Debug ex_list Empty ex_trie); [constructor|constructor| |exact E].
  repeat constructor; cbn; try (vm_compute; (reflexivity || (intro; discriminate))).
Qed.
Lemma ex_hash_ok : trie_insert Debug ex_trie (K 2 0x31) (HashV (repeat 7 32)) = Ok ex_hash /\ wf 64 ex_hash /\ canon ex_hash.
Proof.
  assert (E : trie_insert Debug ex_trie (K 2 0x31) (HashV (repeat 7 32)) = Ok ex_hash) by (vm_compute; reflexivity). split; [exact E|].
  destruct ex_trie_ok as (_ & W & C). apply (insert_canon Debug ex_trie (K 2 0x31) (HashV (repeat 7 32))); [exact W|exact C|kwf_tac|exact I|exact E].
Qed.
Example reach_ex pr : reach pr ex_trie /\ reach pr ex_hash.
Proof. split; apply reach_start; apply ex_trie_ok || apply ex_hash_ok. Qed.

(** * C10: fixed-length keys *)
Lemma fixed_pf n : prefix_free (fun k => length k = N.to_nat n).
Proof.
  intros a b Ha Hb (x & r & ->). rewrite app_length in Hb. cbn [length] in Hb. lia.
Qed.

Lemma length_nseq k : length (nseq k) = N.to_nat (count k).
Proof. unfold nseq. apply digits_length. Qed.

Lemma fixed_ok n o : op_fixed n o -> op_ok (fun k => length k = N.to_nat n) o.
Proof.
  assert (Q : forall k, count k = n -> length (nseq k) = N.to_nat n) by (intros k <-; apply length_nseq).
  destruct o as [k v|l|k|k]; cbn [op_fixed op_ok].
  - intros (A & B & D). auto.
  - intros F. eapply Forall_impl; [|exact F]. intros e (A & B & D). auto.
  - intros (A & B). auto.
  - intros (A & B). split; [exact A|]. split; [auto|]. intros j ->. rewrite (Q k B). lia.
Qed.

(** Any history with keys of [n] nibbles, from the empty trie: no panic, the outputs are those of the map, and the final
    trie holds exactly the final map. *)
Theorem C10_fixed_length : forall pr n ops,
  Forall (op_fixed n) ops ->
  exists t, trie_ops pr Empty ops = Ok (t, snd (spec_ops kv_empty ops)) /\ holds t (fst (spec_ops kv_empty ops)).
Proof.
  intros pr n ops F.
  destruct (inv_ops pr (fun k => length k = N.to_nat n) ops Empty kv_empty (fixed_pf n) (inv_empty _)) as (t & E & I).
  - eapply Forall_impl; [|exact F]. intros o. apply fixed_ok.
  - exists t. split; [exact E|]. apply I.
Qed.

(** The same for any prefix-free set of keys. *)
Theorem C10_prefix_free : forall pr U ops,
  prefix_free U -> Forall (op_ok U) ops ->
  exists t, trie_ops pr Empty ops = Ok (t, snd (spec_ops kv_empty ops)) /\ holds t (fst (spec_ops kv_empty ops)).
Proof.
  intros pr U ops PF F. destruct (inv_ops pr U ops Empty kv_empty PF (inv_empty _) F) as (t & E & I).
  exists t. split; [exact E|]. apply I.
Qed.

Definition ex_ops : list op :=
  [OInsert (K 4 0x1234) [1]; OInsert (K 4 0x1256) [2]; OExtend [(K 4 0x0001, [3]); (K 4 0x1234, [4])]; OGet (K 4 0x1234);
   OGet (K 4 0x1250); ODelete (K 4 0x1234); ODelete (K 4 0x1234); OGet (K 4 0x1256)].
Example C10_example : Forall (op_fixed 4) ex_ops /\
  snd (spec_ops kv_empty ex_ops) =
    [ODone; ODone; ODone; OValue (Some [4]); OValue None; OValue (Some [4]); OValue None; OValue (Some [2])].
Proof.
  split; [|vm_compute; reflexivity].
  repeat constructor; cbn; try (vm_compute; (reflexivity || (intro; discriminate))).
Qed.

(** * C11: stored keys are found *)
Theorem C11_get_stored : forall pr t k v,
  reach pr t -> kwf k -> lk t (nseq k) = Some (Val v) -> trie_get pr t k = Ok (Some v).
Proof.
  intros pr t k v R Hk E. destruct (reach_valid pr t R) as [W _]. destruct (kwf_ex k Hk) as (l & El & Es & Hl & Ll).
  rewrite Es in E. rewrite El. apply (get_found pr t 64); auto. lia.
Qed.

(** The same with [items]: every item with a value is found. *)
Theorem C11_items_get : forall pr pr' t fuel l k v,
  reach pr' t -> trie_items fuel pr t = Some (Ok l) -> In (k, Val v) l -> trie_get pr t k = Ok (Some v).
Proof.
  intros pr pr' t fuel l k v R E Hin. destruct (reach_valid pr' t R) as [W Sh].
  assert (El : l = map item_of (entries t)).
  { pose proof (items_spec pr t W Sh (S (S (nsize t)) + fuel) ltac:(lia)) as G.
    unfold trie_items in *. clear - E G. revert E G. generalize (items_iter t) as st.
    assert (M : forall pr f st r, next f pr st = Some r -> forall f', (f <= f')%nat -> next f' pr st = Some r).
    { intros p f. induction f as [|f IH]; intros st r Q f' Hf; [discriminate|]. destruct f' as [|f']; [lia|]. cbn [next] in *.
      destruct (next_step p st) as [[[st' [it|]]|]|]; auto. apply (IH st' r Q). lia. }
    assert (MC : forall c f st r, collect c f pr st = Some r -> forall c' f', (c <= c')%nat -> (f <= f')%nat -> collect c' f' pr st = Some r).
    { induction c as [|c IH]; intros f st r Q c' f' Hc Hf; [discriminate|]. destruct c' as [|c']; [lia|]. cbn [collect] in *.
      destruct (next f pr st) as [r0|] eqn:En; [|discriminate]. rewrite (M _ _ _ _ En f' Hf).
      destruct r0 as [[st' [it|]]|]; auto.
      destruct (collect c f pr st') as [r1|] eqn:Ec; [|discriminate]. rewrite (IH _ _ _ Ec c' f') by lia. exact Q. }
    intros st E G. rewrite (MC _ _ _ _ E _ (S (S (nsize t)) + fuel)%nat) in G; [|lia|lia]. congruence. }
  subst l. apply in_map_iff in Hin. destruct Hin as ([k0 e] & Ee & Hin). unfold item_of in Ee. cbn [fst snd] in Ee. injection Ee as <- ->.
  apply entries_lk in Hin. apply (get_found pr t 64); auto. lia.
Qed.

Example C11_example : lk ex_trie (nseq (K 4 0x1324)) = Some (Val [2]) /\ lk ex_trie (nseq (K 9 0x132400005)) = Some (Val [3]) /\
  kwf (K 9 0x132400005).
Proof. repeat split; vm_compute; congruence || reflexivity. Qed.

(** * C12: absent keys *)
(** False: a key that extends the only key below it, or is extended by it, is "found"; and Debug builds panic for keys that
    are shorter than an extension node on the way, also if they diverge from it. *)
Theorem C12_refuted : forall pr,
  (exists t k v, from_iter pr [(K 4 0x1234, Val [1])] = Ok t /\ lk t (nseq k) = None /\ trie_get pr t k = Ok (Some v)) /\
  (exists t k v, from_iter pr [(K 4 0x1234, Val [1])] = Ok t /\ k = K 6 0x123456 /\ lk t (nseq k) = None /\ trie_get pr t k = Ok (Some v)) /\
  (exists t, from_iter Debug [(K 4 0x1234, Val [1]); (K 4 0x1235, Val [2])] = Ok t /\ lk t (nseq (K 1 5)) = None /\
     trie_get Debug t (K 1 5) = Panic).
Proof.
  intros pr. split; [|split].
  - exists (okn (from_iter pr [(K 4 0x1234, Val [1])])), (K 2 0x12), [1]. wit pr.
  - exists (okn (from_iter pr [(K 4 0x1234, Val [1])])), (K 6 0x123456), [1]. wit pr.
  - exists (okn (from_iter Debug [(K 4 0x1234, Val [1]); (K 4 0x1235, Val [2])])). wit pr.
Qed.

(** In Release a short key can even be answered with the value of a key that it is not comparable with. *)
Theorem C12_release_refuted :
  exists t, from_iter Release [(K 2 0x00, Val [1]); (K 3 0x001, Val [2])] = Ok t /\
    lk t (nseq (K 1 5)) = None /\ trie_get Release t (K 1 5) = Ok (Some [1]).
Proof. exists (okn (from_iter Release [(K 2 0x00, Val [1]); (K 3 0x001, Val [2])])). repeat split; vm_compute; reflexivity. Qed.

(** True when no stored key is longer than [k] and no stored value key is a strict prefix of [k]. *)
Theorem C12_long_partial : forall pr t k,
  reach pr t -> kwf k ->
  (forall j, stored t j -> (length j <= length (nseq k))%nat) ->
  (forall j v, lk t j = Some (Val v) -> ~ strict_prefix j (nseq k)) ->
  lk t (nseq k) = None -> trie_get pr t k = Ok None.
Proof.
  intros pr t k R Hk H1 H2 E. destruct (reach_valid pr t R) as [W Sh]. destruct (kwf_ex k Hk) as (l & El & Es & Hl & Ll).
  rewrite Es in *. rewrite El. rewrite (get_long pr t 64 l W Sh Hl ltac:(lia) ltac:(lia) H1 H2), E. reflexivity.
Qed.
Example C12_example : lk ex_trie (nseq (K 9 0x123500000)) = None /\ lk ex_trie (nseq (K 9 0x132400007)) = None /\
  forallb (fun e => Nat.leb (length (fst e)) 9) (entries ex_trie) = true.
Proof. vm_compute. repeat split; reflexivity. Qed.

(** Exactly which value Debug builds find, for any key, in canonical tries; [finds] speaks only about the stored keys. *)
Theorem C12_debug_exact_partial : forall t k v,
  wf 64 t -> canon t -> kwf k -> (trie_get Debug t k = Ok (Some v) <-> finds t (nseq k) v).
Proof.
  intros t k v W C Hk. destruct (kwf_ex k Hk) as (l & El & Es & Hl & Ll). rewrite Es. rewrite El. split.
  - intros E. apply (get_debug_some t 64); auto; lia.
  - apply (get_debug_finds Debug t 64); auto; lia.
Qed.

(** What both builds answer to any key in canonical tries. A key that is too short to cross a stretch of nibbles without
    fork makes Debug panic, and Release answers as if the missing nibbles were zero and nothing had been compared; for all
    other keys the builds agree, do not panic, and return a value exactly if [finds] holds. *)
Theorem C12_exact_partial : forall t k,
  wf 64 t -> canon t -> kwf k ->
  (forall q p, ends_in t (nseq k) q p -> trie_get Debug t k = Panic /\ trie_get Release t k = Ok (beyond t q p)) /\
  ((forall q p, ~ ends_in t (nseq k) q p) -> forall pr, exists r, trie_get pr t k = Ok r /\ forall v, r = Some v <-> finds t (nseq k) v).
Proof.
  intros t k W C Hk. destruct (kwf_ex k Hk) as (l & El & Es & Hl & Ll). rewrite Es. rewrite El.
  destruct (get_exact t 64 l W ltac:(lia) C Hl ltac:(lia)) as [(q & p & A & U & B & D)|(A & B & D)].
  - split; [|intros N; exfalso; exact (N _ _ A)]. intros q' p' E. destruct (U _ _ E) as [-> ->]. auto.
  - split; [intros q p E; exfalso; exact (A _ _ E)|]. intros _ pr.
    assert (E : trie_get pr t (enc l) = trie_get Debug t (enc l)) by (destruct pr; auto). rewrite E.
    destruct (trie_get Debug t (enc l)) as [r|] eqn:G; [|congruence]. exists r. split; [reflexivity|]. intros v. split.
    + intros ->. apply (get_debug_some t 64); auto; lia.
    + intros F. pose proof (get_debug_finds Debug t 64 l v W ltac:(lia) Hl ltac:(lia) C F) as Q. congruence.
Qed.
(** The keys 0x00 and 0x001: the key 0x5 ends in the stretch from the root to 0x00. *)
Example C12_exact_example :
  exists t, from_iter Release [(K 2 0x00, Val [1]); (K 3 0x001, Val [2])] = Ok t /\ wf 64 t /\ canon t /\
    ends_in t (nseq (K 1 5)) [] [0; 0] /\ beyond t [] [0; 0] = Some [1].
Proof.
  set (l := [(K 2 0x00, Val [1]); (K 3 0x001, Val [2])]). assert (E : from_iter Release l = Ok (okn (from_iter Release l))) by (vm_compute; reflexivity).
  exists (okn (from_iter Release l)). split; [exact E|].
  destruct (extend_canon Release l Empty _ ltac:(constructor) ltac:(constructor) ltac:(repeat constructor; cbn; kwf_tac || discriminate) E) as [W C].
  split; [exact W|]. split; [exact C|]. set (t := okn (from_iter Release l)) in *.
  split; [|vm_compute; reflexivity]. split; [|exists [5]; split; [vm_compute; reflexivity|cbn; lia]].
  assert (S : forall j, stored t j <-> j = [0; 0] \/ j = [0; 0; 1]).
  { intros j. split.
    - unfold stored. intros N. destruct (lk t j) as [e|] eqn:F; [|congruence]. apply entries_lk in F. vm_compute in F.
      intuition congruence.
    - intros [->| ->]; vm_compute; discriminate. }
  split; [left; reflexivity|]. split; [discriminate|]. split.
  - intros j Sj _. apply S in Sj. destruct Sj as [->| ->]; [exists []|exists [1]]; reflexivity.
  - left. left. split; [apply S; auto|]. exists [0; 0; 1]. split; [apply S; auto|]. exists 1, []. reflexivity.
Qed.

(** In every reachable trie: whatever is returned is stored under some key (in Debug one that is a prefix of [k] or extends
    it), and only Debug builds can panic, and only if some stored key is longer than [k]. *)
Theorem C12_sound_partial : forall pr t k, reach pr t -> kwf k ->
  (forall v, trie_get pr t k = Ok (Some v) ->
     exists j, lk t j = Some (Val v) /\ (pr = Debug -> is_prefix j (nseq k) \/ is_prefix (nseq k) j)) /\
  (trie_get pr t k = Panic -> pr = Debug /\ exists j, stored t j /\ (length (nseq k) < length j)%nat).
Proof.
  intros pr t k R Hk. destruct (reach_valid pr t R) as [W Sh]. destruct (kwf_ex k Hk) as (l & El & Es & Hl & Ll).
  rewrite Es in *. rewrite El. split.
  - intros v E. apply (get_stored pr t 64); auto; lia.
  - intros E. apply (get_panic pr t 64); auto; lia.
Qed.

(** * C13: insert *)
Definition updated (t t' : node) (k : list N) (e : option val_or_hash) : Prop :=
  forall j, lk t' j = if key_eqb k j then e else lk t j.

(** False: a key that ends inside an extension node is replaced by the key of the node below it. *)
Theorem C13_refuted : forall pr,
  exists t t', from_iter pr [(K 4 0x1234, Val [1]); (K 4 0x1235, Val [2])] = Ok t /\
    trie_insert pr t (K 1 1) (Val [9]) = Ok t' /\
    lk t (nseq (K 3 0x123)) = None /\ lk t' (nseq (K 3 0x123)) = Some (Val [9]) /\ lk t' (nseq (K 1 1)) = None.
Proof. intros pr. exists (okn (from_iter pr [(K 4 0x1234, Val [1]); (K 4 0x1235, Val [2])])), (okn (trie_insert pr (okn (from_iter pr [(K 4 0x1234, Val [1]); (K 4 0x1235, Val [2])])) (K 1 1) (Val [9]))). wit pr. Qed.

(** Exactly when [insert] does what it should, for any key and canonical trie (every trie built by inserts is canonical). *)
Theorem C13_insert_exact_partial : forall pr t k v,
  wf 64 t -> canon t -> kwf k -> v <> [] ->
  ((exists t', trie_insert pr t k (Val v) = Ok t' /\ updated t t' (nseq k) (Some (Val v))) <->
   (forall p h, lk t p = Some (HashV h) -> ~ is_prefix p (nseq k)) /\ insertable t (nseq k)).
Proof.
  intros pr t k v W C Hk Hv. pose proof (eff_insertable t 64 (nseq k) W C) as EI.
  destruct (tinsert pr t k (Val v) W (canon_shape _ C) Hk Hv) as [(t' & E & (P1 & P2 & _ & P4 & P5) & NB)|[E B]].
  - split.
    + intros (t1 & E1 & U). assert (t1 = t') by congruence. subst t1. split.
      * intros p h Ep Pp. apply NB. left. exists p, h. split; [exact Ep|].
        destruct (eff_prefix t (nseq k)) as [r ->]. destruct Pp as [s ->]. exists (s ++ r). symmetry. apply app_assoc.
      * apply EI. pose proof (U (nseq k)) as U1. rewrite P5, key_eqb_refl in U1. destruct (key_eqb_spec (eff t (nseq k)) (nseq k)) as [Q|Q]; [exact Q|].
        exfalso. apply Q. apply EI. left. unfold stored. congruence.
    + intros [NH I]. apply EI in I. exists t'. split; [exact E|]. intros j. rewrite P5, I. reflexivity.
  - split; [intros (t1 & E1 & _); congruence|]. intros [NH I]. exfalso. apply EI in I. rewrite <- I in NH.
    destruct B as [(p & h & Ep & Pp)|[[] _]]. exact (NH p h Ep Pp).
Qed.
Example C13_example : insertable ex_trie (nseq (K 5 0x12345)) /\ insertable ex_trie (nseq (K 1 1)) /\ insertable ex_trie (nseq (K 3 0x123)) /\
  ~ insertable ex_trie (nseq (K 1 2)).
Proof.
  destruct ex_trie_ok as (_ & W & C). repeat split; [apply (eff_insertable _ 64 _ W C)..|rewrite <- (eff_insertable _ 64 _ W C)];
    vm_compute; congruence.
Qed.

(** In every reachable trie, for a value or a hash: if [insert] succeeds, exactly one key changes; it is [k], or an
    extension of [k] such that every stored key that extends [k] extends it. *)
Theorem C13_insert_one_key_partial : forall pr t k v t',
  reach pr t -> kwf k -> proper v -> trie_insert pr t k v = Ok t' ->
  exists k', is_prefix (nseq k) k' /\ updated t t' k' (Some v) /\
    (k' <> nseq k -> ~ stored t (nseq k) /\ forall j, stored t j -> is_prefix (nseq k) j -> is_prefix k' j).
Proof.
  intros pr t k v t' R Hk Pv E. destruct (reach_valid pr t R) as [W Sh].
  destruct (tinsert pr t k v W Sh Hk Pv) as [(t1 & E1 & (P1 & P2 & _ & P4 & P5) & NB)|[E1 _]]; [|congruence].
  assert (t1 = t') by congruence. subst t1. exists (eff t (nseq k)). split; [apply eff_prefix|]. split; [exact P5|].
  intros NE. destruct (eff_inside t 64 (nseq k) W Sh NE) as (_ & A & _ & B & _). auto.
Qed.
(** For any reachable trie: no stored key strictly extends [k] (or [k] is stored already), no hash node on the path. *)
Theorem C13_insert_partial : forall pr t k v,
  reach pr t -> kwf k -> v <> [] ->
  (forall p h, lk t p = Some (HashV h) -> ~ is_prefix p (nseq k)) ->
  stored t (nseq k) \/ (forall j, stored t j -> ~ strict_prefix (nseq k) j) ->
  exists t', trie_insert pr t k (Val v) = Ok t' /\ updated t t' (nseq k) (Some (Val v)) /\ (canon t -> canon t').
Proof.
  intros pr t k v R Hk Hv NH S. destruct (reach_valid pr t R) as [W Sh].
  assert (Ee : eff t (nseq k) = nseq k) by (apply (eff_self_aux t 64 _ W Sh); tauto).
  destruct (tinsert pr t k (Val v) W Sh Hk Hv) as [(t1 & E1 & (P1 & P2 & _ & P4 & P5) & NB)|[E1 B]].
  - exists t1. rewrite Ee in P5. auto.
  - exfalso. unfold blocked in B. rewrite Ee in B. destruct B as [(p & h & Ep & Pp)|[[] _]]. exact (NH p h Ep Pp).
Qed.
Example C13_partial_example : stored ex_hash (nseq (K 4 0x1324)) /\ stored ex_hash (nseq (K 9 0x132400005)) /\ lk ex_hash [3; 1] <> None.
Proof. vm_compute. repeat split; congruence. Qed.

(** An empty value is accepted but does not behave as a stored value: it disappears when its leaf becomes a branch. *)
Theorem C13_empty_value_refuted : forall pr,
  exists t t', trie_insert pr Empty (K 2 0x12) (Val []) = Ok t /\ trie_get pr t (K 2 0x12) = Ok (Some []) /\
    trie_insert pr t (K 4 0x1234) (Val [1]) = Ok t' /\ trie_get pr t' (K 2 0x12) = Ok None.
Proof. intros pr. exists (okn (trie_insert pr Empty (K 2 0x12) (Val []))), (okn (trie_insert pr (okn (trie_insert pr Empty (K 2 0x12) (Val []))) (K 4 0x1234) (Val [1]))). wit pr. Qed.

(** * C14: delete *)
(** False: with a stored strict prefix, deleting the longer key loses the value of the prefix ... *)
Theorem C14_refuted_lost : forall pr,
  exists t t', from_iter pr [(K 2 0x12, Val [1]); (K 4 0x1234, Val [2]); (K 4 0x1256, Val [3])] = Ok t /\
    trie_delete pr t (K 4 0x1256) = Ok (t', Some [3]) /\
    lk t (nseq (K 2 0x12)) = Some (Val [1]) /\ lk t' (nseq (K 2 0x12)) = None.
Proof. intros pr. exists (okn (from_iter pr [(K 2 0x12, Val [1]); (K 4 0x1234, Val [2]); (K 4 0x1256, Val [3])])), (okd (trie_delete pr (okn (from_iter pr [(K 2 0x12, Val [1]); (K 4 0x1234, Val [2]); (K 4 0x1256, Val [3])])) (K 4 0x1256))). wit pr. Qed.
(** ... or panics. *)
Theorem C14_refuted_panic : forall pr,
  exists t, from_iter pr [(K 2 0x12, Val [1]); (K 4 0x1234, Val [2])] = Ok t /\
    lk t (nseq (K 4 0x1234)) = Some (Val [2]) /\ trie_delete pr t (K 4 0x1234) = Panic.
Proof. intros pr. exists (okn (from_iter pr [(K 2 0x12, Val [1]); (K 4 0x1234, Val [2])])). wit pr. Qed.

(** Exactly when [delete] does what it should, for any stored key of a canonical trie. *)
Theorem C14_delete_exact_partial : forall pr t k v,
  wf 64 t -> canon t -> kwf k -> lk t (nseq k) = Some (Val v) ->
  ((exists t', trie_delete pr t k = Ok (t', Some v) /\ updated t t' (nseq k) None) <-> deletable t (nseq k)).
Proof.
  intros pr t k v W C Hk E. pose proof (canon_shape _ C) as Sh.
  assert (Ee : eff t (nseq k) = nseq k) by (apply (eff_self_aux t 64 _ W Sh); left; unfold stored; congruence).
  pose proof (tdelete pr t k W Sh Hk) as G.
  assert (Nv : forall w, val_opt w = Some (Val v) -> w = v) by (intros [|b w] Q; [discriminate|]; cbn in Q; congruence).
  split.
  - intros (t' & Ed & U). destruct (safe_dec t (nseq k)) as [S|NS]; [eapply safe_obs_conv; eauto|]. exfalso.
    destruct (kwf_ex k Hk) as (l & El & Es & Hl & Ll). rewrite Es in *.
    pose proof (unsafe_delete pr t 64 l v W ltac:(lia) C E NS) as Un.
    pose proof (delete_spec pr t 64 l W Sh Hl ltac:(lia) ltac:(lia)) as D.
    rewrite El in Ed. unfold trie_delete in Ed.
    destruct (delete_intern pr t (enc l)) as [[[t1 u]|]|]; cbn [bind] in Ed; [|exact Un|discriminate].
    destruct D as (_ & _ & D3 & D4 & _).
    destruct (try_collapse_spec pr t1 64 D3 ltac:(lia) D4) as (t2 & Et & _ & K & _). rewrite Et in Ed. cbn [bind] in Ed.
    assert (t2 = t') by congruence. subst t2. destruct Un as (j & Nj & Sj & Ej). specialize (U j).
    rewrite K, Ej in U. destruct (key_eqb_spec l j) as [->|_]; [congruence|]. unfold stored in Sj. congruence.
  - intros D. pose proof (safe_delete_obs t 64 (nseq k) v W C E D) as S.
    destruct (trie_delete pr t k) as [[t' [w|]]|]; cbn [tdel_post] in G; rewrite Ee in G.
    + destruct G as (_ & G2 & _ & _ & _ & G6 & G7 & _). rewrite E in G2. symmetry in G2. apply Nv in G2. subst w.
      exists t'. split; [reflexivity|]. intros j. destruct (key_eqb_spec (nseq k) j) as [<-|N]; [exact G6|]. apply G7; congruence.
    + destruct G as (_ & _ & _ & G). congruence.
    + exfalso. destruct G as [(p & h & Ep & Pp)|G]; [|exact (G S)]. destruct Pp as [r Er].
      destruct r as [|x r]; [rewrite app_nil_r in Er; congruence|]. 
      assert (hash_on_path t (nseq k)) as HP by (exists p, h; split; [exact Ep|exists (x :: r); exact Er]).
      clear - W E Ep Er. rewrite Er in E. clear Er. revert p E Ep. generalize 64%nat W. clear W.
      induction t as [|h0|ch w IH|n c IH|n w] using node_ind'; intros L W p E Ep.
      * discriminate.
      * destruct p; discriminate.
      * destruct p as [|d p]; [cbn in Ep; destruct w; discriminate|]. cbn [app] in E. rewrite lk_branch in *.
        destruct (child_in ch d) as [E0|I0]; [rewrite E0 in E; discriminate|].
        inversion W as [| |L0 ? ? Hl F| |]; subst. rewrite Forall_forall in IH, F. eapply IH; eauto.
      * inversion W as [| | |L0 q c0 Hq Wc|]; subst.
        destruct (stored_ext_inv q c p Hq ltac:(unfold stored; congruence)) as (p' & -> & _).
        rewrite <- app_assoc in E. rewrite lk_in_ext in * by exact Hq. eapply IH; eauto.
      * cbn [lk] in Ep. destruct (key_eqb _ _); discriminate.
Qed.
Example C14_example : lk ex_trie (nseq (K 4 0x1324)) = Some (Val [2]) /\ deletable ex_trie (nseq (K 4 0x1324)) /\
  deletable ex_trie (nseq (K 4 0x2001)) /\ ~ deletable ex_trie (nseq (K 9 0x132400005)).
Proof.
  destruct ex_trie_ok as (_ & W & C). split; [reflexivity|]. repeat split.
  - apply (safe_obs_conv _ 64 _ [2] W C); vm_compute; auto.
  - apply (safe_obs_conv _ 64 _ [4] W C); [vm_compute; reflexivity|]. vm_compute. intros _. right. auto.
  - intros D. pose proof (safe_delete_obs _ 64 _ [3] W C (eq_refl : lk ex_trie (nseq (K 9 0x132400005)) = _) D) as S.
    vm_compute in S. destruct (S eq_refl) as [Q|[_ Q]]; [|discriminate].
    repeat match goal with H : (_ <= _)%nat |- _ => inversion H; clear H; subst end.
Qed.

(** In particular when no stored key is a strict prefix of [k]; if also no stored key strictly extends [k], the trie stays
    canonical. *)
Theorem C14_delete_partial : forall pr t k v,
  wf 64 t -> canon t -> kwf k -> lk t (nseq k) = Some (Val v) ->
  (forall p, stored t p -> ~ strict_prefix p (nseq k)) ->
  exists t', trie_delete pr t k = Ok (t', Some v) /\ updated t t' (nseq k) None /\ wf 64 t' /\ shape t' /\
    ((forall j, stored t j -> ~ strict_prefix (nseq k) j) -> canon t').
Proof.
  intros pr t k v W C Hk E NP.
  destruct (proj2 (C14_delete_exact_partial pr t k v W C Hk E)) as (t' & Ed & U).
  { intros p d s Ep Sp. exfalso. apply (NP p Sp). exists d, s. exact Ep. }
  exists t'. split; [exact Ed|]. split; [exact U|].
  pose proof (tdelete pr t k W (canon_shape _ C) Hk) as G. rewrite Ed in G. cbn [tdel_post] in G.
  destruct G as (_ & _ & G3 & G4 & _ & _ & _ & G8). split; [exact G3|]. split; [exact G4|].
  intros NE. apply G8; [exact C| |].
  - apply (safe_delete_obs t 64 _ v W C E). intros p d s Ep Sp. exfalso. apply (NP p Sp). exists d, s. exact Ep.
  - apply (keeps_canon_obs t 64 _ W (canon_shape _ C)); [unfold stored; congruence|left; exact NE].
Qed.

(** In every reachable trie: a successful [delete] of a stored key returns its value, removes it, and leaves every key that
    is not a strict prefix of it unchanged. *)
Theorem C14_delete_any_partial : forall pr t k v t' w,
  reach pr t -> kwf k -> lk t (nseq k) = Some (Val v) -> trie_delete pr t k = Ok (t', w) ->
  (w = Some v \/ v = []) /\ lk t' (nseq k) = None /\
  forall j, j <> nseq k -> ~ strict_prefix j (nseq k) -> lk t' j = lk t j.
Proof.
  intros pr t k v t' w R Hk E Ed. destruct (reach_valid pr t R) as [W Sh].
  assert (Ee : eff t (nseq k) = nseq k) by (apply (eff_self_aux t 64 _ W Sh); left; unfold stored; congruence).
  pose proof (tdelete pr t k W Sh Hk) as G. rewrite Ed in G. destruct w as [w|]; cbn [tdel_post] in G; rewrite Ee in G.
  - destruct G as (_ & G2 & _ & _ & G5 & G6 & _). split; [left; rewrite E in G2; destruct w; cbn in G2; congruence|]. auto.
  - destruct G as (_ & _ & _ & G). congruence.
Qed.

(** * C15: deleting an absent key *)
(** False: at a branch without a value [delete] returns [Some([])]; below an extension it deletes another key's value. *)
Theorem C15_refuted : forall pr,
  (exists t, from_iter pr [(K 2 0x12, Val [1]); (K 2 0x34, Val [2])] = Ok t /\ lk t (nseq (K 0 0)) = None /\
     trie_delete pr t (K 0 0) = Ok (t, Some [])) /\
  (exists t t', from_iter pr [(K 2 0x12, Val [1]); (K 4 0x1234, Val [2])] = Ok t /\ lk t (nseq (K 1 1)) = None /\
     trie_delete pr t (K 1 1) = Ok (t', Some [1]) /\ lk t' (nseq (K 2 0x12)) = None /\ lk t (nseq (K 2 0x12)) = Some (Val [1])).
Proof.
  intros pr. split.
  - exists (okn (from_iter pr [(K 2 0x12, Val [1]); (K 2 0x34, Val [2])])). wit pr.
  - exists (okn (from_iter pr [(K 2 0x12, Val [1]); (K 4 0x1234, Val [2])])), (okd (trie_delete pr (okn (from_iter pr [(K 2 0x12, Val [1]); (K 4 0x1234, Val [2])])) (K 1 1))). wit pr.
Qed.

(** True when no stored key strictly extends [k] and no hash node is at a prefix of [k]. *)
Theorem C15_absent_partial : forall pr t k,
  reach pr t -> kwf k -> lk t (nseq k) = None ->
  (forall j, stored t j -> ~ strict_prefix (nseq k) j) ->
  (forall p h, lk t p = Some (HashV h) -> ~ is_prefix p (nseq k)) ->
  trie_delete pr t k = Ok (t, None).
Proof.
  intros pr t k R Hk E NE NH. destruct (reach_valid pr t R) as [W Sh].
  assert (Ee : eff t (nseq k) = nseq k) by (apply (eff_self_aux t 64 _ W Sh); right; left; exact NE).
  pose proof (tdelete pr t k W Sh Hk) as G.
  destruct (trie_delete pr t k) as [[t' [w|]]|] eqn:Ed; cbn [tdel_post] in G; rewrite Ee in G.
  - exfalso. destruct G as (_ & G2 & _). rewrite E in G2. destruct w; [|discriminate].
    destruct (tdelete_empty_val pr t k t' W Sh Hk Ed) as (j & Sj & Pj). exact (NE j Sj Pj).
  - destruct G as (-> & _). reflexivity.
  - exfalso. destruct G as [(p & h & Ep & Pp)|G]; [exact (NH p h Ep Pp)|]. apply G. apply (safe_absent t 64); assumption.
Qed.
Example C15_example : lk ex_hash (nseq (K 4 0x1235)) = None /\
  forallb (fun e => match strip (nseq (K 4 0x1235)) (fst e) with None => true | _ => false end) (entries ex_hash) = true /\
  In ([3; 1], HashV (repeat 7 32)) (entries ex_hash).
Proof. split; [reflexivity|]. split; [reflexivity|]. apply entries_lk. reflexivity. Qed.

(** Exactly when deleting an absent key is a no-op, in canonical tries: no hash node is at a prefix of [k], and the stored
    keys that extend [k] are none, or a single one, with a value. *)
Theorem C15_exact_partial : forall pr t k,
  wf 64 t -> canon t -> kwf k -> lk t (nseq k) = None ->
  (trie_delete pr t k = Ok (t, None) <->
   (forall p h, lk t p = Some (HashV h) -> ~ is_prefix p (nseq k)) /\
   ((forall j, stored t j -> ~ strict_prefix (nseq k) j) \/
    (exists k1 v, strict_prefix (nseq k) k1 /\ lk t k1 = Some (Val v) /\ forall j, stored t j -> is_prefix (nseq k) j -> j = k1))).
Proof.
  intros pr t k W C Hk E. pose proof (canon_shape _ C) as Sh. pose proof (tdelete pr t k W Sh Hk) as G.
  pose proof (eff_insertable t 64 (nseq k) W C) as EI.
  destruct (kwf_ex k Hk) as (l & El & Es & Hl & Ll). rewrite Es in *.
  pose proof (del_absent pr t 64 l W (le_n _) C Hl ltac:(lia)) as D. split.
  - intros Ed. rewrite Ed in G. cbn [tdel_post] in G. destruct G as (_ & NH & Ee & _). rewrite Ee in NH. split.
    + intros p h Ep Pp. apply NH. exists p, h. auto.
    + apply EI in Ee as I. destruct I as [S|[S|[S|S]]]; [unfold stored in S; congruence|left; exact S| |right; exact S].
      exfalso. destruct (D Ee E NH) as [[A _]|[_ B]]; [|exact (B S)].
      rewrite El in Ed. unfold trie_delete in Ed. rewrite A in Ed. cbn [bind] in Ed. destruct (try_collapse_if_extension pr t); discriminate.
  - intros [NH S].
    assert (Ee : eff t l = l) by (apply EI; right; destruct S as [S|S]; auto).
    assert (NH' : ~ hash_on_path t l) by (intros (p & h & Ep & Pp); exact (NH p h Ep Pp)).
    destruct (D Ee E NH') as [[_ (x & y & r & s & Ne & S1 & S2)]|[A _]].
    + exfalso. destruct S as [S|(k1 & v & _ & _ & S)].
      * apply (S _ S1). exists x, r. reflexivity.
      * pose proof (S _ S1 ltac:(exists (x :: r); reflexivity)) as Q1. pose proof (S _ S2 ltac:(exists (y :: s); reflexivity)) as Q2.
        rewrite <- Q2 in Q1. apply app_inv_head in Q1. congruence.
    + rewrite El. unfold trie_delete. rewrite A. reflexivity.
Qed.
Example C15_exact_example : lk ex_hash (nseq (K 3 0x132)) = None /\ lk ex_hash (nseq (K 3 0x123)) = None /\
  trie_delete Debug ex_hash (K 3 0x123) = Ok (ex_hash, None) /\ trie_delete Debug ex_hash (K 3 0x132) <> Ok (ex_hash, None) /\
  trie_delete Debug ex_hash (K 0 0) = Ok (ex_hash, Some []).
Proof. repeat split; vm_compute; (reflexivity || discriminate). Qed.

(** In every reachable trie: what a successful [delete] of an absent key can do. Either the contents stay and it returns
    nothing or the empty value; or it deletes, and returns the value of, one stored key [k'] that strictly extends [k] and is
    a prefix of all stored keys that extend [k]. *)
Theorem C15_damage_partial : forall pr t k t' w,
  reach pr t -> kwf k -> lk t (nseq k) = None -> trie_delete pr t k = Ok (t', w) ->
  (w = None \/ w = Some []) /\ (forall j, lk t' j = lk t j) \/
  exists k' v, w = Some v /\ lk t k' = Some (Val v) /\ strict_prefix (nseq k) k' /\
    (forall j, stored t j -> is_prefix (nseq k) j -> is_prefix k' j) /\ updated t t' k' None.
Proof.
  intros pr t k t' w R Hk E Ed. destruct (reach_valid pr t R) as [W Sh].
  pose proof (tdelete pr t k W Sh Hk) as G. rewrite Ed in G. destruct w as [w|]; cbn [tdel_post] in G.
  2:{ left. destruct G as (-> & _). auto. }
  destruct G as (_ & G2 & _ & _ & _ & G6 & G7 & _). specialize (G7 (safe_absent t 64 _ W E)).
  destruct w as [|b w]; cbn [val_opt] in G2.
  - left. split; [right; reflexivity|]. intros j. destruct (key_eqb_spec (eff t (nseq k)) j) as [<-|N]; [congruence|]. apply G7. congruence.
  - right. exists (eff t (nseq k)), (b :: w).
    assert (Ne : eff t (nseq k) <> nseq k) by congruence.
    destruct (eff_inside t 64 (nseq k) W Sh Ne) as (I1 & _ & _ & I4 & _).
    split; [reflexivity|]. split; [exact G2|]. split; [exact I1|]. split; [exact I4|].
    intros j. destruct (key_eqb_spec (eff t (nseq k)) j) as [<-|N]; [exact G6|]. apply G7. congruence.
Qed.
Example C15_damage_example : reach Debug (okn (from_iter Debug [(K 2 0x12, Val [1]); (K 4 0x1234, Val [2])])) /\
  exists t', trie_delete Debug (okn (from_iter Debug [(K 2 0x12, Val [1]); (K 4 0x1234, Val [2])])) (K 1 1) = Ok (t', Some [1]).
Proof.
  split; [|eexists; vm_compute; reflexivity].
  apply (reach_insert Debug (okn (from_iter Debug [(K 2 0x12, Val [1])])) (K 4 0x1234) (Val [2])); [|kwf_tac|cbn; discriminate|vm_compute; reflexivity].
  apply (reach_insert Debug Empty (K 2 0x12) (Val [1])); [|kwf_tac|cbn; discriminate|vm_compute; reflexivity].
  apply reach_start; constructor.
Qed.

(** * C16: iteration *)
Theorem C16_items : forall pr t, reach pr t ->
  exists l, (exists F, forall fuel, (F <= fuel)%nat -> trie_items fuel pr t = Some (Ok l)) /\
    NoDup (map fst l) /\ forall k e, In (k, e) l <-> kwf k /\ lk t (nseq k) = Some e.
Proof.
  intros pr t R. destruct (reach_valid pr t R) as [W Sh]. exists (map item_of (entries t)). split; [|split].
  - exists (S (S (nsize t))). intros fuel H. apply items_spec; auto; lia.
  - rewrite map_map. unfold item_of. cbn [fst].
    assert (H : forall e, In e (entries t) -> hexl (fst e) /\ (length (fst e) <= 64)%nat).
    { intros [k e] Hin. apply entries_lk in Hin. cbn [fst]. destruct (stored_wf t 64 k W ltac:(unfold stored; congruence)). auto. }
    pose proof (entries_nodup t) as ND. induction (entries t) as [|e l IH]; cbn [map]; [constructor|].
    cbn [map] in ND. inversion ND as [|? ? N1 N2]; subst. constructor; [|apply IH; [intros e' He; apply H; right; exact He|exact N2]].
    rewrite in_map_iff. intros (e' & Ee & He). apply N1. apply in_map_iff. exists e'. split; [|exact He].
    apply (f_equal nseq) in Ee. rewrite !nseq_enc in Ee by (apply H; auto using in_eq, in_cons). exact Ee.
  - intros k e. rewrite in_map_iff. split.
    + intros ([k0 e0] & Ee & Hin). unfold item_of in Ee. cbn [fst snd] in Ee. injection Ee as <- ->. apply entries_lk in Hin.
      destruct (stored_wf t 64 k0 W ltac:(unfold stored; congruence)) as [A B]. rewrite nseq_enc by exact B. split; [apply kwf_enc; assumption|exact Hin].
    + intros [Hk E]. destruct (kwf_ex k Hk) as (l & El & Es & Hl & Ll). exists (l, e). split; [unfold item_of; cbn [fst snd]; congruence|].
      apply entries_lk. congruence.
Qed.

Theorem C16_keys_values : forall pr t fuel l, trie_items fuel pr t = Some (Ok l) ->
  trie_keys fuel pr t = Some (Ok (map fst l)) /\ trie_values fuel pr t = Some (Ok (map snd l)).
Proof. intros pr t fuel l E. unfold trie_keys, trie_values. rewrite E. split; reflexivity. Qed.

Example C16_example : trie_items 200 Debug ex_hash =
  Some (Ok [(K 4 0x1234, Val [1]); (K 9 0x132400005, Val [3]); (K 4 0x1324, Val [2]); (K 4 0x2001, Val [4]); (K 4 0x2002, Val [5]);
            (K 2 0x31, HashV (repeat 7 32))]).
Proof. vm_compute. reflexivity. Qed.

(** * C17: the structure depends only on the contents *)
Theorem C17_histories : forall pr1 pr2 U1 U2 ops1 ops2 t1 t2 o1 o2,
  prefix_free U1 -> prefix_free U2 -> Forall (op_ok U1) ops1 -> Forall (op_ok U2) ops2 ->
  trie_ops pr1 Empty ops1 = Ok (t1, o1) -> trie_ops pr2 Empty ops2 = Ok (t2, o2) ->
  (forall k, fst (spec_ops kv_empty ops1) k = fst (spec_ops kv_empty ops2) k) -> t1 = t2.
Proof.
  intros pr1 pr2 U1 U2 ops1 ops2 t1 t2 o1 o2 PF1 PF2 F1 F2 E1 E2 H.
  destruct (inv_ops pr1 U1 ops1 Empty kv_empty PF1 (inv_empty _) F1) as (s1 & E1' & (W1 & C1 & H1 & _)).
  destruct (inv_ops pr2 U2 ops2 Empty kv_empty PF2 (inv_empty _) F2) as (s2 & E2' & (W2 & C2 & H2 & _)).
  assert (s1 = t1) by congruence. assert (s2 = t2) by congruence. subst.
  apply (canon_unique t1 64 t2 W1 W2 C1 C2). intros k. rewrite H1, H2, H. reflexivity.
Qed.
(** Canonical tries, also with hash nodes and with keys that are prefixes of others. *)
Theorem C17_canonical : forall t1 t2,
  wf 64 t1 -> wf 64 t2 -> canon t1 -> canon t2 -> (forall k, lk t1 k = lk t2 k) -> t1 = t2.
Proof. intros t1 t2 W1 W2 C1 C2 H. apply (canon_unique t1 64 t2 W1 W2 C1 C2 H). Qed.
Example C17_example : Forall (op_fixed 4) ex_ops /\ Forall (op_fixed 4) [OInsert (K 4 0x0001) [3]; OInsert (K 4 0x1256) [2]] /\
  forall k, fst (spec_ops kv_empty ex_ops) k = fst (spec_ops kv_empty [OInsert (K 4 0x0001) [3]; OInsert (K 4 0x1256) [2]]) k.
Proof.
  split; [apply C10_example|]. split; [repeat constructor; cbn; try (vm_compute; (reflexivity || (intro; discriminate)))|].
  intros k. cbn [spec_ops spec_op fold_left fst snd ex_ops]. unfold kv_set, kv_empty.
  change (nseq (K 4 0x1234)) with [1;2;3;4]. change (nseq (K 4 0x1256)) with [1;2;5;6]. change (nseq (K 4 0x0001)) with [0;0;0;1].
  destruct (key_eqb_spec [1;2;3;4] k) as [<-|]; [reflexivity|].
  destruct (key_eqb_spec [1;2;5;6] k) as [<-|]; [reflexivity|]. reflexivity.
Qed.

(** * C18: insert then delete *)
Theorem C18_insert_delete : forall pr t k v,
  wf 64 t -> canon t -> kwf k -> v <> [] ->
  (forall j, stored t j -> ~ is_prefix j (nseq k) /\ ~ is_prefix (nseq k) j) ->
  exists t', trie_insert pr t k (Val v) = Ok t' /\ trie_delete pr t' k = Ok (t, Some v).
Proof.
  intros pr t k v W C Hk Hv H.
  destruct (C13_insert_partial pr t k v) as (t1 & E1 & U1 & C1); auto.
  - apply reach_start; assumption.
  - intros p h E P. destruct (H p ltac:(unfold stored; congruence)) as [Q _]. exact (Q P).
  - right. intros j Sj P. destruct (H j Sj) as [_ Q]. apply Q, strict_is_prefix, P.
  - destruct (insert_canon pr t k (Val v) t1 W C Hk Hv E1) as [W1 _]. specialize (C1 C).
    assert (St : forall j, stored t1 j -> j = nseq k \/ stored t j).
    { intros j. unfold stored. rewrite U1. destruct (key_eqb_spec (nseq k) j); [left; congruence|right; assumption]. }
    assert (NoStrict : forall a : list N, ~ strict_prefix a a).
    { intros a (x & r & E). apply (f_equal (@length N)) in E. rewrite app_length in E. cbn [length] in E. lia. }
    destruct (C14_delete_partial pr t1 k v W1 C1 Hk) as (t2 & E2 & U2 & W2 & _ & C2).
    + rewrite U1, key_eqb_refl. reflexivity.
    + intros p Sp P. destruct (St p Sp) as [->|S']; [exact (NoStrict _ P)|]. destruct (H p S') as [Q _]. apply Q, strict_is_prefix, P.
    + exists t1. split; [exact E1|]. rewrite E2. do 2 f_equal. apply (canon_unique t2 64 t W2 W); [|exact C|].
      * apply C2. intros j Sj P. destruct (St j Sj) as [->|S']; [exact (NoStrict _ P)|]. destruct (H j S') as [_ Q]. apply Q, strict_is_prefix, P.
      * intros j. rewrite U2, U1. destruct (key_eqb_spec (nseq k) j) as [<-|]; [|reflexivity].
        destruct (lk t (nseq k)) eqn:El; [|reflexivity]. exfalso. destruct (H (nseq k)) as [Q _]; [unfold stored; congruence|]. apply Q, prefix_refl.
Qed.
(** After any history over prefix-free keys, for any further key of the set that is not stored at the end. *)
Theorem C18_histories : forall pr U ops k v,
  prefix_free U -> Forall (op_ok U) ops -> kwf k -> U (nseq k) -> v <> [] -> fst (spec_ops kv_empty ops) (nseq k) = None ->
  exists t o t', trie_ops pr Empty ops = Ok (t, o) /\ trie_insert pr t k (Val v) = Ok t' /\ trie_delete pr t' k = Ok (t, Some v).
Proof.
  intros pr U ops k v PF F Hk Uk Hv E.
  destruct (inv_ops pr U ops Empty kv_empty PF (inv_empty _) F) as (t & E1 & (W & C & H & HU)).
  destruct (C18_insert_delete pr t k v W C Hk Hv) as (t' & E2 & E3); [|eauto 6].
  intros j Sj. unfold stored in Sj. rewrite H in Sj.
  assert (Uj : U j) by (apply HU; intros X; rewrite X in Sj; apply Sj; reflexivity).
  assert (Ne : j <> nseq k) by (intros ->; rewrite E in Sj; apply Sj; reflexivity).
  split; intros (c & Ec); destruct c as [|x c]; try (rewrite app_nil_r in Ec; congruence).
  - apply (PF j (nseq k) Uj Uk). exists x, c. exact Ec.
  - apply (PF (nseq k) j Uk Uj). exists x, c. exact Ec.
Qed.
Example C18_histories_example : Forall (op_fixed 4) ex_ops /\ fst (spec_ops kv_empty ex_ops) (nseq (K 4 0x1299)) = None.
Proof. split; [apply C10_example|]. vm_compute. reflexivity. Qed.
Example C18_example : forallb (fun e => match strip (fst e) (nseq (K 4 0x1299)), strip (nseq (K 4 0x1299)) (fst e) with None, None => true | _, _ => false end)
  (entries ex_hash) = true /\ length (entries ex_hash) = 6%nat.
Proof. vm_compute. split; reflexivity. Qed.

(** * C33: hash nodes *)
Theorem C33_get : forall pr t k p h,
  reach pr t -> kwf k -> lk t p = Some (HashV h) -> is_prefix p (nseq k) -> trie_get pr t k = Ok None.
Proof.
  intros pr t k p h R Hk E [r Er]. destruct (reach_valid pr t R) as [W Sh]. destruct (kwf_ex k Hk) as (l & El & Es & Hl & Ll).
  rewrite Es in Er. subst l. rewrite El. apply (get_hash pr t 64 p r h); auto; lia.
Qed.

Lemma hop_prefix t k p h : lk t p = Some (HashV h) -> is_prefix p k -> hash_on_path t (eff t k).
Proof.
  intros E [s ->]. exists p, h. split; [exact E|]. destruct (eff_prefix t (p ++ s)) as [r ->]. exists (s ++ r). symmetry. apply app_assoc.
Qed.

(** Insert and delete panic if a prefix of the key is a hash node. *)
Theorem C33_insert_panics : forall pr t k v p h,
  reach pr t -> kwf k -> proper v -> lk t p = Some (HashV h) -> is_prefix p (nseq k) -> trie_insert pr t k v = Panic.
Proof.
  intros pr t k v p h R Hk Pv E P. destruct (reach_valid pr t R) as [W Sh].
  destruct (tinsert pr t k v W Sh Hk Pv) as [(t1 & _ & _ & NB)|[E1 _]]; [|exact E1].
  exfalso. apply NB. left. eapply hop_prefix; eauto.
Qed.
Theorem C33_delete_panics : forall pr t k p h,
  reach pr t -> kwf k -> lk t p = Some (HashV h) -> is_prefix p (nseq k) -> trie_delete pr t k = Panic.
Proof.
  intros pr t k p h R Hk E P. destruct (reach_valid pr t R) as [W Sh]. pose proof (hop_prefix t _ p h E P) as HP.
  pose proof (tdelete pr t k W Sh Hk) as G. destruct (trie_delete pr t k) as [[t' [w|]]|]; cbn [tdel_post] in G; tauto.
Qed.
(** Inserting a value into a canonical trie panics only if the path meets a hash node: a prefix of the key is a hash node, or
    the only stored key that extends [k] is a hash node. *)
Theorem C33_insert_value_panics_iff : forall pr t k v,
  wf 64 t -> canon t -> kwf k -> v <> [] ->
  (trie_insert pr t k (Val v) = Panic <->
   exists p h, lk t p = Some (HashV h) /\
     (is_prefix p (nseq k) \/ strict_prefix (nseq k) p /\ forall j, stored t j -> is_prefix (nseq k) j -> j = p)).
Proof.
  intros pr t k v W C Hk Hv. pose proof (canon_shape _ C) as Sh.
  assert (G : trie_insert pr t k (Val v) = Panic <-> hash_on_path t (eff t (nseq k))).
  { destruct (tinsert pr t k (Val v) W Sh Hk Hv) as [(t1 & E & _ & NB)|[E B]].
    - split; [congruence|]. intros HP. exfalso. apply NB. left. exact HP.
    - split; [|auto]. intros _. destruct B as [B|[[] _]]. exact B. }
  rewrite G. split.
  - intros (p & h & E & P). exists p, h. split; [exact E|].
    destruct (key_eqb_spec (eff t (nseq k)) (nseq k)) as [Ee|Ne]; [left; rewrite <- Ee; exact P|].
    destruct (eff_inside t 64 (nseq k) W Sh Ne) as (I1 & I2 & _ & I4 & I5).
    assert (Kp : is_prefix (nseq k) p \/ is_prefix p (nseq k)).
    { destruct I1 as (x & r & Ex). rewrite Ex in P. destruct P as [s Es]. destruct (compare_keys (nseq k) p) as [Ek|y k' Ek|y k' Ek|q y a z b Ek Ep D].
      - left. rewrite Ek. apply prefix_refl.
      - left. exists (y :: k'). exact Ek.
      - right. exists (y :: k'). exact Ek.
      - exfalso. rewrite Ek, Ep in Es. rewrite <- !app_assoc in Es. apply app_inv_head in Es. cbn in Es. congruence. }
    destruct Kp as [Kp|Kp]; [|left; exact Kp]. right.
    assert (Pe : p = eff t (nseq k)).
    { assert (Q : is_prefix (eff t (nseq k)) p) by (apply I4; [unfold stored; congruence|exact Kp]).
      destruct Q as [a Qa]. destruct P as [b Qb]. rewrite Qa in Qb. rewrite <- app_assoc in Qb.
      assert (a ++ b = []) as Z by (apply (app_inv_head (eff t (nseq k))); rewrite app_nil_r; congruence).
      apply app_eq_nil in Z. destruct Z as [-> _]. rewrite app_nil_r in Qa. exact Qa. }
    split; [rewrite Pe; exact I1|]. intros j Sj Pj. pose proof (I4 j Sj Pj) as Q. rewrite <- Pe in Q. destruct Q as [r ->].
    (* nothing is stored below a hash node *)
    destruct r as [|x r]; [apply app_nil_r|exfalso]. clear - W E Sj. revert p E Sj. generalize 64%nat W. clear W.
    induction t as [|h0|ch w IH|n c IH|n w] using node_ind'; intros L W p E Sj.
    + discriminate.
    + destruct p; [|discriminate]. apply stored_hash_inv in Sj. discriminate.
    + destruct p as [|d p]; [cbn in E; destruct w; discriminate|]. cbn [app] in Sj. rewrite lk_branch in E. rewrite stored_branch in Sj.
      destruct (child_in ch d) as [E0|I0]; [rewrite E0 in E; discriminate|].
      inversion W as [| |L0 ? ? Hl F| |]; subst. rewrite Forall_forall in IH, F. eapply IH; eauto.
    + inversion W as [| | |L0 q c0 Hq Wc|]; subst.
      destruct (stored_ext_inv q c p Hq ltac:(unfold stored; congruence)) as (p' & -> & _).
      rewrite <- app_assoc, stored_in_ext in Sj by exact Hq. rewrite lk_in_ext in E by exact Hq. eapply IH; eauto.
    + cbn [lk] in E. destruct (key_eqb _ _); discriminate.
  - intros (p & h & E & [P|[P U]]); [eapply hop_prefix; eauto|].
    exists p, h. split; [exact E|]. rewrite (eff_hash t 64 (nseq k) p h W C E P U). apply prefix_refl.
Qed.
(** Inserting a hash panics exactly if a prefix of the key is a hash node or the key is a prefix of a stored key. *)
Theorem C33_insert_hash_panics_iff : forall pr t k h,
  reach pr t -> kwf k ->
  (trie_insert pr t k (HashV h) = Panic <->
   (exists p g, lk t p = Some (HashV g) /\ is_prefix p (nseq k)) \/ (exists j, stored t j /\ is_prefix (nseq k) j)).
Proof.
  intros pr t k h R Hk. destruct (reach_valid pr t R) as [W Sh].
  destruct (tinsert pr t k (HashV h) W Sh Hk I) as [(t1 & E & _ & NB)|[E B]].
  - split; [congruence|]. intros [(p & g & Ep & P)|(j & Sj & P)]; exfalso; apply NB.
    + left. eapply hop_prefix; eauto.
    + right. split; [exact I|]. exists j. auto.
  - split; [|auto]. intros _. destruct B as [(p & g & Ep & P)|[_ B]]; [|right; exact B].
    destruct (key_eqb_spec (eff t (nseq k)) (nseq k)) as [Ee|Ne]; [left; rewrite Ee in P; eauto|].
    right. destruct (eff_inside t 64 (nseq k) W Sh Ne) as (I1 & _ & (j & Sj & Pj) & _). exists j. split; [exact Sj|].
    destruct I1 as (x & r & Ex). rewrite Ex in Pj. destruct Pj as [s ->]. exists (x :: r ++ s). rewrite <- app_assoc. reflexivity.
Qed.
Example C33_example : lk ex_hash [3; 1] = Some (HashV (repeat 7 32)) /\
  trie_get Debug ex_hash (K 4 0x3142) = Ok None /\ trie_insert Debug ex_hash (K 4 0x3142) (Val [1]) = Panic /\
  trie_insert Debug ex_hash (K 1 3) (Val [1]) = Panic /\ trie_delete Debug ex_hash (K 2 0x31) = Panic /\
  trie_insert Debug ex_hash (K 4 0x1234) (HashV (repeat 1 32)) = Panic.
Proof. repeat split; vm_compute; reflexivity. Qed.

(** * C34: extend and from_iter *)
Theorem C34_extend_app : forall pr t a b,
  trie_extend pr t (a ++ b) = (t' <- trie_extend pr t a ;; trie_extend pr t' b).
Proof.
  intros pr t a. revert t. induction a as [|[k v] a IH]; intros t b; cbn [app trie_extend]; [reflexivity|].
  destruct (trie_insert pr t k v); cbn [bind]; [apply IH|reflexivity].
Qed.

(** False in general: for keys that are prefixes of others the order of distinct keys matters. *)
Theorem C34_order_refuted : forall pr,
  exists t1 t2, from_iter pr [(K 4 0x1234, Val [1]); (K 4 0x1235, Val [2]); (K 1 1, Val [3])] = Ok t1 /\
    from_iter pr [(K 1 1, Val [3]); (K 4 0x1234, Val [1]); (K 4 0x1235, Val [2])] = Ok t2 /\ t1 <> t2 /\
    lk t1 (nseq (K 1 1)) = None /\ lk t2 (nseq (K 1 1)) = Some (Val [3]).
Proof. intros pr. exists (okn (from_iter pr [(K 4 0x1234, Val [1]); (K 4 0x1235, Val [2]); (K 1 1, Val [3])])), (okn (from_iter pr [(K 1 1, Val [3]); (K 4 0x1234, Val [1]); (K 4 0x1235, Val [2])])). wit pr. Qed.

(** Over prefix-free keys: [from_iter] succeeds and holds the last value of each key ... *)
Theorem C34_from_iter_partial : forall pr U l,
  prefix_free U -> Forall (fun e => kwf (fst e) /\ U (nseq (fst e)) /\ snd e <> []) l ->
  exists t, from_iter pr (map (fun e => (fst e, Val (snd e))) l) = Ok t /\ holds t (last_value l).
Proof.
  intros pr U l PF F. destruct (inv_extend pr U l Empty kv_empty PF (inv_empty U) F) as (t & E & (_ & _ & H & _)).
  exists t. split; [exact E|]. intros j. rewrite H. f_equal. clear.
  assert (G : forall m, fold_left (fun m e => kv_set m (nseq (fst e)) (Some (snd e))) l m j =
    match last_value l j with Some v => Some v | None => m j end).
  { induction l as [|[k v] l IH]; intros m; cbn [fold_left last_value fst snd]; [reflexivity|]. rewrite IH.
    destruct (last_value l j); [reflexivity|]. unfold kv_set. destruct (key_eqb (nseq k) j); reflexivity. }
  rewrite G. destruct (last_value l j); reflexivity.
Qed.

(** ... and for distinct keys any order gives the same trie. *)
Theorem C34_order_partial : forall pr U l l',
  prefix_free U -> Forall (fun e => kwf (fst e) /\ U (nseq (fst e)) /\ snd e <> []) l ->
  NoDup (map (fun e => nseq (fst e)) l) -> Permutation l l' ->
  exists t, from_iter pr (map (fun e => (fst e, Val (snd e))) l) = Ok t /\ from_iter pr (map (fun e => (fst e, Val (snd e))) l') = Ok t.
Proof.
  intros pr U l l' PF F ND P.
  assert (F' : Forall (fun e => kwf (fst e) /\ U (nseq (fst e)) /\ snd e <> []) l') by (eapply Permutation_Forall; eauto).
  destruct (inv_extend pr U l Empty kv_empty PF (inv_empty U) F) as (t & E & (W & C & _ & _)).
  destruct (inv_extend pr U l' Empty kv_empty PF (inv_empty U) F') as (t' & E' & (W' & C' & _ & _)).
  destruct (C34_from_iter_partial pr U l PF F) as (t1 & E1 & H). destruct (C34_from_iter_partial pr U l' PF F') as (t1' & E1' & H').
  unfold from_iter in *. assert (t1 = t) by congruence. assert (t1' = t') by congruence. subst.
  exists t. split; [exact E|]. rewrite E'. f_equal. apply (canon_unique t' 64 t W' W C' C). intros k. rewrite H, H'. f_equal.
  assert (M : forall l, NoDup (map (fun e => nseq (fst e)) l) -> forall v, last_value l k = Some v <-> exists j, In (j, v) l /\ nseq j = k).
  { clear. induction l as [|[j w] l IH]; intros ND v; cbn [last_value].
    - split; [discriminate|intros (? & [] & _)].
    - cbn [map fst] in ND. inversion ND as [|? ? N1 N2]; subst. specialize (IH N2). destruct (last_value l k) as [u|] eqn:El.
      + split.
        * intros Q. assert (u = v) by congruence. subst. destruct (proj1 (IH v) eq_refl) as (i & Hi & Ei). exists i. split; [right; exact Hi|exact Ei].
        * intros (i & [Hi|Hi] & Ei).
          -- exfalso. destruct (proj1 (IH u) eq_refl) as (i' & Hi' & Ei'). apply N1. apply in_map_iff. exists (i', u). split; [cbn; congruence|exact Hi'].
          -- apply IH. eauto.
      + destruct (key_eqb_spec (nseq j) k) as [Ej|Nj]; split.
        * intros Q. exists j. split; [left; congruence|exact Ej].
        * intros (i & [Hi|Hi] & Ei); [congruence|]. assert (None = Some v) by (apply IH; eauto). discriminate.
        * discriminate.
        * intros (i & [Hi|Hi] & Ei); [congruence|]. assert (None = Some v) by (apply IH; eauto). discriminate. }
  assert (ND' : NoDup (map (fun e => nseq (fst e)) l')) by (eapply Permutation_NoDup; [apply Permutation_map; exact P|exact ND]).
  assert (X : forall v, last_value l' k = Some v <-> last_value l k = Some v).
  { intros v. rewrite !M by assumption. split; intros (j & Hj & Ej); exists j; (split; [|exact Ej]).
    - eapply Permutation_in; [apply Permutation_sym; exact P|exact Hj].
    - eapply Permutation_in; [exact P|exact Hj]. }
  destruct (last_value l' k) as [v|] eqn:A.
  - symmetry. apply X. reflexivity.
  - destruct (last_value l k) as [v|] eqn:B; [|reflexivity]. exact (proj2 (X v) eq_refl).
Qed.
Example C34_example : let l := [(K 4 0x1234, [1]); (K 4 0x1235, [2]); (K 4 0x0001, [3])] in
  prefix_free (fun k => length k = 4%nat) /\
  Forall (fun e => kwf (fst e) /\ length (nseq (fst e)) = 4%nat /\ snd e <> []) l /\ NoDup (map (fun e => nseq (fst e)) l).
Proof.
  split; [exact (fixed_pf 4)|]. split; [repeat constructor; cbn; vm_compute; (reflexivity || (intro; discriminate))|].
  vm_compute. repeat constructor; cbn; intuition discriminate.
Qed.

(** ** Assumptions *)
Print Assumptions C11_reachable_invariant.
Print Assumptions C10_fixed_length.
Print Assumptions C10_prefix_free.
Print Assumptions C11_get_stored.
Print Assumptions C11_items_get.
Print Assumptions C12_refuted.
Print Assumptions C12_release_refuted.
Print Assumptions C12_long_partial.
Print Assumptions C12_debug_exact_partial.
Print Assumptions C12_exact_partial.
Print Assumptions C12_sound_partial.
Print Assumptions C13_refuted.
Print Assumptions C13_insert_exact_partial.
Print Assumptions C13_insert_one_key_partial.
Print Assumptions C13_insert_partial.
Print Assumptions C13_empty_value_refuted.
Print Assumptions C14_refuted_lost.
Print Assumptions C14_refuted_panic.
Print Assumptions C14_delete_exact_partial.
Print Assumptions C14_delete_partial.
Print Assumptions C14_delete_any_partial.
Print Assumptions C15_refuted.
Print Assumptions C15_absent_partial.
Print Assumptions C15_exact_partial.
Print Assumptions C15_damage_partial.
Print Assumptions C16_items.
Print Assumptions C16_keys_values.
Print Assumptions C17_histories.
Print Assumptions C17_canonical.
Print Assumptions C18_insert_delete.
Print Assumptions C18_histories.
Print Assumptions C33_get.
Print Assumptions C33_insert_panics.
Print Assumptions C33_delete_panics.
Print Assumptions C33_insert_value_panics_iff.
Print Assumptions C33_insert_hash_panics_iff.
Print Assumptions C34_extend_app.
Print Assumptions C34_order_refuted.
Print Assumptions C34_from_iter_partial.
Print Assumptions C34_order_partial.
