(** Property C58: tries with keys longer than the documented 64 nibbles. *)
From Verif Require Import Base Nibbles NibblesSpec NibblesFacts NibblesFacts2 NibblesFacts3 Hashing Trie TrieSpec TrieHistSpec TrieFacts TrieInsert TrieGet TrieDelete TrieUnique TrieIter TrieHist TrieObs P_Trie P_Query HashSpec HashFacts YellowPaper YpFacts Trie TrieSpec ItemsSpec ItemsFacts LongSpec LongFacts LongDelete.
From Coq Require Import Sorted.
Open Scope N_scope.

(** [insert] accepts long keys and stores them as it stores others ... *)
Theorem C58_insert_partial : forall pr t k v,
  built pr t -> nwf k -> v <> [] ->
  (forall p h, lk t p = Some (HashV h) -> ~ is_prefix p (nseq k)) ->
  stored t (nseq k) \/ (forall j, stored t j -> ~ strict_prefix (nseq k) j) ->
  exists t', trie_insert pr t k (Val v) = Ok t' /\ built pr t' /\ updated t t' (nseq k) (Some (Val v)).
Proof.
  intros pr t k v R Hk Hv NH S. destruct (built_valid pr t R) as [W Sh].
  assert (Ee : eff t (nseq k) = nseq k) by (apply (eff_self_aux t 127 _ W Sh); tauto).
  destruct (linsert pr t k (Val v) W Sh Hk Hv) as [(t1 & E1 & (P1 & P2 & _ & P4 & P5) & NB)|[E1 B]].
  - exists t1. split; [exact E1|]. split; [exact (built_insert pr t k (Val v) t1 R Hk Hv E1)|]. rewrite Ee in P5. exact P5.
  - exfalso. destruct B as [(p & h & E & P)|[[] _]]. rewrite Ee in P. exact (NH p h E P).
Qed.

(** ... and [get] finds them. *)
Theorem C58_get_partial : forall pr pr' t k v,
  built pr' t -> nwf k -> lk t (nseq k) = Some (Val v) -> trie_get pr t k = Ok (Some v).
Proof.
  intros pr pr' t k v R Hk E. destruct (built_valid pr' t R) as [W _]. destruct (nwf_ex k Hk) as (l & El & Es & Hl & Ll & _).
  rewrite Es in E. rewrite El. apply (get_found pr t 127); auto.
Qed.

(** The hash is computed, and for canonical tries (those built by inserts alone are) it is that of the Yellow Paper. *)
Theorem C58_hash_partial : forall keccak pr pr' t,
  hash32 keccak -> built pr' t -> fits t ->
  (exists h, hash_trie keccak pr t = Ok h) /\
  (canon t -> forall J, lists J t -> hash_trie keccak pr t = Ok (yp_root keccak J)).
Proof.
  intros keccak pr pr' t K R F. destruct (built_valid pr' t R) as [W _]. rewrite (hash_trie_gen keccak K pr t 127 W ltac:(lia) F). split; [eauto|].
  intros C J HJ. f_equal. apply (root_yp keccak t 127 J W C HJ).
Qed.

(** The iterator gives the items in their order up to the first with a key of more than 64 nibbles, where it panics. *)
Theorem C58_items_partial : forall pr pr' t, built pr' t ->
  exists l : list (list N * val_or_hash),
    StronglySorted (fun a b => before (fst a) (fst b)) l /\ (forall k v, In (k, v) l <-> lk t k = Some v) /\
    forall n fuel, (nsize t + 1 < fuel)%nat ->
      answers n fuel pr (items_iter t) =
      Some (if existsb (fun e => 64 <? length (fst e))%nat (firstn n l) then Panic
            else Ok (firstn n (map (fun e => Some (enc (fst e), snd e)) l ++ repeat None n))).
Proof.
  intros pr pr' t R. destruct (built_valid pr' t R) as [W Sh]. exists (entries t). split; [apply entries_sorted|].
  split; [apply entries_lk|]. intros n fuel HF. unfold items_iter. change nib_default with (enc []).
  destruct (answers_long pr fuel n [] [SRoot t]) as [[H ->]|[(e & I & L) ->]]; [constructor|cbn; lia|cbn; auto|cbn [measure]; lia| |];
    cbn [stack_items] in *; rewrite app_nil_r in *.
  - destruct (existsb _ _) eqn:Ex.
    + apply existsb_exists in Ex. destruct Ex as (e & I & L). apply Nat.ltb_lt in L. exfalso. exact (H e I L).
    + do 3 f_equal. rewrite map_map. reflexivity.
  - destruct (existsb _ _) eqn:Ex; [reflexivity|]. exfalso.
    assert (Q : existsb (fun e : list N * val_or_hash => (64 <? length (fst e))%nat) (firstn n (entries t)) = true)
      by (apply existsb_exists; exists e; split; [exact I|apply Nat.ltb_lt, L]).
    unfold ent in *. congruence.
Qed.

(** So all items can be listed exactly if no stored key is longer than 64 nibbles. *)
Theorem C58_listable : forall pr pr' t fuel, built pr' t -> (nsize t + 1 < fuel)%nat ->
  ((exists l, trie_items fuel pr t = Some (Ok l)) <-> short t) /\ (trie_items fuel pr t = Some Panic <-> ~ short t).
Proof.
  intros pr pr' t fuel R HF. destruct (built_valid pr' t R) as [W Sh]. unfold trie_items, items_iter. change nib_default with (enc []).
  destruct (collect_long pr fuel fuel [] [SRoot t]) as [[H ->]|[(e & I & L) ->]];
    [constructor|cbn; lia|cbn; auto|cbn [measure]; lia|cbn [measure]; lia| |]; cbn [stack_items] in *; rewrite app_nil_r in *.
  - pose proof (proj2 (short_entries t) H) as S. split; split; [auto|eauto|discriminate|contradiction].
  - assert (S : ~ short t) by (intros S; exact (proj1 (short_entries t) S e I L)).
    split; split; [intros (l & Q); discriminate|contradiction|auto|reflexivity].
Qed.

(** [delete] of a stored key returns its value and removes that key only, or it panics: the panic only happens when some stored key is longer
    than 64 nibbles. *)
Theorem C58_delete_partial : forall pr pr' t k v,
  built pr' t -> canon t -> nwf k -> lk t (nseq k) = Some (Val v) ->
  (forall p, stored t p -> ~ strict_prefix p (nseq k)) ->
  (exists t', trie_delete pr t k = Ok (t', Some v) /\ updated t t' (nseq k) None) \/
  (trie_delete pr t k = Panic /\ exists j, stored t j /\ (64 < length j)%nat).
Proof.
  intros pr pr' t k v R C Hk E NP. destruct (built_valid pr' t R) as [W Sh].
  assert (Ee : eff t (nseq k) = nseq k) by (apply (eff_self_aux t 127 _ W Sh); left; unfold stored; congruence).
  assert (S : safe_delete t (nseq k)).
  { apply (safe_delete_obs t 127 _ v W C E). intros p d s Ep Sp. exfalso. apply (NP p Sp). exists d, s. exact Ep. }
  pose proof (ldelete pr t k W Sh Hk) as G.
  assert (Nv : forall w, val_opt w = Some (Val v) -> w = v) by (intros [|b w] Q; [discriminate|]; cbn in Q; congruence).
  destruct (trie_delete pr t k) as [[t' [w|]]|]; cbn [ldel_post] in G; rewrite Ee in G.
  - left. destruct G as (_ & G2 & _ & _ & _ & G6 & G7 & _). rewrite E in G2. symmetry in G2. apply Nv in G2. subst w.
    exists t'. split; [reflexivity|]. intros j. destruct (key_eqb_spec (nseq k) j) as [<-|N]; [exact G6|]. apply G7; congruence.
  - destruct G as (_ & _ & _ & G). congruence.
  - right. split; [reflexivity|]. destruct G as [(p & h & Ep & [r Er])|[G|G]]; [exfalso|contradiction|].
    + destruct r as [|x r]; [rewrite app_nil_r in Er; congruence|]. apply (NP p ltac:(unfold stored; congruence)). exists x, r. exact Er.
    + destruct (Exists_dec long (entries t) long_dec) as [H|H].
      * apply Exists_exists in H. destruct H as ([j e] & I & L). apply entries_lk in I. exists j. split; [unfold stored; congruence|exact L].
      * exfalso. apply G. apply short_entries. intros e I L. apply H, Exists_exists. eauto.
Qed.

(** Exactly when it panics: below some prefix of the key all other keys share more than 64 further nibbles, from which the key departs. Then the nodes that
    have to be merged make up more than 64 nibbles. *)
Theorem C58_delete_exact : forall pr pr' t k v,
  built pr' t -> canon t -> nwf k -> lk t (nseq k) = Some (Val v) ->
  (forall p, stored t p -> ~ strict_prefix p (nseq k)) ->
  (trie_delete pr t k = Panic <-> long_gap t (nseq k)) /\
  (~ long_gap t (nseq k) <-> exists t', trie_delete pr t k = Ok (t', Some v) /\ updated t t' (nseq k) None).
Proof.
  intros pr pr' t k v R C Hk E NP. pose proof (C58_delete_partial pr pr' t k v R C Hk E NP) as P. destruct (built_valid pr' t R) as [W Sh].
  destruct (nwf_ex k Hk) as (l & El & Es & Hl & Ll & _). rewrite Es in *. pose proof (delete_panics pr t 127%nat l v W C (le_n _) Hl Ll E NP) as G. rewrite <- El in G.
  split; [exact G|]. destruct P as [(t' & P & U)|[P _]].
  - split; [eauto|]. intros _ Q. apply G in Q. congruence.
  - split; [intros N; exfalso; apply N, G, P|]. intros (t' & Q & _). congruence.
Qed.

(** Whenever it succeeds it is right, in every built trie. *)
Theorem C58_delete_any_partial : forall pr pr' t k v t' w,
  built pr' t -> nwf k -> lk t (nseq k) = Some (Val v) -> trie_delete pr t k = Ok (t', w) ->
  (w = Some v \/ v = []) /\ lk t' (nseq k) = None /\
  forall j, j <> nseq k -> ~ strict_prefix j (nseq k) -> lk t' j = lk t j.
Proof.
  intros pr pr' t k v t' w R Hk E Ed. destruct (built_valid pr' t R) as [W Sh].
  assert (Ee : eff t (nseq k) = nseq k) by (apply (eff_self_aux t 127 _ W Sh); left; unfold stored; congruence).
  pose proof (ldelete pr t k W Sh Hk) as G. rewrite Ed in G. destruct w as [w|]; cbn [ldel_post] in G; rewrite Ee in G.
  - destruct G as (_ & G2 & _ & _ & G5 & G6 & _). split; [left; rewrite E in G2; destruct w; cbn in G2; congruence|]. auto.
  - destruct G as (_ & _ & _ & G). congruence.
Qed.

(** False: keys of 33 bytes, which [from_bytes_be] accepts, are inserted, read and hashed, but the items cannot be listed ... *)
Definition long_bytes (x : N) : list N := x :: repeat 7 32.
Definition long_key (x : N) : nibbles := match from_bytes_be (long_bytes x) with ROk n => n | RErr _ => nib_default end.
Theorem C58_items_refuted : forall pr, exists t,
  from_bytes_be (long_bytes 0x10) = ROk (long_key 0x10) /\ trie_insert pr Empty (long_key 0x10) (Val [1]) = Ok t /\
  built pr t /\ trie_get pr t (long_key 0x10) = Ok (Some [1]) /\ trie_items 5 pr t = Some Panic.
Proof.
  intros pr. exists (okn (trie_insert pr Empty (long_key 0x10) (Val [1]))).
  assert (E : trie_insert pr Empty (long_key 0x10) (Val [1]) = Ok (okn (trie_insert pr Empty (long_key 0x10) (Val [1])))) by (destruct pr; vm_compute; reflexivity).
  split; [vm_compute; reflexivity|]. split; [exact E|].
  split; [|split; destruct pr; vm_compute; reflexivity].
  apply (built_insert pr Empty (long_key 0x10) (Val [1])); [constructor|split; vm_compute; [reflexivity|discriminate]|discriminate|exact E].
Qed.

(** ... and deleting one of two such keys panics. *)
Theorem C58_delete_refuted : forall pr, exists t,
  from_iter pr [(long_key 0x10, Val [1]); (long_key 0x20, Val [2])] = Ok t /\ built pr t /\ canon t /\
  trie_get pr t (long_key 0x20) = Ok (Some [2]) /\ trie_delete pr t (long_key 0x20) = Panic.
Proof.
  intros pr. exists (okn (from_iter pr [(long_key 0x10, Val [1]); (long_key 0x20, Val [2])])).
  assert (B : built pr (okn (from_iter pr [(long_key 0x10, Val [1]); (long_key 0x20, Val [2])]))).
  { apply (built_insert pr (okn (trie_insert pr Empty (long_key 0x10) (Val [1]))) (long_key 0x20) (Val [2]));
      [apply (built_insert pr Empty (long_key 0x10) (Val [1])); [constructor|..]|..];
      try (split; vm_compute; [reflexivity|discriminate]); try discriminate; destruct pr; vm_compute; reflexivity. }
  split; [destruct pr; vm_compute; reflexivity|]. split; [exact B|]. split.
  - destruct pr; vm_compute; constructor; repeat constructor; discriminate.
  - split; destruct pr; vm_compute; reflexivity.
Qed.

(** A built trie with long keys and short ones: three calls of [next] give the three items before the first long key, the fourth panics; a short key and a long one can be
    deleted. *)
Definition long_key2 (x : N) : nibbles := match from_bytes_be (0x81 :: x :: repeat 7 31) with ROk n => n | RErr _ => nib_default end.
Definition long_mix : list (nibbles * val_or_hash) :=
  [(long_key 0x81, Val [1]); (K 2 0x12, Val [2]); (K 4 0x3456, Val [3]); (K 4 0x3478, Val [4]); (long_key2 0x12, Val [5]); (long_key2 0x34, Val [6])].
Example C58_example : exists t, from_iter Debug long_mix = Ok t /\ built Debug t /\ ~ short t /\ canon t /\
  answers 3 100 Debug (items_iter t) = Some (Ok [Some (K 2 0x12, Val [2]); Some (K 4 0x3456, Val [3]); Some (K 4 0x3478, Val [4])]) /\
  answers 4 100 Debug (items_iter t) = Some Panic /\ (nsize t + 1 < 100)%nat /\
  (exists t', trie_delete Debug t (K 4 0x3456) = Ok (t', Some [3])) /\
  (exists t', trie_delete Debug t (long_key2 0x12) = Ok (t', Some [5])).
Proof.
  exists (okn (from_iter Debug long_mix)).
  assert (B : forall l t, built Debug t -> Forall (fun e => nwf (fst e) /\ proper (snd e)) l -> (exists t', trie_extend Debug t l = Ok t') -> built Debug (okn (trie_extend Debug t l))).
  { induction l as [|[k v] l IH]; intros t Bt F (t' & E); [exact Bt|]. cbn [trie_extend] in *. pose proof (Forall_inv F) as [F1 F2].
    destruct (trie_insert Debug t k v) as [t1|] eqn:E1; cbn [bind] in *; [|discriminate].
    apply IH; [exact (built_insert Debug t k v t1 Bt F1 F2 E1)|exact (Forall_inv_tail F)|eauto]. }
  split; [vm_compute; reflexivity|]. split.
  { apply B; [constructor| |eexists; vm_compute; reflexivity]. repeat constructor; try (vm_compute; discriminate); vm_compute; reflexivity. }
  split; [intros S; specialize (S (nseq (long_key 0x81))); vm_compute in S; specialize (S ltac:(discriminate)); apply Nat.leb_le in S; discriminate S|].
  split; [vm_compute; constructor; repeat constructor; discriminate|].
  split; [vm_compute; reflexivity|]. split; [vm_compute; reflexivity|]. split; [apply Nat.ltb_lt; vm_compute; reflexivity|].
  split; eexists; vm_compute; reflexivity.
Qed.
(** The trie of C58_delete_refuted meets the hypotheses of C58_delete_exact with a gap, that of C58_example without one (both deletes there succeed). *)
Example C58_gap_example : exists t, from_iter Debug [(long_key 0x10, Val [1]); (long_key 0x20, Val [2])] = Ok t /\ nwf (long_key 0x20) /\
  lk t (nseq (long_key 0x20)) = Some (Val [2]) /\ (forall p, stored t p -> ~ strict_prefix p (nseq (long_key 0x20))) /\ long_gap t (nseq (long_key 0x20)).
Proof.
  exists (okn (from_iter Debug [(long_key 0x10, Val [1]); (long_key 0x20, Val [2])])). split; [vm_compute; reflexivity|].
  assert (Nk : nwf (long_key 0x20)) by (split; vm_compute; [reflexivity|discriminate]). split; [exact Nk|].
  assert (E : lk (okn (from_iter Debug [(long_key 0x10, Val [1]); (long_key 0x20, Val [2])])) (nseq (long_key 0x20)) = Some (Val [2])) by (vm_compute; reflexivity).
  split; [exact E|]. destruct (C58_delete_refuted Debug) as (t & Et & B & C & _ & P).
  assert (t = okn (from_iter Debug [(long_key 0x10, Val [1]); (long_key 0x20, Val [2])])) by (rewrite Et; reflexivity). subst t.
  assert (S : forall p, stored (okn (from_iter Debug [(long_key 0x10, Val [1]); (long_key 0x20, Val [2])])) p -> length p = 66%nat).
  { intros p H. unfold stored in H. destruct (lk _ p) as [v|] eqn:El; [|congruence]. apply entries_lk in El. vm_compute in El. destruct El as [Q|[Q|[]]]; injection Q as <- _; reflexivity. }
  assert (NP : forall p, stored (okn (from_iter Debug [(long_key 0x10, Val [1]); (long_key 0x20, Val [2])])) p -> ~ strict_prefix p (nseq (long_key 0x20))).
  { intros p H (x & c & Q). apply (f_equal (@length N)) in Q. rewrite app_length, (S p H) in Q. vm_compute in Q. discriminate. }
  split; [exact NP|]. apply (C58_delete_exact Debug Debug _ _ _ B C Nk E NP), P.
Qed.

Print Assumptions C58_insert_partial.
Print Assumptions C58_get_partial.
Print Assumptions C58_hash_partial.
Print Assumptions C58_items_partial.
Print Assumptions C58_listable.
Print Assumptions C58_delete_partial.
Print Assumptions C58_delete_exact.
Print Assumptions C58_delete_any_partial.
Print Assumptions C58_items_refuted.
Print Assumptions C58_delete_refuted.
