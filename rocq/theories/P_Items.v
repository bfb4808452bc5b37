(** Properties C56 and C57: the order of iteration and single calls of the iterator; rebuilding a trie from its items. *)
From Verif Require Import Base Nibbles NibblesSpec NibblesFacts NibblesFacts2 NibblesFacts3 Trie TrieSpec TrieHistSpec TrieFacts TrieUnique TrieIter TrieHist TrieObs P_Trie P_Query P_Diff Trie TrieSpec ItemsSpec ItemsFacts.
From Coq Require Import Permutation Sorted.
Open Scope N_scope.

(** * C56: the order of iteration *)
(** [before] is a strict total order: the order of the items is determined. *)
Theorem C56_before : forall a b c, ~ before a a /\ (before a b -> before b c -> before a c) /\ (a = b \/ before a b \/ before b a).
Proof. intros a b c. split; [apply before_irrefl|]. split; [apply before_trans|apply before_total]. Qed.

Theorem C56_order : forall pr pr' t fuel l, reach pr' t -> trie_items fuel pr t = Some (Ok l) ->
  StronglySorted (fun a b => before (nseq (fst a)) (nseq (fst b))) l.
Proof.
  intros pr pr' t fuel l R E. destruct (reach_valid pr' t R) as [W Sh]. rewrite (items_are pr t fuel l W Sh E). apply sorted_items, W.
Qed.

(** Keys of one length come in ascending order, as [Ord] compares them. *)
Theorem C56_ascending : forall pr pr' t fuel l n, reach pr' t -> trie_items fuel pr t = Some (Ok l) ->
  (forall k e, In (k, e) l -> count k = n) -> StronglySorted (fun a b => nib_compare (fst a) (fst b) = Lt) l.
Proof.
  intros pr pr' t fuel l n R E H. pose proof (C56_order pr pr' t fuel l R E) as S. destruct (reach_valid pr' t R) as [W Sh].
  assert (F : Forall (fun e => exists q, fst e = enc q /\ nseq (fst e) = q /\ hexl q /\ count (fst e) = n) l).
  { apply Forall_forall. intros [k e] I. pose proof (H _ _ I) as C. rewrite (items_are pr t fuel l W Sh E) in I.
    pose proof (entries_pentry t W Sh) as F. rewrite Forall_forall in F. destruct (F _ I) as [Hk _]. cbn [fst] in *.
    destruct (kwf_ex k Hk) as (q & E1 & E2 & E3 & _). exists q. auto. }
  clear - S F. induction S as [|e l S IH B]; [constructor|]. pose proof (Forall_inv F) as (q & F1 & F2 & F3 & F4). apply Forall_inv_tail in F. rename F into F'. constructor; [auto|].
  rewrite Forall_forall in *. intros f I. destruct (F' _ I) as (q' & G1 & G2 & G3 & G4). pose proof (B _ I) as Q. rewrite F2, G2 in Q.
  rewrite F1, G1, nib_compare_enc by assumption. unfold shortlex.
  assert (L : length q = length q') by (rewrite F1 in F4; rewrite G1 in G4; cbn [enc count] in F4, G4; lia).
  rewrite L, Nat.compare_refl. apply before_lex; assumption.
Qed.

(** Tries with the same contents give the same items in the same order, also when their nodes differ. *)
Theorem C56_same_items : forall pr1 pr2 pr1' pr2' t1 t2 f1 f2 l1 l2, reach pr1' t1 -> reach pr2' t2 ->
  trie_items f1 pr1 t1 = Some (Ok l1) -> trie_items f2 pr2 t2 = Some (Ok l2) -> (forall k, lk t1 k = lk t2 k) -> l1 = l2.
Proof.
  intros pr1 pr2 pr1' pr2' t1 t2 f1 f2 l1 l2 R1 R2 E1 E2 H. destruct (reach_valid _ _ R1) as [W1 Sh1]. destruct (reach_valid _ _ R2) as [W2 Sh2].
  rewrite (items_are _ _ _ _ W1 Sh1 E1), (items_are _ _ _ _ W2 Sh2 E2), (same_entries t1 t2 H). reflexivity.
Qed.

(** Single calls: the first [n] calls of [next] give the first [n] items, and [None] for ever after the last one; none panics. *)
Theorem C56_next : forall pr pr' t n fuel, reach pr' t -> (nsize t + 1 < fuel)%nat ->
  exists l, trie_items fuel pr t = Some (Ok l) /\ answers n fuel pr (items_iter t) = Some (Ok (firstn n (map Some l ++ repeat None n))).
Proof.
  intros pr pr' t n fuel R F. destruct (reach_valid pr' t R) as [W Sh]. exists (map item_of (entries t)). split; [apply items_spec; assumption|].
  unfold items_iter. change nib_default with (enc []). rewrite answers_spec; [|constructor|cbn; lia|cbn; auto|cbn [measure]; lia].
  cbn [stack_items]. rewrite app_nil_r. reflexivity.
Qed.

Example C56_example : reach Debug ex_hash /\
  answers 8 200 Debug (items_iter ex_hash) =
  Some (Ok [Some (K 4 0x1234, Val [1]); Some (K 9 0x132400005, Val [3]); Some (K 4 0x1324, Val [2]); Some (K 4 0x2001, Val [4]);
            Some (K 4 0x2002, Val [5]); Some (K 2 0x31, HashV (repeat 7 32)); None; None]) /\
  (nsize ex_hash + 1 < 200)%nat /\ before [1;3;2;4;0;0;0;0;5] [1;3;2;4] /\ before [1;2;3;4] [1;3;2;4].
Proof.
  split; [apply reach_ex|]. split; [vm_compute; reflexivity|]. split; [apply Nat.ltb_lt; vm_compute; reflexivity|].
  split; [right; exists 0, [0;0;0;5]; reflexivity|left; exists [1], 2, 3, [3;4], [2;4]; repeat split; lia].
Qed.

(** * C57: rebuilding a trie from its items *)
(** Collecting the items of a trie into a new one gives the same contents exactly if no stored key is [narrow] ... *)
Theorem C57_contents : forall pr pr' pr'' t fuel l, reach pr' t -> trie_items fuel pr t = Some (Ok l) ->
  ((exists t', from_iter pr'' l = Ok t' /\ forall k, lk t' k = lk t k) <-> ~ narrow t).
Proof.
  intros pr pr' pr'' t fuel l R E. destruct (reach_valid pr' t R) as [W Sh]. rewrite (items_are pr t fuel l W Sh E). apply rebuild; assumption.
Qed.

(** ... and the very same trie exactly if it also has the canonical shape. *)
Theorem C57_same : forall pr pr' pr'' t fuel l, reach pr' t -> trie_items fuel pr t = Some (Ok l) ->
  (from_iter pr'' l = Ok t <-> canon t /\ ~ narrow t).
Proof.
  intros pr pr' pr'' t fuel l R E. destruct (reach_valid pr' t R) as [W Sh]. rewrite (items_are pr t fuel l W Sh E). apply rebuild_same; assumption.
Qed.

(** In particular when no stored key is a prefix of another, whatever hash nodes there are. *)
Theorem C57_prefix_free : forall pr pr' pr'' t fuel l, reach pr' t -> canon t -> prefix_free (stored t) ->
  trie_items fuel pr t = Some (Ok l) -> from_iter pr'' l = Ok t.
Proof.
  intros pr pr' pr'' t fuel l R C PF E. apply (C57_same pr pr' pr'' t fuel l R E). split; [exact C|].
  intros (k & x & r0 & Sk & Sx & _). apply (PF _ _ Sk Sx). exists x, r0. reflexivity.
Qed.

(** For keys where one is a prefix of others the claim is false: a value is lost. *)
Definition ex_narrow : node := okn (from_iter Debug [(K 1 1, Val [1]); (K 4 0x1234, Val [2]); (K 4 0x1236, Val [3])]).
Lemma reach_narrow pr : reach pr ex_narrow.
Proof. unfold ex_narrow. reach_tac [(K 1 1, Val [1]); (K 4 0x1234, Val [2]); (K 4 0x1236, Val [3])]. Qed.

Theorem C57_contents_refuted : exists t l t', (forall pr, reach pr t) /\ canon t /\ trie_items 100 Debug t = Some (Ok l) /\ In (K 1 1, Val [1]) l /\ from_iter Debug l = Ok t' /\ lk t' [1] = None /\ trie_get Release t' (K 1 1) = Ok None.
Proof.
  exists ex_narrow. eexists. eexists. split; [exact reach_narrow|].
  split; [apply (extend_canon Debug [(K 1 1, Val [1]); (K 4 0x1234, Val [2]); (K 4 0x1236, Val [3])] Empty); try constructor; try (vm_compute; reflexivity);
    repeat constructor; cbn; try (vm_compute; (reflexivity || (intro; discriminate)))|].
  split; [vm_compute; reflexivity|]. split; [right; right; left; reflexivity|]. split; [vm_compute; reflexivity|].
  split; vm_compute; reflexivity.
Qed.
(** Tries that are rebuilt: one with keys that are prefixes of others and a hash node. *)
Example C57_example : (forall pr, reach pr ex_hash) /\ canon ex_hash /\ exists l, trie_items 200 Debug ex_hash = Some (Ok l) /\ from_iter Debug l = Ok ex_hash /\ ~ narrow ex_hash.
Proof.
  split; [intros pr; apply reach_ex|]. split; [apply ex_hash_ok|]. eexists. split; [vm_compute; reflexivity|].
  match goal with |- ?A /\ _ => assert (E : A) by (vm_compute; reflexivity) end. split; [exact E|].
  refine (proj2 (proj1 (C57_same Debug Debug Debug ex_hash 200 _ (proj2 (reach_ex Debug)) _) E)). vm_compute. reflexivity.
Qed.
Example C57_narrow_example : narrow ex_narrow.
Proof.
  exists [1], 2, [3;4]. split; [vm_compute; discriminate|]. split; [vm_compute; discriminate|]. split.
  - intros y r S. assert (E : exists e, lk ex_narrow ([1] ++ y :: r) = Some e) by (unfold stored in S; destruct (lk ex_narrow _); [eauto|congruence]).
    destruct E as [e E]. apply entries_lk in E. vm_compute in E. destruct E as [E|[E|[E|[]]]]; congruence.
  - intros (r & v & _ & U). pose proof (U [3;4] ltac:(vm_compute; discriminate)). pose proof (U [3;6] ltac:(vm_compute; discriminate)). congruence.
Qed.

Print Assumptions C56_before.
Print Assumptions C56_order.
Print Assumptions C56_ascending.
Print Assumptions C56_same_items.
Print Assumptions C56_next.
Print Assumptions C57_contents.
Print Assumptions C57_same.
Print Assumptions C57_prefix_free.
Print Assumptions C57_contents_refuted.
