(** Property C75: keys, values, items and reports in hash sets and maps. *)
From Verif Require Import Base Nibbles NibblesFacts Trie TrieSpec JsonSpec BinarySpec Binary BinaryFacts Query Diff HashKey HashKeySpec P_Trie.
Open Scope N_scope.
Open Scope list_scope.

(** ** Bytes that say where they end *)
Definition ends {A} (fits : A -> Prop) (f : A -> list N) : Prop := forall a b r r', fits a -> fits b -> f a ++ r = f b ++ r' -> a = b /\ r = r'.
Lemma ends_good {A} (fits : A -> Prop) f (eqb : A -> A -> bool) : (forall a b, eqb a b = true <-> a = b) -> ends fits f -> good_hash fits f eqb.
Proof. intros E D. split; [exact E|]. intros a b Fa Fb [c C]. destruct (D a b c [] Fa Fb) as [Q _]; [rewrite app_nil_r; symmetry; exact C|exact Q]. Qed.
Lemma le_bytes_length k : forall n, length (le_bytes k n) = k.
Proof. induction k as [|k IH]; intros n; cbn [le_bytes length]; [reflexivity|]. rewrite IH. reflexivity. Qed.
Lemma le_bytes_inj k : forall a b, a < 256 ^ N.of_nat k -> b < 256 ^ N.of_nat k -> le_bytes k a = le_bytes k b -> a = b.
Proof.
  induction k as [|k IH]; intros a b A B E; [cbn in A, B; lia|]. cbn [le_bytes] in E. rewrite Nat2N.inj_succ, N.pow_succ_r' in A, B. injection E as E1 E2.
  apply IH in E2; [|apply N.div_lt_upper_bound; lia|apply N.div_lt_upper_bound; lia]. rewrite (N.div_mod a 256), (N.div_mod b 256) by lia. congruence.
Qed.
Lemma app_length_inj {A} (a b r r' : list A) : length a = length b -> a ++ r = b ++ r' -> a = b /\ r = r'.
Proof. revert b. induction a as [|x a IH]; intros [|y b] L E; try discriminate; cbn in *; [auto|]. injection L as L. injection E as -> E. apply IH in E as [-> ->]; auto. Qed.
Lemma ends_le k : ends (fun n => n < 256 ^ N.of_nat k) (le_bytes k).
Proof. intros a b r r' A B E. apply app_length_inj in E as [E ->]; [|rewrite !le_bytes_length; reflexivity]. split; [apply (le_bytes_inj k); assumption|reflexivity]. Qed.
Lemma ends_usize : ends (fun n => n < 2 ^ 64) hash_usize.
Proof. exact (ends_le 8). Qed.
Lemma ends_bytes : ends vec hash_bytes.
Proof.
  intros a b r r' A B E. unfold hash_bytes in E. rewrite <- !app_assoc in E. apply ends_usize in E as [L E]; [|exact A|exact B]. apply app_length_inj in E; [exact E|lia].
Qed.
Lemma ends_fixed : ends h256 (fun h => h).
Proof. intros a b r r' [A _] [B _] E. apply app_length_inj in E; [exact E|congruence]. Qed.
Lemma ends_nibbles : ends key_type hash_nibbles.
Proof.
  intros [c p] [c' p'] r r' [A1 A2] [B1 B2] E. unfold hash_nibbles in E. cbn [count packed] in *. rewrite <- !app_assoc in E. apply ends_usize in E as [-> E]; [|assumption|assumption].
  apply app_inv_head in E. apply (ends_le 64) in E as [-> E]; [|exact A2|exact B2]. auto.
Qed.
Lemma tag a b r r' : a < 2 ^ 64 -> b < 2 ^ 64 -> hash_usize a ++ r = hash_usize b ++ r' -> a = b /\ r = r'.
Proof. intros A B. apply ends_usize; assumption. Qed.
Ltac tags E := apply tag in E as [? E]; [|reflexivity|reflexivity]; try discriminate.
Lemma ends_val : ends value_fits hash_val.
Proof.
  intros [a|a] [b|b] r r' A B E; cbn [hash_val value_fits] in *; rewrite <- !app_assoc in E; tags E.
  - apply ends_bytes in E as [-> ->]; [auto|apply A|apply B].
  - apply ends_fixed in E as [-> ->]; auto.
Qed.
Lemma ends_item : ends (fun e => key_type (fst e) /\ value_fits (snd e)) hash_item.
Proof.
  intros [k v] [k' v'] r r' [A1 A2] [B1 B2] E. unfold hash_item in E. cbn [fst snd] in *. rewrite <- !app_assoc in E. apply ends_nibbles in E as [-> E]; try assumption. apply ends_val in E as [-> ->]; auto.
Qed.
Lemma ends_seg : ends seg_fits hash_seg.
Proof.
  intros [| |x|m|m] [| |y|n|n] r r' A B E; cbn [hash_seg seg_fits] in *; rewrite <- ?app_assoc in E; tags E; auto.
  - cbn in E. injection E as -> ->. auto.
  - apply ends_nibbles in E as [-> ->]; auto.
  - apply ends_nibbles in E as [-> ->]; auto.
Qed.
Lemma ends_path : ends path_fits hash_path.
Proof.
  intros a b r r' [A1 A2] [B1 B2] E. unfold hash_path in E. rewrite <- !app_assoc in E. apply ends_usize in E as [L E]; [|exact A1|exact B1]. assert (L' : length a = length b) by lia. clear L A1 B1.
  revert b B2 L' E. induction A2 as [|s a As A IH]; intros [|s' b] B L E; try discriminate; [auto|]. inversion B as [|? ? Bs B']; subst. cbn [flat_map] in E. rewrite <- !app_assoc in E.
  apply ends_seg in E as [-> E]; [|exact As|exact Bs]. apply IH in E as [-> ->]; [auto|exact B'|]. cbn in L. congruence.
Qed.
Lemma ends_option : ends (fun o => forall v, o = Some v -> u8s v /\ vec v) hash_option.
Proof.
  intros [a|] [b|] r r' A B E; cbn [hash_option] in E; rewrite <- ?app_assoc in E; tags E; [|auto]. apply ends_bytes in E as [-> ->]; [auto|apply (A a eq_refl)|apply (B b eq_refl)].
Qed.
Lemma ends_type : ends (fun _ => True) hash_type.
Proof. intros a b r r' _ _ E. unfold hash_type in E. apply tag in E as [Q ->]; [|destruct a; reflexivity|destruct b; reflexivity]. split; [|reflexivity]. destruct a, b; try discriminate; reflexivity. Qed.
Lemma ends_info : ends info_fits hash_info.
Proof.
  intros [k v t h] [k' v' t' h'] r r' (A1 & A2 & A3) (B1 & B2 & B3) E. unfold hash_info in E. cbn [i_key i_value i_type i_hash] in *. rewrite <- !app_assoc in E. apply ends_nibbles in E as [-> E]; try assumption.
  apply ends_option in E as [-> E]; try assumption. apply ends_type in E as [-> E]; try exact Logic.I. apply ends_fixed in E as [-> ->]; auto.
Qed.
Lemma ends_point : ends point_fits hash_point.
Proof.
  intros [d p k i j] [d' p' k' i' j'] r r' (A1 & A2 & A3 & A4 & A5) (B1 & B2 & B3 & B4 & B5) E. unfold hash_point in E. cbn [d_depth d_path d_key a_info b_info] in *. rewrite <- !app_assoc in E.
  apply ends_usize in E as [-> E]; try assumption. apply ends_path in E as [-> E]; try assumption. apply ends_nibbles in E as [-> E]; try assumption.
  apply ends_info in E as [-> E]; try assumption. apply ends_info in E as [-> ->]; auto.
Qed.

(** ** [==] *)
Lemma list_eqb_eq {A} (eqb : A -> A -> bool) : (forall a b, eqb a b = true <-> a = b) -> forall a b, list_eqb eqb a b = true <-> a = b.
Proof.
  intros H. induction a as [|x a IH]; intros [|y b]; cbn [list_eqb]; try (split; [discriminate|discriminate]); [tauto|]. rewrite andb_true_iff, H, IH. split; [intros [-> ->]; reflexivity|].
  intros E. injection E; auto.
Qed.
Lemma bytes_eqb_eq a b : bytes_eqb a b = true <-> a = b.
Proof. apply list_eqb_eq, N.eqb_eq. Qed.
Lemma nib_eqb_iff a b : nib_eqb a b = true <-> a = b.
Proof. destruct a as [c p], b as [c' p']. unfold nib_eqb. cbn [count packed]. rewrite andb_true_iff, !N.eqb_eq. split; [intros [-> ->]; reflexivity|]. intros E. injection E; auto. Qed.
Lemma val_eqb_iff a b : val_eqb a b = true <-> a = b.
Proof. destruct a, b; cbn [val_eqb]; rewrite ?bytes_eqb_eq; split; try congruence; discriminate. Qed.
Lemma pair_eqb_iff a b : pair_eqb a b = true <-> a = b.
Proof. destruct a, b. unfold pair_eqb. cbn [fst snd]. rewrite andb_true_iff, nib_eqb_iff, val_eqb_iff. split; [intros [-> ->]; reflexivity|]. intros E. injection E; auto. Qed.
Lemma seg_eqb_iff a b : seg_eqb a b = true <-> a = b.
Proof. destruct a, b; cbn [seg_eqb]; rewrite ?N.eqb_eq, ?nib_eqb_iff; split; try congruence; discriminate. Qed.
Lemma path_eqb_iff a b : path_eqb a b = true <-> a = b.
Proof. apply list_eqb_eq, seg_eqb_iff. Qed.
Lemma option_eqb_iff a b : option_eqb a b = true <-> a = b.
Proof. destruct a, b; cbn [option_eqb]; rewrite ?bytes_eqb_eq; split; try congruence; discriminate. Qed.
Lemma info_eqb_iff a b : info_eqb a b = true <-> a = b.
Proof.
  destruct a as [k v t h], b as [k' v' t' h']. unfold info_eqb. cbn [i_key i_value i_type i_hash]. rewrite !andb_true_iff, nib_eqb_iff, option_eqb_iff, bytes_eqb_eq, N.eqb_eq.
  assert (T : type_position t = type_position t' <-> t = t') by (destruct t, t'; cbn; split; congruence || discriminate). rewrite T. split; [intros [[[-> ->] ->] ->]; reflexivity|].
  intros E. injection E; auto.
Qed.
Lemma point_eqb_iff a b : point_eqb a b = true <-> a = b.
Proof.
  destruct a as [d p k i j], b as [d' p' k' i' j']. unfold point_eqb. cbn [d_depth d_path d_key a_info b_info]. rewrite !andb_true_iff, N.eqb_eq, path_eqb_iff, nib_eqb_iff, !info_eqb_iff.
  split; [intros [[[[-> ->] ->] ->] ->]; reflexivity|]. intros E. injection E; auto.
Qed.

(** ** The types *)
Theorem C75_keys : good_hash key_type hash_nibbles nib_eqb.
Proof. apply ends_good; [apply nib_eqb_iff|apply ends_nibbles]. Qed.
Theorem C75_values : good_hash value_fits hash_val val_eqb.
Proof. apply ends_good; [apply val_eqb_iff|apply ends_val]. Qed.
Theorem C75_items : good_hash (fun e => key_type (fst e) /\ value_fits (snd e)) hash_item pair_eqb.
Proof. apply ends_good; [apply pair_eqb_iff|apply ends_item]. Qed.
Theorem C75_paths : good_hash path_fits hash_path path_eqb.
Proof. apply ends_good; [apply path_eqb_iff|apply ends_path]. Qed.
Theorem C75_points : good_hash point_fits hash_point point_eqb.
Proof. apply ends_good; [apply point_eqb_iff|apply ends_point]. Qed.

(** ** Maps and sets *)
Section Maps.
Context {K V : Type}.
Variable hashed : K -> list N.
Variable eqb : K -> K -> bool.
Variable bucket : list N -> N.
Hypothesis eqb_iff : forall a b, eqb a b = true <-> a = b.
Let find_key (l : list (K * V)) (k : K) : option V := option_map snd (find (fun e => eqb k (fst e)) l).
Lemma eqb_neq a b : a <> b -> eqb a b = false.
Proof. intros H. destruct (eqb a b) eqn:E; [|reflexivity]. apply eqb_iff in E. congruence. Qed.
Lemma find_put (l : list (K * V)) k v : forall j, find_key (put eqb l k v) j = if eqb j k then Some v else find_key l j.
Proof.
  unfold find_key. induction l as [|[k' v'] l IH]; intros j; cbn [put find fst].
  - destruct (eqb j k); reflexivity.
  - destruct (eqb k k') eqn:E; cbn [find fst].
    + apply eqb_iff in E. subst k'. destruct (eqb j k); reflexivity.
    + destruct (eqb j k') eqn:E'; [|apply IH]. apply eqb_iff in E'. subst k'. cbn [option_map snd]. replace (eqb j k) with false; [reflexivity|]. symmetry. apply eqb_neq. intros ->.
      rewrite (proj2 (eqb_iff k k) eq_refl) in E. discriminate.
Qed.
Lemma put_keys (l : list (K * V)) k v x : In x (map fst (put eqb l k v)) -> x = k \/ In x (map fst l).
Proof. induction l as [|[k' v'] l IH]; cbn [put map In fst]; [intuition|]. destruct (eqb k k'); cbn [map In fst]; intuition. Qed.
Lemma put_nodup (l : list (K * V)) k v : NoDup (map fst l) -> NoDup (map fst (put eqb l k v)).
Proof.
  induction l as [|[k' v'] l IH]; cbn [put map fst]; intros H; [constructor; [intros []|constructor]|]. destruct (eqb k k') eqn:E; cbn [map fst]; [exact H|].
  inversion H as [|? ? N D]; subst. constructor; [|apply IH, D]. intros J. apply put_keys in J as [->|J]; [|exact (N J)]. rewrite (proj2 (eqb_iff k k) eq_refl) in E. discriminate.
Qed.
Lemma find_none (l : list (K * V)) k : ~ In k (map fst l) -> find_key l k = None.
Proof. unfold find_key. induction l as [|[k' v'] l IH]; cbn [find map fst In]; intros H; [reflexivity|]. rewrite eqb_neq by intuition. apply IH. intuition. Qed.
Lemma drop_keys (l : list (K * V)) k x : In x (map fst (drop eqb l k)) -> In x (map fst l).
Proof. induction l as [|[k' v'] l IH]; cbn [drop map In fst]; [intuition|]. destruct (eqb k k'); cbn [map In fst]; intuition. Qed.
Lemma drop_nodup (l : list (K * V)) k : NoDup (map fst l) -> NoDup (map fst (drop eqb l k)).
Proof.
  induction l as [|[k' v'] l IH]; cbn [drop map fst]; intros H; [exact H|]. inversion H as [|? ? N D]; subst. destruct (eqb k k'); [exact D|]. cbn [map fst]. constructor; [|apply IH, D].
  intros J. apply N, (drop_keys l k), J.
Qed.
Lemma find_drop (l : list (K * V)) k : NoDup (map fst l) -> forall j, find_key (drop eqb l k) j = if eqb j k then None else find_key l j.
Proof.
  induction l as [|[k' v'] l IH]; cbn [drop map fst]; intros H j; [unfold find_key; cbn; destruct (eqb j k); reflexivity|]. inversion H as [|? ? N D]; subst. destruct (eqb k k') eqn:E.
  - apply eqb_iff in E. subst k'. destruct (eqb j k) eqn:Ej; [apply eqb_iff in Ej; subst; apply find_none, N|]. unfold find_key at 2. cbn [find fst]. rewrite Ej. reflexivity.
  - unfold find_key at 1. cbn [find fst]. destruct (eqb j k') eqn:Ej.
    + apply eqb_iff in Ej. subst k'. replace (eqb j k) with false; [unfold find_key; cbn [find fst]; rewrite (proj2 (eqb_iff j j) eq_refl); reflexivity|]. symmetry. apply eqb_neq. intros ->.
      rewrite (proj2 (eqb_iff k k) eq_refl) in E. discriminate.
    + fold (find_key (drop eqb l k) j). rewrite (IH D). unfold find_key. cbn [find fst]. rewrite Ej. reflexivity.
Qed.
Definition clean_table (m : table (K:=K) (V:=V)) : Prop := forall i, NoDup (map fst (m i)).
Lemma step_function m o m' out : clean_table m -> map_step hashed eqb bucket m o = (m', out) ->
  clean_table m' /\ function_step (lookup hashed eqb bucket m) o (lookup hashed eqb bucket m') out.
Proof.
  intros C E. destruct o as [k v|k|k]; cbn [map_step function_step] in *; [unfold map_insert in E|unfold map_remove in E|]; injection E as <- <-.
  - split; [intros i; unfold set_bucket; destruct (i =? _); [apply put_nodup, C|apply C]|]. split; [reflexivity|].
    assert (G : forall j, lookup hashed eqb bucket (set_bucket m (bucket (hashed k)) (put eqb (m (bucket (hashed k))) k v)) j = if eqb j k then Some v else lookup hashed eqb bucket m j).
    { intros j. unfold lookup, set_bucket. destruct (bucket (hashed j) =? bucket (hashed k)) eqn:B.
      - apply N.eqb_eq in B. rewrite B. apply find_put.
      - rewrite eqb_neq; [reflexivity|]. intros ->. rewrite N.eqb_refl in B. discriminate. }
    split; [rewrite G, (proj2 (eqb_iff k k) eq_refl); reflexivity|]. intros j Nj. rewrite G, eqb_neq by exact Nj. reflexivity.
  - split; [intros i; unfold set_bucket; destruct (i =? _); [apply drop_nodup, C|apply C]|]. split; [reflexivity|].
    assert (G : forall j, lookup hashed eqb bucket (set_bucket m (bucket (hashed k)) (drop eqb (m (bucket (hashed k))) k)) j = if eqb j k then None else lookup hashed eqb bucket m j).
    { intros j. unfold lookup, set_bucket. destruct (bucket (hashed j) =? bucket (hashed k)) eqn:B.
      - apply N.eqb_eq in B. rewrite B. apply find_drop, C.
      - rewrite eqb_neq; [reflexivity|]. intros ->. rewrite N.eqb_refl in B. discriminate. }
    split; [rewrite G, (proj2 (eqb_iff k k) eq_refl); reflexivity|]. intros j Nj. rewrite G, eqb_neq by exact Nj. reflexivity.
  - auto.
Qed.
Lemma run_function os : forall m m' outs, clean_table m -> map_run hashed eqb bucket m os = (m', outs) -> function_run (lookup hashed eqb bucket m) os (lookup hashed eqb bucket m') outs.
Proof.
  induction os as [|o os IH]; intros m m' outs C E; cbn [map_run] in E; [injection E as <- <-; constructor|]. destruct (map_step hashed eqb bucket m o) as [m1 x] eqn:E1.
  destruct (map_run hashed eqb bucket m1 os) as [m2 xs] eqn:E2. injection E as <- <-. destruct (step_function m o m1 x C E1) as [C1 S]. econstructor; [exact S|]. apply IH; assumption.
Qed.
End Maps.
(** Whatever the hasher and the number of buckets, a [HashMap] whose keys have such a [Hash] and [==] is a function from keys to values: with keys of the crate, with items
    of a trie, with the points of differences. *)
Theorem C75_maps : forall (K V : Type) (fits : K -> Prop) hashed eqb bucket (os : list (map_op K V)) m outs, good_hash fits hashed eqb ->
  map_run hashed eqb bucket no_entries os = (m, outs) -> function_run (fun _ => None) os (lookup hashed eqb bucket m) outs.
Proof.
  intros K V fits hashed eqb bucket os m outs [G _] E. apply (run_function hashed eqb bucket G os no_entries m outs) in E; [exact E|]. intros i. constructor.
Qed.
(** [collect] into a [HashSet]: it contains exactly the elements of the list, whatever their order and however often they occur. *)
Theorem C75_collect : forall (K : Type) (fits : K -> Prop) hashed eqb bucket (l : list K) m outs, good_hash fits hashed eqb ->
  map_run hashed eqb bucket no_entries (map (fun k => MInsert k tt) l) = (m, outs) -> forall k, lookup hashed eqb bucket m k = Some tt <-> In k l.
Proof.
  intros K fits hashed eqb bucket l m outs G E k. pose proof (C75_maps K unit fits hashed eqb bucket _ m outs G E) as R. destruct G as [G _]. clear E.
  assert (X : forall f, function_run f (map (fun k => MInsert k tt) l) (lookup hashed eqb bucket m) outs -> (lookup hashed eqb bucket m k = Some tt <-> f k = Some tt \/ In k l)).
  { clear R. revert outs. induction l as [|x l IH]; intros outs f R; cbn [map] in R; inversion R as [|? ? f' out ? ? outs' S R']; subst; [cbn [In]; tauto|].
    apply IH in R'. rewrite R'. cbn [function_step In] in *. destruct S as (_ & S1 & S2). destruct (eqb x k) eqn:Q; [apply G in Q; subst k; rewrite S1; tauto|].
    assert (Ne : k <> x) by (intros ->; rewrite (proj2 (G x x) eq_refl) in Q; discriminate). rewrite (S2 k Ne). split; [tauto|]. intros [H|[->|H]]; [tauto|congruence|tauto]. }
  apply X in R. rewrite R. split; [intros [D|D]; [discriminate|exact D]|auto].
Qed.
Example C75_example : key_type (K 3 0x123) /\ value_fits (Val [1; 2]) /\ value_fits (HashV (repeat 7 32)) /\ path_fits [SBranch 3; SExtension (K 2 0x45); SLeaf (K 0 0); SEmpty; SHash] /\
  info_fits (NodeInfo (K 1 1) (Some [5]) TLeaf (repeat 7 32)) /\
  hash_nibbles (K 3 0x123) = [3; 0; 0; 0; 0; 0; 0; 0; 8; 0; 0; 0; 0; 0; 0; 0; 35; 1] ++ repeat 0 62 /\
  snd (map_run hash_nibbles nib_eqb (fun l => nth 16 l 0 mod 2) no_entries [MInsert (K 3 0x123) 1; MInsert (K 4 0x123) 2; MInsert (K 3 0x123) 3; MRemove (K 4 0x123); MGet (K 3 0x123); MGet (K 4 0x123)])
    = [None; None; Some 1; Some 2; Some 3; None].
Proof.
  assert (B : forall l, forallb (fun b => b <? 256) l = true -> u8s l) by (intros l H; apply Forall_forall; intros b J; apply N.ltb_lt; revert b J; apply forallb_forall, H).
  assert (Kt : forall a b, a <? 2 ^ 64 = true -> b <? 2 ^ 512 = true -> key_type (K a b)) by (intros a b X Y; split; apply N.ltb_lt; assumption).
  split; [apply Kt; vm_compute; reflexivity|]. split; [split; [apply B; reflexivity|vm_compute; reflexivity]|]. split; [split; [reflexivity|apply B; reflexivity]|].
  split; [split; [vm_compute; reflexivity|]|].
  { constructor; [reflexivity|]. constructor; [apply Kt; vm_compute; reflexivity|]. constructor; [apply Kt; vm_compute; reflexivity|]. repeat constructor. }
  split; [split; [apply Kt; vm_compute; reflexivity|split; [intros v E; injection E as <-; split; [apply B; reflexivity|vm_compute; reflexivity]|split; [reflexivity|apply B; reflexivity]]]|].
  split; vm_compute; reflexivity.
Qed.

Print Assumptions C75_keys.
Print Assumptions C75_values.
Print Assumptions C75_items.
Print Assumptions C75_paths.
Print Assumptions C75_points.
Print Assumptions C75_maps.
Print Assumptions C75_collect.
