(** The same for hashing, subsets, equality and the debug tools. *)
From Coq Require Import String.
From Verif Require Import Base Nibbles Trie TrieFacts Query Diff Stats Rlp Hashing Subset Cache HideFacts Stack StackSpec StackFacts.
Open Scope N_scope.
Open Scope list_scope.

(** ** Hashing *)
Lemma encode_ok keccak pr : forall d t, ok (levels t <= d)%nat (encode_lim keccak d pr t) (rlp_encode_and_hash_node keccak pr t).
Proof.
  induction d as [|d IH]; intros t; [apply ok_none; pose proof (levels_pos t); lia|].
  destruct t as [|h|ch v|n c|n v]; cbn [encode_lim rlp_encode_and_hash_node levels]; cbn zeta; try (repeat stp; fail).
  - apply ok_bind; [|repeat stp]. pose proof (levels_in ch) as L. set (m := fold_right Nat.max 0%nat (map levels ch)) in *. clearbody m.
    generalize new_list. induction ch as [|c ch IHc]; intros s; [apply ok_ret|]. apply ok_bind.
    + eapply ok_weak; [|apply IH]. specialize (L c (or_introl eq_refl)). lia.
    + intros e _. apply IHc. intros x I. apply L. right. exact I.
  - apply ok_bind; [apply ok_flat|]. intros hp _. apply ok_bind; [|repeat stp]. eapply ok_weak; [|apply IH]. lia.
Qed.
Lemma hash_ok keccak pr d t : ok (levels t <= d)%nat (hash_lim keccak d pr t) (hash_trie keccak pr t).
Proof. unfold hash_lim, hash_trie. apply ok_bind; [apply encode_ok|]. repeat stp. Qed.
(** All levels are needed. *)
Lemma encode_needs keccak pr : forall d t e, encode_lim keccak d pr t = Some (Ok e) -> (levels t <= d)%nat.
Proof.
  induction d as [|d IH]; intros t e E; [discriminate|].
  destruct t as [|h|ch v|n c|n v]; cbn [encode_lim levels] in *; try lia.
  - enough (fold_right Nat.max 0%nat (map levels ch) <= d)%nat by lia. revert E. cbn zeta. generalize new_list.
    induction ch as [|c ch IHc]; intros s E; cbn [map fold_right]; [lia|]. destruct (encode_lim keccak d pr c) as [[e'|]|] eqn:Ec; [|discriminate..].
    cbn [lbind] in E. apply IH in Ec. apply IHc in E. lia.
  - destruct (to_hex_prefix_encoding pr n false) as [hp|]; [|discriminate]. cbn [flat lbind] in E. destruct (encode_lim keccak d pr c) as [[e'|]|] eqn:Ec; [|discriminate..].
    apply IH in Ec. lia.
Qed.
Lemma hash_needs keccak pr d t h : hash_lim keccak d pr t = Some (Ok h) -> (levels t <= d)%nat.
Proof. unfold hash_lim. destruct (encode_lim keccak d pr t) as [[e|]|] eqn:E; [|discriminate..]. intros _. eapply encode_needs, E. Qed.

(** ** Subsets *)
Lemma track_ok : forall d t, ok (levels t <= d)%nat (track_lim d t) (Ok (track t)).
Proof.
  induction d as [|d IH]; intros t; [apply ok_none; pose proof (levels_pos t); lia|].
  destruct t as [|h|ch v|n c|n v]; cbn [track_lim track levels]; try apply ok_ret.
  - change (Ok (Subset.TBranch (map track ch) (Branch ch v) false)) with (bind (Ok (map track ch)) (fun l => Ok (Subset.TBranch l (Branch ch v) false))). apply ok_bind; [|repeat stp].
    pose proof (levels_in ch) as L. set (m := fold_right Nat.max 0%nat (map levels ch)) in *. clearbody m. induction ch as [|c ch IHc]; [apply ok_ret|]. cbn [map].
    change (Ok (track c :: map track ch)) with (bind (Ok (track c)) (fun x => bind (Ok (map track ch)) (fun xs => Ok (x :: xs)))). apply ok_bind.
    + eapply ok_weak; [|apply IH]. specialize (L c (or_introl eq_refl)). lia.
    + intros x _. apply ok_bind; [|repeat stp]. apply IHc. intros y I. apply L. right. exact I.
  - change (Ok (Subset.TExtension (track c) (Extension n c) false)) with (bind (Ok (track c)) (fun x => Ok (Subset.TExtension x (Extension n c) false))). apply ok_bind; [|repeat stp].
    eapply ok_weak; [|apply IH]. lia.
Qed.
(** Levels of a tracked trie, those of the nodes it refers to included. *)
Fixpoint tlevels (t : tracked) : nat :=
  match t with
  | Subset.TBranch ch u _ => Nat.max (levels u) (S (fold_right Nat.max 0%nat (map tlevels ch)))
  | Subset.TExtension c u _ => Nat.max (levels u) (S (tlevels c))
  | Subset.TEmpty u _ | Subset.THash u _ | Subset.TLeaf u _ => levels u
  end.
Lemma tlevels_in ch c : In c ch -> (tlevels c <= fold_right Nat.max 0%nat (map tlevels ch))%nat.
Proof. induction ch as [|x ch IH]; intros H; [contradiction|]. cbn [map fold_right]. destruct H as [->|H]; [lia|]. specialize (IH H). lia. Qed.
Lemma tlevels_pos t : (1 <= tlevels t)%nat.
Proof. destruct t; cbn [tlevels]; try lia; apply levels_pos. Qed.
Lemma tlevels_under t : (levels (underlying t) <= tlevels t)%nat.
Proof. destruct t; cbn [tlevels underlying]; lia. Qed.
Lemma tlevels_track t : tlevels (track t) = levels t.
Proof.
  induction t as [|h|ch v IH|n c IH|n v] using node_ind'; cbn [track tlevels levels]; try reflexivity; [|lia].
  enough (E : map tlevels (map track ch) = map levels ch) by (rewrite E; lia). rewrite map_map. apply map_ext_Forall, IH.
Qed.
Lemma ok_tracked {E} P (f : tracked -> lim (result tracked E)) g : forall l i, (forall c, In c l -> ok P (f c) (g c)) -> ok P (lwith_tracked f l i) (with_tracked g l i).
Proof.
  induction l as [|c l IH]; intros i H; [left; reflexivity|]. destruct i as [|i]; cbn [lwith_tracked with_tracked].
  - apply ok_bind; [apply H; left; reflexivity|]. repeat stp.
  - apply ok_bind; [apply IH; intros x I; apply H; right; exact I|]. repeat stp.
Qed.
Lemma mark_ok pr : forall d t k, ok (tlevels t <= d)%nat (mark_lim d pr t k) (mark pr t k).
Proof.
  induction d as [|d IH]; intros t k; [apply ok_none; pose proof (tlevels_pos t); lia|].
  destruct t as [u b|u b|ch u b|c u b|u b]; cbn [mark_lim mark tlevels]; try (repeat stp; fail).
  - stp; [apply ok_ret|]. stp; [apply ok_flat|]. stp. stp; [|repeat stp]. apply ok_tracked. intros c I. eapply ok_weak; [|apply IH]. pose proof (tlevels_in ch c I). lia.
  - stp; [apply ok_flat|]. stp. stp; [apply ok_flat|]. stp. stp; [apply ok_flat|]. stp. stp; [|apply ok_ret]. stp; [|repeat stp]. eapply ok_weak; [|apply IH]. lia.
Qed.
Lemma mark_levels pr : forall d t k t', (tlevels t <= d)%nat -> mark pr t k = Ok (ROk t') -> (tlevels t' <= d)%nat.
Proof.
  induction d as [|d IH]; intros t k t' L E; [pose proof (tlevels_pos t); lia|].
  destruct t as [u b|u b|ch u b|c u b|u b]; cbn [mark tlevels] in *.
  - injection E as <-. exact L.
  - destruct (is_empty k); [|discriminate]. injection E as <-. exact L.
  - destruct (is_empty k); [injection E as <-; exact L|]. destruct (pop_next_nibble_front pr k) as [[nib k']|]; [|discriminate]. cbn [bind] in E.
    destruct (with_tracked _ ch _) as [[l|e]|] eqn:W; cbn [bind] in E; [|discriminate..]. injection E as <-. cbn [tlevels].
    enough (fold_right Nat.max 0%nat (map tlevels l) <= d)%nat by lia. assert (G : (fold_right Nat.max 0%nat (map tlevels ch) <= d)%nat) by lia. clear L.
    revert l W. generalize (N.to_nat nib). induction ch as [|c ch IHc]; intros i l W; [discriminate|]. cbn [map fold_right] in G. destruct i as [|i]; cbn [with_tracked] in W.
    + destruct (mark pr c k') as [[c'|e]|] eqn:M; cbn [bind] in W; [|discriminate..]. injection W as <-. cbn [map fold_right]. apply IH in M; lia.
    + destruct (with_tracked _ ch i) as [[l'|e]|] eqn:W'; cbn [bind] in W; [|discriminate..]. injection W as <-. cbn [map fold_right]. apply IHc in W'; lia.
  - destruct (get_nibbles_expected u) as [n|]; [|discriminate]. cbn [bind] in E. destruct (pop_nibbles_front pr k _) as [[r k']|]; [|discriminate]. cbn [bind] in E.
    destruct (identical_up_to_smallest pr r n) as [[|]|]; [| |discriminate]; cbn [bind] in E; [|injection E as <-; exact L].
    destruct (mark pr c k') as [[c'|e]|] eqn:M; cbn [bind] in E; [|discriminate..]. injection E as <-. cbn [tlevels]. apply IH in M; lia.
  - injection E as <-. exact L.
Qed.
Lemma create_ok keccak pr : forall d t, ok (S (tlevels t) <= d)%nat (create_lim keccak d pr t) (create_from_tracked keccak pr t).
Proof.
  induction d as [|d IH]; intros t; [apply ok_none; lia|].
  assert (K : ok (S (tlevels t) <= S d)%nat
    match t with
    | Subset.TEmpty _ _ => lret Empty
    | Subset.THash u _ => let! h := flat (get_hash_node_hash_expected u) in lret (Hash h)
    | Subset.TBranch children u _ =>
        let! ch := (fix go (l : list tracked) : lim (list node) :=
                      match l with [] => lret [] | c :: l' => let! n := create_lim keccak d pr c in let! ns := go l' in lret (n :: ns) end) children in
        let! v := flat (get_branch_value_expected u) in lret (Branch ch v)
    | Subset.TExtension child u _ => let! n := flat (get_nibbles_expected u) in let! c := create_lim keccak d pr child in lret (Extension n c)
    | Subset.TLeaf u _ => let! (n, v) := flat (get_leaf_nibbles_and_value_expected u) in lret (Leaf n v)
    end
    match t with
    | Subset.TEmpty _ _ => Ok Empty
    | Subset.THash u _ => h <- get_hash_node_hash_expected u ;; Ok (Hash h)
    | Subset.TBranch children u _ =>
        ch <- (fix go (l : list tracked) : res (list node) :=
                 match l with [] => Ok [] | c :: l' => n <- create_from_tracked keccak pr c ;; ns <- go l' ;; Ok (n :: ns) end) children ;;
        v <- get_branch_value_expected u ;; Ok (Branch ch v)
    | Subset.TExtension child u _ => n <- get_nibbles_expected u ;; c <- create_from_tracked keccak pr child ;; Ok (Extension n c)
    | Subset.TLeaf u _ => '(n, v) <- get_leaf_nibbles_and_value_expected u ;; Ok (Leaf n v)
    end).
  { destruct t as [u b|u b|ch u b|c u b|u b]; cbn [tlevels]; try (repeat stp; fail).
    - apply ok_bind; [|repeat stp]. pose proof (tlevels_in ch) as L. set (m := fold_right Nat.max 0%nat (map tlevels ch)) in *. clearbody m.
      induction ch as [|c ch IHc]; [apply ok_ret|]. apply ok_bind.
      + eapply ok_weak; [|apply IH]. specialize (L c (or_introl eq_refl)). lia.
      + intros x _. apply ok_bind; [|repeat stp]. apply IHc. intros y I. apply L. right. exact I.
    - apply ok_bind; [apply ok_flat|]. intros n _. apply ok_bind; [|repeat stp]. eapply ok_weak; [|apply IH]. lia. }
  assert (H : ok (S (tlevels t) <= S d)%nat (encode_lim keccak d pr (underlying t)) (rlp_encode_and_hash_node keccak pr (underlying t))).
  { eapply ok_weak; [|apply encode_ok]. pose proof (tlevels_under t). lia. }
  destruct t as [u b|u b|ch u b|c u b|u b]; cbn [create_lim create_from_tracked touched underlying] in *; cbn zeta; (destruct b; [exact K|]); (apply ok_bind; [exact H|]);
    intros [b|h] _; try apply ok_ret; exact K.
Qed.
Lemma mark_all_ok pr d : forall ks t, ok (tlevels t <= d)%nat (mark_all_lim d pr t ks) (mark_all pr t ks).
Proof.
  induction ks as [|k ks IH]; intros t; cbn [mark_all_lim mark_all]; [apply ok_ret|]. apply ok_bind; [apply mark_ok|].
  intros [t'|e] E; [|apply ok_ret]. eapply ok_weak; [|apply IH]. intros L. eapply mark_levels; eassumption.
Qed.
Lemma mark_all_levels pr d : forall ks t t', (tlevels t <= d)%nat -> mark_all pr t ks = Ok (ROk t') -> (tlevels t' <= d)%nat.
Proof.
  induction ks as [|k ks IH]; intros t t' L E; cbn [mark_all] in E; [injection E as <-; exact L|].
  destruct (mark pr t k) as [[t1|e]|] eqn:M; cbn [bind] in E; [|discriminate..]. eapply IH; [|exact E]. eapply mark_levels; eassumption.
Qed.
Lemma subset_ok keccak pr d t ks : ok (S (levels t) <= d)%nat (subset_lim keccak d pr t ks) (create_trie_subset keccak pr t ks).
Proof.
  unfold subset_lim, create_trie_subset, create_trie_subset_intern.
  assert (A : forall x : res (result node subset_error), ok (S (levels t) <= d)%nat (subset_lim keccak d pr t ks) x -> ok (S (levels t) <= d)%nat (subset_lim keccak d pr t ks) x) by auto.
  pose proof (track_ok d t) as T.
  destruct T as [->|[-> N1]]; [|right; split; [reflexivity|lia]]. cbn [lbind].
  pose proof (mark_all_ok pr d ks (track t)) as M. rewrite tlevels_track in M. destruct M as [->|[-> N1]]; [|right; split; [reflexivity|lia]].
  destruct (mark_all pr (track t) ks) as [[t'|e]|] eqn:Em; cbn [lbind bind]; [|left; reflexivity|left; reflexivity].
  pose proof (create_ok keccak pr d t') as C. destruct C as [->|[-> N1]].
  - destruct (create_from_tracked keccak pr t') as [n|]; cbn [lbind bind]; left; reflexivity.
  - right. split; [reflexivity|]. intros L. apply N1. enough (tlevels t' <= d - 1)%nat by lia. eapply mark_all_levels; [|exact Em]. rewrite tlevels_track. lia.
Qed.

(** ** Equality *)
Lemma eq_ok : forall d a b, ok (Nat.min (levels a) (levels b) <= d)%nat (eq_lim d a b) (Ok (node_eqb a b)).
Proof.
  induction d as [|d IH]; intros a b; [apply ok_none; pose proof (levels_pos a); pose proof (levels_pos b); lia|].
  destruct a as [|h|ch v|n c|n v], b as [|h'|ch' v'|n' c'|n' v']; cbn [eq_lim node_eqb]; try apply ok_ret.
  - destruct (bytes_eqb v v'); cbn [andb]; [|apply ok_ret]. cbn [levels].
    assert (G : forall l l' (P : Prop), (forall x y, In (x, y) (combine l l') -> ok P (eq_lim d x y) (Ok (node_eqb x y))) ->
      ok P ((fix all (l1 l2 : list node) : lim bool :=
               match l1, l2 with
               | [], [] => lret true
               | x :: l1', y :: l2' => let! e := eq_lim d x y in if e : bool then all l1' l2' else lret false
               | _, _ => lret false
               end) l l')
        (Ok ((fix all (l1 l2 : list node) {struct l1} : bool :=
           match l1, l2 with [], [] => true | x :: l1', y :: l2' => node_eqb x y && all l1' l2' | _, _ => false end) l l'))).
    { induction l as [|x l IHl]; intros [|y l'] P H; try apply ok_ret.
      destruct (H x y (or_introl eq_refl)) as [->|[-> N1]]; [|right; auto]. cbn [lbind]. destruct (node_eqb x y); cbn [andb]; [|apply ok_ret]. apply IHl. intros u w I. apply H. right. exact I. }
    apply G. intros x y I. eapply ok_weak; [|apply IH]. pose proof (levels_in ch x (in_combine_l _ _ _ _ I)). pose proof (levels_in ch' y (in_combine_r _ _ _ _ I)). lia.
  - destruct (nib_eqb n n'); cbn [andb]; [|apply ok_ret]. eapply ok_weak; [|apply IH]. cbn [levels]. lia.
Qed.

(** ** Debug tools *)
Lemma stats_ok pr : forall d t st dp, ok (levels t <= d)%nat (stats_lim d pr t st dp) (get_trie_stats_rec pr t st dp).
Proof.
  induction d as [|d IH]; intros t st dp; [apply ok_none; pose proof (levels_pos t); lia|].
  destruct st as [[e h b x l] ls hs low]. destruct t as [|hh|ch v|n c|n v]; cbn [stats_lim get_trie_stats_rec levels]; try (repeat stp; fail).
  - apply ok_bind; [apply ok_flat|]. intros b' _. pose proof (levels_in ch) as L. set (m := fold_right Nat.max 0%nat (map levels ch)) in *. clearbody m.
    generalize (Tracking (Counts e h b' x l) ls hs low). induction ch as [|c ch IHc]; intros st; [apply ok_ret|].
    apply ok_bind; [apply ok_flat|]. intros d' _. apply ok_bind.
    + eapply ok_weak; [|apply IH]. specialize (L c (or_introl eq_refl)). lia.
    + intros st' _. apply IHc. intros y I. apply L. right. exact I.
  - stp; [apply ok_flat|]. stp. stp; [apply ok_flat|]. stp. eapply ok_weak; [|apply IH]. lia.
Qed.
Lemma path_ok pr : forall d t k out, ok (levels t <= d)%nat (path_lim d pr t k out) (get_path_rec pr t k out).
Proof.
  induction d as [|d IH]; intros t k out; [apply ok_none; pose proof (levels_pos t); lia|].
  cbn [path_lim]. destruct t as [|h|ch v|n c|n v]; cbn [get_path_rec levels]; cbn zeta; repeat stp.
  - eapply ok_weak; [|apply IH]. pose proof (levels_in ch c H). lia.
  - eapply ok_weak; [|apply IH]. lia.
Qed.
Lemma find_ok keccak pr : forall d a b st ds, ok (S (Nat.max (levels a) (levels b)) <= d)%nat (find_lim keccak pr d a b st ds) (find_latest_rec keccak pr a b st ds).
Proof.
  induction d as [|d IH]; intros a b st ds; [apply ok_none; lia|].
  assert (HA : ok (S (Nat.max (levels a) (levels b)) <= S d)%nat (hash_lim keccak d pr a) (hash_trie keccak pr a)) by (eapply ok_weak; [|apply hash_ok]; lia).
  assert (HB : ok (S (Nat.max (levels a) (levels b)) <= S d)%nat (hash_lim keccak d pr b) (hash_trie keccak pr b)) by (eapply ok_weak; [|apply hash_ok]; lia).
  assert (FG : forall st ds, ok (S (Nat.max (levels a) (levels b)) <= S d)%nat (from_gen_hashes_lim keccak pr d a b st ds) (from_gen_hashes keccak pr a b st ds)).
  { intros st' ds'. unfold from_gen_hashes_lim, from_gen_hashes. apply ok_bind; [exact HA|]. intros ha _. apply ok_bind; [exact HB|]. intros hb _. apply ok_flat. }
  cbn [find_lim].
  assert (E : forall X, find_latest_rec keccak pr a b st ds = X -> ok (S (Nat.max (levels a) (levels b)) <= S d)%nat (find_lim keccak pr (S d) a b st ds) X); [|cbn [find_lim] in E; apply E; reflexivity].
  intros X EX. cbn [find_lim]. rewrite <- EX. clear X EX.
  destruct a as [|h|ch v|n c|n v]; cbn [find_latest_rec]; (apply ok_bind; [exact HA|]); intros ha _; (apply ok_bind; [exact HB|]); intros hb _;
    (destruct (bytes_eqb ha hb); [apply ok_ret|]); (destruct (_ && _); [apply ok_bind; [apply ok_flat|]; intros ds' _; apply ok_ret|]);
    destruct b as [|h'|ch' v'|n' c'|n' v']; try apply ok_flat; try apply FG.
  - apply ok_bind; [apply ok_flat|]. intros st' _. apply ok_flat.
  - apply ok_bind.
    + cbn [levels].
      assert (G : forall l l' i f ds (P : Prop), (forall x y st ds, In (x, y) (combine l l') -> ok P (find_lim keccak pr d x y st ds) (find_latest_rec keccak pr x y st ds)) ->
        ok P ((fix children (i : N) (la lb : list node) (found : detection) (ds : longest) : lim (detection * longest) :=
                 match la, lb with
                 | ca :: la, cb :: lb =>
                     let! n := flat (from_nibble i) in
                     let! st := flat (new_from_parent pr st (Branch ch v) n) in
                     let! (r, ds) := find_lim keccak pr d ca cb st ds in
                     children (i + 1) la lb (pick_most_significant found r) ds
                 | _, _ => lret (found, ds)
                 end) i l l' f ds)
             ((fix children (i : N) (la lb : list node) (found : detection) (ds : longest) : res (detection * longest) :=
             match la, lb with
             | ca :: la, cb :: lb =>
                 n <- from_nibble i ;;
                 st <- new_from_parent pr st (Branch ch v) n ;;
                 ' (r, ds) <- find_latest_rec keccak pr ca cb st ds ;;
                 children (i + 1) la lb (pick_most_significant found r) ds
             | _, _ => Ok (found, ds)
             end) i l l' f ds)).
      { induction l as [|x l IHl]; intros [|y l'] i f ds0 P H; try apply ok_ret. apply ok_bind; [apply ok_flat|]. intros nn _. apply ok_bind; [apply ok_flat|]. intros st' _.
        apply ok_bind; [apply H; left; reflexivity|]. intros [r ds1] _. apply IHl. intros. apply H. right. assumption. }
      apply G. intros x y st' ds' I. eapply ok_weak; [|apply IH]. pose proof (levels_in ch x (in_combine_l _ _ _ _ I)). pose proof (levels_in ch' y (in_combine_r _ _ _ _ I)). lia.
    + intros [f ds'] _. destruct f; try apply ok_ret; apply FG.
  - apply ok_bind; [apply ok_flat|]. intros st' _. eapply ok_weak; [|apply IH]. cbn [levels]. lia.
Qed.
