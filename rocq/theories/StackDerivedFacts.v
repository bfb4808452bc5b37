(** The functions of StackDerived.v against those of the model. *)
From Coq Require Import String.
From Verif Require Import Base Nibbles Query Diff Stats Rlp Hashing Subset.
From Verif Require Import Trie TrieFacts HideFacts Serde Json Text DebugText JsonText Binary Stack StackSpec StackFacts StackDerived.
From Verif Require Import Trie Serde Binary.
Open Scope N_scope.
Open Scope list_scope.

(** ** Dropping *)
Lemma drop_ok shared : forall d path t, ok (levels t <= d)%nat (drop_lim d shared path t) (Ok tt).
Proof.
  induction d as [|d IH]; intros path t; [apply ok_none; pose proof (levels_pos t); lia|].
  destruct t as [|h|ch v|n c|n v]; cbn [drop_lim levels]; try apply ok_ret.
  - pose proof (levels_in ch) as L. set (m := fold_right Nat.max 0%nat (map levels ch)) in *. clearbody m. generalize 0%nat.
    induction ch as [|c ch IHc]; intros i; [apply ok_ret|]. change (Ok tt) with (bind (Ok tt) (fun _ => Ok tt)). apply ok_bind.
    + destruct (shared (i :: path)); [apply ok_ret|]. eapply ok_weak; [|apply IH]. specialize (L c (or_introl eq_refl)). lia.
    + intros _ _. apply IHc. intros x I. apply L. right. exact I.
  - destruct (shared _); [apply ok_ret|]. eapply ok_weak; [|apply IH]. lia.
Qed.
Lemma drop_needs : forall d path t r, drop_lim d (fun _ => false) path t = Some r -> (levels t <= d)%nat.
Proof.
  induction d as [|d IH]; intros path t r E; [discriminate|].
  destruct t as [|h|ch v|n c|n v]; cbn [drop_lim levels] in *; try lia.
  - enough (fold_right Nat.max 0%nat (map levels ch) <= d)%nat by lia. set (i := 0%nat) in E. clearbody i. revert i E.
    induction ch as [|c ch IHc]; intros i E; cbn [map fold_right]; [lia|]. destruct (drop_ok (fun _ => false) d (i :: path) c) as [Ec|[Ec _]].
    + rewrite Ec in E. cbn [lbind] in E. apply IH in Ec. apply IHc in E. lia.
    + rewrite Ec in E. discriminate.
  - apply IH in E. lia.
Qed.

(** ** Serialize *)
Lemma serialize_ok : forall d t, ok (levels t <= d)%nat (serialize_lim d t) (Ok (serialize t)).
Proof.
  induction d as [|d IH]; intros t; [apply ok_none; pose proof (levels_pos t); lia|].
  destruct t as [|h|ch v|n c|n v]; cbn [serialize_lim serialize levels]; try apply ok_ret.
  - change (Ok (DNewtype (DStructVariant v_Branch [(f_children, DTuple (map serialize ch)); (f_value, ser_bytes v)])))
      with (bind (bind (Ok (map serialize ch)) (fun l => Ok (DStructVariant v_Branch [(f_children, DTuple l); (f_value, ser_bytes v)]))) (fun n => Ok (DNewtype n))).
    apply ok_bind; [|repeat stp]. apply ok_bind; [|repeat stp].
    pose proof (levels_in ch) as L. set (m := fold_right Nat.max 0%nat (map levels ch)) in *. clearbody m. induction ch as [|c ch IHc]; [apply ok_ret|]. cbn [map].
    change (Ok (serialize c :: map serialize ch)) with (bind (Ok (serialize c)) (fun x => bind (Ok (map serialize ch)) (fun xs => Ok (x :: xs)))). apply ok_bind.
    + eapply ok_weak; [|apply IH]. specialize (L c (or_introl eq_refl)). lia.
    + intros x _. apply ok_bind; [|repeat stp]. apply IHc. intros y I. apply L. right. exact I.
  - change (Ok (DNewtype (DStructVariant v_Extension [(f_nibbles, ser_nibbles n); (f_child, serialize c)])))
      with (bind (bind (Ok (serialize c)) (fun x => Ok (DStructVariant v_Extension [(f_nibbles, ser_nibbles n); (f_child, x)]))) (fun n => Ok (DNewtype n))).
    apply ok_bind; [|repeat stp]. apply ok_bind; [|repeat stp]. eapply ok_weak; [|apply IH]. lia.
Qed.
Lemma serialize_needs : forall d t r, serialize_lim d t = Some r -> (levels t <= d)%nat.
Proof.
  induction d as [|d IH]; intros t r E; [discriminate|].
  destruct t as [|h|ch v|n c|n v]; cbn [serialize_lim levels] in *; try lia.
  - match type of E with lbind (lbind ?m _) _ = _ => assert (G : exists q, m = Some q) by (destruct m as [q|]; [exists q; reflexivity|discriminate]) end. clear E.
    enough (fold_right Nat.max 0%nat (map levels ch) <= d)%nat by lia.
    induction ch as [|c ch IHc]; cbn [map fold_right]; [lia|]. destruct G as [q E]. destruct (serialize_ok d c) as [Ec|[Ec _]]; rewrite Ec in E; [|discriminate]. cbn [lbind] in E.
    apply IH in Ec. match type of E with lbind ?m _ = _ => assert (G : exists q, m = Some q) by (destruct m as [q'|]; [exists q'; reflexivity|discriminate]) end. apply IHc in G. lia.
  - destruct (serialize_lim d c) as [q|] eqn:Ec; [|discriminate]. apply IH in Ec. lia.
Qed.

(** ** Debug *)
Lemma debug_ok pr : forall d t, ok (levels t <= d)%nat (debug_lim d pr t) (trie_dbg pr t).
Proof.
  induction d as [|d IH]; intros t; [apply ok_none; pose proof (levels_pos t); lia|].
  destruct t as [|h|ch v|n c|n v]; cbn [debug_lim trie_dbg levels]; (apply ok_bind; [|repeat stp]); try apply ok_ret; try (repeat stp; fail).
  - apply ok_bind; [|repeat stp]. pose proof (levels_in ch) as L. set (m := fold_right Nat.max 0%nat (map levels ch)) in *. clearbody m.
    induction ch as [|c ch IHc]; [apply ok_ret|]. apply ok_bind.
    + eapply ok_weak; [|apply IH]. specialize (L c (or_introl eq_refl)). lia.
    + intros x _. apply ok_bind; [|repeat stp]. apply IHc. intros y I. apply L. right. exact I.
  - apply ok_bind; [apply ok_flat|]. intros k _. apply ok_bind; [|repeat stp]. eapply ok_weak; [|apply IH]. lia.
Qed.
Lemma debug_needs pr : forall d t x, debug_lim d pr t = Some (Ok x) -> (levels t <= d)%nat.
Proof.
  induction d as [|d IH]; intros t x E; [discriminate|].
  destruct t as [|h|ch v|n c|n v]; cbn [debug_lim levels] in *; try lia.
  - match type of E with lbind (lbind ?m _) _ = _ => assert (G : exists q, m = Some (Ok q)) by (destruct m as [[q|]|]; [exists q; reflexivity|discriminate..]) end. clear E.
    enough (fold_right Nat.max 0%nat (map levels ch) <= d)%nat by lia.
    induction ch as [|c ch IHc]; cbn [map fold_right]; [lia|]. destruct G as [q E]. destruct (debug_lim d pr c) as [[y|]|] eqn:Ec; [|discriminate..]. cbn [lbind] in E.
    apply IH in Ec. match type of E with lbind ?m _ = _ => assert (G : exists q, m = Some (Ok q)) by (destruct m as [[q'|]|]; [exists q'; reflexivity|discriminate..]) end. apply IHc in G. lia.
  - destruct (key_dbg pr n) as [k|]; [|discriminate]. cbn [flat lbind] in E. destruct (debug_lim d pr c) as [[y|]|] eqn:Ec; [|discriminate..]. apply IH in Ec. lia.
Qed.

(** ** Loading *)
(** The levels of what is read. *)
Fixpoint dlev (x : data) : nat :=
  match x with
  | DNewtype x => S (dlev x)
  | DTuple l => fold_right Nat.max 0%nat (map dlev l)
  | DStructVariant _ fs => fold_right Nat.max 0%nat (map (fun f => dlev (snd f)) fs)
  | _ => 0%nat
  end.
Lemma dlev_nibbles bs n r : get_nibbles bs = Some (n, r) -> dlev n = 0%nat.
Proof.
  unfold get_nibbles, next, get. destruct (get_int 8 bs) as [[c b1]|]; [|discriminate]. destruct (get_u512 b1) as [[p b2]|]; [|discriminate]. intros [= <- _]. reflexivity.
Qed.
Lemma dlev_bytes bs n r : get_bytes bs = Some (n, r) -> dlev n = 0%nat.
Proof. unfold get_bytes, next, get. destruct (get_sized bs) as [[c b1]|]; [|discriminate]. intros [= <- _]. reflexivity. Qed.
Lemma dlev_serialize t : dlev (serialize t) = levels t.
Proof.
  induction t as [|h|ch v IH|n c IH|n v] using node_ind'; cbn [serialize dlev levels map fold_right snd]; try reflexivity.
  - f_equal. rewrite map_map. change (dlev (ser_bytes v)) with 0%nat. rewrite (map_ext_Forall _ levels IH). lia.
  - rewrite IH. change (dlev (ser_nibbles n)) with 0%nat. lia.
Qed.

(** What is read with less room is what is read with more. *)
Definition agrees (l : lreader data) (c : reader data) : Prop := forall bs r, l bs = Some r -> c bs = r.
Lemma times_agree l c : agrees l c -> forall k bs r, lget_times k l bs = Some r -> get_times k c bs = r.
Proof.
  intros A. induction k as [|k IH]; intros bs r; cbn [lget_times get_times]; [intros [= <-]; reflexivity|]. unfold lnext, next.
  destruct (l bs) as [[[x b1]|]|] eqn:E; [| |discriminate]; apply A in E; rewrite E; [|intros [= <-]; reflexivity].
  destruct (lget_times k l b1) as [[[xs b2]|]|] eqn:E2; [| |discriminate]; apply IH in E2; rewrite E2; intros [= <-]; reflexivity.
Qed.
Lemma node_agree l c : agrees l c -> agrees (lget_node l) (get_node c).
Proof.
  intros A bs r. unfold lget_node, get_node, lnext, next, calm. destruct (get_int 4 bs) as [[v b1]|]; [|intros [= <-]; reflexivity].
  assert (T2 : match lget_times 16 l b1 with None => None | Some None => Some None
    | Some (Some (ch, b2)) => match get_bytes b2 with Some (v0, b3) => Some (get (DStructVariant v_Branch [(f_children, DTuple ch); (f_value, v0)]) b3) | None => Some None end end = Some r ->
    match get_times 16 c b1 with Some (ch, b2) => match get_bytes b2 with Some (v0, b3) => get (DStructVariant v_Branch [(f_children, DTuple ch); (f_value, v0)]) b3 | None => None end | None => None end = r).
  { destruct (lget_times 16 l b1) as [[[xs b2]|]|] eqn:E2; [| |discriminate]; apply (times_agree l c A) in E2; rewrite E2; [|intros [= <-]; reflexivity].
    destruct (get_bytes b2) as [[v0 b3]|]; intros [= <-]; reflexivity. }
  destruct v as [|[[[p|p|]|[p|p|]|]|[[p|p|]|[p|p|]|]|]]; try (intros [= <-]; reflexivity).
  - destruct (get_nibbles b1) as [[n b2]|]; [|intros [= <-]; reflexivity]. destruct (l b2) as [[[x b3]|]|] eqn:E; [| |discriminate]; apply A in E; rewrite E; intros [= <-]; reflexivity.
  - destruct (get_nibbles b1) as [[n b2]|]; [|intros [= <-]; reflexivity]. destruct (get_bytes b2) as [[v0 b3]|]; intros [= <-]; reflexivity.
  - intros H. apply T2. rewrite <- H. destruct (lget_times 16 l b1) as [[[xs b2]|]|]; [|reflexivity..]. destruct (get_bytes b2) as [[v0 b3]|]; reflexivity.
  - destruct (get_h256 b1) as [[h b2]|]; intros [= <-]; reflexivity.
Qed.
Lemma trie_agree : forall d f, (d <= f)%nat -> agrees (lget_trie d) (get_trie f).
Proof.
  induction d as [|d IH]; intros f L bs r; [discriminate|]. destruct f as [|f]; [lia|]. cbn [lget_trie get_trie]. unfold lnext, next, calm.
  destruct (lget_node (lget_trie d) bs) as [[[x b1]|]|] eqn:E; [| |discriminate]; apply (node_agree _ (get_trie f)) in E; try (apply IH; lia); rewrite E; intros [= <-]; reflexivity.
Qed.
(** The room is used. *)
Definition deep (d : nat) (l : lreader data) : Prop := forall bs x r, l bs = Some (Some (x, r)) -> (dlev x <= d)%nat.
Lemma times_deep d l : deep d l -> forall k bs xs r, lget_times k l bs = Some (Some (xs, r)) -> (fold_right Nat.max 0%nat (map dlev xs) <= d)%nat.
Proof.
  intros A. induction k as [|k IH]; intros bs xs r; cbn [lget_times]; [intros [= <- _]; cbn; lia|]. unfold lnext.
  destruct (l bs) as [[[x b1]|]|] eqn:E; [|discriminate..]. apply A in E. destruct (lget_times k l b1) as [[[ys b2]|]|] eqn:E2; [|discriminate..]. apply IH in E2.
  intros [= <- _]. cbn [map fold_right]. lia.
Qed.
(** The variants, one by one. *)
Lemma node_deep d l : deep d l -> deep d (lget_node l).
Proof.
  intros A bs x r. unfold lget_node, lnext, calm. destruct (get_int 4 bs) as [[v b1]|]; [|discriminate].
  destruct v as [|[[[p|p|]|[p|p|]|]|[[p|p|]|[p|p|]|]|]]; try discriminate.
  - intros [= <- _]. cbn. lia.
  - destruct (get_nibbles b1) as [[n b2]|] eqn:En; [|discriminate]. destruct (l b2) as [[[c b3]|]|] eqn:E; [|discriminate..]. apply A in E. apply dlev_nibbles in En.
    intros [= <- _]. cbn [dlev map fold_right snd]. lia.
  - destruct (get_nibbles b1) as [[n b2]|] eqn:En; [|discriminate]. destruct (get_bytes b2) as [[v0 b3]|] eqn:E; [|discriminate]. apply dlev_nibbles in En. apply dlev_bytes in E.
    intros [= <- _]. cbn [dlev map fold_right snd]. lia.
  - destruct (lget_times 16 l b1) as [[[xs b2]|]|] eqn:E; [|discriminate..]. apply (times_deep d l A) in E. destruct (get_bytes b2) as [[v0 b3]|] eqn:Ev; [|discriminate]. apply dlev_bytes in Ev.
    intros [= <- _]. cbn [dlev map fold_right snd]. lia.
  - destruct (get_h256 b1) as [[h b2]|]; [|discriminate]. intros [= <- _]. cbn. lia.
Qed.
Lemma trie_deep : forall d, deep d (lget_trie d).
Proof.
  induction d as [|d IH]; intros bs x r; [discriminate|]. cbn [lget_trie]. unfold lnext, calm. destruct (lget_node (lget_trie d) bs) as [[[y b1]|]|] eqn:E; [|discriminate..].
  apply (node_deep d _ IH) in E. intros [= <- _]. cbn [dlev]. lia.
Qed.
(** And it is enough. *)
Definition enough (d : nat) (l : lreader data) (c : reader data) : Prop := forall bs x r, c bs = Some (x, r) -> (dlev x <= d)%nat -> l bs = Some (Some (x, r)).
Lemma times_enough d l c : enough d l c -> forall k bs xs r, get_times k c bs = Some (xs, r) -> (fold_right Nat.max 0%nat (map dlev xs) <= d)%nat -> lget_times k l bs = Some (Some (xs, r)).
Proof.
  intros A. induction k as [|k IH]; intros bs xs r; cbn [lget_times get_times]; [intros [= <- <-] _; reflexivity|]. unfold lnext, next.
  destruct (c bs) as [[x b1]|] eqn:E; [|discriminate]. destruct (get_times k c b1) as [[ys b2]|] eqn:E2; [|discriminate]. intros [= <- <-]. cbn [map fold_right]. intros L.
  rewrite (A _ _ _ E) by lia. rewrite (IH _ _ _ E2) by lia. reflexivity.
Qed.
Lemma node_enough d l c : enough d l c -> enough d (lget_node l) (get_node c).
Proof.
  intros A bs x r. unfold lget_node, get_node, lnext, next, calm. destruct (get_int 4 bs) as [[v b1]|]; [|discriminate].
  destruct v as [|[[[p|p|]|[p|p|]|]|[[p|p|]|[p|p|]|]|]]; try discriminate.
  - intros [= <- <-] _. reflexivity.
  - destruct (get_nibbles b1) as [[n b2]|]; [|discriminate]. destruct (c b2) as [[y b3]|] eqn:E; [|discriminate]. intros [= <- <-]. cbn [dlev map fold_right snd]. intros L.
    rewrite (A _ _ _ E) by lia. reflexivity.
  - destruct (get_nibbles b1) as [[n b2]|]; [|discriminate]. destruct (get_bytes b2) as [[v0 b3]|]; [|discriminate]. intros [= <- <-] _. reflexivity.
  - destruct (get_times 16 c b1) as [[xs b2]|] eqn:E; [|discriminate]. destruct (get_bytes b2) as [[v0 b3]|] eqn:Ev; [|discriminate]. intros [= <- <-]. cbn [dlev map fold_right snd]. intros L.
    rewrite (times_enough d l c A _ _ _ _ E) by lia. rewrite Ev. reflexivity.
  - destruct (get_h256 b1) as [[h b2]|]; [|discriminate]. intros [= <- <-] _. reflexivity.
Qed.
Lemma trie_enough : forall d f, enough d (lget_trie d) (get_trie f).
Proof.
  intros d f. revert d. induction f as [|f IH]; intros d bs x r; [discriminate|]. cbn [get_trie]. unfold next. destruct (get_node (get_trie f) bs) as [[y b1]|] eqn:E; [|discriminate].
  intros [= <- <-]. cbn [dlev]. intros L. destruct d as [|d]; [lia|]. cbn [lget_trie]. unfold lnext. rewrite (node_enough d _ _ (IH d) _ _ _ E) by lia. reflexivity.
Qed.
(** Four bytes are read for every level, so the room needed is bounded by the length, whatever the bytes are. *)
Definition eats {A} (k : nat) (p : reader A) : Prop := forall bs a r, p bs = Some (a, r) -> (length r + k <= length bs)%nat.
Lemma take_eats k : eats (N.to_nat k) (take k).
Proof. intros bs a r. unfold take. destruct (N.ltb_spec (N.of_nat (length bs)) k); [discriminate|]. intros [= _ <-]. rewrite skipn_length. lia. Qed.
Lemma int_eats k : eats (N.to_nat k) (get_int k).
Proof. intros bs a r. unfold get_int, next, get. destruct (take k bs) as [[l b1]|] eqn:E; [|discriminate]. apply take_eats in E. intros [= _ <-]. exact E. Qed.
Lemma sized_eats : eats 0 get_sized.
Proof.
  intros bs a r. unfold get_sized, next. destruct (get_int 8 bs) as [[k b1]|] eqn:E; [|discriminate]. apply int_eats in E. intros T. apply take_eats in T. lia.
Qed.
Lemma bytes_eats : eats 0 get_bytes.
Proof. intros bs a r. unfold get_bytes, next, get. destruct (get_sized bs) as [[l b1]|] eqn:E; [|discriminate]. apply sized_eats in E. intros [= _ <-]. exact E. Qed.
Lemma h256_eats : eats 0 get_h256.
Proof.
  intros bs a r. unfold get_h256, next, get, bad. destruct (get_sized bs) as [[l b1]|] eqn:E; [|discriminate]. apply sized_eats in E. destruct (read_h256 _); [|discriminate]. intros [= _ <-]. exact E.
Qed.
Lemma nibbles_eats : eats 0 get_nibbles.
Proof.
  intros bs a r. unfold get_nibbles, get_u512, next, get, bad. destruct (get_int 8 bs) as [[k b1]|] eqn:E; [|discriminate]. apply int_eats in E.
  destruct (get_sized b1) as [[l b2]|] eqn:E2; [|discriminate]. apply sized_eats in E2. destruct (read_u512 _); [|discriminate]. intros [= _ <-]. lia.
Qed.
(** [l] leaves no more than it got, and exhausts the stack only on [k] bytes or more. *)
Definition paid (k : nat) (l : lreader data) : Prop :=
  (forall bs a r, l bs = Some (Some (a, r)) -> (length r <= length bs)%nat) /\ (forall bs, l bs = None -> (k <= length bs)%nat).
Lemma times_paid k l : paid k l -> forall m, (forall bs a r, lget_times m l bs = Some (Some (a, r)) -> (length r <= length bs)%nat) /\ (forall bs, lget_times m l bs = None -> (k <= length bs)%nat).
Proof.
  intros [P1 P2]. induction m as [|m [I1 I2]]; cbn [lget_times]; split; intros bs; unfold lnext, calm, get.
  - intros a r [= _ <-]. lia.
  - discriminate.
  - intros a r. destruct (l bs) as [[[x b1]|]|] eqn:E; [|discriminate..]. apply P1 in E. destruct (lget_times m l b1) as [[[xs b2]|]|] eqn:E2; [|discriminate..]. apply I1 in E2. intros [= _ <-]. lia.
  - destruct (l bs) as [[[x b1]|]|] eqn:E; [|discriminate|intros _; apply P2, E]. apply P1 in E. destruct (lget_times m l b1) as [[[xs b2]|]|] eqn:E2; [discriminate..|]. apply I2 in E2. lia.
Qed.
Lemma node_paid k l : paid k l -> paid (4 + k) (lget_node l).
Proof.
  intros P. destruct (times_paid k l P 16) as [T1 T2]. destruct P as [P1 P2]. split; intros bs; unfold lget_node; set (m := lget_times 16 l) in *; clearbody m; unfold lnext, calm, get, bad.
  - intros a r. destruct (get_int 4 bs) as [[v b1]|] eqn:E0; [|discriminate]. apply int_eats in E0.
    destruct v as [|[[[p|p|]|[p|p|]|]|[[p|p|]|[p|p|]|]|]]; try discriminate.
    + intros [= _ <-]. lia.
    + destruct (get_nibbles b1) as [[n b2]|] eqn:En; [|discriminate]. apply nibbles_eats in En. destruct (l b2) as [[[c b3]|]|] eqn:E; [|discriminate..]. apply P1 in E. intros [= _ <-]. lia.
    + destruct (get_nibbles b1) as [[n b2]|] eqn:En; [|discriminate]. apply nibbles_eats in En. destruct (get_bytes b2) as [[v0 b3]|] eqn:E; [|discriminate]. apply bytes_eats in E. intros [= _ <-]. lia.
    + destruct (m b1) as [[[xs b2]|]|] eqn:E; [|discriminate..]. apply T1 in E. destruct (get_bytes b2) as [[v0 b3]|] eqn:Ev; [|discriminate]. apply bytes_eats in Ev. intros [= _ <-]. lia.
    + destruct (get_h256 b1) as [[h b2]|] eqn:E; [|discriminate]. apply h256_eats in E. intros [= _ <-]. lia.
  - destruct (get_int 4 bs) as [[v b1]|] eqn:E0; [|discriminate]. apply int_eats in E0.
    destruct v as [|[[[p|p|]|[p|p|]|]|[[p|p|]|[p|p|]|]|]]; try discriminate.
    + destruct (get_nibbles b1) as [[n b2]|] eqn:En; [|discriminate]. apply nibbles_eats in En. destruct (l b2) as [[[c b3]|]|] eqn:E; [discriminate..|]. apply P2 in E. lia.
    + destruct (get_nibbles b1) as [[n b2]|] eqn:En; [|discriminate]. destruct (get_bytes b2) as [[v0 b3]|]; discriminate.
    + destruct (m b1) as [[[xs b2]|]|] eqn:E; [destruct (get_bytes b2) as [[v0 b3]|]; discriminate|discriminate|]. apply T2 in E. lia.
    + destruct (get_h256 b1) as [[h b2]|]; discriminate.
Qed.
Lemma trie_paid : forall d, paid (4 * d) (lget_trie d).
Proof.
  induction d as [|d IH].
  - split; intros bs; [discriminate|lia].
  - destruct (node_paid _ _ IH) as [N1 N2]. split; intros bs; cbn [lget_trie]; unfold lnext, calm, get; destruct (lget_node (lget_trie d) bs) as [[[y b1]|]|] eqn:E; try discriminate.
    + intros a r [= _ <-]. eapply N1, E.
    + apply N2 in E. intros _. lia.
Qed.

(** Together. *)
Lemma load_runs bs : runs (S (length bs / 4)) (fun d => load_lim d bs) (Ok (load_from bs)).
Proof.
  assert (A : forall d, load_lim d bs = Some (Ok (load_from bs)) \/ load_lim d bs = None).
  { intros d. unfold load_lim, load_from, lret. destruct (lget_trie d bs) as [r|] eqn:E; [|right; reflexivity]. left.
    destruct (Nat.le_gt_cases d (S (length bs))) as [L|L].
    - rewrite (trie_agree d _ L bs r E). destruct r as [[x b]|]; reflexivity.
    - destruct (lget_trie (S (length bs)) bs) as [r'|] eqn:E'; [|apply trie_paid in E'; lia].
      rewrite (trie_agree _ _ (le_n _) bs r' E'). apply (trie_agree d d (le_n _)) in E. apply (trie_agree _ d) in E'; [|lia]. rewrite E' in E. subst r'. destruct r as [[x b]|]; reflexivity. }
  intros d. destruct (A d) as [E|E]; [left; exact E|]. right. split; [exact E|]. unfold load_lim, lret in E. destruct (lget_trie d bs) as [[[x b]|]|] eqn:E'; try discriminate.
  apply trie_paid in E'. pose proof (Nat.div_mod_eq (length bs) 4). pose proof (Nat.mod_upper_bound (length bs) 4). lia.
Qed.
