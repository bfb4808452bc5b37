(** Facts about the binary format. *)
From Coq Require Import String.
From Verif Require Import Base Nibbles NibblesSpec NibblesFacts NibblesFacts2 Trie TrieFacts TrieInsert Cache CacheFacts CacheSpec Serde P_Serde Json JsonSpec JsonFacts JsonFacts2 Text JsonText JsonTextSpec JsonTextFacts JsonTextFacts2 JsonTextFacts3 Binary BinarySpec.
Open Scope N_scope.
Open Scope list_scope.

(** ** Numbers *)
Lemma le_length k : forall n, length (le_bytes k n) = k.
Proof. induction k; intros n; cbn; auto. Qed.
Lemma le_back k : forall n, n < 256 ^ N.of_nat k -> le_value (le_bytes k n) = n.
Proof.
  induction k as [|k IH]; intros n H; [change (256 ^ N.of_nat 0) with 1 in H; cbn; lia|]. cbn [le_bytes le_value fold_right]. fold (le_value (le_bytes k (n / 256))).
  rewrite IH; [pose proof (N.div_mod n 256 ltac:(lia)); lia|]. rewrite Nat2N.inj_succ, N.pow_succ_r' in H. apply N.div_lt_upper_bound; lia.
Qed.
Lemma le_value_lt l : u8s l -> le_value l < 256 ^ N.of_nat (length l).
Proof.
  induction 1 as [|b l B _ IH]; [reflexivity|]. cbn [le_value fold_right length]. fold (le_value l). rewrite Nat2N.inj_succ, N.pow_succ_r'. lia.
Qed.
Lemma little_eq k : forall n, little k n = le_bytes k n.
Proof.
  unfold little. induction k as [|k IH]; intros n; [reflexivity|]. cbn [le_bytes seq map]. change (256 ^ N.of_nat 0) with 1. rewrite N.div_1_r. f_equal.
  rewrite <- IH, <- seq_shift, map_map. apply map_ext. intros i. rewrite Nat2N.inj_succ, N.pow_succ_r', N.div_div by (try apply N.pow_nonzero; lia). reflexivity.
Qed.

(** ** Readers *)
(** [q], given at least as much fuel as there are bytes in [u], reads [u] as [x] whatever comes after it. *)
Definition rd {A} (q : nat -> reader A) (x : A) (u : list N) : Prop := forall f rest, (length u <= f)%nat -> q f (u ++ rest) = Some (x, rest).
(** What [p] reads is read by [q]. *)
Definition steps {A} (p : reader A) (q : nat -> reader A) : Prop := forall bs x rest, p bs = Some (x, rest) -> exists u, bs = u ++ rest /\ rd q x u.
Lemma rd_get {A} (x : A) : rd (fun _ => get x) x [].
Proof. intros f rest _. reflexivity. Qed.
Lemma rd_next {A B} (q : nat -> reader A) (h : nat -> A -> reader B) a b u w :
  rd q a u -> rd (fun f => h f a) b w -> rd (fun f => next (q f) (h f)) b (u ++ w).
Proof. intros Q H f rest L. rewrite app_length in L. unfold next. rewrite <- app_assoc, Q by lia. apply H. lia. Qed.
Lemma steps_get {A} (x : A) : steps (get x) (fun _ => get x).
Proof. intros bs y rest [= <- <-]. exists []. split; [reflexivity|apply rd_get]. Qed.
Lemma steps_bad {A} q : steps (@bad A) q.
Proof. intros bs y rest E. discriminate. Qed.
Lemma steps_next {A B} (p : reader A) q (g : A -> reader B) (h : nat -> A -> reader B) :
  steps p q -> (forall a, steps (g a) (fun f => h f a)) -> steps (next p g) (fun f => next (q f) (h f)).
Proof.
  intros P G bs x rest E. unfold next in E. destruct (p bs) as [[a bs']|] eqn:E1; [|discriminate]. apply P in E1 as (u & -> & Q). apply G in E as (w & -> & H).
  exists (u ++ w). split; [apply app_assoc|]. eapply rd_next; eauto.
Qed.
Lemma take_reads l : rd (fun _ => take (N.of_nat (length l))) l l.
Proof.
  intros f rest _. unfold take. rewrite app_length. destruct (N.ltb_spec (N.of_nat (length l + length rest)) (N.of_nat (length l))); [lia|]. rewrite Nat2N.id.
  rewrite firstn_app, skipn_app, Nat.sub_diag, firstn_all, skipn_all. cbn. rewrite app_nil_r. reflexivity.
Qed.
Lemma take_reads' k l : k = N.of_nat (length l) -> rd (fun _ => take k) l l.
Proof. intros ->. apply take_reads. Qed.
Lemma take_inv k bs x rest : take k bs = Some (x, rest) -> bs = x ++ rest /\ N.of_nat (length x) = k.
Proof.
  unfold take. destruct (N.ltb_spec (N.of_nat (length bs)) k) as [|H]; [discriminate|]. intros [= <- <-]. split; [symmetry; apply firstn_skipn|]. rewrite firstn_length. lia.
Qed.
Lemma take_steps k : steps (take k) (fun _ => take k).
Proof. intros bs x rest E. apply take_inv in E as [-> L]. exists x. split; [reflexivity|]. apply take_reads'. auto. Qed.
Lemma int_steps k : steps (get_int k) (fun _ => get_int k).
Proof. apply steps_next with (h := fun _ l => get (le_value l)); [apply take_steps|]. intros l. apply steps_get. Qed.
Lemma int_reads k n : n < 256 ^ N.of_nat k -> rd (fun _ => get_int (N.of_nat k)) n (le_bytes k n).
Proof.
  intros H. rewrite <- (app_nil_r (le_bytes k n)). apply rd_next with (h := fun _ l => get (le_value l)) (a := le_bytes k n); [apply take_reads'; rewrite le_length; reflexivity|].
  rewrite le_back by exact H. apply rd_get.
Qed.
Lemma sized_steps : steps get_sized (fun _ => get_sized).
Proof. apply steps_next with (h := fun _ k => take k); [apply int_steps|apply take_steps]. Qed.
Lemma sized_reads l : vec l -> rd (fun _ => get_sized) l (sized_bytes l).
Proof. intros V. apply rd_next with (h := fun _ k => take k) (a := N.of_nat (length l)); [apply (int_reads 8); exact V|apply take_reads]. Qed.
Ltac steps_go := repeat first
  [ apply steps_get | apply steps_bad | apply int_steps | apply sized_steps
  | match goal with |- steps (next _ ?g) (fun _ => next _ ?g) => apply steps_next with (h := fun _ => g); [|intros] end
  | match goal with |- steps (match ?o with _ => _ end) _ => destruct o end ].
Lemma bytes_steps : steps get_bytes (fun _ => get_bytes). Proof. unfold get_bytes. steps_go. Qed.
Lemma u512_steps : steps get_u512 (fun _ => get_u512). Proof. unfold get_u512. steps_go. Qed.
Lemma h256_steps : steps get_h256 (fun _ => get_h256). Proof. unfold get_h256. steps_go. Qed.
Lemma nibbles_steps : steps get_nibbles (fun _ => get_nibbles).
Proof. unfold get_nibbles. steps_go. apply u512_steps. Qed.
Lemma cached_steps : steps get_cached (fun _ => get_cached).
Proof. unfold get_cached. steps_go. apply h256_steps. Qed.
Lemma times_steps {A} k (p : reader A) q : steps p q -> steps (get_times k p) (fun f => get_times k (q f)).
Proof.
  intros P. induction k as [|k IH]; cbn [get_times]; [apply steps_get|].
  apply steps_next with (q := q) (h := fun f x => xs <- get_times k (q f) >> get (x :: xs)); [exact P|]. intros x.
  apply steps_next with (q := fun f => get_times k (q f)) (h := fun f xs => get (x :: xs)); [exact IH|]. intros xs. apply steps_get.
Qed.
Definition node_body (child : reader data) (v : N) : reader data :=
  match v with
  | 0 => get (DUnitVariant v_Empty)
  | 1 => h <- get_h256 >> get (DNewtypeVariant v_Hash h)
  | 2 => ch <- get_times 16 child >> v <- get_bytes >> get (DStructVariant v_Branch [(f_children, DTuple ch); (f_value, v)])
  | 3 => n <- get_nibbles >> c <- child >> get (DStructVariant v_Extension [(f_nibbles, n); (f_child, c)])
  | 4 => n <- get_nibbles >> v <- get_bytes >> get (DStructVariant v_Leaf [(f_nibbles, n); (f_value, v)])
  | _ => bad
  end.
Lemma body_steps p q v : steps p q -> steps (node_body p v) (fun f => node_body (q f) v).
Proof.
  intros P. destruct v as [|[[v|v|]|[[v|v|]|v|]|]]; cbn [node_body]; try apply steps_bad; try apply steps_get.
  - apply steps_next with (q := fun _ => get_nibbles) (h := fun f n => c <- q f >> get (DStructVariant v_Extension [(f_nibbles, n); (f_child, c)])); [apply nibbles_steps|].
    intros n. apply steps_next with (q := q) (h := fun f c => get (DStructVariant v_Extension [(f_nibbles, n); (f_child, c)])); [exact P|]. intros c. apply steps_get.
  - steps_go; [apply nibbles_steps|apply bytes_steps].
  - apply steps_next with (q := fun f => get_times 16 (q f)) (h := fun f ch => v <- get_bytes >> get (DStructVariant v_Branch [(f_children, DTuple ch); (f_value, v)])); [apply times_steps, P|].
    intros ch. steps_go. apply bytes_steps.
  - steps_go. apply h256_steps.
Qed.
(** A node takes four bytes for its variant, so its children need less fuel. *)
Lemma node_steps p q : steps p q -> forall bs x rest, get_node p bs = Some (x, rest) -> exists u, bs = u ++ rest /\ (4 <= length u)%nat /\
  forall f rest', (length u <= 4 + f)%nat -> get_node (q f) (u ++ rest') = Some (x, rest').
Proof.
  intros P bs x rest E. unfold get_node, next at 1 in E. destruct (get_int 4 bs) as [[v bs']|] eqn:E1; [|discriminate]. fold (node_body p v) in E. pose proof E1 as E1'.
  apply int_steps in E1 as (u & -> & Q). apply (body_steps p q v P) in E as (w & -> & H).
  assert (L : length u = 4%nat).
  { unfold get_int, next, get in E1'. destruct (take 4 _) as [[l r]|] eqn:T; [|discriminate]. injection E1' as _ ->. apply take_inv in T as [T L]. apply app_inv_tail in T. subst. lia. }
  exists (u ++ w). rewrite !app_length. split; [apply app_assoc|]. split; [lia|]. intros f rest' F. unfold get_node, next at 1. rewrite <- app_assoc.
  rewrite (Q (length u)) by lia. apply H. lia.
Qed.
Lemma trie_steps f : steps (get_trie f) get_trie.
Proof.
  induction f as [|f IH]; cbn [get_trie]; [apply steps_bad|]. intros bs x rest E. unfold next at 1 in E. destruct (get_node (get_trie f) bs) as [[d bs']|] eqn:E1; [|discriminate].
  injection E as <- <-. apply (node_steps _ _ IH) in E1 as (u & -> & L & H). exists u. split; [reflexivity|]. intros [|f'] rest' F; [lia|]. cbn [get_trie]. unfold next at 1.
  rewrite H by lia. reflexivity.
Qed.
Lemma handle_steps f : steps (get_handle f) get_handle.
Proof.
  induction f as [|f IH]; cbn [get_handle]; [apply steps_bad|]. intros bs x rest E. unfold next at 1 in E. destruct (get_node (get_handle f) bs) as [[d bs']|] eqn:E1; [|discriminate].
  apply (node_steps _ _ IH) in E1 as (u & -> & L & H).
  assert (C : steps (h <- get_cached >> get (DStruct [(f_node, d); (f_hash, h)])) (fun _ => h <- get_cached >> get (DStruct [(f_node, d); (f_hash, h)]))) by (steps_go; apply cached_steps).
  apply C in E as (w & -> & Hw). exists (u ++ w). split; [apply app_assoc|]. intros [|f'] rest' F; rewrite app_length in F; [lia|]. cbn [get_handle]. unfold next at 1.
  rewrite <- app_assoc, H by lia. apply (Hw (length w)). lia.
Qed.

(** ** What is written is read *)
Lemma hex_read l : hexl l -> string_doc (hex_string l) = JHex l.
Proof. apply JsonTextFacts3.hex_string. Qed.
Lemma hex_vec l : (length l <= 128)%nat -> vec (hex_string l).
Proof. intros H. unfold vec, hex_string. rewrite app_length, map_length. change (length (txt "0x")) with 2%nat. change (2 ^ 64) with 18446744073709551616. lia. Qed.
Lemma u512_digits_ok n : n < 2 ^ 512 -> hexl (u512_digits n) /\ (length (u512_digits n) <= 128)%nat.
Proof.
  intros H. unfold u512_digits. assert (A : hexl (byte_digits (be_bytes 64 n))) by (apply byte_digits_hexl, be_bytes_bytesl).
  assert (L : (length (drop_zeros (byte_digits (be_bytes 64 n))) <= 128)%nat) by (eapply Nat.le_trans; [apply drop_length|]; rewrite byte_digits_length, be_bytes_length; lia).
  apply drop_hexl in A. destruct (drop_zeros _); [|split; assumption]. split; [repeat constructor|cbn; lia].
Qed.
Lemma u512_reads n : n < 2 ^ 512 -> rd (fun _ => get_u512) (DU512 n) (binary (DU512 n)).
Proof.
  intros H. destruct (u512_digits_ok n H) as [A L]. cbn [binary]. rewrite <- (app_nil_r (sized_bytes _)).
  apply rd_next with (h := fun _ s => match read_u512 (string_doc s) with Some n => get (DU512 n) | None => bad end) (a := hex_string (u512_digits n)); [apply sized_reads, hex_vec, L|].
  rewrite hex_read, read_written_u512 by assumption. apply rd_get.
Qed.
Lemma h256_reads h : h256 h -> rd (fun _ => get_h256) (DH256 h) (binary (DH256 h)).
Proof.
  intros H. pose proof H as [L U]. cbn [binary]. rewrite <- (app_nil_r (sized_bytes _)).
  apply rd_next with (h := fun _ s => match read_h256 (string_doc s) with Some n => get (DH256 n) | None => bad end) (a := hex_string (byte_digits h)).
  - apply sized_reads, hex_vec. rewrite byte_digits_length, L. lia.
  - rewrite hex_read, read_written_h256 by (try apply byte_digits_hexl; assumption). apply rd_get.
Qed.
Lemma binary_bytes v : u8s v -> binary (ser_bytes v) = sized_bytes v.
Proof.
  intros U. unfold ser_bytes, sized_bytes. cbn [binary]. rewrite map_length. f_equal. induction U as [|b v B _ IH]; [reflexivity|]. cbn [map flat_map binary le_bytes app]. rewrite N.mod_small by exact B.
  f_equal. exact IH.
Qed.
Lemma bytes_reads v : u8s v -> vec v -> rd (fun _ => get_bytes) (ser_bytes v) (binary (ser_bytes v)).
Proof.
  intros U V. rewrite binary_bytes by exact U. rewrite <- (app_nil_r (sized_bytes v)). apply rd_next with (h := fun _ v => get (ser_bytes v)) (a := v); [apply sized_reads, V|apply rd_get].
Qed.
Lemma nibbles_reads n : key_type n -> rd (fun _ => get_nibbles) (ser_nibbles n) (save_key n).
Proof.
  intros [C P]. unfold save_key, ser_nibbles. cbn [binary flat_map snd]. fold (binary (DU512 (packed n))). unfold get_nibbles.
  apply rd_next with (q := fun _ => get_int 8) (h := fun _ c => p <- get_u512 >> get (DStruct [(f_count, DU64 c); (f_packed, p)])) (a := count n); [apply (int_reads 8); exact C|].
  apply rd_next with (q := fun _ => get_u512) (h := fun _ p => get (DStruct [(f_count, DU64 (count n)); (f_packed, p)])) (a := DU512 (packed n)); [apply u512_reads, P|apply rd_get].
Qed.
Lemma cached_reads o : (forall h, o = Some h -> h256 h) -> rd (fun _ => get_cached) (ser_cached o) (binary (ser_cached o)).
Proof.
  intros H. unfold get_cached. destruct o as [h|]; cbn [ser_cached binary].
  - change (1 :: sized_bytes (hex_string (byte_digits h))) with (le_bytes 1 1 ++ binary (DH256 h)).
    apply rd_next with (q := fun _ => get_int 1) (h := fun _ o => match o with 0 => get DNone | 1 => h <- get_h256 >> get (DSome h) | _ => bad end) (a := 1); [apply (int_reads 1); reflexivity|].
    rewrite <- (app_nil_r (binary (DH256 h))). apply rd_next with (q := fun _ => get_h256) (h := fun _ h => get (DSome h)) (a := DH256 h); [apply h256_reads; auto|apply rd_get].
  - change [0] with (le_bytes 1 0 ++ []).
    apply rd_next with (q := fun _ => get_int 1) (h := fun _ o => match o with 0 => get DNone | 1 => h <- get_h256 >> get (DSome h) | _ => bad end) (a := 0); [apply (int_reads 1); reflexivity|apply rd_get].
Qed.
Lemma times_reads {A} (q : nat -> reader A) (g : A -> list N) l : Forall (fun x => rd q x (g x)) l -> rd (fun f => get_times (length l) (q f)) l (flat_map g l).
Proof.
  induction 1 as [|x l X _ IH]; cbn [length get_times flat_map]; [apply rd_get|].
  apply rd_next with (q := q) (h := fun f x => xs <- get_times (length l) (q f) >> get (x :: xs)) (a := x); [exact X|]. rewrite <- (app_nil_r (flat_map g l)).
  apply rd_next with (q := fun f => get_times (length l) (q f)) (h := fun f xs => get (x :: xs)) (a := l); [exact IH|apply rd_get].
Qed.
(** A node, from readers of its parts. *)
Lemma node_reads q v x w : v < 5 -> rd (fun f => node_body (q f) v) x w -> forall f rest, (length (le_bytes 4 v ++ w) <= 4 + f)%nat -> get_node (q f) ((le_bytes 4 v ++ w) ++ rest) = Some (x, rest).
Proof.
  intros V R f rest L. rewrite app_length, le_length in L. unfold get_node, next at 1. rewrite <- app_assoc. change 4 with (N.of_nat 4) at 1.
  rewrite (int_reads 4 v) with (f := 4%nat) by (rewrite ?le_length; try lia; change (256 ^ N.of_nat 4) with 4294967296; lia). apply R. lia.
Qed.
Lemma hash_body q h : h256 h -> rd (fun f => node_body (q f) 1) (DNewtypeVariant v_Hash (DH256 h)) (binary (DH256 h)).
Proof.
  intros H. cbn [node_body]. rewrite <- (app_nil_r (binary _)). apply rd_next with (q := fun _ => get_h256) (h := fun _ h => get (DNewtypeVariant v_Hash h)) (a := DH256 h); [apply h256_reads, H|apply rd_get].
Qed.
Lemma branch_body q ds v : length ds = 16%nat -> Forall (fun d => rd q d (binary d)) ds -> u8s v -> vec v ->
  rd (fun f => node_body (q f) 2) (DStructVariant v_Branch [(f_children, DTuple ds); (f_value, ser_bytes v)]) (flat_map binary ds ++ binary (ser_bytes v)).
Proof.
  intros L F U V. cbn [node_body]. apply rd_next with (q := fun f => get_times 16 (q f)) (a := ds) (h := fun _ ch => v <- get_bytes >> get (DStructVariant v_Branch [(f_children, DTuple ch); (f_value, v)])).
  - rewrite <- L. apply times_reads, F.
  - rewrite <- (app_nil_r (binary _)). apply rd_next with (q := fun f => get_bytes) (h := fun _ v => get (DStructVariant v_Branch [(f_children, DTuple ds); (f_value, v)])) (a := ser_bytes v);
      [apply bytes_reads; assumption|apply rd_get].
Qed.
Lemma extension_body q n d : key_type n -> rd q d (binary d) ->
  rd (fun f => node_body (q f) 3) (DStructVariant v_Extension [(f_nibbles, ser_nibbles n); (f_child, d)]) (save_key n ++ binary d).
Proof.
  intros T R. cbn [node_body]. apply rd_next with (q := fun f => get_nibbles) (a := ser_nibbles n) (h := fun f n => c <- q f >> get (DStructVariant v_Extension [(f_nibbles, n); (f_child, c)]));
    [apply nibbles_reads, T|]. rewrite <- (app_nil_r (binary _)).
  apply rd_next with (q := q) (h := fun _ v => get (DStructVariant v_Extension [(f_nibbles, ser_nibbles n); (f_child, v)])) (a := d); [exact R|apply rd_get].
Qed.
Lemma leaf_body q n v : key_type n -> u8s v -> vec v ->
  rd (fun f => node_body (q f) 4) (DStructVariant v_Leaf [(f_nibbles, ser_nibbles n); (f_value, ser_bytes v)]) (save_key n ++ binary (ser_bytes v)).
Proof.
  intros T U V. cbn [node_body]. apply rd_next with (q := fun f => get_nibbles) (a := ser_nibbles n) (h := fun f n => v <- get_bytes >> get (DStructVariant v_Leaf [(f_nibbles, n); (f_value, v)]));
    [apply nibbles_reads, T|]. rewrite <- (app_nil_r (binary _)).
  apply rd_next with (q := fun _ => get_bytes) (h := fun _ v => get (DStructVariant v_Leaf [(f_nibbles, ser_nibbles n); (f_value, v)])) (a := ser_bytes v); [apply bytes_reads; assumption|apply rd_get].
Qed.
Lemma trie_intro v x w : v < 5 -> rd (fun f => node_body (get_trie f) v) x w -> rd get_trie (DNewtype x) (le_bytes 4 v ++ w).
Proof.
  intros V R [|f] rest L; [rewrite app_length, le_length in L; lia|]. cbn [get_trie]. unfold next at 1. rewrite (node_reads get_trie v x w V R) by lia. reflexivity.
Qed.
Lemma handle_intro v x w o : v < 5 -> rd (fun f => node_body (get_handle f) v) x w -> (forall h, o = Some h -> h256 h) ->
  rd get_handle (DStruct [(f_node, x); (f_hash, ser_cached o)]) ((le_bytes 4 v ++ w) ++ binary (ser_cached o)).
Proof.
  intros V R O [|f] rest L; [rewrite !app_length, le_length in L; lia|]. cbn [get_handle]. unfold next at 1. rewrite app_length in L.
  rewrite <- (app_assoc (le_bytes 4 v ++ w)), (node_reads get_handle v x w V R) by lia. unfold next. rewrite (cached_reads o O) with (f := length (binary (ser_cached o))) by lia. reflexivity.
Qed.
Lemma vecs_in ch c : fold_right and True (map vecs ch) -> In c ch -> vecs c.
Proof. induction ch as [|x ch IH]; [intros _ []|]. cbn. intros [A B] [->|I]; auto. Qed.
Theorem trie_reads t : node_type t -> vecs t -> rd get_trie (serialize t) (save t).
Proof.
  unfold save. induction t as [|h|ch v IH|n c IH|n v] using node_ind'; intros T V; cbn [serialize binary position flat_map snd]; rewrite ?app_nil_r.
  - rewrite <- (app_nil_r (le_bytes 4 0)). apply trie_intro; [lia|]. apply rd_get.
  - inversion T; subst. apply trie_intro; [lia|]. apply hash_body. assumption.
  - inversion T as [| |? ? L C U| |]; subst. destruct V as [V1 V2]. rewrite Forall_forall in IH. apply trie_intro; [lia|]. apply branch_body; [rewrite map_length; exact L| |exact U|exact V1].
    apply Forall_forall. intros d D. apply in_map_iff in D as (c & <- & I). apply IH; auto. eapply vecs_in; eauto.
  - inversion T; subst. apply trie_intro; [lia|]. apply extension_body; auto.
  - inversion T; subst. apply trie_intro; [lia|]. apply leaf_body; auto.
Qed.
Theorem handle_reads s t : node_type (erase t) -> vecs (erase t) -> (forall u h, In u (nodes t) -> s (cell u) = Some h -> h256 h) -> rd get_handle (saved s t) (binary (saved s t)).
Proof.
  induction t as [c|c h|c ch v IH|c k t IH|c k v] using hnode_ind'; intros T V H; cbn [saved binary position flat_map snd]; rewrite ?app_nil_r; cbn [erase] in T, V; inversion T; subst.
  - rewrite <- (app_nil_r (le_bytes 4 0)). apply handle_intro; [lia|apply rd_get|]. intros h E. apply (H _ _ (or_introl eq_refl) E).
  - apply handle_intro; [lia|apply hash_body; assumption|]. intros h' E. apply (H _ _ (or_introl eq_refl) E).
  - destruct V as [V1 V2]. rewrite Forall_forall in IH. apply handle_intro; [lia| |intros h' E; apply (H _ _ (or_introl eq_refl) E)].
    apply branch_body; [rewrite map_length in *; assumption| |assumption|exact V1].
    apply Forall_forall. intros d D. apply in_map_iff in D as (t & <- & I). apply IH; auto.
    + apply H3. apply in_map. exact I.
    + eapply vecs_in; [exact V2|]. apply in_map. exact I.
    + intros u h U. apply H. right. apply in_flat_map. eauto.
  - apply handle_intro; [lia| |intros h' E; apply (H _ _ (or_introl eq_refl) E)]. apply extension_body; auto. apply IH; auto. intros u h U. apply H. right. exact U.
  - apply handle_intro; [lia|apply leaf_body; auto|]. intros h' E. apply (H _ _ (or_introl eq_refl) E).
Qed.
