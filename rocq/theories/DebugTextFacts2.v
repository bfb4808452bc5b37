(** The [Debug] output of keys and tries. *)
From Coq Require Import String.
From Verif Require Import Base Nibbles NibblesSpec NibblesFacts NibblesFacts2 NibblesFacts3 Trie TrieSpec TrieFacts Query Diff P_Query Text TextSpec TextFacts.
From Verif Require Import Rlp Hashing Subset Cache CacheFacts DebugText DebugTextSpec DebugTextFacts.
From Verif Require Import Trie TrieSpec Cache.
Open Scope N_scope.
Open Scope list_scope.

(** ** Keys *)
Lemma hex_be_bytes k : forall p, hex_encode false (be_bytes k p) = map (hex_char false) (digits (2 * k) p).
Proof.
  induction k as [|k IH]; intros p; [reflexivity|]. replace (2 * S k)%nat with (S (S (2 * k))) by lia. cbn [be_bytes digits].
  unfold hex_encode in *. rewrite flat_map_app, IH, !map_app. rewrite N.div_div by lia. change (16 * 16) with 256.
  rewrite <- app_assoc. f_equal. cbn [flat_map map app]. f_equal; f_equal; [|f_equal].
  - replace 256 with (16 * 16) by reflexivity. rewrite N.mod_mul_r by lia. rewrite N.mul_comm, N.add_comm, N.div_add_l by lia.
    rewrite (N.div_small (p mod 16)) by (apply N.mod_lt; lia). lia.
  - replace 256 with (16 * 16) by reflexivity. rewrite N.mod_mul_r by lia. rewrite N.mul_comm, N.mod_add by lia. apply N.mod_mod. lia.
Qed.
Lemma digits_skip1 c : forall p, skipn 1 (digits (S c) p) = digits c p.
Proof.
  induction c as [|c IH]; intros p; [reflexivity|]. change (digits (S (S c)) p) with (digits (S c) (p / 16) ++ [p mod 16]).
  rewrite skipn_app, IH. rewrite digits_length. reflexivity.
Qed.
Lemma key_text_digits pr n : short n -> key_text pr n = Ok (shown_key (nseq n)).
Proof.
  unfold short, key_text, as_hex_str, min_bytes. intros C. unfold uadd. destruct (N.ltb_spec (count n + 1) usize_range) as [L|L]; [|unfold usize_range in L; lia]. cbn [bind].
  destruct (N.ltb_spec 64 ((count n + 1) / 2)) as [B|B]; [exfalso; assert ((count n + 1) / 2 <= 129 / 2) by (apply N.div_le_mono; lia); change (129 / 2) with 64 in *; lia|].
  set (m := N.to_nat ((count n + 1) / 2)). assert (M : (m <= 64)%nat) by lia.
  assert (Eb : skipn (64 - m) (be_bytes 64 (packed n)) = be_bytes m (packed n)) by (replace 64%nat with ((64 - m) + m)%nat at 2 by lia; apply be_bytes_skipn).
  rewrite Eb, hex_be_bytes.
  unfold shown_key, nseq. change (txt "0x") with [48; 120]. f_equal. f_equal. rewrite <- (N2Nat.id (count n)) at 1. rewrite is_even_nat.
  set (c := N.to_nat (count n)). assert (Em : m = Nat.div2 (S c)).
  { unfold m, c. rewrite Nat.div2_div. rewrite <- (N2Nat.id (count n)) at 1. generalize (N.to_nat (count n)). intros k.
    replace (N.of_nat k + 1) with (N.of_nat (S k)) by lia. change 2 with (N.of_nat 2). rewrite <- Nat2N.inj_div, Nat2N.id. reflexivity. }
  destruct (Nat.even c) eqn:Ev.
  - apply Nat.even_spec in Ev as [k Ek]. replace (2 * m)%nat with c; [reflexivity|]. rewrite Em, Ek. change (S (2 * k)) with (S (2 * k)). rewrite Nat.div2_succ_double. reflexivity.
  - assert (Od : Nat.Odd c) by (apply Nat.odd_spec; unfold Nat.odd; rewrite Ev; reflexivity). destruct Od as [k Ek].
    replace (2 * m)%nat with (S c). { rewrite skipn_map, digits_skip1. reflexivity. }
    rewrite Em, Ek. replace (S (2 * k + 1)) with (2 * S k)%nat by lia. rewrite Nat.div2_double. reflexivity.
Qed.
Lemma key_text_long pr n : 128 < count n -> count n < 2 ^ 64 - 1 -> key_text pr n = Panic.
Proof.
  unfold key_text, as_hex_str, min_bytes, uadd. intros C D. destruct (N.ltb_spec (count n + 1) usize_range) as [L|L]; [|unfold usize_range in L; lia]. cbn [bind].
  destruct (N.ltb_spec 64 ((count n + 1) / 2)) as [B|B]; [reflexivity|exfalso].
  assert (130 / 2 <= (count n + 1) / 2) by (apply N.div_le_mono; lia). change (130 / 2) with 65 in *. lia.
Qed.

Definition dkey (l : list N) : dbg := DStruct (txt "Nibbles") [(txt "count", DWord (dec (N.of_nat (length l)))); (txt "packed", DText (shown_key l))].
Lemma key_dbg_ok pr n : short n -> key_dbg pr n = Ok (dkey (nseq n)).
Proof. intros S. unfold key_dbg. rewrite key_text_digits by exact S. cbn [bind]. unfold dkey, num_dbg. rewrite nseq_length, N2Nat.id. reflexivity. Qed.
Lemma key_dbg_long pr n : 128 < count n -> count n < 2 ^ 64 - 1 -> key_dbg pr n = Panic.
Proof. intros C D. unfold key_dbg. rewrite key_text_long by assumption. reflexivity. Qed.

(** ** Pieces *)
Lemma words_wc l : words l -> Forall (fun c => wc c = true) l.
Proof. intros F. eapply Forall_impl; [|exact F]. cbn. intros c C. unfold wc. rewrite C. reflexivity. Qed.
Ltac wl_tac := split; [discriminate|repeat (constructor; [reflexivity|]); constructor].
Lemma wl_dec n : wl (dec n).
Proof.
  split; [|apply words_wc, words_dec]. intros E. pose proof (undec_dec n) as U. rewrite E in U. cbn in U. subst n. discriminate E.
Qed.
Lemma dok_num n : dok (num_dbg n).
Proof. constructor. apply wl_dec. Qed.
Lemma dok_bytes v : dok (bytes_dbg v).
Proof. constructor. apply Forall_map, Forall_forall. intros b _. apply dok_num. Qed.
Lemma dok_hash h : bytesl h -> dok (h256_dbg h).
Proof.
  intros B. constructor. split; [discriminate|]. apply Forall_app. split; [repeat constructor|]. rewrite hex_text_eq. apply words_wc, words_bytes, B.
Qed.
Lemma dok_bool b : dok (bool_dbg b).
Proof. destruct b; constructor; wl_tac. Qed.
Lemma shown_key_free c l : word c = false -> hexl l -> Forall (fun x => x <> c) (shown_key l).
Proof. intros C H. exact (free_words c _ C (words_key l H)). Qed.
Lemma dok_key l : hexl l -> dok (dkey l).
Proof.
  intros H. constructor; [wl_tac|discriminate| |].
  - repeat (constructor; [wl_tac|]). constructor.
  - constructor; [apply (dok_num (N.of_nat (length l)))|]. constructor; [|constructor]. constructor. apply shown_key_free; [reflexivity|exact H].
Qed.
Lemma escape_none s : Forall (fun x => x <> 34) s -> Forall (fun x => x <> 92) s -> escape s = s.
Proof.
  induction 1 as [|c s C F IH]; intros G; [reflexivity|]. inversion G; subst. unfold escape in *. cbn [flat_map]. rewrite IH by assumption.
  destruct (N.eqb_spec c 34); [congruence|]. destruct (N.eqb_spec c 92); [congruence|]. reflexivity.
Qed.
Lemma escape_key l : hexl l -> escape (shown_key l) = shown_key l.
Proof. intros H. apply escape_none; apply shown_key_free; (reflexivity || exact H). Qed.
Lemma dkey_inj a b : hexl a -> hexl b -> dkey a = dkey b -> a = b.
Proof. intros A B E. unfold dkey in E. injection E as _ E. apply hex_map_inj; assumption. Qed.
Lemma num_inj a b : num_dbg a = num_dbg b -> a = b.
Proof. intros [= E]. apply dec_inj, E. Qed.
Lemma map_inj {A B} (f : A -> B) : (forall x y, f x = f y -> x = y) -> forall l m, map f l = map f m -> l = m.
Proof. intros I. induction l as [|x l IH]; intros [|y m] E; try discriminate; [reflexivity|]. injection E as E1 E2. f_equal; auto. Qed.
Lemma bytes_inj a b : bytes_dbg a = bytes_dbg b -> a = b.
Proof. intros [= E]. exact (map_inj num_dbg num_inj _ _ E). Qed.
Lemma hash_inj a b : bytesl a -> bytesl b -> h256_dbg a = h256_dbg b -> a = b.
Proof. intros A B [= E]. rewrite !hex_text_eq in E. apply shown_bytes_inj; assumption. Qed.

(** The texts of the pieces. *)
Lemma put_key l : hexl l -> put false (dkey l) = line_nibbles l.
Proof.
  intros H. unfold dkey. rewrite put_struct by discriminate. unfold commas, field_text. cbn [map join fst snd put]. rewrite escape_key by exact H.
  unfold line_nibbles, quoted_key. rewrite <- !app_assoc. reflexivity.
Qed.
Lemma put_bytes v : put false (bytes_dbg v) = line_bytes v.
Proof. unfold bytes_dbg. rewrite put_list, map_map. reflexivity. Qed.
Lemma put_hash p h : put p (h256_dbg h) = line_hash h.
Proof. cbn [h256_dbg put]. rewrite hex_text_eq. reflexivity. Qed.
Lemma tree_key i l : hexl l -> tree i (dkey l) = tall_nibbles i l.
Proof. intros H. unfold dkey. cbn [tree map fst snd]. rewrite escape_key by exact H. reflexivity. Qed.
Lemma tree_bytes i v : tree i (bytes_dbg v) = tall_bytes i v.
Proof. unfold bytes_dbg. cbn [tree]. rewrite map_map. reflexivity. Qed.
Lemma tree_hash i h : tree i (h256_dbg h) = line_hash h.
Proof. cbn [h256_dbg tree]. rewrite hex_text_eq. reflexivity. Qed.

(** ** Tries *)
Fixpoint dtrie (t : node) : dbg :=
  DTuple (txt "StandardTrie")
    [match t with
     | Empty => DWord (txt "Empty")
     | Hash h => DTuple (txt "Hash") [h256_dbg h]
     | Branch ch v => DStruct (txt "Branch") [(txt "children", DList (map dtrie ch)); (txt "value", bytes_dbg v)]
     | Extension n c => DStruct (txt "Extension") [(txt "nibbles", dkey (nseq n)); (txt "child", dtrie c)]
     | Leaf n v => DStruct (txt "Leaf") [(txt "nibbles", dkey (nseq n)); (txt "value", bytes_dbg v)]
     end].
Lemma Forall_flat {A B} (P : B -> Prop) (f : A -> list B) l : Forall P (flat_map f l) <-> Forall (fun x => Forall P (f x)) l.
Proof.
  induction l as [|x l IH]; cbn [flat_map]; [split; constructor|]. rewrite Forall_app, IH. split; [intros [X Y]; constructor; assumption|].
  intros H. inversion H; auto.
Qed.
Lemma byte_values_branch ch v : byte_values (Branch ch v) <-> Forall byte_values ch /\ bytesl v.
Proof.
  cbn [byte_values]. apply and_iff_compat_r. induction ch as [|c ch IH]; [split; constructor|]. rewrite IH. split; [intros [X Y]; constructor; assumption|].
  intros H. inversion H; auto.
Qed.

Lemma trie_dbg_ok pr t : Forall short (node_keys t) -> trie_dbg pr t = Ok (dtrie t).
Proof.
  induction t as [|h|ch v IH|n c IH|n v] using node_ind'; intros K; cbn [trie_dbg dtrie node_keys] in *; try reflexivity.
  - apply Forall_flat in K.
    match goal with |- context[bind (?f ch)] => assert (G : f ch = Ok (map dtrie ch)) end.
    { induction IH as [|c ch Hc F IHc]; [reflexivity|]. inversion K; subst. rewrite Hc by assumption. cbn [bind]. rewrite IHc by assumption. reflexivity. }
    rewrite G. reflexivity.
  - inversion K; subst. rewrite key_dbg_ok by assumption. cbn [bind]. rewrite IH by assumption. reflexivity.
  - inversion K; subst. rewrite key_dbg_ok by assumption. reflexivity.
Qed.
Lemma trie_dbg_long pr t : Forall (fun n => count n < 2 ^ 64 - 1) (node_keys t) -> (exists n, In n (node_keys t) /\ 128 < count n) -> trie_dbg pr t = Panic.
Proof.
  induction t as [|h|ch v IH|n c IH|n v] using node_ind'; intros K (m & I & L); cbn [trie_dbg node_keys] in *; try destruct I as [].
  - apply Forall_flat in K. apply in_flat_map in I as (c & Ic & I).
    match goal with |- context[bind (?f ch)] => assert (G : f ch = Panic) end.
    { induction IH as [|x ch Hx F IHc]; [destruct Ic|]. inversion K; subst.
      destruct (trie_dbg pr x) as [d|] eqn:E; [|reflexivity]. cbn [bind]. destruct Ic as [->|Ic]; [|rewrite IHc by assumption; reflexivity].
      discriminate Hx; eauto. }
    rewrite G. reflexivity.
  - inversion K; subst. rewrite key_dbg_long by assumption. reflexivity.
  - inversion K; subst. destruct (key_dbg pr n); [|reflexivity]. cbn [bind]. rewrite IH by eauto. reflexivity.
  - inversion K; subst. rewrite key_dbg_long by assumption. reflexivity.
  - destruct H.
Qed.

Lemma dok_field name l : wl name -> l <> [] -> Forall (fun x => wl (fst x) /\ dok (snd x)) l -> dok (DStruct name l).
Proof. intros W Ne F. constructor; [exact W|exact Ne| |]; (eapply Forall_impl; [|exact F]; cbn; tauto). Qed.
Lemma dok_node1 name l d : wl name -> wl l -> dok d -> dok (DStruct name [(l, d)]).
Proof. intros. apply dok_field; [assumption|discriminate|repeat constructor; (apply H0 || assumption)]. Qed.
Lemma dok_node2 name l d l' d' : wl name -> wl l -> dok d -> wl l' -> dok d' -> dok (DStruct name [(l, d); (l', d')]).
Proof. intros. apply dok_field; [assumption|discriminate|]. constructor; [split; assumption|]. constructor; [split; assumption|constructor]. Qed.
Lemma dok_one name d : wl name -> dok d -> dok (DTuple name [d]).
Proof. intros. constructor; [assumption|discriminate|]. constructor; [assumption|constructor]. Qed.
Lemma dok_list l : Forall dok l -> dok (DList l).
Proof. constructor. assumption. Qed.

Lemma dok_trie t : byte_values t -> dok (dtrie t).
Proof.
  induction t as [|h|ch v IH|n c IH|n v] using node_ind'; intros B; cbn [dtrie]; (apply dok_one; [wl_tac|]).
  - constructor. wl_tac.
  - apply dok_one; [wl_tac|apply dok_hash, B].
  - apply byte_values_branch in B as [B Bv]. apply dok_node2; [wl_tac|wl_tac| |wl_tac|apply dok_bytes]. apply dok_list, Forall_map.
    rewrite Forall_forall in *. intros c Ic. apply IH; auto.
  - apply dok_node2; [wl_tac|wl_tac|apply dok_key, nseq_hexl|wl_tac|apply IH, B].
  - apply dok_node2; [wl_tac|wl_tac|apply dok_key, nseq_hexl|wl_tac|apply dok_bytes].
Qed.

Lemma put_trie t : put false (dtrie t) = line_trie t.
Proof.
  induction t as [|h|ch v IH|n c IH|n v] using node_ind'; cbn [dtrie line_trie]; rewrite put_tuple by discriminate; unfold commas; cbn [map join].
  - reflexivity.
  - rewrite put_tuple by discriminate. unfold commas. cbn [map join]. rewrite put_hash. rewrite <- !app_assoc. reflexivity.
  - rewrite put_struct by discriminate. unfold commas, field_text. cbn [map join fst snd]. rewrite put_list, put_bytes.
    rewrite map_map.
    rewrite (map_ext_in (fun x => put false (dtrie x)) line_trie ch) by (rewrite Forall_forall in IH; exact IH). rewrite <- !app_assoc. reflexivity.
  - rewrite put_struct by discriminate. unfold commas, field_text. cbn [map join fst snd]. rewrite put_key by apply nseq_hexl. rewrite IH. rewrite <- !app_assoc. reflexivity.
  - rewrite put_struct by discriminate. unfold commas, field_text. cbn [map join fst snd]. rewrite put_key by apply nseq_hexl. rewrite put_bytes. rewrite <- !app_assoc. reflexivity.
Qed.
Lemma tree_trie t : forall i, tree i (dtrie t) = tall_trie i t.
Proof.
  induction t as [|h|ch v IH|n c IH|n v] using node_ind'; intros i.
  - reflexivity.
  - cbn [dtrie tree map tall_trie fst snd]. rewrite tree_hash. reflexivity.
  - change (dtrie (Branch ch v)) with (DTuple (txt "StandardTrie") [DStruct (txt "Branch") [(txt "children", DList (map dtrie ch)); (txt "value", bytes_dbg v)]]).
    cbn [tree map tall_trie fst snd]. rewrite tree_bytes, map_map. rewrite (map_ext_in (fun x => tree (S (S (S i))) (dtrie x)) (tall_trie (3 + i)) ch); [reflexivity|].
    rewrite Forall_forall in IH. intros c Ic. apply IH, Ic.
  - change (dtrie (Extension n c)) with (DTuple (txt "StandardTrie") [DStruct (txt "Extension") [(txt "nibbles", dkey (nseq n)); (txt "child", dtrie c)]]).
    cbn [tree map tall_trie fst snd]. rewrite IH. rewrite tree_key by apply nseq_hexl. reflexivity.
  - change (dtrie (Leaf n v)) with (DTuple (txt "StandardTrie") [DStruct (txt "Leaf") [(txt "nibbles", dkey (nseq n)); (txt "value", bytes_dbg v)]]).
    cbn [tree map tall_trie fst snd]. rewrite tree_bytes. rewrite tree_key by apply nseq_hexl. reflexivity.
Qed.

Lemma dtrie_trim t : dtrie (trim t) = dtrie t.
Proof.
  induction t as [|h|ch v IH|n c IH|n v] using node_ind'; cbn [dtrie trim]; try reflexivity.
  - rewrite map_map. do 2 f_equal. f_equal. f_equal. f_equal. f_equal. apply map_ext_in. rewrite Forall_forall in IH. exact IH.
  - rewrite nseq_enc by apply nseq_hexl. rewrite IH. reflexivity.
  - rewrite nseq_enc by apply nseq_hexl. reflexivity.
Qed.
Lemma dtrie_inj t : forall t', byte_values t -> byte_values t' -> dtrie t = dtrie t' -> trim t = trim t'.
Proof.
  induction t as [|h|ch v IH|n c IH|n v] using node_ind'; intros [|h'|ch' v'|n' c'|n' v'] B B' E; cbn [dtrie] in E; try discriminate E; cbn [trim].
  - reflexivity.
  - assert (h256_dbg h = h256_dbg h') as Eh by congruence. f_equal. apply hash_inj; assumption.
  - assert (DList (map dtrie ch) = DList (map dtrie ch') /\ bytes_dbg v = bytes_dbg v') as [Ec Ev] by (split; congruence). apply bytes_inj in Ev as ->.
    apply byte_values_branch in B as [B _], B' as [B' _]. f_equal. assert (Em : map dtrie ch = map dtrie ch') by congruence. clear E Ec. revert ch' B' Em.
    induction IH as [|c ch Hc F IHc]; intros [|c' ch'] B' Em; cbn [map] in *; try discriminate Em; [reflexivity|]. inversion B; inversion B'; subst.
    f_equal; [apply Hc; congruence|apply IHc; congruence].
  - assert (dkey (nseq n) = dkey (nseq n') /\ dtrie c = dtrie c') as [Ek Ec] by (split; congruence). cbn [byte_values] in *.
    apply dkey_inj in Ek; [|apply nseq_hexl|apply nseq_hexl]. rewrite Ek. f_equal. apply IH; assumption.
  - assert (dkey (nseq n) = dkey (nseq n') /\ bytes_dbg v = bytes_dbg v') as [Ek Ev] by (split; congruence). apply bytes_inj in Ev as ->.
    apply dkey_inj in Ek; [|apply nseq_hexl|apply nseq_hexl]. rewrite Ek. reflexivity.
Qed.
Lemma trim_exact t : Forall exact (node_keys t) -> trim t = t.
Proof.
  induction t as [|h|ch v IH|n c IH|n v] using node_ind'; intros K; cbn [trim node_keys] in *; try reflexivity.
  - f_equal. apply Forall_flat in K. rewrite <- (map_id ch) at 2. apply map_ext_in. rewrite Forall_forall in *. intros c Ic. apply IH; auto.
  - inversion K; subst. rewrite enc_nseq, IH by assumption. reflexivity.
  - inversion K; subst. rewrite enc_nseq by assumption. reflexivity.
Qed.

(** ** Caching tries *)
Definition dsight (x : sight) : dbg := match x with Locked => DWord (txt "<locked>") | Holds o => option_dbg h256_dbg o end.
Definition sight_ok (x : sight) : Prop := match x with Holds (Some h) => bytesl h | _ => True end.
Fixpoint dhandle (see : list nat -> N -> sight) (p : list nat) (t : hnode) : dbg :=
  DStruct (txt "HashedPartialTrie")
    [(txt "node",
      match t with
      | HEmpty _ => DWord (txt "Empty")
      | HHash _ h => DTuple (txt "Hash") [h256_dbg h]
      | HBranch _ ch v => DStruct (txt "Branch") [(txt "children", DList (numbered (fun i c => dhandle see (i :: p) c) O ch)); (txt "value", bytes_dbg v)]
      | HExtension _ n c => DStruct (txt "Extension") [(txt "nibbles", dkey (nseq n)); (txt "child", dhandle see (O :: p) c)]
      | HLeaf _ n v => DStruct (txt "Leaf") [(txt "nibbles", dkey (nseq n)); (txt "value", bytes_dbg v)]
      end);
     (txt "hash", DStruct (txt "RwLock") [(txt "data", dsight (see p (cell t)))])].

Section Numbered.
  Context {A : Type}.
  Lemma numbered_ext {B} (f g : nat -> A -> B) l : Forall (fun x => forall i, f i x = g i x) l -> forall i, numbered f i l = numbered g i l.
  Proof. induction 1 as [|x l H F IH]; intros i; cbn [numbered]; [reflexivity|]. rewrite H, IH. reflexivity. Qed.
  Lemma map_numbered {B C} (g : B -> C) (f : nat -> A -> B) l : forall i, map g (numbered f i l) = numbered (fun i x => g (f i x)) i l.
  Proof. induction l as [|x l IH]; intros i; cbn [numbered map]; [reflexivity|]. rewrite IH. reflexivity. Qed.
  Lemma numbered_Forall {B} (P : B -> Prop) (f : nat -> A -> B) l : Forall (fun x => forall i, P (f i x)) l -> forall i, Forall P (numbered f i l).
  Proof. induction 1 as [|x l H F IH]; intros i; cbn [numbered]; constructor; auto. Qed.
End Numbered.

Lemma exec_pbind {A B} (p : prog A) (f : A -> prog B) : forall s n,
  exec (pbind p f) s n = match exec p s n with Ok (a, s', n') => exec (f a) s' n' | Panic => Panic end.
Proof. induction p as [a| |c k IH|c o p IH|k IH]; intros s n; cbn [pbind exec]; auto. Qed.

Lemma exec_handle pr locked t : Forall short (node_keys (erase t)) ->
  forall p s n, exec (handle_dbg pr locked p t) s n = Ok (dhandle (seen locked s) p t, s, n).
Proof.
  intros K p s n.
  assert (L : forall q c x, exec (h <~ lock_dbg (locked q) c ;; Ret (DStruct (txt "HashedPartialTrie") [(txt "node", x); (txt "hash", h)])) s n =
     Ok (DStruct (txt "HashedPartialTrie") [(txt "node", x); (txt "hash", DStruct (txt "RwLock") [(txt "data", dsight (seen locked s q c))])], s, n)).
  { intros q c x. unfold lock_dbg, seen. destruct (locked q); reflexivity. }
  revert p K. induction t as [c|c h|c ch v IH|c k t IH|c k v] using hnode_ind'; intros p K; cbn [handle_dbg dhandle cell]; rewrite exec_pbind.
  - cbn [exec]. apply L.
  - cbn [exec]. apply L.
  - cbn [erase node_keys] in K. apply Forall_flat in K. rewrite exec_pbind.
    match goal with |- context[exec (?f O ch) s n] => assert (G : forall i, exec (f i ch) s n = Ok (numbered (fun i c => dhandle (seen locked s) (i :: p) c) i ch, s, n)) end.
    { induction IH as [|x ch Hx F IHc]; intros i; [reflexivity|]. inversion K; subst. rewrite exec_pbind, Hx by assumption. rewrite exec_pbind, IHc by assumption. reflexivity. }
    rewrite G. cbn [exec]. apply L.
  - cbn [erase node_keys] in K. inversion K; subst. rewrite exec_pbind, key_dbg_ok by assumption. cbn [lift exec]. rewrite exec_pbind, IH by assumption. cbn [exec]. apply L.
  - cbn [erase node_keys] in K. inversion K; subst. rewrite exec_pbind, key_dbg_ok by assumption. cbn [lift exec]. apply L.
Qed.
Lemma exec_handle_long pr locked t : Forall (fun n => count n < 2 ^ 64 - 1) (node_keys (erase t)) -> (exists n, In n (node_keys (erase t)) /\ 128 < count n) ->
  forall p s n, exec (handle_dbg pr locked p t) s n = Panic.
Proof.
  intros K H p s n. revert p s n K H.
  induction t as [c|c h|c ch v IH|c k t IH|c k v] using hnode_ind'; intros p s n K (m & I & L); cbn [handle_dbg erase node_keys] in *; rewrite exec_pbind; try destruct I as [].
  - apply Forall_flat in K. apply in_flat_map in I as (x & Ix & I). rewrite exec_pbind.
    match goal with |- context[exec (?f O ch) s n] => assert (G : forall i s n, exec (f i ch) s n = Panic) end.
    { clear s n. induction IH as [|y ch Hy F IHc]; [destruct Ix|]. intros i s n. inversion K as [|? ? Ky K']; subst. rewrite exec_pbind.
      destruct (exec _ s n) as [[[d s'] n']|] eqn:E; [|reflexivity]. rewrite exec_pbind. destruct Ix as [<-|Ix]; [|rewrite IHc by assumption; reflexivity].
      rewrite Hy in E; eauto; discriminate. }
    rewrite G. reflexivity.
  - inversion K; subst. rewrite exec_pbind, key_dbg_long by assumption. reflexivity.
  - inversion K; subst. rewrite exec_pbind. destruct (key_dbg pr k); [|reflexivity]. cbn [lift exec]. rewrite exec_pbind, IH by eauto. reflexivity.
  - inversion K; subst. rewrite exec_pbind, key_dbg_long by assumption. reflexivity.
  - destruct H.
Qed.

Lemma dok_sight x : sight_ok x -> dok (dsight x).
Proof. destruct x as [|[h|]]; cbn; intros H; [constructor; wl_tac|apply dok_one; [wl_tac|apply dok_hash, H]|constructor; wl_tac]. Qed.
Lemma dok_handle see t : (forall p c, sight_ok (see p c)) -> byte_values (erase t) -> forall p, dok (dhandle see p t).
Proof.
  intros S. induction t as [c|c h|c ch v IH|c k t IH|c k v] using hnode_ind'; intros B p; cbn [dhandle erase] in *;
    (apply dok_node2; [wl_tac|wl_tac| |wl_tac|apply dok_node1; [wl_tac|wl_tac|apply dok_sight, S]]).
  - constructor. wl_tac.
  - apply dok_one; [wl_tac|apply dok_hash, B].
  - apply byte_values_branch in B as [B Bv]. apply dok_node2; [wl_tac|wl_tac| |wl_tac|apply dok_bytes]. apply dok_list. apply numbered_Forall.
    rewrite Forall_forall in *. intros x Ix i. apply IH; auto. apply B, in_map, Ix.
  - apply dok_node2; [wl_tac|wl_tac|apply dok_key, nseq_hexl|wl_tac|apply IH, B].
  - apply dok_node2; [wl_tac|wl_tac|apply dok_key, nseq_hexl|wl_tac|apply dok_bytes].
Qed.
Lemma put_sight x : put false (dsight x) = line_sight x.
Proof. destruct x as [|[h|]]; try reflexivity. unfold dsight, option_dbg. rewrite put_tuple by discriminate. unfold commas. cbn [map join line_sight]. rewrite put_hash. rewrite <- ?app_assoc. reflexivity. Qed.
Lemma put_handle see t : forall p, put false (dhandle see p t) = line_handle see p t.
Proof.
  induction t as [c|c h|c ch v IH|c k t IH|c k v] using hnode_ind'; intros p; cbn [dhandle line_handle cell]; rewrite put_struct by discriminate; unfold commas, field_text; cbn [map join fst snd].
  - rewrite put_struct by discriminate. unfold commas, field_text; cbn [map join fst snd]. rewrite put_sight. rewrite <- !app_assoc. reflexivity.
  - rewrite put_struct by discriminate. unfold commas, field_text; cbn [map join fst snd]. rewrite put_sight. rewrite put_tuple by discriminate. unfold commas. cbn [map join]. rewrite put_hash.
    rewrite <- !app_assoc. reflexivity.
  - rewrite !put_struct by discriminate. unfold commas, field_text; cbn [map join fst snd]. rewrite put_sight, put_bytes, put_list. unfold commas. rewrite map_numbered.
    rewrite (numbered_ext (fun i x => put false (dhandle see (i :: p) x)) (fun i x => line_handle see (i :: p) x)) by (rewrite Forall_forall in *; intros x Ix i; apply IH, Ix).
    rewrite <- !app_assoc. reflexivity.
  - rewrite !put_struct by discriminate. unfold commas, field_text; cbn [map join fst snd]. rewrite put_sight, IH. rewrite put_key by apply nseq_hexl. rewrite <- !app_assoc. reflexivity.
  - rewrite !put_struct by discriminate. unfold commas, field_text; cbn [map join fst snd]. rewrite put_sight, put_bytes. rewrite put_key by apply nseq_hexl. rewrite <- !app_assoc. reflexivity.
Qed.
Lemma tree_sight i x : tree i (dsight x) = tall_sight i x.
Proof. destruct x as [|[h|]]; try reflexivity. unfold dsight, option_dbg. cbn [tree map tall_sight]. rewrite tree_hash. reflexivity. Qed.
Lemma tree_handle see t : forall i p, tree i (dhandle see p t) = tall_handle i see p t.
Proof.
  induction t as [c|c h|c ch v IH|c k t IH|c k v] using hnode_ind'; intros i p;
    match goal with |- tree _ (dhandle _ _ ?t) = _ => let d := eval cbn [dhandle] in (dhandle see p t) in change (dhandle see p t) with d end;
    cbn [tree map tall_handle fst snd cell]; rewrite tree_sight.
  - reflexivity.
  - rewrite tree_hash. reflexivity.
  - rewrite tree_bytes, map_numbered.
    rewrite (numbered_ext (fun j x => tree (S (S (S i))) (dhandle see (j :: p) x)) (fun j x => tall_handle (3 + i) see (j :: p) x)) by (rewrite Forall_forall in *; intros x Ix j; apply IH, Ix).
    reflexivity.
  - rewrite IH. rewrite tree_key by apply nseq_hexl. reflexivity.
  - rewrite tree_bytes. rewrite tree_key by apply nseq_hexl. reflexivity.
Qed.

Lemma dsight_inj x y : sight_ok x -> sight_ok y -> dsight x = dsight y -> x = y.
Proof.
  destruct x as [|[h|]], y as [|[h'|]]; intros X Y E; try discriminate E; try reflexivity. cbn in X, Y. do 2 f_equal. apply hash_inj; try assumption.
  unfold dsight, option_dbg in E. congruence.
Qed.
Lemma dhandle_inj see see' t : (forall p c, sight_ok (see p c)) -> (forall p c, sight_ok (see' p c)) -> forall t' p p', byte_values (erase t) -> byte_values (erase t') ->
  dhandle see p t = dhandle see' p' t' -> trim (erase t) = trim (erase t') /\ sights see p t = sights see' p' t'.
Proof.
  intros S S'. induction t as [c|c h|c ch v IH|c k t IH|c k v] using hnode_ind'; intros t' p p' B B' E;
    destruct t' as [c'|c' h'|c' ch' v'|c' k' t'|c' k' v']; cbn [dhandle cell] in E; try discriminate E; cbn [erase trim sights cell] in *.
  - split; [reflexivity|]. f_equal. apply dsight_inj; auto. congruence.
  - assert (h256_dbg h = h256_dbg h') as Eh by congruence. apply hash_inj in Eh; [|assumption|assumption]. subst h'. split; [reflexivity|]. f_equal. apply dsight_inj; auto. congruence.
  - assert (Ev : bytes_dbg v = bytes_dbg v') by congruence. apply bytes_inj in Ev as ->.
    assert (Es : see p c = see' p' c') by (apply dsight_inj; auto; congruence). rewrite Es.
    apply byte_values_branch in B as [B _], B' as [B' _].
    assert (En : numbered (fun i c => dhandle see (i :: p) c) 0 ch = numbered (fun i c => dhandle see' (i :: p') c) 0 ch') by congruence.
    assert (G : map trim (map erase ch) = map trim (map erase ch') /\
                numbered (fun i c => sights see (i :: p) c) 0 ch = numbered (fun i c => sights see' (i :: p') c) 0 ch').
    { clear E Es. revert En. generalize 0%nat. revert ch' B'. induction IH as [|x ch Hx F IHc]; intros [|x' ch'] B' i En; cbn [numbered map] in *; try discriminate En; [auto|].
      inversion B; inversion B'; subst. injection En as E1 E2. destruct (Hx x' (i :: p) (i :: p') ltac:(assumption) ltac:(assumption) E1) as [-> ->].
      destruct (IHc ltac:(assumption) ch' ltac:(assumption) (Datatypes.S i) E2) as [-> ->]. auto. }
    destruct G as [-> ->]. auto.
  - assert (Ek : dkey (nseq k) = dkey (nseq k')) by congruence. apply dkey_inj in Ek; [|apply nseq_hexl|apply nseq_hexl]. rewrite Ek.
    assert (Es : see p c = see' p' c') by (apply dsight_inj; auto; congruence). rewrite Es.
    destruct (IH t' (O :: p) (O :: p') B B') as [-> ->]; [congruence|auto].
  - assert (Ek : dkey (nseq k) = dkey (nseq k')) by congruence. apply dkey_inj in Ek; [|apply nseq_hexl|apply nseq_hexl]. rewrite Ek.
    assert (Ev : bytes_dbg v = bytes_dbg v') by congruence. apply bytes_inj in Ev as ->.
    split; [reflexivity|]. f_equal. apply dsight_inj; auto. congruence.
Qed.

(** ** Caching tries, with other threads *)
Fixpoint reads {A} (R : N -> option (list N) -> Prop) (C : N -> Prop) (p : prog A) (Q : A -> Prop) {struct p} : Prop :=
  match p with
  | Ret a => Q a
  | Read c k => C c /\ forall o, R c o -> reads R C (k o) Q
  | _ => False
  end.
Section Reads.
  Context (R : N -> option (list N) -> Prop) (C : N -> Prop).
  Lemma reads_bind {A B} (p : prog A) (f : A -> prog B) Q : reads R C p (fun a => reads R C (f a) Q) -> reads R C (pbind p f) Q.
  Proof. induction p as [a| |c k IH|c o p IH|k IH]; cbn [reads pbind]; auto. intros [Cc H]. auto. Qed.
  Lemma reads_weaken {A} (p : prog A) (Q Q' : A -> Prop) : (forall a, Q a -> Q' a) -> reads R C p Q -> reads R C p Q'.
  Proof. intros W. induction p as [a| |c k IH|c o p IH|k IH]; cbn [reads]; auto. intros [Cc H]. auto. Qed.
  Lemma reads_may {A} (p : prog A) Q a : reads R C p Q -> may R p a -> Q a.
  Proof. intros H M. induction M; cbn [reads] in H; try contradiction; [exact H|]. apply IHM, H. assumption. Qed.
End Reads.
Lemma reads_wp {A} (p : prog A) V b Q : reads (allowed V) (fun c => c < b) p Q -> wp p b V (fun a _ _ => Q a).
Proof. induction p as [a| |c k IH|c o p IH|k IH]; cbn [reads wp]; auto; [|intros []|intros []]. intros [Cc H]. auto. Qed.

Definition under (p q : list nat) : bool := if list_eq_dec Nat.eq_dec (skipn (length q - length p) q) p then true else false.
Lemma under_app r p : under p (r ++ p) = true.
Proof. unfold under. rewrite app_length, Nat.add_sub, skipn_app, skipn_all, Nat.sub_diag. cbn [skipn app]. destruct (list_eq_dec Nat.eq_dec p p); congruence. Qed.
Lemma under_true p q : under p q = true -> exists r, q = r ++ p.
Proof.
  unfold under. destruct (list_eq_dec Nat.eq_dec _ p) as [E|]; [|discriminate]. intros _. exists (firstn (length q - length p) q). rewrite <- E at 2.
  symmetry. apply firstn_skipn.
Qed.
Lemma under_other i j r p : i <> j -> under (i :: p) (r ++ j :: p) = false.
Proof.
  intros D. destruct (under (i :: p) (r ++ j :: p)) eqn:E; [|reflexivity]. apply under_true in E as [r' E]. exfalso. apply D.
  change (j :: p) with ([j] ++ p) in E. change (i :: p) with ([i] ++ p) in E. rewrite !app_assoc in E. apply app_inv_tail in E.
  apply app_inj_tail in E as [_ E]. congruence.
Qed.
Lemma under_self i p : under (i :: p) p = false.
Proof.
  destruct (under (i :: p) p) eqn:E; [|reflexivity]. apply under_true in E as [r' E]. apply (f_equal (@length nat)) in E. rewrite app_length in E.
  cbn [length] in E. lia.
Qed.

Lemma dhandle_local see see' t : forall p, (forall r c, see (r ++ p) c = see' (r ++ p) c) -> dhandle see p t = dhandle see' p t.
Proof.
  assert (L : forall p i, (forall r c, see (r ++ p) c = see' (r ++ p) c) -> forall r c, see (r ++ i :: p) c = see' (r ++ i :: p) c).
  { intros p i H r c. specialize (H (r ++ [i]) c). rewrite <- !app_assoc in H. exact H. }
  induction t as [c|c h|c ch v IH|c k t IH|c k v] using hnode_ind'; intros p H; cbn [dhandle]; pose proof (H [] c) as Hc; cbn [app cell] in *; rewrite Hc; try reflexivity.
  - do 5 f_equal. rewrite (numbered_ext _ (fun i c => dhandle see' (i :: p) c)); [reflexivity|]. rewrite Forall_forall in *. intros x Ix i. apply IH; [exact Ix|]. apply L, H.
  - rewrite IH; [reflexivity|]. apply L, H.
Qed.
Lemma nodes_cells (C : N -> Prop) t : Forall (fun x => C (cell x)) (nodes t) ->
  C (cell t) /\ match t with HBranch _ ch _ => Forall (fun c => Forall (fun x => C (cell x)) (nodes c)) ch | HExtension _ _ c => Forall (fun x => C (cell x)) (nodes c) | _ => True end.
Proof. rewrite nodes_below. intros H. inversion H; subst. split; [assumption|]. destruct t; auto; cbn [below nodes tl] in *. apply Forall_flat_map. assumption. Qed.
Definition dinner (see : list nat -> N -> sight) (p : list nat) (t : hnode) : dbg :=
  match t with
  | HEmpty _ => DWord (txt "Empty")
  | HHash _ h => DTuple (txt "Hash") [h256_dbg h]
  | HBranch _ ch v => DStruct (txt "Branch") [(txt "children", DList (numbered (fun i c => dhandle see (i :: p) c) O ch)); (txt "value", bytes_dbg v)]
  | HExtension _ n c => DStruct (txt "Extension") [(txt "nibbles", dkey (nseq n)); (txt "child", dhandle see (O :: p) c)]
  | HLeaf _ n v => DStruct (txt "Leaf") [(txt "nibbles", dkey (nseq n)); (txt "value", bytes_dbg v)]
  end.
Definition douter (x : dbg) (y : sight) : dbg := DStruct (txt "HashedPartialTrie") [(txt "node", x); (txt "hash", DStruct (txt "RwLock") [(txt "data", dsight y)])].
Lemma dhandle_eq see p t : dhandle see p t = douter (dinner see p t) (see p (cell t)).
Proof. destruct t; reflexivity. Qed.
Lemma dinner_local see see' p t : (forall r i c, see (r ++ i :: p) c = see' (r ++ i :: p) c) -> dinner see p t = dinner see' p t.
Proof.
  intros H. destruct t; cbn [dinner]; try reflexivity.
  - rewrite (numbered_ext _ (fun i c => dhandle see' (i :: p) c)); [reflexivity|]. apply Forall_forall. intros x _ i. apply dhandle_local. intros r. apply H.
  - rewrite (dhandle_local see see'); [reflexivity|]. intros r. apply H.
Qed.
Lemma reads_lock (R : N -> option (list N) -> Prop) (C : N -> Prop) (locked : list nat -> bool) p t x : C (cell t) -> (exists see, (forall q c, sight_in R c (see q c)) /\ x = dinner see p t) ->
  reads R C (h <~ lock_dbg (locked p) (cell t) ;; Ret (DStruct (txt "HashedPartialTrie") [(txt "node", x); (txt "hash", h)]))
    (fun d => exists see, (forall q c, sight_in R c (see q c)) /\ d = dhandle see p t).
Proof.
  intros Ct (see & S & E).
  assert (G : forall y, sight_in R (cell t) y -> exists see, (forall q c, sight_in R c (see q c)) /\ douter x y = dhandle see p t).
  { intros y Y. exists (fun q c => if list_eq_dec Nat.eq_dec q p then (if c =? cell t then y else Locked) else see q c). split.
    - intros q c. destruct (list_eq_dec Nat.eq_dec q p); [|apply S]. destruct (N.eqb_spec c (cell t)) as [->|]; [exact Y|exact Logic.I].
    - rewrite dhandle_eq. destruct (list_eq_dec Nat.eq_dec p p); [|congruence]. rewrite N.eqb_refl. f_equal. subst x. apply dinner_local.
      intros r i c. destruct (list_eq_dec Nat.eq_dec (r ++ i :: p) p) as [E'|]; [|reflexivity].
      apply (f_equal (@length nat)) in E'. rewrite app_length in E'. cbn [length] in E'. lia. }
  unfold lock_dbg. destruct (locked p); cbn [pbind reads].
  - apply (G Locked), Logic.I.
  - split; [exact Ct|]. intros o Ro. apply (G (Holds o)), Ro.
Qed.
Lemma reads_handle (R : N -> option (list N) -> Prop) (C : N -> Prop) pr locked t : Forall short (node_keys (erase t)) -> Forall (fun x => C (cell x)) (nodes t) -> forall p,
  reads R C (handle_dbg pr locked p t) (fun d => exists see, (forall q c, sight_in R c (see q c)) /\ d = dhandle see p t).
Proof.
  assert (Z : forall q c, sight_in R c ((fun (_ : list nat) (_ : N) => Locked) q c)) by (intros q c; exact Logic.I).
  induction t as [c|c h|c ch v IH|c k t IH|c k v] using hnode_ind'; intros K H p; cbn [handle_dbg]; apply nodes_cells in H as [Hc H]; apply reads_bind; cbn [erase node_keys] in K.
  - cbn [reads]. apply (reads_lock R C locked p (HEmpty c)); [exact Hc|]. exists (fun _ _ => Locked). auto.
  - cbn [reads]. apply (reads_lock R C locked p (HHash c h)); [exact Hc|]. exists (fun _ _ => Locked). auto.
  - apply reads_bind.
    match goal with |- reads R C (?f O ch) _ => set (go := f) end.
    assert (G : forall i, reads R C (go i ch) (fun ds => exists see, (forall q c, sight_in R c (see q c)) /\ ds = numbered (fun i c => dhandle see (i :: p) c) i ch)).
    { apply Forall_flat in K. clear Hc. induction IH as [|x ch Hx F IHc]; intros i; cbn [go].
      - exists (fun _ _ => Locked). auto.
      - inversion K; inversion H; subst. apply reads_bind. eapply reads_weaken; [|apply Hx; assumption]. intros d (see1 & S1 & E1).
        apply reads_bind. eapply reads_weaken; [|apply IHc; assumption]. intros ds (see2 & S2 & E2). cbn [reads].
        exists (fun q c => if under (i :: p) q then see1 q c else see2 q c). split; [intros q c'; destruct (under (i :: p) q); auto|].
        cbn [numbered]. subst d ds. apply (f_equal2 cons).
        + apply dhandle_local. intros r c'. rewrite under_app. reflexivity.
        + clear. assert (L : forall j, (i < j)%nat -> numbered (fun i c => dhandle see2 (i :: p) c) j ch =
              numbered (fun i0 c => dhandle (fun q c0 => if under (i :: p) q then see1 q c0 else see2 q c0) (i0 :: p) c) j ch); [|apply L; lia].
          induction ch as [|y ch IH]; intros j Lt; cbn [numbered]; [reflexivity|]. apply (f_equal2 cons); [|apply IH; lia].
          apply dhandle_local. intros r c'. rewrite under_other by lia. reflexivity. }
    eapply reads_weaken; [|apply G]. intros ds (see & S & E). cbn [reads]. apply (reads_lock R C locked p (HBranch c ch v)); [exact Hc|]. exists see. subst ds. auto.
  - inversion K; subst. rewrite key_dbg_ok by assumption. cbn [lift pbind]. apply reads_bind. eapply reads_weaken; [|apply IH; assumption].
    intros d (see & S & E). cbn [reads]. apply (reads_lock R C locked p (HExtension c k t)); [exact Hc|]. exists see. subst d. auto.
  - inversion K; subst. rewrite key_dbg_ok by assumption. cbn [lift pbind reads]. apply (reads_lock R C locked p (HLeaf c k v)); [exact Hc|]. exists (fun _ _ => Locked). auto.
Qed.

(** The same contents and the same sights give the same output. *)
Lemma dhandle_same see see' t : forall t' p p' r r', trim (erase t) = trim (erase t') -> sights see p t ++ r = sights see' p' t' ++ r' ->
  dhandle see p t = dhandle see' p' t' /\ r = r'.
Proof.
  assert (Ke : forall a b, enc (nseq a) = enc (nseq b) -> nseq a = nseq b).
  { intros a b E. apply (f_equal nseq) in E. rewrite !nseq_enc in E by apply nseq_hexl. exact E. }
  induction t as [c|c h|c ch v IH|c k t IH|c k v] using hnode_ind'; intros t' p p' r r' E S;
    destruct t' as [c'|c' h'|c' ch' v'|c' k' t'|c' k' v']; cbn [erase trim] in E; try discriminate E; cbn [dhandle sights cell app] in *; injection S as S1 S; rewrite S1.
  - auto.
  - injection E as ->. auto.
  - injection E as E ->.
    assert (G : forall i, concat (numbered (fun i c => sights see (i :: p) c) i ch) ++ r = concat (numbered (fun i c => sights see' (i :: p') c) i ch') ++ r' ->
                numbered (fun i c => dhandle see (i :: p) c) i ch = numbered (fun i c => dhandle see' (i :: p') c) i ch' /\ r = r').
    { clear S S1. revert ch' E. induction IH as [|x ch Hx F IHc]; intros [|x' ch'] E i S; cbn [map numbered concat app] in *; try discriminate E; [auto|].
      injection E as E1 E2. rewrite <- !app_assoc in S. destruct (Hx x' _ _ _ _ E1 S) as [-> S']. destruct (IHc ch' E2 _ S') as [-> R]. auto. }
    destruct (G O S) as [-> ->]. auto.
  - assert (enc (nseq k) = enc (nseq k') /\ trim (erase t) = trim (erase t')) as [Ek E'] by (split; congruence).
    apply Ke in Ek. rewrite Ek. destruct (IH t' _ _ _ _ E' S) as [-> ->]. auto.
  - assert (enc (nseq k) = enc (nseq k') /\ v = v') as [Ek ->] by (split; congruence). apply Ke in Ek. rewrite Ek. auto.
Qed.

(** Only the cells of the nodes matter. *)
Lemma dhandle_cells see see' t : (forall x q, In x (nodes t) -> see q (cell x) = see' q (cell x)) -> forall p, dhandle see p t = dhandle see' p t.
Proof.
  induction t as [c|c h|c ch v IH|c k t IH|c k v] using hnode_ind'; intros H p; cbn [dhandle];
    match goal with |- context[see p (cell ?t)] => rewrite (H t p) by (left; reflexivity) end; try reflexivity.
  - rewrite (numbered_ext _ (fun i c => dhandle see' (i :: p) c)); [reflexivity|]. rewrite Forall_forall in *. intros x Ix i. apply IH; [exact Ix|].
    intros y q Iy. apply H. right. cbn [nodes]. apply in_flat_map. eauto.
  - rewrite IH; [reflexivity|]. intros y q Iy. apply H. right. exact Iy.
Qed.
Definition readable (x : sight) : sight := match x with Holds (Some h) => if forallb (fun b => b <? 256) h then x else Locked | _ => x end.
Lemma readable_ok x : sight_ok (readable x).
Proof.
  destruct x as [|[h|]]; cbn; auto. destruct (forallb _ h) eqn:E; cbn; [|exact Logic.I]. rewrite forallb_forall in E. apply Forall_forall. intros b Ib. apply N.ltb_lt, E, Ib.
Qed.
Lemma readable_same x : sight_ok x -> readable x = x.
Proof.
  destruct x as [|[h|]]; cbn; auto. intros H. replace (forallb _ h) with true; [reflexivity|]. symmetry. apply forallb_forall. intros b Ib.
  unfold bytesl in H. rewrite Forall_forall in H. apply N.ltb_lt, H, Ib.
Qed.
Lemma tall_handle_put see t : byte_values (erase t) -> (forall x q, In x (nodes t) -> sight_ok (see q (cell x))) -> put true (dhandle see [] t) = tall_handle 0 see [] t.
Proof.
  intros B H. assert (E : forall p, dhandle see p t = dhandle (fun q c => readable (see q c)) p t).
  { apply dhandle_cells. intros x q Ix. symmetry. apply readable_same, H, Ix. }
  rewrite <- tree_handle, E. apply put_tall, dok_handle; [intros; apply readable_ok|exact B].
Qed.
Lemma byte_values_nodes t x : byte_values (erase t) -> In x (nodes t) -> byte_values (erase x).
Proof.
  induction t as [c|c h|c ch v IH|c k t IH|c k v] using hnode_ind'; intros B [<-|Ix]; try exact B; try destruct Ix.
  - apply in_flat_map in Ix as (y & Iy & Ix). rewrite Forall_forall in IH. apply byte_values_branch in B as [B _]. rewrite Forall_forall in B. apply (IH y Iy); [|exact Ix].
    apply B, in_map, Iy.
  - apply IH; assumption.
Qed.
