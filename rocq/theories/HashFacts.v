(** Hashing of tries: the model computes the RLP of the node structure. *)
From Verif Require Import Base Nibbles NibblesSpec NibblesFacts NibblesFacts2 NibblesFacts3 Trie TrieSpec TrieFacts Rlp YellowPaper Hashing HashSpec.
Open Scope N_scope.

Lemma lenN_app {A} (a b : list A) : lenN (a ++ b) = lenN a + lenN b.
Proof. unfold lenN. rewrite app_length. lia. Qed.
Lemma len_app {A} (a b : list A) : len (a ++ b) = len a + len b.
Proof. unfold len. rewrite app_length. lia. Qed.
Lemma len_cons {A} (x : A) l : len (x :: l) = 1 + len l.
Proof. unfold len. cbn [length]. lia. Qed.
Lemma len_nil {A} : len (@nil A) = 0.
Proof. reflexivity. Qed.

Lemma be_bytes_length n : forall x, length (be_bytes n x) = n.
Proof. induction n as [|n IH]; intros x; cbn [be_bytes]; [reflexivity|]. rewrite app_length, IH. cbn. lia. Qed.
Lemma be_bytes_bytesl n : forall x, bytesl (be_bytes n x).
Proof.
  induction n as [|n IH]; intros x; cbn [be_bytes]; [constructor|]. apply Forall_app. split; [apply IH|].
  constructor; [|constructor]. apply N.mod_lt. lia.
Qed.

Lemma size_bytes s : s < 4294967296 -> (N.size s + 7) / 8 <= 4.
Proof.
  intros H. assert (N.size s <= 32).
  { destruct (N.eq_dec s 0) as [->|N0]; [cbn; lia|]. rewrite N.size_log2 by lia.
    assert (N.log2 s < 32) by (apply N.log2_lt_pow2; [lia|exact H]). lia. }
  transitivity ((32 + 7) / 8); [apply N.div_le_mono; lia|vm_compute; discriminate].
Qed.

Lemma insert_size_BE s : s < 4294967296 -> insert_size s = BE s.
Proof. intros H. unfold insert_size, BE. rewrite N.mod_small by exact H. reflexivity. Qed.

Lemma BE_length s : s < 4294967296 -> len (BE s) <= 4.
Proof. intros H. unfold BE, len. rewrite be_bytes_length. pose proof (size_bytes s H). lia. Qed.

Lemma encode_value_Rb b : len b < 4294967296 -> encode_value b = Rb b.
Proof.
  intros H. unfold encode_value, Rb. change (@lenN N) with (@len N). destruct b as [|x [|y b]].
  - reflexivity.
  - cbn [len length]. change (N.of_nat 1) with 1. cbn [N.eqb N.leb N.compare Pos.compare Pos.compare_cont].
    destruct (x <? 128); reflexivity.
  - remember (x :: y :: b) as l eqn:E. assert (len l =? 0 = false) as -> by (subst l; rewrite !len_cons; apply N.eqb_neq; lia).
    replace (len l <? 56) with (len l <=? 55) by (destruct (N.leb_spec (len l) 55), (N.ltb_spec (len l) 56); reflexivity || lia).
    rewrite insert_size_BE by exact H.
    destruct (len l <=? 55); [|reflexivity]. subst l. reflexivity.
Qed.

Lemma list_payload_Rl p : len p < 4294967296 -> list_payload p = Rl p.
Proof.
  intros H. unfold list_payload, Rl. change (@lenN N) with (@len N).
  replace (len p <? 56) with (len p <=? 55) by (destruct (N.leb_spec (len p) 55), (N.ltb_spec (len p) 56); reflexivity || lia).
  rewrite insert_size_BE by exact H. reflexivity.
Qed.

Lemma Rb_len b : len b < 4294967296 -> len b <= len (Rb b) <= len b + 5.
Proof.
  intros H. unfold Rb. pose proof (BE_length _ H) as B. destruct b as [|x [|y b]].
  - cbn. lia.
  - destruct (x <? 128); cbn; lia.
  - remember (x :: y :: b) as l. destruct (len l <? 56); rewrite ?len_cons, ?len_app; lia.
Qed.

Lemma Rb_32 b : len b = 32 -> len (Rb b) = 33.
Proof.
  intros H. unfold Rb. destruct b as [|x [|y b]]; [discriminate|discriminate|].
  rewrite H. cbn [N.ltb N.compare Pos.compare Pos.compare_cont]. rewrite len_cons, H. reflexivity.
Qed.

Section H.
Variable keccak : list N -> list N.
Hypothesis K32 : hash32 keccak.
Notation item := (item keccak).
Notation ref := (ref keccak).
Notation shorten := (shorten keccak).

Lemma item_branch ch v : item (Branch ch v) = RList (map ref ch ++ [RStr v]).
Proof. reflexivity. Qed.
Lemma item_ext n c : item (Extension n c) = RList [RStr (yp_hp (nseq n) false); ref c].
Proof. reflexivity. Qed.

Lemma fits_branch ch v : fits (Branch ch v) <-> bytesl v /\ len v < 2147483648 /\ Forall fits ch.
Proof.
  cbn [fits]. assert (G : (fix all l := match l with [] => True | c :: l' => fits c /\ all l' end) ch <-> Forall fits ch).
  { induction ch as [|c ch IH]; [split; auto|]. rewrite IH. split; [intros [A B]; auto|intros A; inversion A; auto]. }
  rewrite G. tauto.
Qed.
Lemma fits_child ch v d : fits (Branch ch v) -> fits (child ch d).
Proof. intros F. apply fits_branch in F. apply Forall_child; [exact I|tauto]. Qed.

(** A node takes at most 33 bytes inside its parent. *)
Lemma ref_len t : fits t -> len (RLP (ref t)) <= 33.
Proof.
  intros F. unfold ref. assert (G : len (RLP (shorten (item t))) <= 33).
  { unfold HashSpec.shorten. destruct (N.ltb_spec (len (RLP (item t))) 32); [lia|].
    cbn [RLP]. rewrite Rb_32 by apply K32. lia. }
  destruct t; try exact G. cbn [RLP]. rewrite Rb_32 by apply F. lia.
Qed.

Lemma hp_len l t : (length l <= 127)%nat -> len (yp_hp l t) <= 64.
Proof.
  intros H. assert (P : forall n l, (length l <= n)%nat -> (2 * length (pair_up l) <= length l)%nat).
  { induction n as [|n IH]; intros [|a [|b r]] Hn; cbn [pair_up length] in *; try lia. specialize (IH r ltac:(lia)). lia. }
  unfold yp_hp, len. destruct (Nat.even (length l)).
  - cbn [length]. specialize (P _ l (le_n _)). lia.
  - destruct l as [|x r]; [cbn; lia|]. cbn [length] in *. specialize (P _ r (le_n _)). lia.
Qed.

(** The node as the code returns it. *)
Definition enode (t : node) : encoded_node :=
  match t with Hash h => Hashed h | _ => hash_bytes_if_large_enough keccak (RLP (item t)) end.

Lemma append_ref s t : fits t ->
  append_to_stream s (enode t) = append_raw s (RLP (ref t)).
Proof.
  intros F. unfold enode, ref, hash_bytes_if_large_enough, HashSpec.shorten. change (@lenN N) with (@len N).
  assert (G : append_to_stream s (if 32 <=? len (RLP (item t)) then Hashed (keccak (RLP (item t))) else Raw (RLP (item t))) =
    append_raw s (RLP (if len (RLP (item t)) <? 32 then item t else RStr (keccak (RLP (item t)))))).
  { destruct (N.leb_spec 32 (len (RLP (item t)))), (N.ltb_spec (len (RLP (item t))) 32); try lia; cbn [append_to_stream].
    - unfold append. rewrite encode_value_Rb by (rewrite (proj2 (K32 _)); lia). reflexivity.
    - reflexivity. }
  destruct t; try exact G. cbn [append_to_stream RLP]. unfold append. rewrite encode_value_Rb; [reflexivity|].
  destruct F as [_ F]. rewrite F. lia.
Qed.

Lemma hash_node_ok pr t : forall L, wf L t -> (L <= 127)%nat -> fits t -> rlp_encode_and_hash_node keccak pr t = Ok (enode t).
Proof.
  induction t as [|h|ch v IH|n c IH|n v] using node_ind'; intros L W HL F.
  - unfold enode. reflexivity.
  - reflexivity.
  - cbn [rlp_encode_and_hash_node]. inversion W as [| |L0 ? ? Hlen Fw| |]; subst. apply fits_branch in F. destruct F as (Fv & Fl & Fc).
    set (go := fix go (l : list node) (s : stream) {struct l} : res stream := _).
    assert (G : forall l s, Forall (wf L0) l -> Forall fits l ->
        Forall (fun c => forall L, wf L c -> (L <= 127)%nat -> fits c -> rlp_encode_and_hash_node keccak pr c = Ok (enode c)) l ->
        go l s = Ok (Stream (items s + lenN l) (payload s ++ concat (map (fun c => RLP (ref c)) l)))).
    { induction l as [|c l IHl]; intros s A B C; cbn [go map concat].
      - rewrite app_nil_r. unfold lenN. cbn [length]. rewrite N.add_0_r. destruct s; reflexivity.
      - inversion A; inversion B; inversion C; subst.
        match goal with H : forall L, _ |- _ => rewrite (H L0) by (assumption || lia) end. cbn [bind].
        fold go. rewrite IHl by assumption. rewrite append_ref by assumption. cbn [append_raw items payload].
        rewrite <- app_assoc. f_equal. f_equal. unfold lenN. cbn [length]. lia. }
    rewrite G by assumption. cbn [bind new_list items payload].
    assert (E : match v with [] => append_empty_data (Stream (0 + lenN ch) ([] ++ concat (map (fun c => RLP (ref c)) ch)))
       | _ :: _ => append (Stream (0 + lenN ch) ([] ++ concat (map (fun c => RLP (ref c)) ch))) v end =
       Stream 17 (concat (map RLP (map ref ch ++ [RStr v])))).
    { assert (Hv : append (Stream (0 + lenN ch) ([] ++ concat (map (fun c => RLP (ref c)) ch))) v =
         Stream 17 (concat (map RLP (map ref ch ++ [RStr v])))).
      { unfold append, append_raw. rewrite encode_value_Rb by lia. cbn [items payload app].
        rewrite map_app, map_map, concat_app. cbn [map concat RLP]. rewrite app_nil_r. unfold lenN. rewrite Hlen. reflexivity. }
      destruct v; [|exact Hv]. rewrite <- Hv. unfold append, append_empty_data. reflexivity. }
    rewrite E. unfold stream_out. cbn [items payload N.eqb Pos.eqb bind].
    unfold enode. rewrite item_branch. cbn [RLP].
    assert (B : len (concat (map RLP (map ref ch ++ [RStr v]))) < 4294967296).
    { rewrite map_app, map_map, concat_app, len_app. cbn [map concat RLP]. rewrite app_nil_r.
      pose proof (Rb_len v ltac:(lia)) as R. assert (Q : len (concat (map (fun c => RLP (ref c)) ch)) <= 33 * len ch).
      { clear - Fc K32. induction ch as [|c ch IH]; cbn [map concat]; [cbn; lia|]. inversion Fc; subst. specialize (IH ltac:(assumption)).
        rewrite len_app, len_cons. pose proof (ref_len c ltac:(assumption)). lia. }
      unfold len in Q at 2. rewrite Hlen in Q. lia. }
    rewrite list_payload_Rl by exact B. reflexivity.
  - cbn [rlp_encode_and_hash_node]. inversion W as [| | |L0 q c0 Hq Wc|]; subst.
    rewrite to_hp_enc by (assumption || lia). cbn [bind]. rewrite (IH L0) by (assumption || lia). cbn [bind].
    rewrite append_ref by exact F. unfold append, append_raw, stream_out. cbn [items payload new_list app].
    change (0 + 1 + 1 =? 2) with true. cbn [bind]. unfold enode. rewrite item_ext. cbn [RLP map concat]. rewrite app_nil_r, nseq_enc by exact Hq.
    pose proof (hp_len q false ltac:(lia)) as P. pose proof (ref_len c F) as R.
    rewrite encode_value_Rb by lia. pose proof (Rb_len (yp_hp q false) ltac:(lia)) as R2.
    rewrite list_payload_Rl by (rewrite len_app; lia). reflexivity.
  - cbn [rlp_encode_and_hash_node]. inversion W as [| | | |L0 l v0 Hl Ll]; subst.
    rewrite to_hp_enc by (assumption || lia). cbn [bind]. unfold append, append_raw, stream_out. cbn [items payload new_list app].
    change (0 + 1 + 1 =? 2) with true. cbn [bind]. unfold enode. cbn [HashSpec.item]. cbn [RLP map concat]. rewrite app_nil_r, nseq_enc by exact Hl.
    destruct F as [Fb Fl]. pose proof (hp_len l true ltac:(lia)) as P. pose proof (Rb_len v ltac:(lia)) as R.
    rewrite !encode_value_Rb by lia. pose proof (Rb_len (yp_hp l true) ltac:(lia)) as R2.
    rewrite list_payload_Rl by (rewrite len_app; lia). reflexivity.
Qed.

(** The root hash. *)
Definition root (t : node) : list N := match t with Hash h => h | _ => keccak (RLP (item t)) end.

Lemma hash_trie_gen pr t L : wf L t -> (L <= 127)%nat -> fits t -> hash_trie keccak pr t = Ok (root t).
Proof.
  intros W HL F. unfold hash_trie. rewrite (hash_node_ok pr t L W HL F). cbn [bind]. f_equal.
  unfold enode, root, hash_bytes_if_large_enough, encoded_to_h256. destruct t; try reflexivity;
    destruct (32 <=? _); reflexivity.
Qed.
Lemma hash_trie_ok pr t : wf 64 t -> fits t -> hash_trie keccak pr t = Ok (root t).
Proof. intros W F. apply (hash_trie_gen pr t 64 W); [lia|exact F]. Qed.
End H.
