(** C55: the messages of errors. *)
From Coq Require Import String.
From Verif Require Import Base Nibbles NibblesSpec NibblesFacts NibblesFacts2 Trie TrieSpec TrieHistSpec TrieFacts Query Rlp YellowPaper HashSpec Hashing Cache Diff Subset SubsetSpec SubsetFacts SubsetFacts2 TrieHist
  Text TextSpec TextFacts Trace TraceFacts Errors ErrorsSpec P_Trie P_Diff P_Subset.
From Verif Require Import Keccak P_Text P_Keys TraceSpec.
Open Scope N_scope.
Open Scope list_scope.

(** ** Bytes to nibbles *)
(** Every error says whether the input was empty or had too many bytes, and then how many. ([C48_decimal]: [dec] is the decimal text.) *)
Theorem C55_bytes : forall bytes e, from_bytes_be bytes = RErr e \/ from_bytes_le bytes = RErr e ->
  bytes = [] /\ bytes_error_text e = txt "Tried constructing `Nibbles` from a zero byte slice" \/
  (33 < length bytes)%nat /\
  bytes_error_text e = txt "Tried constructing `Nibbles` from a byte slice with more than 33 bytes (len: " ++ dec (N.of_nat (length bytes)) ++ txt ")".
Proof.
  intros bytes e E. assert (exists f, from_bytes bytes f = RErr e) as [f E'] by (destruct E; eexists; eassumption). clear E. revert E'.
  unfold from_bytes. destruct bytes as [|b bytes]; [intros [= <-]; left; auto|].
  destruct (N.ltb_spec 33 (N.of_nat (length (b :: bytes)))) as [L|L]; [|discriminate]. intros [= <-]. right. split; [lia|reflexivity].
Qed.
Example C55_bytes_example : from_bytes_be [] = RErr ZeroSizedKey /\ from_bytes_le (repeat 7 34) = RErr (TooManyBytes 34) /\
  bytes_error_text (TooManyBytes 34) = txt "Tried constructing `Nibbles` from a byte slice with more than 33 bytes (len: 34)".
Proof. vm_compute. auto. Qed.

(** ** Keys to integers *)
(** The message shows the number of nibbles and the nibbles. *)
Theorem C55_u256 : forall pr n e, packed n < 16 ^ count n -> count n < 2 ^ 64 - 1 -> try_into_u256 pr n = Ok (RErr e) ->
  (64 < length (nseq n))%nat /\
  u256_error_text e = txt "Tried getting a U256 from Nibbles that were too big! (" ++ debug_key (nseq n) ++ txt ")".
Proof.
  intros pr n e W C E. destruct (le_lt_dec (length (nseq n)) 128) as [L|L].
  - rewrite (C47_try_into_u256 pr n W L) in E. destruct (Nat.leb_spec (length (nseq n)) 64) as [H|H]; [discriminate|]. injection E as <-. split; [exact H|].
    unfold u256_error_text, debug_key, shown_key. cbn [fst snd]. repeat rewrite <- app_assoc. reflexivity.
  - rewrite (C47_long_panics pr n L C) in E. discriminate.
Qed.
Example C55_u256_example : try_into_u256 Debug (Nib 65 0x1f) = Ok (RErr (65, txt "0x0000000000000000000000000000000000000000000000000000000000000001f")).
Proof. vm_compute. reflexivity. Qed.

(** ** Hex prefix texts *)
Lemma bits_binary p : binary (bits_text p).
Proof. induction p; cbn [bits_text]; try (apply Forall_app; split; [assumption|]); (constructor; [auto|constructor]). Qed.
Lemma unbin_bits p : unbin (bits_text p) = Npos p.
Proof.
  unfold unbin. induction p; cbn [bits_text]; try reflexivity; rewrite fold_left_app, IHp; cbn [fold_left]; lia.
Qed.
Lemma unbin_pad k l : unbin (repeat 48 k ++ l) = unbin l.
Proof. unfold unbin. rewrite fold_left_app. f_equal. induction k as [|k IH]; [reflexivity|exact IH]. Qed.

(** Every error for an input that is not too long shows the flags, in binary. *)
Theorem C55_flags : forall b0 rest e, bytesl (b0 :: rest) -> (length (b0 :: rest) <= 33)%nat ->
  from_hex_prefix_encoding (b0 :: rest) = Ok (RErr e) ->
  exists ds, binary ds /\ unbin ds = b0 / 16 /\
    hp_error_text e = txt "Tried to convert a hex prefix byte string into `Nibbles` with invalid flags at the start: 0b" ++ ds.
Proof.
  intros b0 rest e B L E. rewrite from_hp_spec in E by (assumption || cbn [length] in L; lia).
  destruct (b0 / 16 <=? 3); [discriminate|]. injection E as <-.
  set (m := b0 / 16). exists (repeat 48 (2 - length (match m with 0 => [48] | Npos p => bits_text p end)) ++ match m with 0 => [48] | Npos p => bits_text p end).
  split; [|split; [|reflexivity]].
  - apply Forall_app. split; [apply Forall_forall; intros x I; apply repeat_spec in I; auto|destruct m; [constructor; [auto|constructor]|apply bits_binary]].
  - rewrite unbin_pad. destruct m; [reflexivity|apply unbin_bits].
Qed.
Example C55_flags_example : from_hex_prefix_encoding [0x51; 2] = Ok (RErr (InvalidFlags 5)) /\
  hp_error_text (InvalidFlags 5) = txt "Tried to convert a hex prefix byte string into `Nibbles` with invalid flags at the start: 0b101".
Proof. vm_compute. auto. Qed.

(** An input with too many bytes: the message shows the bytes where it says length, and the length where it says bytes. *)
Theorem C55_too_long : forall bytes, (33 < length bytes)%nat ->
  exists e, from_hex_prefix_encoding bytes = Ok (RErr e) /\
    hp_error_text e = txt "Tried to convert a hex prefix byte string into `Nibbles` that was longer than 64 bytes: (length: " ++ shown_bytes bytes ++
                      txt ", bytes: " ++ dec (N.of_nat (length bytes)) ++ txt ")".
Proof.
  intros bytes L. unfold from_hex_prefix_encoding. destruct (N.ltb_spec 33 (N.of_nat (length bytes))) as [H|H]; [|lia].
  eexists. split; [reflexivity|]. cbn [hp_error_text]. change (hex_encode false bytes) with (hex_text bytes). rewrite hex_text_eq. reflexivity.
Qed.

Lemma undec_from_ge l : forall a, 1 <= a -> a * 10 ^ N.of_nat (length l) <= fold_left (fun a c => 10 * a + (c - 48)) l a.
Proof.
  induction l as [|c l IH]; intros a A; cbn [fold_left length]; [lia|].
  rewrite Nat2N.inj_succ, N.pow_succ_r'. specialize (IH (10 * a + (c - 48)) ltac:(lia)).
  pose proof (N.pow_nonzero 10 (N.of_nat (length l)) ltac:(lia)). nia.
Qed.
Lemma uint_chars_digits u : Forall (fun c => 48 <= c <= 57) (uint_chars u).
Proof. induction u; cbn [uint_chars]; constructor; auto; lia. Qed.

Lemma dec_short n : 33 < n -> (length (dec n) < N.to_nat n)%nat.
Proof.
  intros H. destruct (C48_decimal n) as (U & D & Z). destruct (dec n) as [|c r] eqn:E; [cbn [length]; lia|]. apply Forall_inv in D.
  destruct (N.eq_dec c 48) as [->|C]; [rewrite (Z r eq_refl); cbn [length]; lia|].
  cbn [length]. destruct (length r) as [|m] eqn:Em; [lia|].
  pose proof (undec_from_ge r (10 * 0 + (c - 48)) ltac:(lia)) as G. unfold undec in U. cbn [fold_left] in U. rewrite U in G.
  rewrite Em, Nat2N.inj_succ, N.pow_succ_r' in G. pose proof (N.pow_gt_lin_r 10 (N.of_nat m) ltac:(lia)). nia.
Qed.
Lemma shown_bytes_length l : length (shown_bytes l) = (2 * length l)%nat.
Proof. unfold shown_bytes. rewrite map_length. induction l as [|b l IH]; [reflexivity|]. cbn [unpair length] in *. lia. Qed.

(** So no such message is the one that was meant. *)
Theorem C55_too_long_refuted : forall bytes, bytesl bytes -> (33 < length bytes)%nat ->
  exists e, from_hex_prefix_encoding bytes = Ok (RErr e) /\ hp_error_text e <> too_long_meant bytes.
Proof.
  intros bytes B L. destruct (C55_too_long bytes L) as (e & E & T). exists e. split; [exact E|]. rewrite T. unfold too_long_meant. intros X.
  apply app_inv_head in X. apply peel in X; [|apply words_bytes; assumption|apply words_dec|reflexivity|reflexivity]. destruct X as [X _].
  apply (f_equal (@length N)) in X. rewrite shown_bytes_length in X. pose proof (dec_short (N.of_nat (length bytes)) ltac:(lia)). lia.
Qed.
Example C55_too_long_example : from_hex_prefix_encoding (repeat 0x12 34) = Ok (RErr (TooLong (txt "12121212121212121212121212121212121212121212121212121212121212121212") 34)).
Proof. vm_compute. reflexivity. Qed.

(** The message speaks of more than 64 bytes, but inputs of 34 to 64 bytes are refused with it too. *)
Theorem C55_limit_refuted : forall bytes, (34 <= length bytes <= 64)%nat ->
  exists e, from_hex_prefix_encoding bytes = Ok (RErr e) /\
    starts (txt "Tried to convert a hex prefix byte string into `Nibbles` that was longer than 64 bytes: ") (hp_error_text e) = true.
Proof.
  intros bytes L. destruct (C55_too_long bytes ltac:(lia)) as (e & E & T). exists e. split; [exact E|]. rewrite T. reflexivity.
Qed.

(** ** Subsets *)
(** Every error of [create_trie_subset] for a [StandardTrie] has a message. It shows the first key that leads into a hash node, without
    the digits that lead to the hash node, and the hash of this hash node. *)
Theorem C55_subset : forall keccak pr t ks e,
  hash32 keccak -> wf 64 t -> fits t -> Forall kwf ks -> create_trie_subset keccak pr t ks = Ok (RErr e) ->
  exists ks1 k ks2 p q h, ks = ks1 ++ k :: ks2 /\ (forall x, In x ks1 -> ~ into_hash t (nseq x)) /\
    nseq k = p ++ q /\ q <> [] /\ lk t p = Some (HashV h) /\
    subset_error_text pr e =
      Ok (txt "Tried to mark nodes in a tracked trie for a key that does not exist! (Key: " ++ shown_key q ++
          txt ", trie: TrackedNode { node: Hash, info: TrackedNodeInfo { underlying_node: StandardTrie(Hash(0x" ++ shown_bytes h ++ txt ")), touched: true } })").
Proof.
  intros keccak pr t ks e K W F Kw E. destruct (C25_error_names keccak pr t ks e K W F Kw E) as (ks1 & k & ks2 & p & q & h & -> & N1 & Ek & Q & L & ->).
  exists ks1, k, ks2, p, q, h. repeat (split; [assumption || reflexivity|]).
  assert (Hk : hexl (p ++ q) /\ (length (p ++ q) <= 64)%nat).
  { rewrite <- Ek. split; [apply nseq_hexl|]. rewrite Forall_forall in Kw. destruct (kwf_ex k (Kw k ltac:(apply in_or_app; right; left; reflexivity))) as (l & -> & -> & _ & Ll). exact Ll. }
  destruct Hk as [Hk Lk]. apply hexl_app in Hk. rewrite app_length in Lk.
  cbn [subset_error_text]. rewrite key_text_ok by (apply kwf_enc; [tauto|lia]). rewrite nseq_enc by tauto. cbn [bind].
  unfold tracked_hash_debug. cbn [node_debug]. rewrite h256_shown. unfold txt at 3 4 5 6 7. rewrite <- !app_assoc. reflexivity.
Qed.

(** So the message need not contain the key that was asked for. *)
Theorem C55_subset_key_refuted : exists t k e text,
  reach Debug t /\ fits t /\ kwf k /\ create_trie_subset keccak256 Debug t [k] = Ok (RErr e) /\
  subset_error_text Debug e = Ok text /\ occurs (shown_key (nseq k)) text = false.
Proof.
  set (l := [(K 4 0x1234, Val [1]); (K 4 0x1256, HashV (repeat 0xcd 32))]).
  exists (okn (from_iter Debug l)), (K 6 0x125678), (UnexpectedKey (K 2 0x78) (Hash (repeat 0xcd 32))), (match subset_error_text Debug (UnexpectedKey (K 2 0x78) (Hash (repeat 0xcd 32))) with Ok x => x | Panic => [] end).
  split; [unfold l; reach_tac l|]. split; [vm_compute; repeat split; repeat constructor|]. split; [split; vm_compute; congruence|].
  split; [vm_compute; reflexivity|]. split; vm_compute; reflexivity.
Qed.
Example C55_subset_example : let t := okn (from_iter Debug [(K 4 0x1234, Val [1]); (K 4 0x1256, HashV (repeat 0xcd 32))]) in
  create_trie_subset keccak256 Debug t [K 4 0x1234; K 6 0x125678] = Ok (RErr (UnexpectedKey (K 2 0x78) (Hash (repeat 0xcd 32)))) /\
  subset_error_text Debug (UnexpectedKey (K 2 0x78) (Hash (repeat 0xcd 32))) =
    Ok (txt "Tried to mark nodes in a tracked trie for a key that does not exist! (Key: 0x78, trie: TrackedNode { node: Hash, info: TrackedNodeInfo { underlying_node: StandardTrie(Hash(0xcdcdcdcdcdcdcdcdcdcdcdcdcdcdcdcdcdcdcdcdcdcdcdcdcdcdcdcdcdcdcdcd)), touched: true } })").
Proof. split; vm_compute; reflexivity. Qed.

Print Assumptions C55_bytes.
Print Assumptions C55_u256.
Print Assumptions C55_flags.
Print Assumptions C55_too_long.
Print Assumptions C55_too_long_refuted.
Print Assumptions C55_limit_refuted.
Print Assumptions C55_subset.
Print Assumptions C55_subset_key_refuted.
