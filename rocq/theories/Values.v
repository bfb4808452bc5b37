(** Model of the conversions of /repo/src/trie_ops.rs:55-105 to [ValOrHash]. *)
From Verif Require Import Base Nibbles Trie.
Open Scope N_scope.

(** [buf[i..i+8].copy_from_slice(word)], as [byteorder]'s [write_u64(&mut buf[i..], word)]: panics if less than 8 bytes
    are left. *)
Definition write_at (buf : list N) (i : nat) (bytes : list N) : res (list N) :=
  if (i + length bytes <=? length buf)%nat
  then Ok (firstn i buf ++ bytes ++ skipn (i + length bytes) buf) else Panic.

(** Crate [uint] 0.9.5, [to_big_endian]: the loop over the 64-bit words, most significant first. *)
Fixpoint write_words (n_words iters : nat) (i : nat) (v : N) (buf : list N) : res (list N) :=
  match iters with
  | O => Ok buf
  | S iters' =>
      let word := N.land (N.shiftr v (64 * N.of_nat (n_words - i - 1))) (N.ones 64) in
      buf <- write_at buf (8 * i) (be_bytes 8 word) ;;
      write_words n_words iters' (S i) v buf
  end.

(** [to_big_endian(&self, bytes: &mut [u8])] of an unsigned type of [n_words] words: [debug_assert!(n_words * 8 == bytes.len())],
    then the loop. Dependencies are built with debug assertions in the dev profile. *)
Definition to_big_endian (pr : profile) (n_words : nat) (v : N) (buf : list N) : res (list N) :=
  _ <- match pr with Debug => assert (Nat.eqb (n_words * 8) (length buf)) | Release => Ok tt end ;;
  write_words n_words n_words 0 v buf.

(** trie_ops.rs:55-68 [impl_eth_type_from_for_val_variant!]; [size] only sets the capacity. *)
Definition val_from_eth (pr : profile) (n_words : nat) (v : N) : res val_or_hash :=
  let buf := repeat 0 32 in
  buf <- to_big_endian pr n_words v buf ;;
  Ok (Val buf).

(** trie_ops.rs:99-101: [U512], [U256], [U128]. *)
Definition val_from_u512 (pr : profile) (v : N) : res val_or_hash := val_from_eth pr 8 v.
Definition val_from_u256 (pr : profile) (v : N) : res val_or_hash := val_from_eth pr 4 v.
Definition val_from_u128 (pr : profile) (v : N) : res val_or_hash := val_from_eth pr 2 v.

(** trie_ops.rs:70-79 [impl_prim_int_from_for_val_variant!]: [to_be_bytes] of an integer of [width] bytes; 102-105 [u64],
    [u32], [u16], [u8] are the widths 8, 4, 2, 1. *)
Definition val_from_prim (width : nat) (v : N) : val_or_hash := Val (be_bytes width v).

(** trie_ops.rs:81-97 [From<Vec<u8>>], [From<&[u8]>], [From<H256>]. *)
Definition val_from_bytes (b : list N) : val_or_hash := Val b.
Definition val_from_h256 (h : list N) : val_or_hash := HashV h.
