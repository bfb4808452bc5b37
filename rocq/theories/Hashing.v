(** Model of /repo/src/trie_hashing.rs. [keccak] (external crate [keccak_hash]) is a parameter. *)
From Verif Require Import Base Nibbles Trie Rlp.
Open Scope N_scope.

(** trie_hashing.rs:13-18 [enum EncodedNode]. *)
Inductive encoded_node : Type :=
| Raw (b : list N)
| Hashed (h : list N).

Section Hashing.
Variable keccak : list N -> list N.

(** trie_hashing.rs:92-94 [hash_bytes], 78-83 [hash_bytes_if_large_enough]. *)
Definition hash_bytes_if_large_enough (b : list N) : encoded_node :=
  if 32 <=? lenN b then Hashed (keccak b) else Raw b.

(** trie_hashing.rs:85-90 [append_to_stream]. *)
Definition append_to_stream (s : stream) (e : encoded_node) : stream :=
  match e with
  | Raw b => append_raw s b
  | Hashed h => append s h
  end.

(** trie_hashing.rs:36-76 [rlp_encode_and_hash_node]; the [hash_intern] of a child is that of [StandardTrie]
    (partial_trie.rs:254-258). The caching one is in Cache.v. *)
Fixpoint rlp_encode_and_hash_node (pr : profile) (t : node) {struct t} : res encoded_node :=
  match t with
  | Empty => Ok (Raw [0x80])
  | Hash h => Ok (Hashed h)
  | Branch children value =>
      s <- (fix go (l : list node) (s : stream) {struct l} : res stream :=
              match l with
              | [] => Ok s
              | c :: l' => e <- rlp_encode_and_hash_node pr c ;; go l' (append_to_stream s e)
              end) children new_list ;;
      let s := match value with [] => append_empty_data s | _ => append s value end in
      b <- stream_out 17 s ;;
      Ok (hash_bytes_if_large_enough b)
  | Extension nibs child =>
      hp <- to_hex_prefix_encoding pr nibs false ;;
      e <- rlp_encode_and_hash_node pr child ;;
      b <- stream_out 2 (append_to_stream (append new_list hp) e) ;;
      Ok (hash_bytes_if_large_enough b)
  | Leaf nibs value =>
      hp <- to_hex_prefix_encoding pr nibs true ;;
      b <- stream_out 2 (append (append new_list hp) value) ;;
      Ok (hash_bytes_if_large_enough b)
  end.

(** trie_hashing.rs:20-27 [impl From<&EncodedNode> for H256]. *)
Definition encoded_to_h256 (e : encoded_node) : list N :=
  match e with
  | Raw b => keccak b
  | Hashed h => h
  end.

(** trie_hashing.rs:31-34 [hash_trie]; partial_trie.rs:237-239 [StandardTrie::hash]. *)
Definition hash_trie (pr : profile) (t : node) : res (list N) :=
  e <- rlp_encode_and_hash_node pr t ;; Ok (encoded_to_h256 e).
End Hashing.
