(** Model of the messages of the error types ([thiserror]'s [Display]): nibbles.rs:48-64 and trie_subsets.rs:22-27. Text is a list of
    character codes. The error of [Nibbles::from_str] (nibbles.rs:66-68) shows the message of another crate and is left out. *)
From Coq Require Import String.
From Verif Require Import Base Nibbles Trie Query Rlp Hashing Cache Diff Subset Text Trace.
Open Scope N_scope.
Open Scope list_scope.

(** nibbles.rs:48-55 [BytesToNibblesError]. *)
Definition bytes_error_text (e : bytes_err) : list N :=
  match e with
  | ZeroSizedKey => txt "Tried constructing `Nibbles` from a zero byte slice"
  | TooManyBytes len => txt "Tried constructing `Nibbles` from a byte slice with more than 33 bytes (len: " ++ dec len ++ txt ")"
  end.

(** nibbles.rs:758-761: the message of [try_into_u256], with the text of nibbles.rs:167-174 [Debug for Nibbles]. *)
Definition u256_error_text (e : N * list N) : list N :=
  txt "Tried getting a U256 from Nibbles that were too big! (Nibbles { count: " ++ dec (fst e) ++ txt ", packed: """ ++ snd e ++ txt """ })".

(** The standard library's [{:#04b}] of an unsigned integer: 0b and the binary digits, with zeros up to a width of four. *)
Fixpoint bits_text (p : positive) : list N :=
  match p with xH => [49] | xO q => bits_text q ++ [48] | xI q => bits_text q ++ [49] end.
Definition bin04 (m : N) : list N :=
  let ds := match m with 0 => [48] | Npos p => bits_text p end in txt "0b" ++ repeat 48 (2 - length ds) ++ ds.

(** nibbles.rs:57-64 [FromHexPrefixError]; the fields of [TooLong] are printed in the order in which they are declared. *)
Definition hp_error_text (e : hp_err) : list N :=
  match e with
  | InvalidFlags flags => txt "Tried to convert a hex prefix byte string into `Nibbles` with invalid flags at the start: " ++ bin04 flags
  | TooLong hex len =>
      txt "Tried to convert a hex prefix byte string into `Nibbles` that was longer than 64 bytes: (length: " ++ hex ++ txt ", bytes: " ++ dec len ++ txt ")"
  end.

(** trie_subsets.rs:29-42, 156-160 and partial_trie.rs:196-197, derived [Debug], of the touched tracked hash node of a [StandardTrie]
    that trie_subsets.rs:269-272 prints. For a [HashedPartialTrie] see HErrors.v. *)
Definition tracked_hash_debug (u : node) : list N :=
  txt "TrackedNode { node: Hash, info: TrackedNodeInfo { underlying_node: StandardTrie(" ++ node_debug u ++ txt "), touched: true } }".

(** trie_subsets.rs:22-27 [SubsetTrieError]. *)
Definition subset_error_text (pr : profile) (e : subset_error) : res (list N) :=
  match e with
  | UnexpectedKey k u =>
      d <- key_text pr k ;;
      Ok (txt "Tried to mark nodes in a tracked trie for a key that does not exist! (Key: " ++ d ++ txt ", trie: " ++ tracked_hash_debug u ++ txt ")")
  end.
