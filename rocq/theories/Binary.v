(** Saving and loading in a binary format: bincode 1.3 with its default functions ([serialize], [deserialize], [deserialize_from]), on top of the derived
    [Serialize] and [Deserialize] of Serde.v ([Nibbles] nibbles.rs:107-114, [Node] partial_trie.rs:117-148, [StandardTrie] 196-197, [HashedPartialTrie]
    287-291). bincode is not a dependency of /repo; it stands for the formats that do not describe themselves: integers of fixed size, the lowest byte
    first, lengths as [u64], variants of an enum as their position ([u32]), structs and arrays as the sequence of their parts. *)
From Coq Require Import String.
From Verif Require Import Base Nibbles Trie Cache Serde Json Text JsonText.
Open Scope N_scope.
Open Scope list_scope.

(** ** Writing *)
Fixpoint le_bytes (k : nat) (n : N) : list N := match k with O => [] | S k' => n mod 256 :: le_bytes k' (n / 256) end.
Definition sized_bytes (l : list N) : list N := le_bytes 8 (N.of_nat (length l)) ++ l.
(** The position of a variant in the declaration of [Node]. *)
Definition position (v : name) : N :=
  match v with v_Hash => 1 | v_Branch => 2 | v_Extension => 3 | v_Leaf => 4 | _ => 0 end.
(** The text that impl-serde writes for numbers and hashes. *)
Definition hex_string (digits : list N) : list N := txt "0x" ++ map (hex_char false) digits.
Fixpoint binary (d : data) : list N :=
  match d with
  | DU8 n => le_bytes 1 n
  | DU64 n => le_bytes 8 n
  | DU512 n => sized_bytes (hex_string (u512_digits n))
  | DH256 h => sized_bytes (hex_string (byte_digits h))
  | DNone => [0]
  | DSome d => 1 :: binary d
  | DSeq l => le_bytes 8 (N.of_nat (length l)) ++ flat_map binary l
  | DTuple l => flat_map binary l
  | DNewtype d => binary d
  | DStruct fs => flat_map (fun f => binary (snd f)) fs
  | DUnitVariant v => le_bytes 4 (position v)
  | DNewtypeVariant v d => le_bytes 4 (position v) ++ binary d
  | DStructVariant v fs => le_bytes 4 (position v) ++ flat_map (fun f => binary (snd f)) fs
  end.

(** ** Reading *)
(** A reader takes what it needs from the front and leaves the rest. *)
Definition reader (A : Type) : Type := list N -> option (A * list N).
Definition get {A} (a : A) : reader A := fun bs => Some (a, bs).
Definition bad {A} : reader A := fun _ => None.
Definition next {A B} (p : reader A) (f : A -> reader B) : reader B := fun bs => match p bs with Some (a, bs') => f a bs' | None => None end.
Notation "x <- p >> q" := (next p (fun x => q)) (at level 61, p at next level, right associativity).
Definition take (k : N) : reader (list N) :=
  fun bs => if N.of_nat (length bs) <? k then None else Some (firstn (N.to_nat k) bs, skipn (N.to_nat k) bs).
Definition le_value (l : list N) : N := fold_right (fun b a => b + 256 * a) 0 l.
Definition get_int (k : N) : reader N := l <- take k >> get (le_value l).
(** A string or a [Vec<u8>]: its length and its bytes. (Strings that are not UTF-8 are refused; here this follows, since only hex digits are accepted.) *)
Definition get_sized : reader (list N) := k <- get_int 8 >> take k.
Definition get_bytes : reader data := v <- get_sized >> get (ser_bytes v).
Definition get_u512 : reader data := s <- get_sized >> match read_u512 (string_doc s) with Some n => get (DU512 n) | None => bad end.
Definition get_h256 : reader data := s <- get_sized >> match read_h256 (string_doc s) with Some h => get (DH256 h) | None => bad end.
Definition get_nibbles : reader data := c <- get_int 8 >> p <- get_u512 >> get (DStruct [(f_count, DU64 c); (f_packed, p)]).
Definition get_cached : reader data :=
  o <- get_int 1 >> match o with 0 => get DNone | 1 => h <- get_h256 >> get (DSome h) | _ => bad end.
Fixpoint get_times {A} (k : nat) (p : reader A) : reader (list A) :=
  match k with O => get [] | S k' => x <- p >> xs <- get_times k' p >> get (x :: xs) end.
(** The enum [Node], with [child] for a child. *)
Definition get_node (child : reader data) : reader data :=
  v <- get_int 4 >>
  match v with
  | 0 => get (DUnitVariant v_Empty)
  | 1 => h <- get_h256 >> get (DNewtypeVariant v_Hash h)
  | 2 => ch <- get_times 16 child >> v <- get_bytes >> get (DStructVariant v_Branch [(f_children, DTuple ch); (f_value, v)])
  | 3 => n <- get_nibbles >> c <- child >> get (DStructVariant v_Extension [(f_nibbles, n); (f_child, c)])
  | 4 => n <- get_nibbles >> v <- get_bytes >> get (DStructVariant v_Leaf [(f_nibbles, n); (f_value, v)])
  | _ => bad
  end.
(** [fuel] stands for the recursion: more than the number of bytes is always enough, since every node takes some. *)
Fixpoint get_trie (fuel : nat) : reader data :=
  match fuel with O => bad | S f => d <- get_node (get_trie f) >> get (DNewtype d) end.
Fixpoint get_handle (fuel : nat) : reader data :=
  match fuel with O => bad | S f => d <- get_node (get_handle f) >> h <- get_cached >> get (DStruct [(f_node, d); (f_hash, h)]) end.

(** ** The API *)
(** [bincode::serialize] of a [Nibbles], a [StandardTrie], a [HashedPartialTrie]. *)
Definition save_key (n : nibbles) : list N := binary (ser_nibbles n).
Definition save (t : node) : list N := binary (serialize t).
Definition hsave (t : hnode) : prog (list N) := d <~ hserialize t ;; Ret (binary d).
(** [bincode::deserialize_from]: the value, and what is left in the reader. [bincode::deserialize] ignores what is left. (The bytes are read first and the value
    is made of them then, which gives the same result.) *)
Definition load_from (bs : list N) : option (node * list N) :=
  match get_trie (S (length bs)) bs with
  | Some (d, rest) => match deserialize d with Some t => Some (t, rest) | None => None end
  | None => None
  end.
Definition load_key (bs : list N) : option (nibbles * list N) :=
  match get_nibbles bs with Some (d, rest) => match de_nibbles d with Some n => Some (n, rest) | None => None end | None => None end.
Definition hload_from (bs : list N) : prog (option (hnode * list N)) :=
  match get_handle (S (length bs)) bs with
  | Some (d, rest) => r <~ hdeserialize d ;; Ret (match r with Some t => Some (t, rest) | None => None end)
  | None => Ret None
  end.
Definition load (bs : list N) : option node := match load_from bs with Some (t, _) => Some t | None => None end.
Definition hload (bs : list N) : prog (option hnode) := r <~ hload_from bs ;; Ret (match r with Some (t, _) => Some t | None => None end).
