(** Model of the parts of the external crate [rlp] 0.5.2 that /repo/src/trie_hashing.rs uses ([RlpStream]). The crate is not
    part of /repo: these definitions state the behaviour that the model relies on. *)
From Verif Require Import Base.
Open Scope N_scope.

Definition lenN {A} (l : list A) : N := N.of_nat (length l).

(** [BasicEncoder::insert_size]: the size as an [u32], big endian, without leading zero bytes. *)
Definition insert_size (size : N) : list N :=
  let s := size mod 4294967296 in
  be_bytes (N.to_nat ((N.size s + 7) / 8)) s.

(** [BasicEncoder::encode_iter]: the encoding of a byte string. *)
Definition encode_value (b : list N) : list N :=
  if lenN b =? 0 then [0x80]
  else if lenN b <=? 55 then
    match b with
    | [x] => if x <? 0x80 then [x] else [0x81; x]
    | _ => (0x80 + lenN b) :: b
    end
  else let sz := insert_size (lenN b) in (0xb7 + lenN sz) :: sz ++ b.

(** [RlpStream]: the number of items appended to the open list and their encodings. *)
Record stream : Type := Stream { items : N; payload : list N }.

(** [RlpStream::new_list(n)]; [n] is given again to [stream_out]. *)
Definition new_list : stream := Stream 0 [].

(** [append_raw(bytes, 1)]. *)
Definition append_raw (s : stream) (b : list N) : stream := Stream (items s + 1) (payload s ++ b).

(** [append(&bytes)]. *)
Definition append (s : stream) (b : list N) : stream := append_raw s (encode_value b).

(** [append_empty_data]. *)
Definition append_empty_data (s : stream) : stream := append_raw s [0x80].

(** [BasicEncoder::insert_list_payload]. *)
Definition list_payload (p : list N) : list N :=
  if lenN p <=? 55 then (0xc0 + lenN p) :: p
  else let sz := insert_size (lenN p) in (0xf7 + lenN sz) :: sz ++ p.

(** [out] of a stream opened with [new_list(n)]; panics if the list is not complete. *)
Definition stream_out (n : N) (s : stream) : res (list N) :=
  if items s =? n then Ok (list_payload (payload s)) else Panic.
