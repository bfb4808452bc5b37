(** Saving and loading as JSON: the format of serde_json (a dev-dependency of the crate, Cargo.toml) on top of the derived [Serialize] of
    Serde.v, and the derived [Deserialize] with all the forms that it accepts. Derived code has no source in /repo; the types are
    [Nibbles] (nibbles.rs:107-114), [Node] (partial_trie.rs:117-148), [StandardTrie] (196-197), [HashedPartialTrie] (287-291). *)
From Verif Require Import Base Nibbles Trie Cache Serde.
Open Scope N_scope.

(** A key of an object, or a string that is not the text of a hash or a number: one of the names of the types, or any other. *)
Inductive key : Type :=
| KName (n : name)
| KOther (text : list N).
Definition name_eqb (a b : name) : bool :=
  match a, b with
  | f_count, f_count | f_packed, f_packed | f_children, f_children | f_value, f_value | f_nibbles, f_nibbles | f_child, f_child
  | f_node, f_node | f_hash, f_hash | v_Empty, v_Empty | v_Hash, v_Hash | v_Branch, v_Branch | v_Extension, v_Extension | v_Leaf, v_Leaf => true
  | _, _ => false
  end.
Definition is_key (n : name) (k : key) : bool := match k with KName m => name_eqb n m | KOther _ => false end.

(** JSON values. [JHex l] is a string of the hex digits [l] (as numbers), with or without "0x" before them, [JString] any other string; [JOther]: booleans,
    negative numbers, fractions. *)
Inductive doc : Type :=
| JNull
| JNum (n : N)
| JHex (digits : list N)
| JString (k : key)
| JArray (l : list doc)
| JObject (l : list (key * doc))
| JOther.

(** The crate [impl-serde]. [U512]: hex digits without leading zeros, "0x0" for zero. [H256]: two digits for each byte. *)
Fixpoint drop_zeros (l : list N) : list N := match l with 0 :: l' => drop_zeros l' | _ => l end.
Definition byte_digits (bytes : list N) : list N := flat_map (fun b => [b / 16; b mod 16]) bytes.
Definition u512_digits (n : N) : list N := match drop_zeros (byte_digits (be_bytes 64 n)) with [] => [0] | l => l end.
Fixpoint digit_bytes (l : list N) : list N := match l with a :: b :: l' => (a * 16 + b) :: digit_bytes l' | _ => [] end.
Definition hex_digits (l : list N) : bool := forallb (fun d => d <? 16) l.

(** ** The serializer of serde_json *)
(** Structs are objects, with the fields in the order of their declaration; a newtype is what it holds; a unit variant is its name, other
    variants are objects with one entry; [None] is [null] and [Some(x)] is [x]. *)
Fixpoint json (d : data) : doc :=
  match d with
  | DU8 n | DU64 n => JNum n
  | DU512 n => JHex (u512_digits n)
  | DH256 h => JHex (byte_digits h)
  | DNone => JNull
  | DSome d => json d
  | DSeq l | DTuple l => JArray (map json l)
  | DNewtype d => json d
  | DStruct fs => JObject (map (fun f => (KName (fst f), json (snd f))) fs)
  | DUnitVariant v => JString (KName v)
  | DNewtypeVariant v d => JObject [(KName v, json d)]
  | DStructVariant v fs => JObject [(KName v, JObject (map (fun f => (KName (fst f), json (snd f))) fs))]
  end.

(** ** The derived deserializers, reading JSON *)
(** Integers have to fit. *)
Definition read_num (bound : N) (d : doc) : option N := match d with JNum n => if n <? bound then Some n else None | _ => None end.
(** [U512] from 1 to 128 digits, [H256] from exactly 64. (impl-serde also skips blanks between the digits; such strings are not
    modelled.) *)
Definition read_u512 (d : doc) : option N :=
  match d with
  | JHex l => if hex_digits l && negb (Nat.eqb (length l) 0) && Nat.leb (length l) 128 then Some (fold_left (fun a d => a * 16 + d) l 0) else None
  | _ => None
  end.
Definition read_h256 (d : doc) : option (list N) :=
  match d with JHex l => if hex_digits l && Nat.eqb (length l) 64 then Some (digit_bytes l) else None | _ => None end.
(** The elements of an array, one after the other. *)
Definition read_all {A} (f : doc -> option A) : list doc -> option (list A) :=
  fix go (l : list doc) : option (list A) :=
    match l with
    | [] => Some []
    | d :: l' => match f d with Some x => match go l' with Some xs => Some (x :: xs) | None => None end | None => None end
    end.
(** [Vec<u8>]. *)
Definition read_bytes (d : doc) : option (list N) := match d with JArray l => read_all (read_num 256) l | _ => None end.
(** [Option<H256>]. *)
Definition read_cached (d : doc) : option (option (list N)) :=
  match d with JNull => Some None | _ => match read_h256 d with Some h => Some (Some h) | None => None end end.

(** A struct with two fields. From an object: each field at most once, in any order, other entries are ignored; a field that is missing is
    an error, unless there is a value for it ([missing], for the second). From an array: the fields in the order of their declaration. *)
Definition read_two {A B} (fa fb : name) (ra : doc -> option A) (rb : doc -> option B) (missing : option B) (d : doc) : option (A * B) :=
  match d with
  | JObject l =>
      (fix go (l : list (key * doc)) (oa : option A) (ob : option B) {struct l} : option (A * B) :=
         match l with
         | [] => match oa, match ob with Some b => Some b | None => missing end with Some a, Some b => Some (a, b) | _, _ => None end
         | (k, d) :: l' =>
             if is_key fa k then
               match oa with
               | Some _ => None
               | None => match ra d with Some a => go l' (Some a) ob | None => None end
               end
             else if is_key fb k then
               match ob with
               | Some _ => None
               | None => match rb d with Some b => go l' oa (Some b) | None => None end
               end
             else go l' oa ob
         end) l None None
  | JArray [da; db] => match ra da, rb db with Some a, Some b => Some (a, b) | _, _ => None end
  | _ => None
  end.

Definition read_nibbles (d : doc) : option nibbles :=
  match read_two f_count f_packed (read_num (2 ^ 64)) read_u512 None d with Some (c, p) => Some (Nib c p) | None => None end.

(** [StandardTrie]. An enum: a string for a variant without contents, or an object with exactly one entry. *)
Fixpoint read_trie (d : doc) : option node :=
  match d with
  | JString (KName v_Empty) | JObject [(KName v_Empty, JNull)] => Some Empty
  | JObject [(KName v_Hash, c)] => match read_h256 c with Some h => Some (Hash h) | None => None end
  | JObject [(KName v_Branch, c)] =>
      match read_two f_children f_value
              (fun d => match d with JArray l => if sixteen l then read_all read_trie l else None | _ => None end) read_bytes None c with
      | Some (ch, v) => Some (Branch ch v)
      | None => None
      end
  | JObject [(KName v_Extension, c)] =>
      match read_two f_nibbles f_child read_nibbles read_trie None c with Some (n, t) => Some (Extension n t) | None => None end
  | JObject [(KName v_Leaf, c)] =>
      match read_two f_nibbles f_value read_nibbles read_bytes None c with Some (n, v) => Some (Leaf n v) | None => None end
  | _ => None
  end.

(** [HashedPartialTrie]: the same, in programs that make the cells. [missing] is what happens if the second field is not there. *)
Definition hread_all {A} (f : doc -> prog (option A)) : list doc -> prog (option (list A)) :=
  fix go (l : list doc) : prog (option (list A)) :=
    match l with
    | [] => Ret (Some [])
    | d :: l' =>
        r <~ f d ;;
        match r with
        | Some x => rs <~ go l' ;; Ret (match rs with Some xs => Some (x :: xs) | None => None end)
        | None => Ret None
        end
    end.
Definition hread_two {A B} (fa fb : name) (ra : doc -> prog (option A)) (rb : doc -> prog (option B)) (missing : prog (option B)) (d : doc)
  : prog (option (A * B)) :=
  match d with
  | JObject l =>
      (fix go (l : list (key * doc)) (oa : option A) (ob : option B) {struct l} : prog (option (A * B)) :=
         match l with
         | [] =>
             match oa with
             | None => Ret None
             | Some a =>
                 r <~ match ob with Some b => Ret (Some b) | None => missing end ;;
                 Ret (match r with Some b => Some (a, b) | None => None end)
             end
         | (k, d) :: l' =>
             if is_key fa k then
               match oa with
               | Some _ => Ret None
               | None => r <~ ra d ;; match r with Some a => go l' (Some a) ob | None => Ret None end
               end
             else if is_key fb k then
               match ob with
               | Some _ => Ret None
               | None => r <~ rb d ;; match r with Some b => go l' oa (Some b) | None => Ret None end
               end
             else go l' oa ob
         end) l None None
  | JArray [da; db] =>
      r <~ ra da ;;
      match r with
      | None => Ret None
      | Some a => r <~ rb db ;; Ret (match r with Some b => Some (a, b) | None => None end)
      end
  | _ => Ret None
  end.
(** The field [hash]: an [Arc] of a lock of an [Option]. A missing [Option] is [None] for serde. *)
Definition hread_cell (d : doc) : prog (option N) :=
  match read_cached d with Some o => Alloc (fun c => Write c o (Ret (Some c))) | None => Ret None end.
Definition missing_cell : prog (option N) := Alloc (fun c => Ret (Some c)).
Fixpoint hread_trie (d : doc) : prog (option hnode) :=
  r <~ hread_two f_node f_hash
         (fun dn => match dn with
            | JString (KName v_Empty) | JObject [(KName v_Empty, JNull)] => Ret (Some HEmpty)
            | JObject [(KName v_Hash, c)] => Ret (match read_h256 c with Some h => Some (fun n => HHash n h) | None => None end)
            | JObject [(KName v_Branch, c)] =>
                r <~ hread_two f_children f_value
                       (fun d => match d with JArray l => if sixteen l then hread_all hread_trie l else Ret None | _ => Ret None end)
                       (fun d => Ret (read_bytes d)) (Ret None) c ;;
                Ret (match r with Some (ch, v) => Some (fun n => HBranch n ch v) | None => None end)
            | JObject [(KName v_Extension, c)] =>
                r <~ hread_two f_nibbles f_child (fun d => Ret (read_nibbles d)) hread_trie (Ret None) c ;;
                Ret (match r with Some (k, t) => Some (fun n => HExtension n k t) | None => None end)
            | JObject [(KName v_Leaf, c)] =>
                Ret (match read_two f_nibbles f_value read_nibbles read_bytes None c with Some (k, v) => Some (fun n => HLeaf n k v) | None => None end)
            | _ => Ret None
            end)
         hread_cell missing_cell d ;;
  Ret (match r with Some (mk, c) => Some (mk c) | None => None end).

(** ** The limit on nesting *)
(** The number of arrays and objects around the innermost value. serde_json's [from_str], [from_slice] and [from_reader] refuse texts in
    which 128 of them are nested (its default recursion limit; values of entries that are ignored are counted here, not there). *)
Fixpoint nesting (d : doc) : N :=
  match d with
  | JArray l => 1 + fold_right N.max 0 (map nesting l)
  | JObject l => 1 + fold_right N.max 0 (map (fun e => nesting (snd e)) l)
  | _ => 0
  end.
Definition within_limit (d : doc) : bool := nesting d <? 128.
Definition from_str (d : doc) : option node := if within_limit d then read_trie d else None.
Definition hfrom_str (d : doc) : prog (option hnode) := if within_limit d then hread_trie d else Ret None.
