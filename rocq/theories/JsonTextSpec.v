(** The grammar of JSON texts (RFC 8259), used by C62. *)
From Coq Require Import String.
From Verif Require Import Base Nibbles Trie TrieHistSpec Cache CacheSpec Serde Json Text JsonText.
Open Scope N_scope.
Open Scope list_scope.

(** Blank, tab, line feed, carriage return. *)
Definition blank (s : list N) : Prop := Forall (fun c => In c [32; 9; 10; 13]) s.
Definition digits (s : list N) : Prop := s <> [] /\ Forall (fun c => 48 <= c /\ c <= 57) s.
(** Digits without leading zeros. *)
Definition int_text (s : list N) : Prop := s = [48] \/ (digits s /\ hd 48 s <> 48).
Definition value_of_digits (s : list N) : N := fold_left (fun a c => a * 10 + (c - 48)) s 0.
Definition minus_text (s : list N) : Prop := s = [] \/ s = [45].
Definition fraction_text (s : list N) : Prop := s = [] \/ exists q, digits q /\ s = 46 :: q.
Definition exponent_text (s : list N) : Prop :=
  s = [] \/ exists e sign q, In e [101; 69] /\ In sign [[]; [43]; [45]] /\ digits q /\ s = e :: sign ++ q.

(** The value of a hex digit. *)
Definition hex_digit (c v : N) : Prop :=
  (48 <= c <= 57 /\ v = c - 48) \/ (97 <= c <= 102 /\ v = c - 97 + 10) \/ (65 <= c <= 70 /\ v = c - 65 + 10).
(** The bytes of a character in UTF-8 (RFC 3629): the first byte tells their number, those after it are from 128 to 191. *)
Definition later (c : N) : Prop := 128 <= c < 192.
Inductive utf8_text : N -> list N -> Prop :=
| u1 a : a < 128 -> utf8_text a [a]
| u2 a b u : 192 <= a < 224 -> later b -> u = (a - 192) * 64 + (b - 128) -> 128 <= u -> utf8_text u [a; b]
| u3 a b c u : 224 <= a < 240 -> later b -> later c -> u = ((a - 224) * 64 + (b - 128)) * 64 + (c - 128) -> 2048 <= u -> utf8_text u [a; b; c]
| u4 a b c d u : 240 <= a < 248 -> later b -> later c -> later d -> u = (((a - 240) * 64 + (b - 128)) * 64 + (c - 128)) * 64 + (d - 128) -> 65536 <= u < 1114112 ->
    utf8_text u [a; b; c; d].
(** [chars s q]: the characters [q] between the quotes stand for the string [s]. *)
Definition surrogate (u : N) : Prop := 55296 <= u /\ u < 57344.
Inductive four_hex : N -> list N -> Prop :=
| four a b c d va vb vc vd : hex_digit a va -> hex_digit b vb -> hex_digit c vc -> hex_digit d vd ->
    four_hex (va * 4096 + vb * 256 + vc * 16 + vd) [a; b; c; d].
Inductive chars : list N -> list N -> Prop :=
| ch_none : chars [] []
| ch_plain c s q : 32 <= c -> c <> 34 -> c <> 92 -> chars s q -> chars (c :: s) (c :: q)
| ch_escape e c s q : In (e, c) [(34, 34); (92, 92); (47, 47); (98, 8); (102, 12); (110, 10); (114, 13); (116, 9)] ->
    chars s q -> chars (c :: s) (92 :: e :: q)
| ch_unicode u h w s q : four_hex u h -> ~ surrogate u -> utf8_text u w -> chars s q -> chars (w ++ s) (92 :: 117 :: h ++ q)
| ch_pair u v h l w s q : four_hex u h -> four_hex v l -> 55296 <= u < 56320 -> 56320 <= v < 57344 ->
    utf8_text (65536 + (u - 55296) * 1024 + (v - 56320)) w -> chars s q -> chars (w ++ s) (92 :: 117 :: h ++ 92 :: 117 :: l ++ q).
Inductive string_text (s : list N) : list N -> Prop :=
| str q : chars s q -> string_text s ([34] ++ q ++ [34]).

(** The document of a string: a number in hex digits, with or without "0x", one of the names of the types, or another string. *)
Definition spelled : list (name * list N) :=
  [(f_count, txt "count"); (f_packed, txt "packed"); (f_children, txt "children"); (f_value, txt "value"); (f_nibbles, txt "nibbles"); (f_child, txt "child");
   (f_node, txt "node"); (f_hash, txt "hash"); (v_Empty, txt "Empty"); (v_Hash, txt "Hash"); (v_Branch, txt "Branch"); (v_Extension, txt "Extension"); (v_Leaf, txt "Leaf")].
Inductive key_value (s : list N) : key -> Prop :=
| kv_name n : In (n, s) spelled -> key_value s (KName n)
| kv_other : (forall n, ~ In (n, s) spelled) -> key_value s (KOther s).
Definition hex_text (s l : list N) : Prop := s <> [] /\ exists b, Forall2 hex_digit b l /\ (s = b \/ s = txt "0x" ++ b).
Inductive string_value (s : list N) : doc -> Prop :=
| sv_hex l : hex_text s l -> string_value s (JHex l)
| sv_string k : (forall l, ~ hex_text s l) -> key_value s k -> string_value s (JString k).

Inductive value_text : doc -> list N -> Prop :=
| vt_null : value_text JNull (txt "null")
| vt_true : value_text JOther (txt "true")
| vt_false : value_text JOther (txt "false")
| vt_int q : int_text q -> value_text (JNum (value_of_digits q)) q
| vt_number m i f x : minus_text m -> int_text i -> fraction_text f -> exponent_text x -> m ++ f ++ x <> [] -> value_text JOther (m ++ i ++ f ++ x)
| vt_string s d q : string_text s q -> string_value s d -> value_text d q
| vt_array l q : array_text l q -> value_text (JArray l) ([91] ++ q ++ [93])
| vt_object l q : object_text l q -> value_text (JObject l) ([123] ++ q ++ [125])
with array_text : list doc -> list N -> Prop :=
| at_none b : blank b -> array_text [] b
| at_some l q : elements l q -> array_text l q
with elements : list doc -> list N -> Prop :=
| el_one a d q b : blank a -> value_text d q -> blank b -> elements [d] (a ++ q ++ b)
| el_more a d q b l r : blank a -> value_text d q -> blank b -> elements l r -> elements (d :: l) (a ++ q ++ b ++ [44] ++ r)
with object_text : list (key * doc) -> list N -> Prop :=
| ot_none b : blank b -> object_text [] b
| ot_some l q : members l q -> object_text l q
with members : list (key * doc) -> list N -> Prop :=
| me_one e q : member e q -> members [e] q
| me_more e q l r : member e q -> members l r -> members (e :: l) (q ++ [44] ++ r)
with member : key * doc -> list N -> Prop :=
| me a s k n b c d q e : blank a -> string_text s n -> key_value s k -> blank b -> blank c -> value_text d q -> blank e ->
    member (k, d) (a ++ n ++ b ++ [58] ++ c ++ q ++ e).

(** [json_text d s]: [s] is a text for the document [d]. *)
Definition json_text (d : doc) (s : list N) : Prop := exists a q b, blank a /\ value_text d q /\ blank b /\ s = a ++ q ++ b.

(** Texts whose end can be seen: not numbers and literals, which could go on. *)
Definition closed (d : doc) : Prop := match d with JHex _ | JString _ | JArray _ | JObject _ => True | _ => False end.
(** The characters that are no blanks. *)
Definition no_blanks (s : list N) : list N := filter (fun c => negb ((c =? 32) || (c =? 9) || (c =? 10) || (c =? 13))) s.

(** The usual layout of a text without blanks, whose strings have no brackets, commas and colons: a new line after each opening bracket and each
    comma and before each closing bracket, indented by two blanks for each open bracket, but "[]" and "{}" on one line; a blank after each colon. *)
Fixpoint layout (opened : nat) (s : list N) : list N :=
  let line n := 10 :: repeat 32 (n + n) in
  match s with
  | [] => []
  | c :: s' =>
      if (c =? 91) || (c =? 123) then
        match s' with
        | e :: s'' => if (e =? 93) || (e =? 125) then c :: e :: layout opened s'' else c :: line (S opened) ++ layout (S opened) s'
        | [] => [c]
        end
      else if (c =? 93) || (c =? 125) then line (pred opened) ++ c :: layout (pred opened) s'
      else if c =? 44 then c :: line opened ++ layout opened s'
      else if c =? 58 then c :: 32 :: layout opened s'
      else c :: layout opened s'
  end.

(** Saving a handle as a JSON text, compact or pretty, and loading the text with [unwrap]. *)
Definition hreload_text (write : data -> list N) (t : hnode) : prog hnode :=
  d <~ hserialize t ;; r <~ hload_text None (write d) ;; match r with Some u => Ret u | None => Fail end.
(** As [hstep] and [hrun], but [Reload] goes through JSON texts. *)
Definition tstep (keccak : list N -> list N) (pr : profile) (write : data -> list N) (ts : list hnode) (o : op) : prog (list hnode * obs) :=
  match o with
  | Reload i => t <~ lift (the ts i) ;; t' <~ hreload_text write t ;; Ret (ts ++ [t'], Done)
  | _ => hstep keccak pr ts o
  end.
Fixpoint trun (keccak : list N -> list N) (pr : profile) (write : data -> list N) (ts : list hnode) (os : list op) : prog (list hnode * list obs) :=
  match os with
  | [] => Ret (ts, [])
  | o :: os' => '(ts', x) <~ tstep keccak pr write ts o ;; '(ts'', xs) <~ trun keccak pr write ts' os' ;; Ret (ts'', x :: xs)
  end.
