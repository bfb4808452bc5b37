(** The characters of JSON texts: writing and reading with serde_json (a dev-dependency, Cargo.toml), between the documents of Json.v and texts as
    lists of bytes. serde_json is not part of /repo: modelled are its compact and its pretty writer and the grammar that its reader accepts. *)
From Coq Require Import String.
From Verif Require Import Base Nibbles Trie Cache Serde Json Text.
Open Scope N_scope.
Open Scope list_scope.

(** ** Strings *)
(** The names of fields and variants: those of the Rust types. *)
Definition name_text (n : name) : list N :=
  txt (match n with
       | f_count => "count" | f_packed => "packed" | f_children => "children" | f_value => "value" | f_nibbles => "nibbles" | f_child => "child"
       | f_node => "node" | f_hash => "hash"
       | v_Empty => "Empty" | v_Hash => "Hash" | v_Branch => "Branch" | v_Extension => "Extension" | v_Leaf => "Leaf"
       end).
Definition names : list name :=
  [f_count; f_packed; f_children; f_value; f_nibbles; f_child; f_node; f_hash; v_Empty; v_Hash; v_Branch; v_Extension; v_Leaf].
Definition key_of (s : list N) : key := match find (fun n => bytes_eqb (name_text n) s) names with Some n => KName n | None => KOther s end.
Definition key_chars (k : key) : list N := match k with KName n => name_text n | KOther s => s end.
(** A string as a document. impl-serde takes hex digits in upper and lower case, with and without "0x". *)
Definition hex_part (s : list N) : list N := match s with 48 :: 120 :: s' => s' | _ => s end.
Definition string_doc (s : list N) : doc :=
  match s, hex_vals (hex_part s) with
  | _ :: _, Some l => JHex l
  | _, _ => JString (key_of s)
  end.

(** ** Writing *)
(** [format_escaped_str]: quotes, backslashes and control characters are escaped. *)
Definition escaped (c : N) : list N :=
  if c =? 34 then [92; 34] else if c =? 92 then [92; 92]
  else if c =? 8 then [92; 98] else if c =? 9 then [92; 116] else if c =? 10 then [92; 110] else if c =? 12 then [92; 102] else if c =? 13 then [92; 114]
  else if c <? 32 then [92; 117; 48; 48; hex_char false (c / 16); hex_char false (c mod 16)]
  else [c].
Definition quoted (s : list N) : list N := [34] ++ flat_map escaped s ++ [34].
(** [CompactFormatter]: no blanks. ([JOther] is never written.) *)
Definition commas (l : list (list N)) : list N :=
  match l with [] => [] | x :: l' => x ++ flat_map (fun y => [44] ++ y) l' end.
Fixpoint compact (d : doc) : list N :=
  match d with
  | JNull => txt "null"
  | JNum n => dec n
  | JHex l => quoted (txt "0x" ++ map (hex_char false) l)
  | JString k => quoted (key_chars k)
  | JArray l => [91] ++ commas (map compact l) ++ [93]
  | JObject l => [123] ++ commas (map (fun e => quoted (key_chars (fst e)) ++ [58] ++ compact (snd e)) l) ++ [125]
  | JOther => txt "false"
  end.
(** [PrettyFormatter]: each element and entry on its own line, indented by two blanks for each level. *)
Definition new_line (depth : nat) : list N := 10 :: repeat 32 (2 * depth).
Definition lines (depth : nat) (l : list (list N)) : list N :=
  match l with
  | [] => []
  | x :: l' => new_line (S depth) ++ x ++ flat_map (fun y => [44] ++ new_line (S depth) ++ y) l' ++ new_line depth
  end.
Fixpoint pretty (depth : nat) (d : doc) : list N :=
  match d with
  | JArray l => [91] ++ lines depth (map (pretty (S depth)) l) ++ [93]
  | JObject l => [123] ++ lines depth (map (fun e => quoted (key_chars (fst e)) ++ txt ": " ++ pretty (S depth) (snd e)) l) ++ [125]
  | _ => compact d
  end.
(** [to_string], [to_string_pretty]. *)
Definition to_string (d : data) : list N := compact (json d).
Definition to_string_pretty (d : data) : list N := pretty 0 (json d).

(** ** Reading *)
(** serde_json reads by recursive descent, together with the derived code. Here the characters are read one by one: a first machine makes
    tokens, a second one with a stack makes documents. Texts are taken to be UTF-8 ([from_str] takes a [&str]). Differences: an unpaired
    surrogate escape is refused everywhere (there: not in values that are ignored), and values that are ignored count for the limit. *)
Inductive token : Type :=
| TkOpen | TkClose | TkOpenArray | TkCloseArray | TkComma | TkColon | TkNull | TkOther
| TkNumber (n : N)
| TkString (s : list N).

(** What has been read of a token. *)
Inductive partial : Type :=
| PNone
| PWord (rest : list N) (t : token)
| PString (read : list N)
| PEscape (read : list N)
| PUnicode (read : list N) (high : option N) (digits : list N)
| PPair1 (read : list N) (high : N)
| PPair2 (read : list N) (high : N)
| PMinus
| PZero (neg : bool)
| PInt (neg : bool) (n : N)
| PDot
| PFraction
| PExp
| PExpSign
| PExponent.

Definition is_blank (c : N) : bool := (c =? 32) || (c =? 10) || (c =? 13) || (c =? 9).
Definition is_digit (c : N) : bool := (48 <=? c) && (c <=? 57).
Definition is_exp (c : N) : bool := (c =? 101) || (c =? 69).

(** The first character of a token. *)
Definition token_start (c : N) : option (list token * partial) :=
  if is_blank c then Some ([], PNone)
  else if c =? 123 then Some ([TkOpen], PNone)
  else if c =? 125 then Some ([TkClose], PNone)
  else if c =? 91 then Some ([TkOpenArray], PNone)
  else if c =? 93 then Some ([TkCloseArray], PNone)
  else if c =? 44 then Some ([TkComma], PNone)
  else if c =? 58 then Some ([TkColon], PNone)
  else if c =? 34 then Some ([], PString [])
  else if c =? 110 then Some ([], PWord (txt "ull") TkNull)
  else if c =? 116 then Some ([], PWord (txt "rue") TkOther)
  else if c =? 102 then Some ([], PWord (txt "alse") TkOther)
  else if c =? 45 then Some ([], PMinus)
  else if c =? 48 then Some ([], PZero false)
  else if is_digit c then Some ([], PInt false (c - 48))
  else None.

(** Numbers end before the first character that does not belong to them. Only integers without a sign are kept. *)
Definition number_end (p : partial) : option token :=
  match p with
  | PZero neg => Some (if neg then TkOther else TkNumber 0)
  | PInt neg n => Some (if neg then TkOther else TkNumber n)
  | PFraction | PExponent => Some TkOther
  | _ => None
  end.
Definition after_number (p : partial) (c : N) : option (list token * partial) :=
  match number_end p, token_start c with
  | Some t, Some (ts, p') => Some (t :: ts, p')
  | _, _ => None
  end.

(** Escapes. *)
Definition unescape (c : N) : option N :=
  if c =? 34 then Some 34 else if c =? 92 then Some 92 else if c =? 47 then Some 47
  else if c =? 98 then Some 8 else if c =? 102 then Some 12 else if c =? 110 then Some 10 else if c =? 114 then Some 13 else if c =? 116 then Some 9
  else None.
Definition utf8 (u : N) : list N :=
  if u <? 128 then [u]
  else if u <? 2048 then [192 + u / 64; 128 + u mod 64]
  else if u <? 65536 then [224 + u / 4096; 128 + u / 64 mod 64; 128 + u mod 64]
  else [240 + u / 262144; 128 + u / 4096 mod 64; 128 + u / 64 mod 64; 128 + u mod 64].
Definition is_high (u : N) : bool := (55296 <=? u) && (u <? 56320).
Definition is_low (u : N) : bool := (56320 <=? u) && (u <? 57344).
Definition pair_value (h l : N) : N := 65536 + (h - 55296) * 1024 + (l - 56320).
Definition code_unit (read : list N) (high : option N) (u : N) : option partial :=
  match high with
  | None =>
      if is_high u then Some (PPair1 read u) else if is_low u then None else Some (PString (read ++ utf8 u))
  | Some h => if is_low u then Some (PString (read ++ utf8 (pair_value h u))) else None
  end.

Definition token_step (p : partial) (c : N) : option (list token * partial) :=
  match p with
  | PNone => token_start c
  | PWord (x :: rest) t => if c =? x then Some (match rest with [] => ([t], PNone) | _ => ([], PWord rest t) end) else None
  | PWord [] _ => None
  | PString read =>
      if c =? 34 then Some ([TkString read], PNone)
      else if c =? 92 then Some ([], PEscape read)
      else if c <? 32 then None
      else Some ([], PString (read ++ [c]))
  | PEscape read =>
      if c =? 117 then Some ([], PUnicode read None [])
      else match unescape c with Some x => Some ([], PString (read ++ [x])) | None => None end
  | PUnicode read high digits =>
      match hex_val c with
      | None => None
      | Some v =>
          match digits with
          | [a; b; d] => match code_unit read high (((a * 16 + b) * 16 + d) * 16 + v) with Some p' => Some ([], p') | None => None end
          | _ => Some ([], PUnicode read high (digits ++ [v]))
          end
      end
  | PPair1 read h => if c =? 92 then Some ([], PPair2 read h) else None
  | PPair2 read h => if c =? 117 then Some ([], PUnicode read (Some h) []) else None
  | PMinus => if c =? 48 then Some ([], PZero true) else if is_digit c then Some ([], PInt true (c - 48)) else None
  | PZero neg =>
      if is_digit c then None else if c =? 46 then Some ([], PDot) else if is_exp c then Some ([], PExp) else after_number p c
  | PInt neg n =>
      if is_digit c then Some ([], PInt neg (n * 10 + (c - 48)))
      else if c =? 46 then Some ([], PDot) else if is_exp c then Some ([], PExp) else after_number p c
  | PDot => if is_digit c then Some ([], PFraction) else None
  | PFraction => if is_digit c then Some ([], PFraction) else if is_exp c then Some ([], PExp) else after_number p c
  | PExp => if is_digit c then Some ([], PExponent) else if (c =? 43) || (c =? 45) then Some ([], PExpSign) else None
  | PExpSign => if is_digit c then Some ([], PExponent) else None
  | PExponent => if is_digit c then Some ([], PExponent) else after_number p c
  end.

(** The arrays and objects that are open, innermost first: what they have so far (in reverse), and in an object the name of the entry whose
    value comes next. *)
Inductive frame : Type :=
| FArray (done : list doc)
| FObject (done : list (key * doc)) (k : option key).
(** What comes next: a value; a value or the end of the array; a name or the end of the object; a name; a colon; [MAfter]: a document has
    been read, so a comma or the end of what is around it. *)
Inductive mode : Type := MValue | MFirst | MFirstName | MName | MColon | MAfter (d : doc).

(** [limit]: the number of arrays and objects around each other that is too much, if there is one. *)
Definition may_open (limit : option nat) (stack : list frame) : bool :=
  match limit with Some n => Nat.ltb (S (length stack)) n | None => true end.
Definition value_step (limit : option nat) (stack : list frame) (t : token) : option (mode * list frame) :=
  match t with
  | TkNull => Some (MAfter JNull, stack)
  | TkNumber n => Some (MAfter (JNum n), stack)
  | TkOther => Some (MAfter JOther, stack)
  | TkString s => Some (MAfter (string_doc s), stack)
  | TkOpen => if may_open limit stack then Some (MFirstName, FObject [] None :: stack) else None
  | TkOpenArray => if may_open limit stack then Some (MFirst, FArray [] :: stack) else None
  | _ => None
  end.
Definition name_step (stack : list frame) (t : token) : option (mode * list frame) :=
  match t, stack with
  | TkString s, FObject done None :: rest => Some (MColon, FObject done (Some (key_of s)) :: rest)
  | _, _ => None
  end.
Definition doc_step (limit : option nat) (st : mode * list frame) (t : token) : option (mode * list frame) :=
  let (m, stack) := st in
  match m with
  | MValue => value_step limit stack t
  | MFirst =>
      match t, stack with
      | TkCloseArray, FArray [] :: rest => Some (MAfter (JArray []), rest)
      | _, _ => value_step limit stack t
      end
  | MFirstName =>
      match t, stack with
      | TkClose, FObject [] None :: rest => Some (MAfter (JObject []), rest)
      | _, _ => name_step stack t
      end
  | MName => name_step stack t
  | MColon => match t with TkColon => Some (MValue, stack) | _ => None end
  | MAfter d =>
      match t, stack with
      | TkComma, FArray done :: rest => Some (MValue, FArray (d :: done) :: rest)
      | TkCloseArray, FArray done :: rest => Some (MAfter (JArray (rev (d :: done))), rest)
      | TkComma, FObject done (Some k) :: rest => Some (MName, FObject ((k, d) :: done) None :: rest)
      | TkClose, FObject done (Some k) :: rest => Some (MAfter (JObject (rev ((k, d) :: done))), rest)
      | _, _ => None
      end
  end.
Fixpoint doc_steps (limit : option nat) (st : mode * list frame) (ts : list token) : option (mode * list frame) :=
  match ts with
  | [] => Some st
  | t :: ts' => match doc_step limit st t with Some st' => doc_steps limit st' ts' | None => None end
  end.

Definition state : Type := partial * (mode * list frame).
Definition step (limit : option nat) (st : state) (c : N) : option state :=
  match token_step (fst st) c with
  | Some (ts, p) => match doc_steps limit (snd st) ts with Some st' => Some (p, st') | None => None end
  | None => None
  end.
Fixpoint steps (limit : option nat) (st : state) (s : list N) : option state :=
  match s with
  | [] => Some st
  | c :: s' => match step limit st c with Some st' => steps limit st' s' | None => None end
  end.
(** The end of the text: nothing is open. *)
Definition finish (limit : option nat) (st : state) : option doc :=
  let ts := match number_end (fst st) with Some t => Some [t] | None => match fst st with PNone => Some [] | _ => None end end in
  match ts with
  | Some ts => match doc_steps limit (snd st) ts with Some (MAfter d, []) => Some d | _ => None end
  | None => None
  end.
Definition parse_from (limit : option nat) (st : state) (s : list N) : option doc :=
  match steps limit st s with Some st' => finish limit st' | None => None end.
Definition parse (limit : option nat) (s : list N) : option doc := parse_from limit (PNone, (MValue, [])) s.

(** ** [from_str] *)
Definition default_limit : option nat := Some 128%nat.
Definition load_text (limit : option nat) (s : list N) : option node := match parse limit s with Some d => read_trie d | None => None end.
Definition hload_text (limit : option nat) (s : list N) : prog (option hnode) :=
  match parse limit s with Some d => hread_trie d | None => Ret None end.
