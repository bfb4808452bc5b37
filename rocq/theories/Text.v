(** Model of the text output ([Display]) of /repo/src/debug_tools/common.rs, query.rs and diff.rs, and of utils.rs:36-48. Text is a
    list of character codes. [write!] to the formatter is taken not to fail. Text output of stats.rs: StatsText.v. *)
From Coq Require Import String Ascii Decimal.
From Verif Require Import Base Nibbles Trie Query Rlp Hashing Cache Diff.
Open Scope N_scope.
Open Scope list_scope.

(** A string literal. *)
Definition txt (s : string) : list N := map N_of_ascii (list_ascii_of_string s).

(** The standard library's [{}] of an unsigned integer: decimal digits without leading zeros, and [{}] of a [bool]. *)
Fixpoint uint_chars (u : uint) : list N :=
  match u with
  | Nil => []
  | D0 u => 48 :: uint_chars u | D1 u => 49 :: uint_chars u | D2 u => 50 :: uint_chars u | D3 u => 51 :: uint_chars u
  | D4 u => 52 :: uint_chars u | D5 u => 53 :: uint_chars u | D6 u => 54 :: uint_chars u | D7 u => 55 :: uint_chars u
  | D8 u => 56 :: uint_chars u | D9 u => 57 :: uint_chars u
  end.
Definition dec (n : N) : list N := uint_chars (N.to_uint n).
Definition bool_text (b : bool) : list N := if b then txt "true" else txt "false".

(** [{:#018b}] of a [u16]: 0b and sixteen binary digits. *)
Fixpoint bin_digits (k : nat) (m : N) : list N :=
  match k with O => [] | S k' => bin_digits k' (m / 2) ++ [48 + m mod 2] end.
Definition bin16 (m : N) : list N := txt "0b" ++ bin_digits 16 m.

(** [hex::encode] of bytes, and [{:x}] of an [H256] (all of its 64 digits). *)
Definition hex_text (bytes : list N) : list N := hex_encode false bytes.

(** nibbles.rs:159-164, 196-200: [{}] and [{:x}] of [Nibbles]. *)
Definition key_text (pr : profile) (n : nibbles) : res (list N) := as_hex_str pr false n.

(** utils.rs:36-48 [Display for TrieNodeType]. *)
Definition type_text (ty : node_type) : list N :=
  match ty with
  | TEmpty => txt "Empty" | THash => txt "Hash" | TBranch => txt "Branch" | TExtension => txt "Extension" | TLeaf => txt "Leaf"
  end.

(** common.rs:18-28 [Display for PathSegment], 105-107 [write_elem]. *)
Definition segment_text (pr : profile) (s : segment) : res (list N) :=
  match s with
  | SEmpty => Ok (txt "Empty")
  | SHash => Ok (txt "Hash")
  | SBranch nib => Ok (txt "Branch(" ++ dec nib ++ txt ")")
  | SExtension n => k <- key_text pr n ;; Ok (txt "Extension(" ++ k ++ txt ")")
  | SLeaf n => k <- key_text pr n ;; Ok (txt "Leaf(" ++ k ++ txt ")")
  end.

(** common.rs:110-127 [Display for NodePath]: the loop over all elements but the last, each followed by an arrow. *)
Fixpoint path_loop (pr : profile) (l : list segment) : res (list N) :=
  match l with
  | [] => Ok []
  | s :: l' => a <- segment_text pr s ;; b <- path_loop pr l' ;; Ok (a ++ txt " --> " ++ b)
  end.
Definition path_text (pr : profile) (p : list segment) : res (list N) :=
  a <- path_loop pr (firstn (length p - 1) p) ;;
  match rev p with
  | [] => Ok a
  | s :: _ => b <- segment_text pr s ;; Ok (a ++ b)
  end.

(** query.rs:22-44 [struct DebugQueryParams] and its default; 51-76 the builder sets these fields. *)
Record query_params : Type := QParams { include_key_piece : bool; include_node_type : bool; include_values : bool }.
Definition default_params : query_params := QParams true true false.

(** query.rs:103-116 [Display for ExtraNodeSegmentInfo]. *)
Definition extra_text (e : extra_info) : list N :=
  match e with
  | XHash h => txt "Hash: " ++ hex_text h
  | XBranch m => txt "mask: " ++ bin16 m ++ txt " (Num Children: " ++ dec (count_children_from_mask m) ++ txt ")"
  | XLeaf v => txt "Leaf Value: " ++ hex_text v
  end.

(** query.rs:216-249 [fmt_node_based_on_debug_params]. *)
Definition query_node_text (pr : profile) (ps : query_params) (s : segment) (e : option extra_info) : res (list N) :=
  let a := if include_node_type ps then type_text (seg_type s) else [] in
  b <- (if include_key_piece ps
        then kp <- seg_key_piece s ;; match kp with Some n => k <- key_text pr n ;; Ok (txt "key: " ++ k) | None => Ok [] end
        else Ok []) ;;
  let c := if include_values ps
           then match e with
                | Some e => (if include_key_piece ps then txt ", " else []) ++ txt "Extra Seg Info: " ++ extra_text e
                | None => []
                end
           else [] in
  Ok (a ++ txt "(" ++ b ++ c ++ txt ")").

(** [extra_node_info[i]]: panics out of range. *)
Definition index_extra (l : list (option extra_info)) (i : nat) : res (option extra_info) :=
  match nth_error l i with Some e => Ok e | None => Panic end.

(** query.rs:206-213 [fmt_query_header]; 10 is the line feed. *)
Definition header_text (pr : profile) (out : query_output) : res (list N) :=
  k <- key_text pr (q_key out) ;;
  Ok (txt "Query Result {" ++ [10] ++ txt "Queried Key: " ++ k ++ [10] ++ txt "Node found: " ++ bool_text (node_found out) ++ [10] ++ txt "}" ++ [10]).

(** query.rs:164-192 [Display for DebugQueryOutput]. [node_path.len() - 1] underflows for an empty path: a panic in Debug; in Release
    all elements are taken (there are none). *)
Fixpoint query_loop (pr : profile) (ps : query_params) (extra : list (option extra_info)) (i : nat) (l : list segment) : res (list N) :=
  match l with
  | [] => Ok []
  | s :: l' =>
      e <- index_extra extra i ;;
      a <- query_node_text pr ps s e ;;
      b <- query_loop pr ps extra (S i) l' ;;
      Ok (a ++ [10] ++ txt "V" ++ [10] ++ b)
  end.
Definition query_text (pr : profile) (ps : query_params) (out : query_output) : res (list N) :=
  h <- header_text pr out ;;
  n <- usub pr (N.of_nat (length (node_path out))) 1 ;;
  a <- query_loop pr ps (extra_node_info out) 0 (firstn (N.to_nat n) (node_path out)) ;;
  match rev (node_path out) with
  | [] => Ok (h ++ txt "Query path:" ++ [10] ++ a)
  | s :: _ =>
      e <- index_extra (extra_node_info out) (length (node_path out) - 1) ;;
      b <- query_node_text pr ps s e ;;
      Ok (h ++ txt "Query path:" ++ [10] ++ a ++ b)
  end.

(** diff.rs:131-143 [Display for NodeInfo]. *)
Definition info_text (pr : profile) (i : node_info) : res (list N) :=
  k <- key_text pr (i_key i) ;;
  Ok (txt "(key: " ++ k ++ txt " " ++
      (match i_value i with Some v => txt "Value: 0x" ++ hex_text v ++ txt ", " | None => txt "Value: N/A, " end) ++
      txt "Node type: " ++ type_text (i_type i) ++ txt " Trie hash: " ++ hex_text (i_hash i) ++ txt ")").

(** diff.rs:108-116 [Display for DiffPoint]. *)
Definition point_text (pr : profile) (p : diff_point) : res (list N) :=
  path <- path_text pr (d_path p) ;;
  k <- key_text pr (d_key p) ;;
  a <- info_text pr (a_info p) ;;
  b <- info_text pr (b_info p) ;;
  Ok (txt "Point Diff {depth: " ++ dec (d_depth p) ++ txt ", Path: (" ++ path ++ txt "), Key: " ++ k ++ txt " A info: " ++ a ++
      txt " B info: " ++ b ++ txt "}").

(** diff.rs:46-54 [Display for TrieDiff]. *)
Definition diff_text (pr : profile) (d : option diff_point) : res (list N) :=
  match d with Some p => point_text pr p | None => Ok [] end.
