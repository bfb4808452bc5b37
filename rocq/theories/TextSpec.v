(** What the reports of the debug tools should look like. Only specification vocabulary. *)
From Coq Require Import String.
From Verif Require Import Base Nibbles NibblesSpec Trie TrieSpec Query Diff Text.
Open Scope N_scope.
Open Scope list_scope.

(** The texts of [l] with [sep] between them. *)
Fixpoint join (sep : list N) (l : list (list N)) : list N :=
  match l with
  | [] => []
  | x :: r => match r with [] => x | _ => x ++ sep ++ join sep r end
  end.

Definition newline : list N := [10].
(** A key: 0x and its hex digits. *)
Definition shown_key (l : list N) : list N := txt "0x" ++ map (hex_char false) l.
(** A string of bytes: two hex digits per byte. *)
Definition shown_bytes (l : list N) : list N := map (hex_char false) (unpair l).

(** The number that decimal digits write. *)
Definition undec (l : list N) : N := fold_left (fun a c => 10 * a + (c - 48)) l 0.

Definition type_name (ty : node_type) : list N :=
  match ty with
  | TEmpty => txt "Empty" | THash => txt "Hash" | TBranch => txt "Branch" | TExtension => txt "Extension" | TLeaf => txt "Leaf"
  end.

(** Path segments, e.g. Branch(3), Leaf(0x12). *)
Definition shown_segment (s : segment) : list N :=
  match s with
  | SEmpty | SHash => type_name (seg_type s)
  | SBranch d => type_name TBranch ++ txt "(" ++ dec d ++ txt ")"
  | SExtension n | SLeaf n => type_name (seg_type s) ++ txt "(" ++ shown_key (nseq n) ++ txt ")"
  end.
Definition shown_path (p : list segment) : list N := join (txt " --> ") (map shown_segment p).

(** The digits of the key that a node of the path stands for. *)
Definition piece (s : segment) : option (list N) :=
  match s with SEmpty | SHash => None | SBranch d => Some [d] | SExtension n | SLeaf n => Some (nseq n) end.

Definition shown_extra (e : extra_info) : list N :=
  match e with
  | XHash h => txt "Hash: " ++ shown_bytes h
  | XBranch m => txt "mask: 0b" ++ map (fun i => if N.testbit m i then 49 else 48) [15; 14; 13; 12; 11; 10; 9; 8; 7; 6; 5; 4; 3; 2; 1; 0] ++
                 txt " (Num Children: " ++ dec (N.of_nat (length (filter (N.testbit m) [15; 14; 13; 12; 11; 10; 9; 8; 7; 6; 5; 4; 3; 2; 1; 0]))) ++ txt ")"
  | XLeaf v => txt "Leaf Value: " ++ shown_bytes v
  end.

(** One node of the path; [ps] says what is shown. *)
Definition shown_node (ps : query_params) (se : segment * option extra_info) : list N :=
  (if include_node_type ps then type_name (seg_type (fst se)) else []) ++ txt "(" ++
  (match piece (fst se) with Some l => if include_key_piece ps then txt "key: " ++ shown_key l else [] | None => [] end) ++
  (match snd se with
   | Some e => if include_values ps then (if include_key_piece ps then txt ", " else []) ++ txt "Extra Seg Info: " ++ shown_extra e else []
   | None => []
   end) ++ txt ")".

Definition shown_query (ps : query_params) (out : query_output) : list N :=
  txt "Query Result {" ++ newline ++
  txt "Queried Key: " ++ shown_key (nseq (q_key out)) ++ newline ++
  txt "Node found: " ++ (if node_found out then txt "true" else txt "false") ++ newline ++
  txt "}" ++ newline ++
  txt "Query path:" ++ newline ++
  join (newline ++ txt "V" ++ newline) (map (shown_node ps) (combine (node_path out) (extra_node_info out))).

Definition shown_info (i : node_info) : list N :=
  txt "(key: " ++ shown_key (nseq (i_key i)) ++
  (match i_value i with Some v => txt " Value: 0x" ++ shown_bytes v | None => txt " Value: N/A" end) ++
  txt ", Node type: " ++ type_name (i_type i) ++ txt " Trie hash: " ++ shown_bytes (i_hash i) ++ txt ")".

Definition shown_point (p : diff_point) : list N :=
  txt "Point Diff {depth: " ++ dec (d_depth p) ++ txt ", Path: (" ++ shown_path (d_path p) ++ txt "), Key: " ++ shown_key (nseq (d_key p)) ++
  txt " A info: " ++ shown_info (a_info p) ++ txt " B info: " ++ shown_info (b_info p) ++ txt "}".

Definition shown_diff (d : option diff_point) : list N := match d with Some p => shown_point p | None => [] end.

(** Segments and values as they occur in tries. *)
Definition segment_ok (s : segment) : Prop := match s with SEmpty | SHash => True | SBranch d => d < 16 | SExtension n | SLeaf n => kwf n end.
Definition extra_ok (e : extra_info) : Prop := match e with XHash h => bytesl h | XBranch m => m < 2 ^ 16 | XLeaf v => bytesl v end.
