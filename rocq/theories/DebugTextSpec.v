(** What the [Debug] output of keys and tries should look like. Only specification vocabulary. *)
From Coq Require Import String.
From Verif Require Import Base Nibbles NibblesSpec Trie TrieSpec Query Rlp Hashing Cache Diff Text TextSpec.
Open Scope N_scope.
Open Scope list_scope.

(** ** The keys in the nodes of a trie *)
Fixpoint node_keys (t : node) : list nibbles :=
  match t with
  | Empty | Hash _ => []
  | Branch ch _ => flat_map node_keys ch
  | Extension n c => n :: node_keys c
  | Leaf n _ => [n]
  end.
(** Keys of a length that can be shown; keys without bits above their digits. *)
Definition short (n : nibbles) : Prop := count n <= 128.
Definition exact (n : nibbles) : Prop := packed n < 16 ^ count n.
(** The trie without bits above the digits of its keys. *)
Fixpoint trim (t : node) : node :=
  match t with
  | Empty => Empty
  | Hash h => Hash h
  | Branch ch v => Branch (map trim ch) v
  | Extension n c => Extension (enc (nseq n)) (trim c)
  | Leaf n v => Leaf (enc (nseq n)) v
  end.
(** Values and hashes are bytes. *)
Fixpoint byte_values (t : node) : Prop :=
  match t with
  | Empty => True
  | Hash h => bytesl h
  | Branch ch v => (fix all (l : list node) : Prop := match l with [] => True | c :: l' => byte_values c /\ all l' end) ch /\ bytesl v
  | Extension _ c => byte_values c
  | Leaf _ v => bytesl v
  end.

(** ** On one line *)
Definition commas (l : list (list N)) : list N := join (txt ", ") l.
Definition quoted_key (l : list N) : list N := txt """" ++ shown_key l ++ txt """".
Definition line_nibbles (l : list N) : list N := txt "Nibbles { count: " ++ dec (N.of_nat (length l)) ++ txt ", packed: " ++ quoted_key l ++ txt " }".
Definition line_bytes (v : list N) : list N := txt "[" ++ commas (map dec v) ++ txt "]".
Definition line_hash (h : list N) : list N := txt "0x" ++ shown_bytes h.
Definition line_value (v : val_or_hash) : list N :=
  match v with Val v => txt "Val(" ++ line_bytes v ++ txt ")" | HashV h => txt "Hash(" ++ line_hash h ++ txt ")" end.

Fixpoint line_trie (t : node) : list N :=
  txt "StandardTrie(" ++
  match t with
  | Empty => txt "Empty"
  | Hash h => txt "Hash(" ++ line_hash h ++ txt ")"
  | Branch ch v => txt "Branch { children: [" ++ commas (map line_trie ch) ++ txt "], value: " ++ line_bytes v ++ txt " }"
  | Extension n c => txt "Extension { nibbles: " ++ line_nibbles (nseq n) ++ txt ", child: " ++ line_trie c ++ txt " }"
  | Leaf n v => txt "Leaf { nibbles: " ++ line_nibbles (nseq n) ++ txt ", value: " ++ line_bytes v ++ txt " }"
  end ++ txt ")".

(** A caching trie also shows the cached hash of every node, or that its lock is taken. [see p c] is what is seen in cell [c] of the node at
    position [p], which has the numbers of the children on the way to the node, the last one first. *)
Inductive sight : Type := Locked | Holds (o : option (list N)).
Definition line_sight (x : sight) : list N :=
  match x with Locked => txt "<locked>" | Holds None => txt "None" | Holds (Some h) => txt "Some(" ++ line_hash h ++ txt ")" end.
Definition numbered {A B} (f : nat -> A -> B) : nat -> list A -> list B :=
  fix go (i : nat) (l : list A) : list B := match l with [] => [] | x :: l' => f i x :: go (S i) l' end.
Fixpoint line_handle (see : list nat -> N -> sight) (p : list nat) (t : hnode) : list N :=
  txt "HashedPartialTrie { node: " ++
  match t with
  | HEmpty _ => txt "Empty"
  | HHash _ h => txt "Hash(" ++ line_hash h ++ txt ")"
  | HBranch _ ch v => txt "Branch { children: [" ++ commas (numbered (fun i c => line_handle see (i :: p) c) O ch) ++ txt "], value: " ++ line_bytes v ++ txt " }"
  | HExtension _ n c => txt "Extension { nibbles: " ++ line_nibbles (nseq n) ++ txt ", child: " ++ line_handle see (O :: p) c ++ txt " }"
  | HLeaf _ n v => txt "Leaf { nibbles: " ++ line_nibbles (nseq n) ++ txt ", value: " ++ line_bytes v ++ txt " }"
  end ++ txt ", hash: RwLock { data: " ++ line_sight (see p (cell t)) ++ txt " } }".
(** Everything that is seen in the cells, node by node. *)
Fixpoint sights (see : list nat -> N -> sight) (p : list nat) (t : hnode) : list sight :=
  see p (cell t) ::
  match t with
  | HBranch _ ch _ => concat (numbered (fun i c => sights see (i :: p) c) O ch)
  | HExtension _ _ c => sights see (O :: p) c
  | _ => []
  end.
(** What is seen in the cells [s] if [locked] says at which nodes the lock is taken. A thread that runs alone finds no lock taken. *)
Definition seen (locked : list nat -> bool) (s : store) : list nat -> N -> sight := fun p c => if locked p then Locked else Holds (s c).
Definition alone : list nat -> bool := fun _ => false.

(** ** Indented *)
(** Items on lines of their own, each with a comma, four spaces deeper than the closing bracket. *)
Definition indent (i : nat) : list N := repeat 32 (4 * i).
Definition block (i : nat) (opening : list N) (items : list (list N)) (closing : list N) : list N :=
  opening ++ newline ++ concat (map (fun x => indent (S i) ++ x ++ txt "," ++ newline) items) ++ indent i ++ closing.
Definition tall_list (i : nat) (items : list (list N)) : list N := match items with [] => txt "[]" | _ => block i (txt "[") items (txt "]") end.
Definition tall_bytes (i : nat) (v : list N) : list N := tall_list i (map dec v).
Definition tall_nibbles (i : nat) (l : list N) : list N :=
  block i (txt "Nibbles {") [txt "count: " ++ dec (N.of_nat (length l)); txt "packed: " ++ quoted_key l] (txt "}").
Fixpoint tall_trie (i : nat) (t : node) : list N :=
  block i (txt "StandardTrie(")
    [match t with
     | Empty => txt "Empty"
     | Hash h => block (1 + i) (txt "Hash(") [line_hash h] (txt ")")
     | Branch ch v => block (1 + i) (txt "Branch {") [txt "children: " ++ tall_list (2 + i) (map (tall_trie (3 + i)) ch); txt "value: " ++ tall_bytes (2 + i) v] (txt "}")
     | Extension n c => block (1 + i) (txt "Extension {") [txt "nibbles: " ++ tall_nibbles (2 + i) (nseq n); txt "child: " ++ tall_trie (2 + i) c] (txt "}")
     | Leaf n v => block (1 + i) (txt "Leaf {") [txt "nibbles: " ++ tall_nibbles (2 + i) (nseq n); txt "value: " ++ tall_bytes (2 + i) v] (txt "}")
     end] (txt ")").
Definition tall_sight (i : nat) (x : sight) : list N :=
  match x with Holds (Some h) => block i (txt "Some(") [line_hash h] (txt ")") | _ => line_sight x end.
Fixpoint tall_handle (i : nat) (see : list nat -> N -> sight) (p : list nat) (t : hnode) : list N :=
  block i (txt "HashedPartialTrie {")
    [txt "node: " ++
     match t with
     | HEmpty _ => txt "Empty"
     | HHash _ h => block (1 + i) (txt "Hash(") [line_hash h] (txt ")")
     | HBranch _ ch v => block (1 + i) (txt "Branch {")
         [txt "children: " ++ tall_list (2 + i) (numbered (fun j c => tall_handle (3 + i) see (j :: p) c) O ch); txt "value: " ++ tall_bytes (2 + i) v] (txt "}")
     | HExtension _ n c => block (1 + i) (txt "Extension {")
         [txt "nibbles: " ++ tall_nibbles (2 + i) (nseq n); txt "child: " ++ tall_handle (2 + i) see (O :: p) c] (txt "}")
     | HLeaf _ n v => block (1 + i) (txt "Leaf {") [txt "nibbles: " ++ tall_nibbles (2 + i) (nseq n); txt "value: " ++ tall_bytes (2 + i) v] (txt "}")
     end;
     txt "hash: " ++ block (1 + i) (txt "RwLock {") [txt "data: " ++ tall_sight (2 + i) (see p (cell t))] (txt "}")] (txt "}").

(** ** Back to one line *)
(** The line breaks and the spaces after them are dropped; so is a comma before them if a closing bracket follows. What comes between
    depends on the characters around the break. *)
Inductive reading : Type := After (c : N) | AfterComma | Broken (c : N).
Definition between (o c : N) : list N :=
  if o =? 44 then (if c =? 125 then txt " " else if (c =? 41) || (c =? 93) then [] else txt ", ")
  else if o =? 123 then txt " " else [].
Fixpoint one_line (st : reading) (l : list N) : list N :=
  match l with
  | [] => match st with AfterComma => txt "," | _ => [] end
  | c :: l' =>
      match st with
      | After p => if c =? 10 then one_line (Broken p) l' else if c =? 44 then one_line AfterComma l' else c :: one_line (After c) l'
      | AfterComma => if c =? 10 then one_line (Broken 44) l' else 44 :: c :: one_line (After c) l'
      | Broken o => if c =? 32 then one_line st l' else between o c ++ c :: one_line (After c) l'
      end
  end.

(** ** Reports and errors, on one line *)
Definition line_struct (name : string) (fields : list (string * list N)) : list N :=
  txt name ++ txt " { " ++ commas (map (fun f => txt (fst f) ++ txt ": " ++ snd f) fields) ++ txt " }".
Definition line_option {A} (f : A -> list N) (o : option A) : list N := match o with None => txt "None" | Some x => txt "Some(" ++ f x ++ txt ")" end.
Definition line_key (n : nibbles) : list N := line_nibbles (nseq n).
Definition line_segment (s : segment) : list N :=
  match s with
  | SEmpty => txt "Empty"
  | SHash => txt "Hash"
  | SBranch d => txt "Branch(" ++ dec d ++ txt ")"
  | SExtension n => txt "Extension(" ++ line_key n ++ txt ")"
  | SLeaf n => txt "Leaf(" ++ line_key n ++ txt ")"
  end.
Definition line_path (p : list segment) : list N := txt "NodePath([" ++ commas (map line_segment p) ++ txt "])".
Definition line_params (ps : query_params) : list N :=
  line_struct "DebugQueryParams" [("include_key_piece_per_node"%string, bool_text (include_key_piece ps)); ("include_node_type"%string, bool_text (include_node_type ps));
                                  ("include_node_specific_values"%string, bool_text (include_values ps))].
Definition line_query (k : nibbles) (ps : query_params) : list N := line_struct "DebugQuery" [("k"%string, line_key k); ("params"%string, line_params ps)].
Definition line_extra (e : extra_info) : list N :=
  match e with
  | XHash h => txt "Hash(" ++ line_hash h ++ txt ")"
  | XBranch m => line_struct "Branch" [("child_mask"%string, dec m)]
  | XLeaf v => line_struct "Leaf" [("value"%string, line_bytes v)]
  end.
Definition line_output (out : query_output) (ps : query_params) : list N :=
  line_struct "DebugQueryOutput" [("k"%string, line_key (q_key out)); ("node_path"%string, line_path (node_path out));
    ("extra_node_info"%string, txt "[" ++ commas (map (line_option line_extra) (extra_node_info out)) ++ txt "]");
    ("node_found"%string, bool_text (node_found out)); ("params"%string, line_params ps)].
Definition line_info (i : node_info) : list N :=
  line_struct "NodeInfo" [("key"%string, line_key (i_key i)); ("value"%string, line_option line_bytes (i_value i)); ("node_type"%string, type_name (i_type i));
                          ("hash"%string, line_hash (i_hash i))].
Definition line_point (p : diff_point) : list N :=
  line_struct "DiffPoint" [("depth"%string, dec (d_depth p)); ("path"%string, line_path (d_path p)); ("key"%string, line_key (d_key p));
                           ("a_info"%string, line_info (a_info p)); ("b_info"%string, line_info (b_info p))].
Definition line_diff (d : option diff_point) : list N := line_struct "TrieDiff" [("latest_diff_res"%string, line_option line_point d)].
Definition line_bytes_error (e : bytes_err) : list N :=
  match e with ZeroSizedKey => txt "ZeroSizedKey" | TooManyBytes len => txt "TooManyBytes(" ++ dec len ++ txt ")" end.

(** The keys and the hashes that they show. *)
Definition path_keys (p : list segment) : list nibbles := flat_map (fun s => match s with SExtension n | SLeaf n => [n] | _ => [] end) p.
Definition output_keys (out : query_output) : list nibbles := q_key out :: path_keys (node_path out).
Definition output_hashes (out : query_output) : list (list N) := flat_map (fun e => match e with Some (XHash h) => [h] | _ => [] end) (extra_node_info out).
Definition diff_keys (d : option diff_point) : list nibbles :=
  match d with None => [] | Some p => d_key p :: i_key (a_info p) :: i_key (b_info p) :: path_keys (d_path p) end.
Definition diff_hashes (d : option diff_point) : list (list N) := match d with None => [] | Some p => [i_hash (a_info p); i_hash (b_info p)] end.

(** ** Other threads *)
(** [may R p a]: [p] may end with [a], whatever other threads do with the cells meanwhile, if a cell [c] only ever holds what [R c] allows. *)
Inductive may {A} (R : N -> option (list N) -> Prop) : prog A -> A -> Prop :=
| may_ret a : may R (Ret a) a
| may_read c k o a : R c o -> may R (k o) a -> may R (Read c k) a
| may_write c o p a : may R p a -> may R (Write c o p) a
| may_alloc k c a : may R (k c) a -> may R (Alloc k) a.
(** A cell that holds a hash holds bytes. *)
Definition hash_bytes (c : N) (o : option (list N)) : Prop := match o with Some h => bytesl h | None => True end.
(** What is seen in a cell is something that it may hold. *)
Definition sight_in (R : N -> option (list N) -> Prop) (c : N) (x : sight) : Prop := match x with Locked => True | Holds o => R c o end.
