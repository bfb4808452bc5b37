(** Model of the [Debug] output ([{:?}] and [{:#?}]) of the public types of the crate. Text is a list of character codes. Writing to the
    formatter is taken not to fail. The types of stats.rs are in FloatDebug.v. Iterators are returned as
    [impl Iterator], so callers cannot print them. *)
From Coq Require Import String.
From Verif Require Import Base Nibbles Trie Query Rlp Hashing Cache Diff Subset Text.
Open Scope N_scope.
Open Scope list_scope.

(** ** The standard library's builders *)
(** What a [Debug] implementation hands to the formatter: a word, a string, [debug_tuple], [debug_struct], [debug_list]. A derived one uses
    a word for a unit variant, [debug_tuple] for a tuple struct or variant, [debug_struct] for a struct or a struct variant. *)
Inductive dbg : Type :=
| DWord (w : list N)
| DText (s : list N)
| DTuple (name : list N) (l : list dbg)
| DStruct (name : list N) (l : list (list N * dbg))
| DList (l : list dbg).

(** [Debug for str]: quotes and backslashes are escaped. Only printable ASCII characters occur here; the others are not modelled. *)
Definition escape (s : list N) : list N := flat_map (fun c => if (c =? 34) || (c =? 92) then [92; c] else [c]) s.

(** [PadAdapter::write_str] (core::fmt::builders): four spaces before the first character of a line. *)
Fixpoint pad (on_newline : bool) (l : list N) : list N :=
  match l with
  | [] => []
  | c :: l' => (if on_newline then txt "    " else []) ++ c :: pad (c =? 10) l'
  end.

(** [DebugTuple], [DebugStruct], [DebugList] (core::fmt::builders), with or without the alternate flag. The comma that [DebugTuple] writes
    after the only field of a tuple without a name is left out: there is no such tuple. *)
Fixpoint put (pretty : bool) (d : dbg) {struct d} : list N :=
  match d with
  | DWord w => w
  | DText s => [34] ++ escape s ++ [34]
  | DTuple name l =>
      name ++
      (fix go (has_fields : bool) (l : list dbg) {struct l} : list N :=
         match l with
         | [] => if has_fields then txt ")" else []
         | x :: l' =>
             (if pretty then (if has_fields then [] else txt "(" ++ [10]) ++ pad true (put pretty x ++ txt "," ++ [10])
              else (if has_fields then txt ", " else txt "(") ++ put pretty x) ++ go true l'
         end) false l
  | DStruct name l =>
      name ++
      (fix go (has_fields : bool) (l : list (list N * dbg)) {struct l} : list N :=
         match l with
         | [] => if has_fields then (if pretty then txt "}" else txt " }") else []
         | (f, x) :: l' =>
             (if pretty then (if has_fields then [] else txt " {" ++ [10]) ++ pad true (f ++ txt ": " ++ put pretty x ++ txt "," ++ [10])
              else (if has_fields then txt ", " else txt " { ") ++ f ++ txt ": " ++ put pretty x) ++ go true l'
         end) false l
  | DList l =>
      txt "[" ++
      (fix go (has_fields : bool) (l : list dbg) {struct l} : list N :=
         match l with
         | [] => txt "]"
         | x :: l' =>
             (if pretty then (if has_fields then [] else [10]) ++ pad true (put pretty x ++ txt "," ++ [10])
              else (if has_fields then txt ", " else []) ++ put pretty x) ++ go true l'
         end) false l
  end.

(** The standard library's [Debug] of integers, [bool], [Option], [Vec<u8>], and the one of [H256] (crate fixed-hash): 0x and all digits. *)
Definition num_dbg (n : N) : dbg := DWord (dec n).
Definition bool_dbg (b : bool) : dbg := DWord (bool_text b).
Definition option_dbg {A} (f : A -> dbg) (o : option A) : dbg := match o with None => DWord (txt "None") | Some x => DTuple (txt "Some") [f x] end.
Definition bytes_dbg (v : list N) : dbg := DList (map num_dbg v).
Definition h256_dbg (h : list N) : dbg := DWord (txt "0x" ++ hex_text h).

(** ** Keys, values, tries *)
(** nibbles.rs:167-174 [Debug for Nibbles]. *)
Definition key_dbg (pr : profile) (n : nibbles) : res dbg :=
  k <- key_text pr n ;; Ok (DStruct (txt "Nibbles") [(txt "count", num_dbg (count n)); (txt "packed", DText k)]).

(** trie_ops.rs:45-53 [ValOrHash], derived. *)
Definition value_dbg (v : val_or_hash) : dbg :=
  match v with Val v => DTuple (txt "Val") [bytes_dbg v] | HashV h => DTuple (txt "Hash") [h256_dbg h] end.

(** partial_trie.rs:117-148 [Node<StandardTrie>] and 196-197 [StandardTrie], both derived; 31 [WrappedNode], an [Arc<Box<_>>], shows its contents. *)
Fixpoint trie_dbg (pr : profile) (t : node) {struct t} : res dbg :=
  n <- match t with
       | Empty => Ok (DWord (txt "Empty"))
       | Hash h => Ok (DTuple (txt "Hash") [h256_dbg h])
       | Branch children v =>
           ch <- (fix go (l : list node) {struct l} : res (list dbg) :=
                    match l with [] => Ok [] | c :: l' => d <- trie_dbg pr c ;; ds <- go l' ;; Ok (d :: ds) end) children ;;
           Ok (DStruct (txt "Branch") [(txt "children", DList ch); (txt "value", bytes_dbg v)])
       | Extension n child =>
           k <- key_dbg pr n ;; c <- trie_dbg pr child ;;
           Ok (DStruct (txt "Extension") [(txt "nibbles", k); (txt "child", c)])
       | Leaf n v => k <- key_dbg pr n ;; Ok (DStruct (txt "Leaf") [(txt "nibbles", k); (txt "value", bytes_dbg v)])
       end ;;
  Ok (DTuple (txt "StandardTrie") [n]).
(** [format!("{:?}", trie)] and [format!("{:#?}", trie)] of a [StandardTrie]. *)
Definition debug_trie (pr : profile) (pretty : bool) (t : node) : res (list N) := d <- trie_dbg pr t ;; Ok (put pretty d).

(** Crate lock_api, [Debug for RwLock], with [try_read]: [locked] is whether another thread is writing (partial_trie.rs:307, 381, the only
    places where a lock is held for writing; a single thread never sees it). *)
Definition lock_dbg (locked : bool) (c : N) : prog dbg :=
  if locked then Ret (DStruct (txt "RwLock") [(txt "data", DWord (txt "<locked>"))])
  else Read c (fun o => Ret (DStruct (txt "RwLock") [(txt "data", option_dbg h256_dbg o)])).

(** partial_trie.rs:117-148 [Node<HashedPartialTrie>] and 287-291 [HashedPartialTrie], both derived. [locked] says which locks are found
    locked, by the position of the node: the numbers of the children on the way, the last one first. *)
Fixpoint handle_dbg (pr : profile) (locked : list nat -> bool) (path : list nat) (t : hnode) {struct t} : prog dbg :=
  n <~ match t with
       | HEmpty _ => Ret (DWord (txt "Empty"))
       | HHash _ h => Ret (DTuple (txt "Hash") [h256_dbg h])
       | HBranch _ children v =>
           ch <~ (fix go (i : nat) (l : list hnode) {struct l} : prog (list dbg) :=
                    match l with [] => Ret [] | c :: l' => d <~ handle_dbg pr locked (i :: path) c ;; ds <~ go (S i) l' ;; Ret (d :: ds) end) O children ;;
           Ret (DStruct (txt "Branch") [(txt "children", DList ch); (txt "value", bytes_dbg v)])
       | HExtension _ n child =>
           k <~ lift (key_dbg pr n) ;; c <~ handle_dbg pr locked (O :: path) child ;;
           Ret (DStruct (txt "Extension") [(txt "nibbles", k); (txt "child", c)])
       | HLeaf _ n v => k <~ lift (key_dbg pr n) ;; Ret (DStruct (txt "Leaf") [(txt "nibbles", k); (txt "value", bytes_dbg v)])
       end ;;
  h <~ lock_dbg (locked path) (cell t) ;;
  Ret (DStruct (txt "HashedPartialTrie") [(txt "node", n); (txt "hash", h)]).
(** [format!("{:?}", trie)] and [format!("{:#?}", trie)] of a [HashedPartialTrie]. *)
Definition debug_handle (pr : profile) (locked : list nat -> bool) (pretty : bool) (t : hnode) : prog (list N) :=
  d <~ handle_dbg pr locked [] t ;; Ret (put pretty d).

(** ** Reports of the debug tools, all derived *)
(** common.rs:9-16 [PathSegment], 90-91 [NodePath]; utils.rs:8-16 [TrieNodeType]. *)
Definition segment_dbg (pr : profile) (s : segment) : res dbg :=
  match s with
  | SEmpty => Ok (DWord (txt "Empty"))
  | SHash => Ok (DWord (txt "Hash"))
  | SBranch nib => Ok (DTuple (txt "Branch") [num_dbg nib])
  | SExtension n => k <- key_dbg pr n ;; Ok (DTuple (txt "Extension") [k])
  | SLeaf n => k <- key_dbg pr n ;; Ok (DTuple (txt "Leaf") [k])
  end.
Fixpoint segments_dbg (pr : profile) (l : list segment) : res (list dbg) :=
  match l with [] => Ok [] | s :: l' => d <- segment_dbg pr s ;; ds <- segments_dbg pr l' ;; Ok (d :: ds) end.
Definition path_dbg (pr : profile) (p : list segment) : res dbg := l <- segments_dbg pr p ;; Ok (DTuple (txt "NodePath") [DList l]).
Definition type_dbg (ty : node_type) : dbg := DWord (type_text ty).

(** query.rs:22-35 [DebugQueryParams], 79-83 [DebugQuery], 96-101 [ExtraNodeSegmentInfo], 155-162 [DebugQueryOutput]. *)
Definition params_dbg (ps : query_params) : dbg :=
  DStruct (txt "DebugQueryParams") [(txt "include_key_piece_per_node", bool_dbg (include_key_piece ps)); (txt "include_node_type", bool_dbg (include_node_type ps));
                                    (txt "include_node_specific_values", bool_dbg (include_values ps))].
Definition query_dbg (pr : profile) (k : nibbles) (ps : query_params) : res dbg :=
  d <- key_dbg pr k ;; Ok (DStruct (txt "DebugQuery") [(txt "k", d); (txt "params", params_dbg ps)]).
Definition extra_dbg (e : extra_info) : dbg :=
  match e with
  | XHash h => DTuple (txt "Hash") [h256_dbg h]
  | XBranch m => DStruct (txt "Branch") [(txt "child_mask", num_dbg m)]
  | XLeaf v => DStruct (txt "Leaf") [(txt "value", bytes_dbg v)]
  end.
Definition output_dbg (pr : profile) (out : query_output) (ps : query_params) : res dbg :=
  k <- key_dbg pr (q_key out) ;; p <- path_dbg pr (node_path out) ;;
  Ok (DStruct (txt "DebugQueryOutput") [(txt "k", k); (txt "node_path", p); (txt "extra_node_info", DList (map (option_dbg extra_dbg) (extra_node_info out)));
                                        (txt "node_found", bool_dbg (node_found out)); (txt "params", params_dbg ps)]).

(** diff.rs:119-129 [NodeInfo], 78-85 [DiffPoint], 40-44 [TrieDiff]. *)
Definition info_dbg (pr : profile) (i : node_info) : res dbg :=
  k <- key_dbg pr (i_key i) ;;
  Ok (DStruct (txt "NodeInfo") [(txt "key", k); (txt "value", option_dbg bytes_dbg (i_value i)); (txt "node_type", type_dbg (i_type i)); (txt "hash", h256_dbg (i_hash i))]).
Definition point_dbg (pr : profile) (p : diff_point) : res dbg :=
  pa <- path_dbg pr (d_path p) ;; k <- key_dbg pr (d_key p) ;; a <- info_dbg pr (a_info p) ;; b <- info_dbg pr (b_info p) ;;
  Ok (DStruct (txt "DiffPoint") [(txt "depth", num_dbg (d_depth p)); (txt "path", pa); (txt "key", k); (txt "a_info", a); (txt "b_info", b)]).
Definition diff_dbg (pr : profile) (d : option diff_point) : res dbg :=
  match d with
  | None => Ok (DStruct (txt "TrieDiff") [(txt "latest_diff_res", DWord (txt "None"))])
  | Some p => x <- point_dbg pr p ;; Ok (DStruct (txt "TrieDiff") [(txt "latest_diff_res", DTuple (txt "Some") [x])])
  end.
(** [format!("{:?}", _)] and [format!("{:#?}", _)] of these reports. *)
Definition debug_query (pr : profile) (pretty : bool) (k : nibbles) (ps : query_params) : res (list N) := d <- query_dbg pr k ps ;; Ok (put pretty d).
Definition debug_output (pr : profile) (pretty : bool) (out : query_output) (ps : query_params) : res (list N) := d <- output_dbg pr out ps ;; Ok (put pretty d).
Definition debug_diff (pr : profile) (pretty : bool) (d : option diff_point) : res (list N) := x <- diff_dbg pr d ;; Ok (put pretty x).
Definition debug_val (pretty : bool) (v : val_or_hash) : list N := put pretty (value_dbg v).
Definition debug_nibbles (pr : profile) (pretty : bool) (n : nibbles) : res (list N) := d <- key_dbg pr n ;; Ok (put pretty d).

(** ** Errors *)
(** nibbles.rs:48-55 [BytesToNibblesError], 57-64 [FromHexPrefixError], derived. *)
Definition bytes_error_dbg (e : bytes_err) : dbg :=
  match e with ZeroSizedKey => DWord (txt "ZeroSizedKey") | TooManyBytes len => DTuple (txt "TooManyBytes") [num_dbg len] end.
Definition hp_error_dbg (e : hp_err) : dbg :=
  match e with InvalidFlags flags => DTuple (txt "InvalidFlags") [num_dbg flags] | TooLong hex len => DTuple (txt "TooLong") [DText hex; num_dbg len] end.

(** trie_subsets.rs:29-42, 156-160, derived: the touched tracked hash node that 269-272 prints with [{:?}]; [u] is what the underlying node shows. *)
Definition tracked_hash_dbg (u : dbg) : dbg :=
  DStruct (txt "TrackedNode") [(txt "node", DWord (txt "Hash"));
    (txt "info", DStruct (txt "TrackedNodeInfo") [(txt "underlying_node", u); (txt "touched", bool_dbg true)])].
(** trie_subsets.rs:22-27 [SubsetTrieError], derived, for a [StandardTrie]. *)
Definition subset_error_dbg (pr : profile) (e : subset_error) : res dbg :=
  match e with
  | UnexpectedKey k u =>
      d <- key_dbg pr k ;; x <- trie_dbg pr u ;; Ok (DTuple (txt "UnexpectedKey") [d; DText (put false (tracked_hash_dbg x))])
  end.
