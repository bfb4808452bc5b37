(** Model of the logging in /repo/src/trie_ops.rs: [get], [insert], [extend] and [delete] with all their [trace!] calls. A computation
    gives the lines that it writes to the log, and its result; the lines written before a panic stay written. Only the nodes of a
    [StandardTrie] are modelled; no line shows the hash cell of a node, so for [HashedPartialTrie] the lines are the same. *)
From Coq Require Import String Hexadecimal HexadecimalN.
From Verif Require Import Base Nibbles Trie Query Diff Text.
Open Scope N_scope.
Open Scope list_scope.

Definition logged (A : Type) : Type := (list (list N) * res A)%type.
Definition lret {A} (a : A) : logged A := ([], Ok a).
(** A step of the program that does not log. *)
Definition lres {A} (m : res A) : logged A := ([], m).
Definition lbind {A B} (m : logged A) (f : A -> logged B) : logged B :=
  match snd m with Ok a => (fst m ++ fst (f a), snd (f a)) | Panic => (fst m, Panic) end.
Notation "x <~ m ;; f" := (lbind m (fun x => f)) (at level 100, m at next level, right associativity).
Notation "' pat <~ m ;; f" := (lbind m (fun x => match x with pat => f end)) (at level 100, pat pattern, m at next level, right associativity).

(** [trace!(...)] of crate [log]: nothing happens when the level is off ([on = false]); otherwise the arguments are formatted, which may
    panic, and the line goes to the logger. The logger itself is taken to return. *)
Definition say (on : bool) (m : res (list N)) : logged unit :=
  if on then match m with Ok x => ([x], Ok tt) | Panic => ([], Panic) end else ([], Ok tt).

(** [{:x}] of a [u8]. *)
Fixpoint hex_uint_chars (u : uint) : list N :=
  match u with
  | Nil => []
  | D0 u => 48 :: hex_uint_chars u | D1 u => 49 :: hex_uint_chars u | D2 u => 50 :: hex_uint_chars u | D3 u => 51 :: hex_uint_chars u
  | D4 u => 52 :: hex_uint_chars u | D5 u => 53 :: hex_uint_chars u | D6 u => 54 :: hex_uint_chars u | D7 u => 55 :: hex_uint_chars u
  | D8 u => 56 :: hex_uint_chars u | D9 u => 57 :: hex_uint_chars u | Da u => 97 :: hex_uint_chars u | Db u => 98 :: hex_uint_chars u
  | Dc u => 99 :: hex_uint_chars u | Dd u => 100 :: hex_uint_chars u | De u => 101 :: hex_uint_chars u | Df u => 102 :: hex_uint_chars u
  end.
Definition nibble_text (n : N) : list N := hex_uint_chars (N.to_hex_uint n).

(** nibbles.rs:167-174 [Debug for Nibbles]. *)
Definition key_debug (pr : profile) (n : nibbles) : res (list N) :=
  k <- key_text pr n ;; Ok (txt "Nibbles { count: " ++ dec (count n) ++ txt ", packed: """ ++ k ++ txt """ }").

(** [Debug] of a byte vector, of [H256] (0x and all digits), and the derived one of trie_ops.rs:45-53 [ValOrHash]. *)
Fixpoint elems_debug (l : list N) : list N :=
  match l with [] => [] | [x] => dec x | x :: l' => dec x ++ txt ", " ++ elems_debug l' end.
Definition h256_debug (h : list N) : list N := txt "0x" ++ hex_text h.
Definition value_debug (v : val_or_hash) : list N :=
  match v with
  | Val v => txt "Val([" ++ elems_debug v ++ txt "])"
  | HashV h => txt "Hash(" ++ h256_debug h ++ txt ")"
  end.

(** trie_ops.rs:17-21 [InsertEntry], derived [Debug]. *)
Definition entry_debug (pr : profile) (k : nibbles) (v : val_or_hash) : res (list N) :=
  d <- key_debug pr k ;; Ok (txt "InsertEntry { nibbles: " ++ d ++ txt ", v: " ++ value_debug v ++ txt " }").

(** partial_trie.rs:117-128, derived [Debug], of the two nodes that are printed. *)
Definition node_debug (t : node) : list N := match t with Hash h => txt "Hash(" ++ h256_debug h ++ txt ")" | _ => txt "Empty" end.

Definition with_child_log {A} (f : node -> logged A) : list node -> nat -> logged A :=
  fix go (l : list node) (i : nat) {struct l} : logged A :=
    match l, i with
    | [], _ => lres Panic
    | c :: _, O => f c
    | _ :: l', S i' => go l' i'
    end.

Section Log.
Variable on : bool.
Variable pr : profile.

(** "[pre] (nibbles: [n])", with the [Debug] text of the nibbles. *)
Definition say_nibbles (pre : list N) (n : nibbles) : logged unit := say on (d <- key_debug pr n ;; Ok (pre ++ txt " (nibbles: " ++ d ++ txt ")")).

(** trie_ops.rs:295-329 [trie_get_intern]. *)
Fixpoint lget (t : node) (k : nibbles) {struct t} : logged (option (list N)) :=
  match t with
  | Empty | Hash _ => _ <~ say on (Ok (txt "Get traversed " ++ node_debug t)) ;; lret None
  | Branch children value =>
      if is_empty k then lret (match value with [] => None | _ => Some value end)
      else
        '(nib, k') <~ lres (pop_next_nibble_front pr k) ;;
        _ <~ say on (Ok (txt "Get traversed Branch (nibble: " ++ nibble_text nib ++ txt ")")) ;;
        with_child_log (fun c => lget c k') children (N.to_nat nib)
  | Extension nibs child =>
      _ <~ say_nibbles (txt "Get traversed Extension") nibs ;;
      '(r, k') <~ lres (pop_nibbles_front pr k (count nibs)) ;;
      same <~ lres (identical_up_to_smallest pr r nibs) ;;
      if same then lget child k' else lret None
  | Leaf nibs value =>
      _ <~ say_nibbles (txt "Get traversed Leaf") nibs ;;
      same <~ lres (identical_up_to_smallest pr nibs k) ;;
      if same then lret (Some value) else lret None
  end.

(** trie_ops.rs:363-449 [insert_into_trie_rec]. *)
Fixpoint linsert_rec (t : node) (k : nibbles) (v : val_or_hash) {struct t} : logged node :=
  match t with
  | Empty => _ <~ say on (Ok (txt "Insert traversed Empty")) ;; lret (create_node_from_insert_val k v)
  | Hash _ => _ <~ say on (Ok (txt "Insert traversed " ++ node_debug t)) ;; lres Panic
  | Branch children value =>
      if count k =? 0 then
        _ <~ say on (Ok (txt "Insert traversed branch and placed value in node")) ;;
        lres (create_node_if_ins_val_not_hash v (fun v => Branch children v))
      else
        '(nib, k') <~ lres (pop_next_nibble_front pr k) ;;
        _ <~ say on (Ok (txt "Insert traversed Branch (nibble: " ++ nibble_text nib ++ txt ")")) ;;
        c' <~ with_child_log (fun c => linsert_rec c k' v) children (N.to_nat nib) ;;
        lret (Branch (set_child children (N.to_nat nib) c') value)
  | Extension nibs child =>
      _ <~ say_nibbles (txt "Insert traversed Extension") nibs ;;
      info <~ lres (get_pre_and_postfixes pr nibs k) ;;
      same <~ lres (identical_up_to_smallest pr nibs k) ;;
      if same then
        k' <~ lres (truncate_n_nibbles_front pr k (count nibs)) ;;
        c' <~ linsert_rec child k' v ;;
        lret (Extension nibs c')
      else
        adj <~ lres (truncate_n_nibbles_front pr (existing_postfix info) 1) ;;
        lres (place_branch pr info (if count adj =? 0 then child else Extension adj child) k v)
  | Leaf nibs value =>
      _ <~ say_nibbles (txt "Insert traversed Leaf") nibs ;;
      if nib_eqb nibs k then lres (create_node_if_ins_val_not_hash v (fun v => Leaf nibs v))
      else
        info <~ lres (get_pre_and_postfixes pr nibs k) ;;
        n1 <~ lres (uadd pr (count (common_prefix info)) 1) ;;
        l' <~ lres (truncate_n_nibbles_front pr nibs n1) ;;
        lres (place_branch pr info (Leaf l' value) k v)
  end.

(** trie_ops.rs:264-275 [trie_insert]. *)
Definition linsert (t : node) (k : nibbles) (v : val_or_hash) : logged node :=
  _ <~ say on (d <- entry_debug pr k v ;; Ok (txt "Inserting new node " ++ d ++ txt "...")) ;;
  linsert_rec t k v.

(** trie_ops.rs:277-286 [trie_extend]. *)
Fixpoint lextend (t : node) (l : list (nibbles * val_or_hash)) : logged node :=
  match l with
  | [] => lret t
  | (k, v) :: l' => t' <~ linsert t k v ;; lextend t' l'
  end.

(** trie_ops.rs:538-567 [collapse_ext_node_if_needed]. *)
Definition lcollapse_ext_node_if_needed (ext : nibbles) (child : node) : logged node :=
  _ <~ say on (k <- key_text pr ext ;;
      Ok (txt "Collapsing extension node (" ++ k ++ txt ") with child " ++ type_text (type_of child) ++ txt "...")) ;;
  lres (collapse_ext_node_if_needed pr ext child).

(** trie_ops.rs:531-536 [try_collapse_if_extension]. *)
Definition ltry_collapse_if_extension (n : node) : logged node :=
  match n with
  | Extension nibs child => lcollapse_ext_node_if_needed nibs child
  | _ => lret n
  end.

(** trie_ops.rs:451-529 [delete_intern]. The text of the line at 491-493 is a literal over two source lines: a line break and 32 spaces. *)
Fixpoint ldelete_intern (t : node) (k : nibbles) {struct t} : logged (option (node * list N)) :=
  match t with
  | Empty => _ <~ say on (Ok (txt "Delete traversed Empty")) ;; lret None
  | Hash _ => lres Panic
  | Branch children value =>
      if is_empty k then lret (Some (Branch children [], value))
      else
        '(nib, k') <~ lres (pop_next_nibble_front pr k) ;;
        _ <~ say on (Ok (txt "Delete traversed Branch nibble " ++ nibble_text nib)) ;;
        r <~ with_child_log (fun c => ldelete_intern c k') children (N.to_nat nib) ;;
        match r with
        | None => lret None
        | Some (c', deleted) =>
            if node_is_empty c' && (get_num_non_empty_children children <=? 2)%nat then
              match get_other_non_empty_child 0 children (N.to_nat nib) with
              | None => lres Panic
              | Some (i, c) =>
                  _ <~ say on (Ok (txt "Branch " ++ nibble_text nib ++
                        txt " became an extension when collapsing a branch (may be collapsed further still)." ++ [10] ++ repeat 32 32 ++
                        txt "Single remaining child in slot " ++ nibble_text (N.of_nat i) ++ txt " (" ++ type_text (type_of c) ++
                        txt ") will be pointed at with an extension node.")) ;;
                  n <~ lres (from_nibble (N.of_nat i)) ;; lret (Some (Extension n c, deleted))
              end
            else
              c'' <~ ltry_collapse_if_extension c' ;;
              lret (Some (Branch (set_child children (N.to_nat nib) c'') value, deleted))
        end
  | Extension nibs child =>
      _ <~ say_nibbles (txt "Delete traversed Extension") nibs ;;
      same <~ lres (identical_up_to_smallest pr nibs k) ;;
      if same then
        k' <~ lres (truncate_n_nibbles_front pr k (count nibs)) ;;
        r <~ ldelete_intern child k' ;;
        match r with
        | None => lret None
        | Some (c', deleted) => n <~ lcollapse_ext_node_if_needed nibs c' ;; lret (Some (n, deleted))
        end
      else lret None
  | Leaf nibs value =>
      _ <~ say_nibbles (txt "Delete traversed Leaf") nibs ;;
      if nib_eqb nibs k then
        _ <~ say on (k <- key_text pr nibs ;; Ok (txt "Deleting leaf (" ++ k ++ txt ")")) ;; lret (Some (Empty, value))
      else lret None
  end.

(** trie_ops.rs:331-345 [trie_delete]. *)
Definition ldelete (t : node) (k : nibbles) : logged (node * option (list N)) :=
  _ <~ say on (d <- key_text pr k ;; Ok (txt "Deleting a leaf node with key " ++ d ++ txt " if it exists")) ;;
  r <~ ldelete_intern t k ;;
  match r with
  | None => lret (t, None)
  | Some (t', deleted) => t'' <~ ltry_collapse_if_extension t' ;; lret (t'', Some deleted)
  end.
End Log.
