(** Model of [HashedPartialTrie] (/repo/src/partial_trie.rs:284-418): tries whose nodes carry a shared, lock-protected
    cell with an optional hash. The generic operations of trie_ops.rs, trie_hashing.rs and trie_subsets.rs are given again
    for these nodes, because they create the nodes, and with them the cells. *)
From Verif Require Import Base Nibbles Trie Rlp Hashing Subset.
Open Scope N_scope.

(** ** Programs over the cells *)
(** One access to the lock of a cell is one atomic step: [Read c] is [*self.hash.read()], [Write c o] is
    [*self.hash.write() = o] (partial_trie.rs:297-308, 372-387). [Alloc] is [Arc::new(RwLock::new(None))] (312-317).
    [Fail] is a panic. *)
Inductive prog (A : Type) : Type :=
| Ret (a : A)
| Fail
| Read (c : N) (k : option (list N) -> prog A)
| Write (c : N) (o : option (list N)) (p : prog A)
| Alloc (k : N -> prog A).
Arguments Ret {A}. Arguments Fail {A}. Arguments Read {A}. Arguments Write {A}. Arguments Alloc {A}.

Fixpoint pbind {A B} (p : prog A) (f : A -> prog B) : prog B :=
  match p with
  | Ret a => f a
  | Fail => Fail
  | Read c k => Read c (fun o => pbind (k o) f)
  | Write c o p' => Write c o (pbind p' f)
  | Alloc k => Alloc (fun c => pbind (k c) f)
  end.
Definition lift {A} (r : res A) : prog A := match r with Ok a => Ret a | Panic => Fail end.

Notation "x <~ m ;; f" := (pbind m (fun x => f)) (at level 100, m at next level, right associativity).
Notation "' p <~ m ;; f" := (pbind m (fun x => match x with p => f end)) (at level 100, p pattern, m at next level, right associativity).

(** The contents of the cells, and running a program alone. [n] is the next free cell. *)
Definition store : Type := N -> option (list N).
Definition update (s : store) (c : N) (o : option (list N)) : store := fun x => if x =? c then o else s x.

Fixpoint exec {A} (p : prog A) (s : store) (n : N) : res (A * store * N) :=
  match p with
  | Ret a => Ok (a, s, n)
  | Fail => Panic
  | Read c k => exec (k (s c)) s n
  | Write c o p' => exec p' (update s c o) n
  | Alloc k => exec (k n) (update s n None) (n + 1)
  end.

(** ** Nodes *)
(** partial_trie.rs:117-148 [Node<HashedPartialTrie>] together with 287-291 [struct HashedPartialTrie]: every node with its
    cell [c]. A handle of the user is such a node too; its children are shared ([Arc<Box<N>>]) and immutable. *)
Inductive hnode : Type :=
| HEmpty (c : N)
| HHash (c : N) (h : list N)
| HBranch (c : N) (children : list hnode) (value : list N)
| HExtension (c : N) (nibs : nibbles) (child : hnode)
| HLeaf (c : N) (nibs : nibbles) (value : list N).

Definition cell (t : hnode) : N :=
  match t with HEmpty c | HHash c _ | HBranch c _ _ | HExtension c _ _ | HLeaf c _ _ => c end.

(** [*self = node.clone()] (trie_ops.rs:273, 341): the handle keeps its own cell. *)
Definition with_cell (c : N) (t : hnode) : hnode :=
  match t with
  | HEmpty _ => HEmpty c
  | HHash _ h => HHash c h
  | HBranch _ children v => HBranch c children v
  | HExtension _ n child => HExtension c n child
  | HLeaf _ n v => HLeaf c n v
  end.

(** The trie without the cells. *)
Fixpoint erase (t : hnode) : node :=
  match t with
  | HEmpty _ => Empty
  | HHash _ h => Hash h
  | HBranch _ children v => Branch (map erase children) v
  | HExtension _ n child => Extension n (erase child)
  | HLeaf _ n v => Leaf n v
  end.

(** ** Creating nodes *)
(** partial_trie.rs:39-43, 312-317; trie_ops.rs:708-713 [branch], 722-728 [extension], [leaf]. *)
Definition hempty : prog hnode := Alloc (fun c => Ret (HEmpty c)).
Definition hhash (h : list N) : prog hnode := Alloc (fun c => Ret (HHash c h)).
Definition hbranch (children : list hnode) (v : list N) : prog hnode := Alloc (fun c => Ret (HBranch c children v)).
Definition hextension (n : nibbles) (child : hnode) : prog hnode := Alloc (fun c => Ret (HExtension c n child)).
Definition hleaf (n : nibbles) (v : list N) : prog hnode := Alloc (fun c => Ret (HLeaf c n v)).

(** trie_ops.rs:665-686 [new_branch_child_arr]. *)
Fixpoint hempties (n : nat) : prog (list hnode) :=
  match n with
  | O => Ret []
  | S n' => e <~ hempty ;; l <~ hempties n' ;; Ret (e :: l)
  end.
Definition hnew_branch_child_arr : prog (list hnode) := hempties 16.

(** [f(&children[i])] and [updated_children[i] = c]. *)
Definition with_hchild {A} (f : hnode -> prog A) : list hnode -> nat -> prog A :=
  fix go (l : list hnode) (i : nat) {struct l} : prog A :=
    match l, i with
    | [], _ => Fail
    | c :: _, O => f c
    | _ :: l', S i' => go l' i'
    end.
Fixpoint set_hchild (l : list hnode) (i : nat) (c : hnode) : list hnode :=
  match l, i with
  | [], _ => []
  | _ :: l', O => c :: l'
  | x :: l', S i' => x :: set_hchild l' i' c
  end.

(** trie_ops.rs:734-755 [create_node_from_insert_val]. *)
Definition hcreate_node_from_insert_val (nibs : nibbles) (v : val_or_hash) : prog hnode :=
  match v with
  | Val v => hleaf nibs v
  | HashV h => if is_empty nibs then hhash h else c <~ hhash h ;; hextension nibs c
  end.

(** trie_ops.rs:757-767 [create_node_if_ins_val_not_hash]. *)
Definition hcreate_node_if_ins_val_not_hash (v : val_or_hash) (f : list N -> prog hnode) : prog hnode :=
  match v with
  | Val v => f v
  | HashV _ => Fail
  end.

(** ** Insert *)
(** trie_ops.rs:650-663 [ins_entry_into_leaf_and_nibble]. *)
Definition hins_entry_into_leaf_and_nibble (pr : profile) (info : pre_and_post) (k : nibbles) (v : val_or_hash)
  : prog (N * hnode) :=
  first <~ lift (get_nibble pr (new_postfix info) 0) ;;
  n1 <~ lift (uadd pr (count (common_prefix info)) 1) ;;
  k' <~ lift (truncate_n_nibbles_front pr k n1) ;;
  n <~ hcreate_node_from_insert_val k' v ;;
  Ret (first, n).

(** trie_ops.rs:131-138 [ExistingOrNewBranchValuePlacement]. *)
Inductive hplacement : Type :=
| HBranchValue (v : list N) (child : N * hnode)
| HBothBranchChildren (c1 c2 : N * hnode).

(** trie_ops.rs:623-648 [check_if_existing_or_new_node_should_go_in_branch_value_field]. *)
Definition hcheck_placement (pr : profile) (info : pre_and_post) (existing : hnode) (k : nibbles) (v : val_or_hash)
  : prog hplacement :=
  let otherwise :=
    if count (new_postfix info) =? 0 then
      bv <~ lift (expect_val v) ;;
      e0 <~ lift (get_nibble pr (existing_postfix info) 0) ;;
      Ret (HBranchValue bv (e0, existing))
    else
      e0 <~ lift (get_nibble pr (existing_postfix info) 0) ;;
      c2 <~ hins_entry_into_leaf_and_nibble pr info k v ;;
      Ret (HBothBranchChildren (e0, existing) c2) in
  if count (existing_postfix info) =? 0 then
    match existing with
    | HLeaf _ _ value =>
        c <~ hins_entry_into_leaf_and_nibble pr info k v ;;
        Ret (HBranchValue value c)
    | _ => otherwise
    end
  else otherwise.

(** trie_ops.rs:590-619 [place_branch_and_potentially_ext_prefix]. *)
Definition hplace_branch (pr : profile) (info : pre_and_post) (existing : hnode) (k : nibbles) (v : val_or_hash)
  : prog hnode :=
  children <~ hnew_branch_child_arr ;;
  p <~ hcheck_placement pr info existing k v ;;
  b <~ match p with
       | HBranchValue bv (nib, n) => hbranch (set_hchild children (N.to_nat nib) n) bv
       | HBothBranchChildren (n1, c1) (n2, c2) =>
           hbranch (set_hchild (set_hchild children (N.to_nat n1) c1) (N.to_nat n2) c2) []
       end ;;
  if count (common_prefix info) =? 0 then Ret b else hextension (common_prefix info) b.

(** trie_ops.rs:363-449 [insert_into_trie_rec]. *)
Fixpoint hinsert_rec (pr : profile) (t : hnode) (k : nibbles) (v : val_or_hash) {struct t} : prog hnode :=
  match t with
  | HEmpty _ => hcreate_node_from_insert_val k v
  | HHash _ _ => Fail
  | HBranch _ children value =>
      if count k =? 0 then hcreate_node_if_ins_val_not_hash v (fun v => hbranch children v)
      else
        '(nib, k') <~ lift (pop_next_nibble_front pr k) ;;
        c' <~ with_hchild (fun c => hinsert_rec pr c k' v) children (N.to_nat nib) ;;
        hbranch (set_hchild children (N.to_nat nib) c') value
  | HExtension _ nibs child =>
      info <~ lift (get_pre_and_postfixes pr nibs k) ;;
      same <~ lift (identical_up_to_smallest pr nibs k) ;;
      if same then
        k' <~ lift (truncate_n_nibbles_front pr k (count nibs)) ;;
        c' <~ hinsert_rec pr child k' v ;;
        hextension nibs c'
      else
        adj <~ lift (truncate_n_nibbles_front pr (existing_postfix info) 1) ;;
        existing <~ (if count adj =? 0 then Ret child else hextension adj child) ;;
        hplace_branch pr info existing k v
  | HLeaf _ nibs value =>
      if nib_eqb nibs k then hcreate_node_if_ins_val_not_hash v (fun v => hleaf nibs v)
      else
        info <~ lift (get_pre_and_postfixes pr nibs k) ;;
        n1 <~ lift (uadd pr (count (common_prefix info)) 1) ;;
        l' <~ lift (truncate_n_nibbles_front pr nibs n1) ;;
        existing <~ hleaf l' value ;;
        hplace_branch pr info existing k v
  end.

(** trie_ops.rs:264-275 [trie_insert], 277-286 [trie_extend]. *)
Definition htrie_insert (pr : profile) (t : hnode) (k : nibbles) (v : val_or_hash) : prog hnode :=
  t' <~ hinsert_rec pr t k v ;; Ret (with_cell (cell t) t').
Fixpoint htrie_extend (pr : profile) (t : hnode) (l : list (nibbles * val_or_hash)) : prog hnode :=
  match l with
  | [] => Ret t
  | (k, v) :: l' => t' <~ htrie_insert pr t k v ;; htrie_extend pr t' l'
  end.

(** partial_trie.rs:319-326 [insert], 328-336 [extend] of [HashedPartialTrie]. *)
Definition hinsert (pr : profile) (t : hnode) (k : nibbles) (v : val_or_hash) : prog hnode :=
  t' <~ htrie_insert pr t k v ;; Write (cell t) None (Ret t').
Definition hextend (pr : profile) (t : hnode) (l : list (nibbles * val_or_hash)) : prog hnode :=
  t' <~ htrie_extend pr t l ;; Write (cell t) None (Ret t').

(** partial_trie.rs:420-429 [from_iter_common]. *)
Definition hfrom_iter (pr : profile) (l : list (nibbles * val_or_hash)) : prog hnode :=
  root <~ hempty ;; hextend pr root l.

(** ** Delete *)
Definition hnode_is_empty (n : hnode) : bool := match n with HEmpty _ => true | _ => false end.
Definition hget_num_non_empty_children (children : list hnode) : nat :=
  length (filter (fun c => negb (hnode_is_empty c)) children).
Fixpoint hget_other_non_empty_child (i : nat) (children : list hnode) (our_nib : nat) : option (nat * hnode) :=
  match children with
  | [] => None
  | c :: rest =>
      if negb (Nat.eqb i our_nib) && negb (hnode_is_empty c) then Some (i, c)
      else hget_other_non_empty_child (S i) rest our_nib
  end.

(** trie_ops.rs:538-567 [collapse_ext_node_if_needed], 531-536 [try_collapse_if_extension]. *)
Definition hcollapse_ext_node_if_needed (pr : profile) (ext : nibbles) (child : hnode) : prog hnode :=
  match child with
  | HBranch _ _ _ => hextension ext child
  | HExtension _ n c => m <~ lift (merge_nibbles pr ext n) ;; hextension m c
  | HLeaf _ n v => m <~ lift (merge_nibbles pr ext n) ;; hleaf m v
  | HHash _ _ => hextension ext child
  | HEmpty _ => Fail
  end.
Definition htry_collapse_if_extension (pr : profile) (n : hnode) : prog hnode :=
  match n with
  | HExtension _ nibs child => hcollapse_ext_node_if_needed pr nibs child
  | _ => Ret n
  end.

(** trie_ops.rs:451-529 [delete_intern]. *)
Fixpoint hdelete_intern (pr : profile) (t : hnode) (k : nibbles) {struct t} : prog (option (hnode * list N)) :=
  match t with
  | HEmpty _ => Ret None
  | HHash _ _ => Fail
  | HBranch _ children value =>
      if is_empty k then b <~ hbranch children [] ;; Ret (Some (b, value))
      else
        '(nib, k') <~ lift (pop_next_nibble_front pr k) ;;
        r <~ with_hchild (fun c => hdelete_intern pr c k') children (N.to_nat nib) ;;
        match r with
        | None => Ret None
        | Some (c', deleted) =>
            if hnode_is_empty c' && (hget_num_non_empty_children children <=? 2)%nat then
              match hget_other_non_empty_child 0 children (N.to_nat nib) with
              | None => Fail
              | Some (i, c) => n <~ lift (from_nibble (N.of_nat i)) ;; e <~ hextension n c ;; Ret (Some (e, deleted))
              end
            else
              c'' <~ htry_collapse_if_extension pr c' ;;
              b <~ hbranch (set_hchild children (N.to_nat nib) c'') value ;;
              Ret (Some (b, deleted))
        end
  | HExtension _ nibs child =>
      same <~ lift (identical_up_to_smallest pr nibs k) ;;
      if same then
        k' <~ lift (truncate_n_nibbles_front pr k (count nibs)) ;;
        r <~ hdelete_intern pr child k' ;;
        match r with
        | None => Ret None
        | Some (c', deleted) => n <~ hcollapse_ext_node_if_needed pr nibs c' ;; Ret (Some (n, deleted))
        end
      else Ret None
  | HLeaf _ nibs value =>
      if nib_eqb nibs k then e <~ hempty ;; Ret (Some (e, value)) else Ret None
  end.

(** trie_ops.rs:331-345 [trie_delete]; partial_trie.rs:345-353 [delete] of [HashedPartialTrie]. *)
Definition htrie_delete (pr : profile) (t : hnode) (k : nibbles) : prog (hnode * option (list N)) :=
  r <~ hdelete_intern pr t k ;;
  match r with
  | None => Ret (t, None)
  | Some (t', deleted) => t'' <~ htry_collapse_if_extension pr t' ;; Ret (with_cell (cell t) t'', Some deleted)
  end.
Definition hdelete (pr : profile) (t : hnode) (k : nibbles) : prog (hnode * option (list N)) :=
  r <~ htrie_delete pr t k ;; Write (cell t) None (Ret r).

(** ** Get, equality *)
(** partial_trie.rs:338-343 [get]; no node is created and no cell accessed, so the trie without cells is enough. The same
    holds for [items], [keys], [values] (359-369). *)
Definition hget (pr : profile) (t : hnode) (k : nibbles) : res (option (list N)) := trie_get pr (erase t) k.

(** partial_trie.rs:150-191 [eq] of [Node], 196 derived [eq] of [StandardTrie], 403-408 [eq] of [HashedPartialTrie]. [Vec<u8>]
    and [H256] equality is equality of the bytes, the derived equality of [Nibbles] that of both fields. [Arc] equality may
    answer true at once for the same pointer; this is left out. The code compares 16 children; the arrays have 16. *)
Fixpoint bytes_eqb (a b : list N) : bool :=
  match a, b with
  | [], [] => true
  | x :: a', y :: b' => (x =? y) && bytes_eqb a' b'
  | _, _ => false
  end.
Fixpoint node_eqb (a b : node) {struct a} : bool :=
  match a, b with
  | Empty, Empty => true
  | Hash h1, Hash h2 => bytes_eqb h1 h2
  | Branch c1 v1, Branch c2 v2 =>
      bytes_eqb v1 v2 &&
      (fix all (l1 : list node) (l2 : list node) {struct l1} : bool :=
         match l1, l2 with
         | [], [] => true
         | x :: l1', y :: l2' => node_eqb x y && all l1' l2'
         | _, _ => false
         end) c1 c2
  | Extension n1 c1, Extension n2 c2 => nib_eqb n1 n2 && node_eqb c1 c2
  | Leaf n1 v1, Leaf n2 v2 => nib_eqb n1 n2 && bytes_eqb v1 v2
  | _, _ => false
  end.
Fixpoint heqb (a b : hnode) {struct a} : bool :=
  match a, b with
  | HEmpty _, HEmpty _ => true
  | HHash _ h1, HHash _ h2 => bytes_eqb h1 h2
  | HBranch _ c1 v1, HBranch _ c2 v2 =>
      bytes_eqb v1 v2 &&
      (fix all (l1 : list hnode) (l2 : list hnode) {struct l1} : bool :=
         match l1, l2 with
         | [], [] => true
         | x :: l1', y :: l2' => heqb x y && all l1' l2'
         | _, _ => false
         end) c1 c2
  | HExtension _ n1 c1, HExtension _ n2 c2 => nib_eqb n1 n2 && heqb c1 c2
  | HLeaf _ n1 v1, HLeaf _ n2 v2 => nib_eqb n1 n2 && bytes_eqb v1 v2
  | _, _ => false
  end.

Section Hash.
Variable keccak : list N -> list N.

(** ** Hashing *)
(** partial_trie.rs:371-387 [hash_intern] of [HashedPartialTrie], with trie_hashing.rs:36-76 [rlp_encode_and_hash_node]
    for the node in it. *)
Fixpoint hash_intern (pr : profile) (t : hnode) {struct t} : prog encoded_node :=
  Read (cell t) (fun o =>
    match o with
    | Some h => Ret (Hashed h)
    | None =>
        r <~ match t with
             | HEmpty _ => Ret (Raw [0x80])
             | HHash _ h => Ret (Hashed h)
             | HBranch _ children value =>
                 s <~ (fix go (l : list hnode) (s : stream) {struct l} : prog stream :=
                         match l with
                         | [] => Ret s
                         | c :: l' => e <~ hash_intern pr c ;; go l' (append_to_stream s e)
                         end) children new_list ;;
                 let s := match value with [] => append_empty_data s | _ => append s value end in
                 b <~ lift (stream_out 17 s) ;;
                 Ret (hash_bytes_if_large_enough keccak b)
             | HExtension _ nibs child =>
                 hp <~ lift (to_hex_prefix_encoding pr nibs false) ;;
                 e <~ hash_intern pr child ;;
                 b <~ lift (stream_out 2 (append_to_stream (append new_list hp) e)) ;;
                 Ret (hash_bytes_if_large_enough keccak b)
             | HLeaf _ nibs value =>
                 hp <~ lift (to_hex_prefix_encoding pr nibs true) ;;
                 b <~ lift (stream_out 2 (append (append new_list hp) value)) ;;
                 Ret (hash_bytes_if_large_enough keccak b)
             end ;;
        match r with
        | Hashed h => Write (cell t) (Some h) (Ret r)
        | Raw _ => Ret r
        end
    end).

Definition hash_children (pr : profile) : list hnode -> stream -> prog stream :=
  fix go (l : list hnode) (s : stream) {struct l} : prog stream :=
    match l with
    | [] => Ret s
    | c :: l' => e <~ hash_intern pr c ;; go l' (append_to_stream s e)
    end.

(** trie_hashing.rs:36-76 [rlp_encode_and_hash_node] of the node in a [HashedPartialTrie]. *)
Definition encode_node (pr : profile) (t : hnode) : prog encoded_node :=
  match t with
  | HEmpty _ => Ret (Raw [0x80])
  | HHash _ h => Ret (Hashed h)
  | HBranch _ children value =>
      s <~ hash_children pr children new_list ;;
      let s := match value with [] => append_empty_data s | _ => append s value end in
      b <~ lift (stream_out 17 s) ;;
      Ret (hash_bytes_if_large_enough keccak b)
  | HExtension _ nibs child =>
      hp <~ lift (to_hex_prefix_encoding pr nibs false) ;;
      e <~ hash_intern pr child ;;
      b <~ lift (stream_out 2 (append_to_stream (append new_list hp) e)) ;;
      Ret (hash_bytes_if_large_enough keccak b)
  | HLeaf _ nibs value =>
      hp <~ lift (to_hex_prefix_encoding pr nibs true) ;;
      b <~ lift (stream_out 2 (append (append new_list hp) value)) ;;
      Ret (hash_bytes_if_large_enough keccak b)
  end.

(** partial_trie.rs:295-304 [get_hash], 355-357 [hash]; trie_hashing.rs:31-34 [hash_trie]. *)
Definition hhash_of (pr : profile) (t : hnode) : prog (list N) :=
  Read (cell t) (fun o =>
    match o with
    | Some h => Ret h
    | None => e <~ encode_node pr t ;; Ret (encoded_to_h256 keccak e)
    end).

(** ** Subsets *)
(** trie_subsets.rs:298-330 [create_partial_trie_subset_from_tracked_trie]. The tracked trie is given as the node [t],
    whose subtrees are the [underlying_node]s, and the tracked trie [tr] of [erase t], which has the flags. *)
Fixpoint hcreate_from_tracked (pr : profile) (t : hnode) (tr : tracked) {struct t} : prog hnode :=
  let keep :=
    match t, tr with
    | HEmpty _, _ => hempty
    | HHash _ h, _ => hhash h
    | HBranch _ children v, TBranch trs _ _ =>
        ch <~ (fix go (l : list hnode) (trs : list tracked) {struct l} : prog (list hnode) :=
                 match l, trs with
                 | [], _ => Ret []
                 | c :: l', x :: trs' => n <~ hcreate_from_tracked pr c x ;; ns <~ go l' trs' ;; Ret (n :: ns)
                 | _ :: _, [] => Fail
                 end) children trs ;;
        hbranch ch v
    | HExtension _ n child, TExtension x _ _ => c <~ hcreate_from_tracked pr child x ;; hextension n c
    | HLeaf _ n v, _ => hleaf n v
    | _, _ => Fail
    end in
  if touched tr then keep
  else
    e <~ hash_intern pr t ;;
    match e with
    | Hashed h => hhash h
    | Raw _ => keep
    end.

(** trie_subsets.rs:212-220 [create_trie_subset], 245-258, 260-296: marking accesses no cell, so it is that of Subset.v. *)
Definition hcreate_trie_subset (pr : profile) (t : hnode) (ks : list nibbles) : prog (result hnode subset_error) :=
  r <~ lift (mark_all pr (track (erase t)) ks) ;;
  match r with
  | ROk tr => n <~ hcreate_from_tracked pr t tr ;; Ret (ROk n)
  | RErr e => Ret (RErr e)
  end.

(** trie_subsets.rs:225-243 [create_trie_subsets]. *)
Fixpoint hcreate_subsets_from (pr : profile) (t : hnode) (tr : tracked) (kss : list (list nibbles))
  : prog (result (list hnode) subset_error) :=
  match kss with
  | [] => Ret (ROk [])
  | ks :: kss' =>
      r <~ lift (mark_all pr tr ks) ;;
      match r with
      | RErr e => Ret (RErr e)
      | ROk tr' =>
          n <~ hcreate_from_tracked pr t tr' ;;
          rs <~ hcreate_subsets_from pr t (reset_tracked tr') kss' ;;
          Ret (match rs with ROk l => ROk (n :: l) | RErr e => RErr e end)
      end
  end.
Definition hcreate_trie_subsets (pr : profile) (t : hnode) (kss : list (list nibbles))
  : prog (result (list hnode) subset_error) :=
  hcreate_subsets_from pr t (track (erase t)) kss.
End Hash.

(** ** Caught panics *)
(** [catch_unwind]: [None] for a panic. No operation panics while it holds the lock of a cell (partial_trie.rs:297, 307, 373,
    381: the guards live for one read or one write), so the locks stay usable. *)
Fixpoint catch {A} (p : prog A) : prog (option A) :=
  match p with
  | Ret a => Ret (Some a)
  | Fail => Ret None
  | Read c k => Read c (fun o => catch (k o))
  | Write c o p' => Write c o (catch p')
  | Alloc k => Alloc (fun c => catch (k c))
  end.
