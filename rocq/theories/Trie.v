(** Model of /repo/src/trie_ops.rs on the node type of /repo/src/partial_trie.rs:117-148.
    [StandardTrie] (partial_trie.rs:193-282) is a plain wrapper of [Node]; the caching [HashedPartialTrie] is modelled in
    Cache.v. [Arc]/[Box]/[clone] do not show in the values. [trace!] logging: Trace.v. *)
From Verif Require Import Base Nibbles.
Open Scope N_scope.

(** partial_trie.rs:121-148 [enum Node]. A value is its list of bytes, an [H256] its list of 32 bytes, and [children] is
    a list whose length 16 (the array type) is part of the well-formedness predicate of TrieSpec.v. *)
Inductive node : Type :=
| Empty
| Hash (h : list N)
| Branch (children : list node) (value : list N)
| Extension (nibs : nibbles) (child : node)
| Leaf (nibs : nibbles) (value : list N).

(** trie_ops.rs:45-53 [enum ValOrHash]. *)
Inductive val_or_hash : Type :=
| Val (v : list N)
| HashV (h : list N).

(** trie_ops.rs:110-120 [expect_hash], [expect_val]. *)
Definition expect_hash (v : val_or_hash) : res (list N) := match v with HashV h => Ok h | Val _ => Panic end.
Definition expect_val (v : val_or_hash) : res (list N) := match v with Val v => Ok v | HashV _ => Panic end.

(** [f(&children[i])]: array indexing, out of bounds panics. *)
Definition with_child {A} (f : node -> res A) : list node -> nat -> res A :=
  fix go (l : list node) (i : nat) {struct l} : res A :=
    match l, i with
    | [], _ => Panic
    | c :: _, O => f c
    | _ :: l', S i' => go l' i'
    end.

(** [updated_children[i] = c]. *)
Fixpoint set_child (l : list node) (i : nat) (c : node) : list node :=
  match l, i with
  | [], _ => []
  | _ :: l', O => c :: l'
  | x :: l', S i' => x :: set_child l' i' c
  end.

(** trie_ops.rs:704-706 [node_is_empty]. *)
Definition node_is_empty (n : node) : bool := match n with Empty => true | _ => false end.

(** trie_ops.rs:688-690 [get_num_non_empty_children]. *)
Definition get_num_non_empty_children (children : list node) : nat :=
  length (filter (fun c => negb (node_is_empty c)) children).

(** trie_ops.rs:692-702 [get_other_non_empty_child_and_nibble_in_two_elem_branch]; [None] is the [expect] panic. *)
Fixpoint get_other_non_empty_child (i : nat) (children : list node) (our_nib : nat) : option (nat * node) :=
  match children with
  | [] => None
  | c :: rest =>
      if negb (Nat.eqb i our_nib) && negb (node_is_empty c) then Some (i, c)
      else get_other_non_empty_child (S i) rest our_nib
  end.

(** trie_ops.rs:665-686 [new_branch_child_arr]. *)
Definition new_branch_child_arr : list node := repeat Empty 16.

(** trie_ops.rs:734-755 [create_node_from_insert_val]. *)
Definition create_node_from_insert_val (nibs : nibbles) (v : val_or_hash) : node :=
  match v with
  | Val v => Leaf nibs v
  | HashV h => if is_empty nibs then Hash h else Extension nibs (Hash h)
  end.

(** trie_ops.rs:757-767 [create_node_if_ins_val_not_hash]; used by 715-720 [branch_from_insert_val] and
    730-732 [leaf_from_insert_val]. *)
Definition create_node_if_ins_val_not_hash (v : val_or_hash) (f : list N -> node) : res node :=
  match v with
  | Val v => Ok (f v)
  | HashV _ => Panic
  end.

(** trie_ops.rs:123-129 [ExistingAndNewNodePreAndPost]. *)
Record pre_and_post : Type := PrePost { common_prefix : nibbles; existing_postfix : nibbles; new_postfix : nibbles }.

(** trie_ops.rs:569-588 [get_pre_and_postfixes_for_existing_and_new_nodes]. *)
Definition get_pre_and_postfixes (pr : profile) (existing new : nibbles) : res pre_and_post :=
  idx <- find_diff pr existing new ;;
  '(common, ep) <- split_at_idx pr existing idx ;;
  np <- split_at_idx_postfix pr new idx ;;
  Ok (PrePost common ep np).

(** trie_ops.rs:650-663 [ins_entry_into_leaf_and_nibble]. *)
Definition ins_entry_into_leaf_and_nibble (pr : profile) (info : pre_and_post) (k : nibbles) (v : val_or_hash)
  : res (N * node) :=
  first <- get_nibble pr (new_postfix info) 0 ;;
  n1 <- uadd pr (count (common_prefix info)) 1 ;;
  k' <- truncate_n_nibbles_front pr k n1 ;;
  Ok (first, create_node_from_insert_val k' v).

(** trie_ops.rs:131-138 [ExistingOrNewBranchValuePlacement]. *)
Inductive placement : Type :=
| BranchValue (v : list N) (child : N * node)
| BothBranchChildren (c1 c2 : N * node).

(** trie_ops.rs:623-648 [check_if_existing_or_new_node_should_go_in_branch_value_field]. *)
Definition check_placement (pr : profile) (info : pre_and_post) (existing : node) (k : nibbles) (v : val_or_hash)
  : res placement :=
  let otherwise :=
    if count (new_postfix info) =? 0 then
      bv <- expect_val v ;;
      e0 <- get_nibble pr (existing_postfix info) 0 ;;
      Ok (BranchValue bv (e0, existing))
    else
      e0 <- get_nibble pr (existing_postfix info) 0 ;;
      c2 <- ins_entry_into_leaf_and_nibble pr info k v ;;
      Ok (BothBranchChildren (e0, existing) c2) in
  if count (existing_postfix info) =? 0 then
    match existing with
    | Leaf _ value =>
        c <- ins_entry_into_leaf_and_nibble pr info k v ;;
        Ok (BranchValue value c)
    | _ => otherwise
    end
  else otherwise.

(** trie_ops.rs:590-619 [place_branch_and_potentially_ext_prefix]. *)
Definition place_branch (pr : profile) (info : pre_and_post) (existing : node) (k : nibbles) (v : val_or_hash)
  : res node :=
  p <- check_placement pr info existing k v ;;
  let b :=
    match p with
    | BranchValue bv (nib, n) => Branch (set_child new_branch_child_arr (N.to_nat nib) n) bv
    | BothBranchChildren (n1, c1) (n2, c2) =>
        Branch (set_child (set_child new_branch_child_arr (N.to_nat n1) c1) (N.to_nat n2) c2) []
    end in
  Ok (if count (common_prefix info) =? 0 then b else Extension (common_prefix info) b).

(** trie_ops.rs:363-449 [insert_into_trie_rec]. It always returns [Some], so the [Option] is dropped. *)
Fixpoint insert_rec (pr : profile) (t : node) (k : nibbles) (v : val_or_hash) {struct t} : res node :=
  match t with
  | Empty => Ok (create_node_from_insert_val k v)
  | Hash _ => Panic
  | Branch children value =>
      if count k =? 0 then create_node_if_ins_val_not_hash v (fun v => Branch children v)
      else
        '(nib, k') <- pop_next_nibble_front pr k ;;
        c' <- with_child (fun c => insert_rec pr c k' v) children (N.to_nat nib) ;;
        Ok (Branch (set_child children (N.to_nat nib) c') value)
  | Extension nibs child =>
      info <- get_pre_and_postfixes pr nibs k ;;
      same <- identical_up_to_smallest pr nibs k ;;
      if same then
        k' <- truncate_n_nibbles_front pr k (count nibs) ;;
        c' <- insert_rec pr child k' v ;;
        Ok (Extension nibs c')
      else
        adj <- truncate_n_nibbles_front pr (existing_postfix info) 1 ;;
        let existing := if count adj =? 0 then child else Extension adj child in
        place_branch pr info existing k v
  | Leaf nibs value =>
      if nib_eqb nibs k then create_node_if_ins_val_not_hash v (fun v => Leaf nibs v)
      else
        info <- get_pre_and_postfixes pr nibs k ;;
        n1 <- uadd pr (count (common_prefix info)) 1 ;;
        l' <- truncate_n_nibbles_front pr nibs n1 ;;
        place_branch pr info (Leaf l' value) k v
  end.

(** trie_ops.rs:264-275 [trie_insert]. *)
Definition trie_insert (pr : profile) (t : node) (k : nibbles) (v : val_or_hash) : res node := insert_rec pr t k v.

(** trie_ops.rs:277-286 [trie_extend]. *)
Fixpoint trie_extend (pr : profile) (t : node) (l : list (nibbles * val_or_hash)) : res node :=
  match l with
  | [] => Ok t
  | (k, v) :: l' => t' <- trie_insert pr t k v ;; trie_extend pr t' l'
  end.

(** partial_trie.rs:420-429 [from_iter_common]. *)
Definition from_iter (pr : profile) (l : list (nibbles * val_or_hash)) : res node := trie_extend pr Empty l.

(** trie_ops.rs:295-329 [trie_get_intern] (288-293 [trie_get]). *)
Fixpoint trie_get (pr : profile) (t : node) (k : nibbles) {struct t} : res (option (list N)) :=
  match t with
  | Empty => Ok None
  | Hash _ => Ok None
  | Branch children value =>
      if is_empty k then Ok (match value with [] => None | _ => Some value end)
      else
        '(nib, k') <- pop_next_nibble_front pr k ;;
        with_child (fun c => trie_get pr c k') children (N.to_nat nib)
  | Extension nibs child =>
      '(r, k') <- pop_nibbles_front pr k (count nibs) ;;
      same <- identical_up_to_smallest pr r nibs ;;
      if same then trie_get pr child k' else Ok None
  | Leaf nibs value =>
      same <- identical_up_to_smallest pr nibs k ;;
      if same then Ok (Some value) else Ok None
  end.

(** trie_ops.rs:538-567 [collapse_ext_node_if_needed]. *)
Definition collapse_ext_node_if_needed (pr : profile) (ext : nibbles) (child : node) : res node :=
  match child with
  | Branch _ _ => Ok (Extension ext child)
  | Extension n c => m <- merge_nibbles pr ext n ;; Ok (Extension m c)
  | Leaf n v => m <- merge_nibbles pr ext n ;; Ok (Leaf m v)
  | Hash _ => Ok (Extension ext child)
  | Empty => Panic
  end.

(** trie_ops.rs:531-536 [try_collapse_if_extension]. *)
Definition try_collapse_if_extension (pr : profile) (n : node) : res node :=
  match n with
  | Extension nibs child => collapse_ext_node_if_needed pr nibs child
  | _ => Ok n
  end.

(** trie_ops.rs:451-529 [delete_intern]. *)
Fixpoint delete_intern (pr : profile) (t : node) (k : nibbles) {struct t} : res (option (node * list N)) :=
  match t with
  | Empty => Ok None
  | Hash _ => Panic
  | Branch children value =>
      if is_empty k then Ok (Some (Branch children [], value))
      else
        '(nib, k') <- pop_next_nibble_front pr k ;;
        r <- with_child (fun c => delete_intern pr c k') children (N.to_nat nib) ;;
        match r with
        | None => Ok None
        | Some (c', deleted) =>
            if node_is_empty c' && (get_num_non_empty_children children <=? 2)%nat then
              match get_other_non_empty_child 0 children (N.to_nat nib) with
              | None => Panic
              | Some (i, c) => n <- from_nibble (N.of_nat i) ;; Ok (Some (Extension n c, deleted))
              end
            else
              c'' <- try_collapse_if_extension pr c' ;;
              Ok (Some (Branch (set_child children (N.to_nat nib) c'') value, deleted))
        end
  | Extension nibs child =>
      same <- identical_up_to_smallest pr nibs k ;;
      if same then
        k' <- truncate_n_nibbles_front pr k (count nibs) ;;
        r <- delete_intern pr child k' ;;
        match r with
        | None => Ok None
        | Some (c', deleted) => n <- collapse_ext_node_if_needed pr nibs c' ;; Ok (Some (n, deleted))
        end
      else Ok None
  | Leaf nibs value =>
      if nib_eqb nibs k then Ok (Some (Empty, value)) else Ok None
  end.

(** trie_ops.rs:331-345 [trie_delete]: the updated trie and the returned value. *)
Definition trie_delete (pr : profile) (t : node) (k : nibbles) : res (node * option (list N)) :=
  r <- delete_intern pr t k ;;
  match r with
  | None => Ok (t, None)
  | Some (t', deleted) => t'' <- try_collapse_if_extension pr t' ;; Ok (t'', Some deleted)
  end.

(** ** Iteration *)

(** trie_ops.rs:140-152 [IterStackEntry], [BranchStackEntry]. *)
Inductive stack_entry : Type :=
| SRoot (n : node)
| SExtension (num_nibbles : N)
| SBranch (children : list node) (value : list N) (curr_nib : N).

(** trie_ops.rs:154-158 [PartialTrieIter]; the top of the stack is the head of the list. *)
Record iter : Type := Iter { curr_key_after_last_branch : nibbles; trie_stack : list stack_entry }.

Definition item : Type := (nibbles * val_or_hash)%type.

(** trie_ops.rs:161-196 [advance_iter_to_next_empty_leaf_or_hash_node]. *)
Fixpoint advance (pr : profile) (n : node) (key : nibbles) (st : iter) {struct n} : res (iter * option item) :=
  match n with
  | Empty => Ok (st, None)
  | Hash h => Ok (st, Some (key, HashV h))
  | Branch children value =>
      let st' := Iter key (SBranch children value 1 :: trie_stack st) in
      key' <- push_nibble_back key 0 ;;
      with_child (fun c => advance pr c key' st') children 0
  | Extension nibs child =>
      let st' := match child with
                 | Hash _ => st
                 | _ => Iter (curr_key_after_last_branch st) (SExtension (count nibs) :: trie_stack st)
                 end in
      key' <- merge_nibbles pr key nibs ;;
      advance pr child key' st'
  | Leaf nibs value =>
      key' <- merge_nibbles pr key nibs ;;
      Ok (st, Some (key', Val value))
  end.

(** trie_ops.rs:206-256, the body of the [while] loop of [next]; [None] when the stack is empty ([break]). *)
Definition next_step (pr : profile) (st : iter) : res (option (iter * option item)) :=
  match trie_stack st with
  | [] => Ok None
  | e :: rest =>
      let key := curr_key_after_last_branch st in
      match e with
      | SRoot root => r <- advance pr root nib_default (Iter key rest) ;; Ok (Some r)
      | SExtension n => key' <- truncate_n_nibbles_back pr key n ;; Ok (Some (Iter key' rest, None))
      | SBranch children value curr =>
          if (1 <=? curr) && (curr <=? 15) then
            let st' := Iter key (SBranch children value (curr + 1) :: rest) in
            key' <- merge_nibble key curr ;;
            r <- with_child (fun c => advance pr c key' st') children (N.to_nat curr) ;;
            Ok (Some r)
          else if curr =? 16 then
            let it := match value with [] => None | _ => Some (key, Val value) end in
            key' <- (if is_empty key then Ok key else truncate_n_nibbles_back pr key 1) ;;
            Ok (Some (Iter key' rest, it))
          else Panic
      end
  end.

(** trie_ops.rs:202-260 [next]; the [while] loop runs on [fuel], [None] means out of fuel. *)
Fixpoint next (fuel : nat) (pr : profile) (st : iter) : option (res (iter * option item)) :=
  match fuel with
  | O => None
  | S fuel' =>
      match next_step pr st with
      | Panic => Some Panic
      | Ok None => Some (Ok (st, None))
      | Ok (Some (st', Some it)) => Some (Ok (st', Some it))
      | Ok (Some (st', None)) => next fuel' pr st'
      end
  end.

(** trie_ops.rs:347-352 [trie_items]. *)
Definition items_iter (t : node) : iter := Iter nib_default [SRoot t].

(** [iter.collect()]: call [next] until it returns [None]; at most [fuel] calls, each with [fuel] loop rounds. *)
Fixpoint collect (calls fuel : nat) (pr : profile) (st : iter) : option (res (list item)) :=
  match calls with
  | O => None
  | S calls' =>
      match next fuel pr st with
      | None => None
      | Some Panic => Some Panic
      | Some (Ok (_, None)) => Some (Ok [])
      | Some (Ok (st', Some it)) =>
          match collect calls' fuel pr st' with
          | None => None
          | Some Panic => Some Panic
          | Some (Ok l) => Some (Ok (it :: l))
          end
      end
  end.

Definition trie_items (fuel : nat) (pr : profile) (t : node) : option (res (list item)) :=
  collect fuel fuel pr (items_iter t).

(** trie_ops.rs:354-360 [trie_keys], [trie_values]. *)
Definition trie_keys (fuel : nat) (pr : profile) (t : node) : option (res (list nibbles)) :=
  option_map (rmap (map fst)) (trie_items fuel pr t).
Definition trie_values (fuel : nat) (pr : profile) (t : node) : option (res (list val_or_hash)) :=
  option_map (rmap (map snd)) (trie_items fuel pr t).
