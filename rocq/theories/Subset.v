(** Model of /repo/src/trie_subsets.rs for tries without a hash cache ([StandardTrie]); the caching trie is in Cache.v. *)
From Verif Require Import Base Nibbles Trie Hashing.
Open Scope N_scope.

(** trie_subsets.rs:29-42 [TrackedNodeIntern], [TrackedNode], and 156-160 [TrackedNodeInfo] ([u] is [underlying_node], [b] is
    [touched]). The node kind and the info are put in one constructor. *)
Inductive tracked : Type :=
| TEmpty (u : node) (b : bool)
| THash (u : node) (b : bool)
| TBranch (children : list tracked) (u : node) (b : bool)
| TExtension (child : tracked) (u : node) (b : bool)
| TLeaf (u : node) (b : bool).

(** trie_subsets.rs:44-84 [TrackedNode::new], [tracked_branch]. *)
Fixpoint track (t : node) : tracked :=
  match t with
  | Empty => TEmpty t false
  | Hash _ => THash t false
  | Branch children _ => TBranch (map track children) t false
  | Extension _ child => TExtension (track child) t false
  | Leaf _ _ => TLeaf t false
  end.

Definition underlying (t : tracked) : node :=
  match t with TEmpty u _ | THash u _ | TBranch _ u _ | TExtension _ u _ | TLeaf u _ => u end.
Definition touched (t : tracked) : bool :=
  match t with TEmpty _ b | THash _ b | TBranch _ _ b | TExtension _ _ b | TLeaf _ b => b end.

(** trie_subsets.rs:170-172 [reset] of the info of a node. *)
Definition reset_info (t : tracked) : tracked :=
  match t with
  | TEmpty u _ => TEmpty u false
  | THash u _ => THash u false
  | TBranch l u _ => TBranch l u false
  | TExtension c u _ => TExtension c u false
  | TLeaf u _ => TLeaf u false
  end.

(** trie_subsets.rs:174-205, the [..._expected] functions; [unreachable!] panics. *)
Definition get_nibbles_expected (u : node) : res nibbles :=
  match u with Extension n _ => Ok n | Leaf n _ => Ok n | _ => Panic end.
Definition get_hash_node_hash_expected (u : node) : res (list N) :=
  match u with Hash h => Ok h | _ => Panic end.
Definition get_branch_value_expected (u : node) : res (list N) :=
  match u with Branch _ v => Ok v | _ => Panic end.
Definition get_leaf_nibbles_and_value_expected (u : node) : res (nibbles * list N) :=
  match u with Leaf n v => Ok (n, v) | _ => Panic end.

(** [f(&mut children[i])] for a function that returns the updated child or an error. *)
Definition with_tracked {E} (f : tracked -> res (result tracked E)) : list tracked -> nat -> res (result (list tracked) E) :=
  fix go (l : list tracked) (i : nat) {struct l} :=
    match l, i with
    | [], _ => Panic
    | c :: l', O => r <- f c ;; Ok (match r with ROk c' => ROk (c' :: l') | RErr e => RErr e end)
    | c :: l', S i' => r <- go l' i' ;; Ok (match r with ROk l'' => ROk (c :: l'') | RErr e => RErr e end)
    end.

(** trie_subsets.rs:20-27 [SubsetTrieError::UnexpectedKey]. The code keeps the text of the tracked node where the marking stopped;
    here the underlying node [u] of that tracked node is kept, and Errors.v makes the text from it. *)
Inductive subset_error : Type := UnexpectedKey (k : nibbles) (u : node).

(** trie_subsets.rs:260-296 [mark_nodes_that_are_needed]. On an error every caller gives up, so the half-marked trie is
    not returned. *)
Fixpoint mark (pr : profile) (t : tracked) (k : nibbles) {struct t} : res (result tracked subset_error) :=
  match t with
  | TEmpty u _ => Ok (ROk (TEmpty u true))
  | THash u _ => if is_empty k then Ok (ROk (THash u true)) else Ok (RErr (UnexpectedKey k u))
  | TBranch children u _ =>
      if is_empty k then Ok (ROk (TBranch children u true))
      else
        '(nib, k') <- pop_next_nibble_front pr k ;;
        r <- with_tracked (fun c => mark pr c k') children (N.to_nat nib) ;;
        Ok (match r with ROk l => ROk (TBranch l u true) | RErr e => RErr e end)
  | TExtension child u _ =>
      nibs <- get_nibbles_expected u ;;
      '(r, k') <- pop_nibbles_front pr k (count nibs) ;;
      same <- identical_up_to_smallest pr r nibs ;;
      if same then
        r <- mark pr child k' ;;
        Ok (match r with ROk c => ROk (TExtension c u true) | RErr e => RErr e end)
      else Ok (ROk (TExtension child u true))
  | TLeaf u _ => Ok (ROk (TLeaf u true))
  end.

Section Create.
Variable keccak : list N -> list N.

(** trie_subsets.rs:298-330 [create_partial_trie_subset_from_tracked_trie], with 86-154 [partial_trie_extension],
    [partial_trie_branch]. *)
Fixpoint create_from_tracked (pr : profile) (t : tracked) {struct t} : res node :=
  let keep :=
    match t with
    | TEmpty _ _ => Ok Empty
    | THash u _ => h <- get_hash_node_hash_expected u ;; Ok (Hash h)
    | TBranch children u _ =>
        ch <- (fix go (l : list tracked) : res (list node) :=
                 match l with
                 | [] => Ok []
                 | c :: l' => n <- create_from_tracked pr c ;; ns <- go l' ;; Ok (n :: ns)
                 end) children ;;
        v <- get_branch_value_expected u ;;
        Ok (Branch ch v)
    | TExtension child u _ =>
        n <- get_nibbles_expected u ;;
        c <- create_from_tracked pr child ;;
        Ok (Extension n c)
    | TLeaf u _ => '(n, v) <- get_leaf_nibbles_and_value_expected u ;; Ok (Leaf n v)
    end in
  if touched t then keep
  else
    e <- rlp_encode_and_hash_node keccak pr (underlying t) ;;
    match e with
    | Hashed h => Ok (Hash h)
    | Raw _ => keep
    end.

(** trie_subsets.rs:245-258 [create_trie_subset_intern]: the result and the tracked trie afterwards. *)
Fixpoint mark_all (pr : profile) (t : tracked) (ks : list nibbles) : res (result tracked subset_error) :=
  match ks with
  | [] => Ok (ROk t)
  | k :: ks' =>
      r <- mark pr t k ;;
      match r with
      | ROk t' => mark_all pr t' ks'
      | RErr e => Ok (RErr e)
      end
  end.

Definition create_trie_subset_intern (pr : profile) (t : tracked) (ks : list nibbles)
  : res (result (node * tracked) subset_error) :=
  r <- mark_all pr t ks ;;
  match r with
  | ROk t' => n <- create_from_tracked pr t' ;; Ok (ROk (n, t'))
  | RErr e => Ok (RErr e)
  end.

(** trie_subsets.rs:212-220 [create_trie_subset]. *)
Definition create_trie_subset (pr : profile) (t : node) (ks : list nibbles) : res (result node subset_error) :=
  r <- create_trie_subset_intern pr (track t) ks ;;
  Ok (match r with ROk (n, _) => ROk n | RErr e => RErr e end).

(** trie_subsets.rs:332-342 [reset_tracked_trie_state]: only the direct children are reset. *)
Definition reset_tracked (t : tracked) : tracked :=
  match t with
  | TBranch children u b => TBranch (map reset_info children) u b
  | TExtension child u b => TExtension (reset_info child) u b
  | TEmpty _ _ | THash _ _ | TLeaf _ _ => reset_info t
  end.

(** trie_subsets.rs:225-243 [create_trie_subsets]; [collect] stops at the first error. *)
Fixpoint create_subsets_from (pr : profile) (t : tracked) (kss : list (list nibbles))
  : res (result (list node) subset_error) :=
  match kss with
  | [] => Ok (ROk [])
  | ks :: kss' =>
      r <- create_trie_subset_intern pr t ks ;;
      match r with
      | RErr e => Ok (RErr e)
      | ROk (n, t') =>
          rs <- create_subsets_from pr (reset_tracked t') kss' ;;
          Ok (match rs with ROk l => ROk (n :: l) | RErr e => RErr e end)
      end
  end.

Definition create_trie_subsets (pr : profile) (t : node) (kss : list (list nibbles))
  : res (result (list node) subset_error) :=
  create_subsets_from pr (track t) kss.
End Create.
