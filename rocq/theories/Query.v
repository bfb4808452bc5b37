(** Model of /repo/src/debug_tools/common.rs and /repo/src/debug_tools/query.rs. The text output ([Display]) and the
    parameters [DebugQueryParams], which only control it, are in Text.v. *)
From Verif Require Import Base Nibbles Trie.
Open Scope N_scope.

(** common.rs:9-16 [enum PathSegment]; common.rs:90-91 [NodePath] is a list of segments. *)
Inductive segment : Type := SEmpty | SHash | SBranch (nib : N) | SExtension (n : nibbles) | SLeaf (n : nibbles).

(** utils.rs:8-34 [TrieNodeType] and its conversion from a node. *)
Inductive node_type : Type := TEmpty | THash | TBranch | TExtension | TLeaf.
Definition type_of (t : node) : node_type :=
  match t with Empty => TEmpty | Hash _ => THash | Branch _ _ => TBranch | Extension _ _ => TExtension | Leaf _ _ => TLeaf end.

(** common.rs:31-39 [node_type], 41-47 [get_key_piece_from_seg_if_present] ([from_nibble] panics for more than 4 bits). *)
Definition seg_type (s : segment) : node_type :=
  match s with SEmpty => TEmpty | SHash => THash | SBranch _ => TBranch | SExtension _ => TExtension | SLeaf _ => TLeaf end.
Definition seg_key_piece (s : segment) : res (option nibbles) :=
  match s with
  | SEmpty | SHash => Ok None
  | SBranch nib => rmap Some (from_nibble nib)
  | SExtension n | SLeaf n => Ok (Some n)
  end.

(** common.rs:50-61 [get_segment_from_node_and_key_piece]. *)
Definition get_segment (pr : profile) (t : node) (k_piece : nibbles) : res segment :=
  match type_of t with
  | TEmpty => Ok SEmpty
  | THash => Ok SHash
  | TBranch => nib <- get_nibble pr k_piece 0 ;; Ok (SBranch nib)
  | TExtension => Ok (SExtension k_piece)
  | TLeaf => Ok (SLeaf k_piece)
  end.

(** common.rs:70-79 [get_key_piece_from_node_pulling_from_key_for_branches]. *)
Definition key_piece_pulling (pr : profile) (t : node) (curr_key : nibbles) : res nibbles :=
  match t with
  | Empty | Hash _ => Ok nib_default
  | Branch _ _ => get_next_nibbles pr curr_key 1
  | Extension n _ | Leaf n _ => Ok n
  end.

(** common.rs:83-88 [get_key_piece_from_node]. *)
Definition key_piece_of (t : node) : nibbles :=
  match t with
  | Empty | Hash _ | Branch _ _ => nib_default
  | Extension n _ | Leaf n _ => n
  end.

(** query.rs:133-143 [create_child_mask_from_children]: a [u16]; [1 << i] for [i < 16]. *)
Fixpoint child_mask_loop (i : N) (ch : list node) (mask : N) : N :=
  match ch with
  | [] => mask
  | c :: ch' => child_mask_loop (i + 1) ch' (if node_is_empty c then mask else N.lor mask (N.shiftl 1 i))
  end.
Definition create_child_mask (ch : list node) : N := child_mask_loop 0 (firstn 16 ch) 0.

(** query.rs:145-153 [count_non_empty_branch_children_from_mask]. *)
Fixpoint count_mask_loop (iters : nat) (i mask acc : N) : N :=
  match iters with
  | O => acc
  | S iters' => count_mask_loop iters' (i + 1) mask (acc + if 0 <? N.land mask (N.shiftl 1 i) then 1 else 0)
  end.
Definition count_children_from_mask (mask : N) : N := count_mask_loop 16 0 mask 0.

(** query.rs:97-101 [enum ExtraNodeSegmentInfo], 119-130 [from_node]. *)
Inductive extra_info : Type := XHash (h : list N) | XBranch (child_mask : N) | XLeaf (v : list N).
Definition extra_of (t : node) : option extra_info :=
  match t with
  | Empty | Extension _ _ => None
  | Hash h => Some (XHash h)
  | Branch ch _ => Some (XBranch (create_child_mask ch))
  | Leaf _ v => Some (XLeaf v)
  end.

(** query.rs:156-162 [struct DebugQueryOutput], 195-203 [new]. *)
Record query_output : Type := QOut { q_key : nibbles; node_path : list segment; extra_node_info : list (option extra_info); node_found : bool }.

(** query.rs:306-309 [get_next_nibbles_from_node_key_clamped]. *)
Definition next_nibbles_clamped (pr : profile) (key : nibbles) (n_nibs : N) : res nibbles :=
  get_next_nibbles pr key (N.min n_nibs (count key)).

(** query.rs:265-302 [get_path_from_query_rec]: [curr_key] and [query_out] are updated in place. *)
Fixpoint get_path_rec (pr : profile) (t : node) (curr_key : nibbles) (out : query_output) {struct t} : res (nibbles * query_output) :=
  key_piece <- key_piece_pulling pr t curr_key ;;
  seg <- get_segment pr t key_piece ;;
  let out := QOut (q_key out) (node_path out ++ [seg]) (extra_node_info out ++ [extra_of t]) (node_found out) in
  ' (curr_key, out) <-
    match t with
    | Empty | Hash _ => Ok (curr_key, out)
    | Branch ch _ =>
        ' (nib, curr_key) <- pop_next_nibble_front pr curr_key ;;
        with_child (fun c => get_path_rec pr c curr_key out) ch (N.to_nat nib)
    | Extension n c =>
        _ <- next_nibbles_clamped pr curr_key (count n) ;;
        get_path_rec pr c curr_key out
    | Leaf n _ =>
        next <- next_nibbles_clamped pr curr_key (count n) ;;
        if nib_eqb n next
        then ' (_, curr_key) <- pop_nibbles_front pr curr_key (count next) ;; Ok (curr_key, out)
        else Ok (curr_key, out)
    end ;;
  Ok (curr_key, if is_empty curr_key then QOut (q_key out) (node_path out) (extra_node_info out) true else out).

(** query.rs:253-263 [get_path_from_query]. *)
Definition get_path_from_query (pr : profile) (t : node) (k : nibbles) : res query_output :=
  ' (_, out) <- get_path_rec pr t k (QOut k [] [] false) ;;
  Ok out.
