(** Model of /repo/src/debug_tools/diff.rs (text output: Text.v). The function only takes [HashedPartialTrie]s; [hash()] on
    them is modelled by the hash computed from the node contents, which is what it returns as long as the caches are right
    (property C29). [keccak] is the hash function. *)
From Verif Require Import Base Nibbles Trie Rlp Hashing Query Cache.
Open Scope N_scope.

(** diff.rs:57-61 [enum DiffDetectionState], 64-74. *)
Inductive detection : Type := NodeTypesDiffer | HashDiffDetected | NoDiffDetected.
Definition int_repr (d : detection) : N := match d with NodeTypesDiffer => 0 | HashDiffDetected => 1 | NoDiffDetected => 2 end.
Definition pick_most_significant (a b : detection) : detection := if int_repr b <? int_repr a then a else b.

(** diff.rs:119-129 [struct NodeInfo]. *)
Record node_info : Type := NodeInfo { i_key : nibbles; i_value : option (list N); i_type : node_type; i_hash : list N }.
(** diff.rs:79-85 [struct DiffPoint]. *)
Record diff_point : Type := DiffPoint { d_depth : N; d_path : list segment; d_key : nibbles; a_info : node_info; b_info : node_info }.
(** diff.rs:186-189 [struct DepthNodeDiffState]: the longest node and hash differences so far. *)
Record longest : Type := Longest { node_diff : option diff_point; hash_diff : option diff_point }.

(** diff.rs:397-402 [get_value_from_node]. *)
Definition get_value (t : node) : option (list N) :=
  match t with Empty | Hash _ | Extension _ _ => None | Branch _ v | Leaf _ v => Some v end.

Section Diff.
Variable keccak : list N -> list N.
Variable pr : profile.

(** diff.rs:146-153 [NodeInfo::new]. *)
Definition node_info_new (t : node) (key : nibbles) (value : option (list N)) : res node_info :=
  h <- hash_trie keccak pr t ;; Ok (NodeInfo key value (type_of t) h).

(** diff.rs:88-104 [DiffPoint::new]. *)
Definition diff_point_new (a b : node) (parent_k : nibbles) (path : list segment) : res diff_point :=
  a_key <- merge_nibbles pr parent_k (key_piece_of a) ;;
  b_key <- merge_nibbles pr parent_k (key_piece_of b) ;;
  ai <- node_info_new a a_key (get_value a) ;;
  bi <- node_info_new b b_key (get_value b) ;;
  Ok (DiffPoint 0 path parent_k ai bi).

(** diff.rs:229-238 [struct DepthDiffPerCallState] without [a] and [b]. *)
Record call_state : Type := Call { curr_key : nibbles; curr_depth : N; curr_path : list segment }.

(** diff.rs:212-225 [replace_longest_field_if_our_key_is_larger]. *)
Definition replace_longest (field : option diff_point) (a b : node) (st : call_state) : res (option diff_point) :=
  if match field with None => true | Some p => count (d_key p) <? count (curr_key st) end
  then rmap Some (diff_point_new a b (curr_key st) (curr_path st))
  else Ok field.
(** diff.rs:192-210. *)
Definition update_hash (ds : longest) (a b : node) (st : call_state) : res longest :=
  f <- replace_longest (hash_diff ds) a b st ;; Ok (Longest (node_diff ds) f).
Definition update_node (ds : longest) (a b : node) (st : call_state) : res longest :=
  f <- replace_longest (node_diff ds) a b st ;; Ok (Longest f (hash_diff ds)).

(** diff.rs:259-276 [new_from_parent]; [parent] is [self.a]. *)
Definition new_from_parent (st : call_state) (parent : node) (key_piece : nibbles) : res call_state :=
  seg <- get_segment pr parent key_piece ;;
  k <- merge_nibbles pr (curr_key st) key_piece ;;
  d <- uadd pr (curr_depth st) 1 ;;
  Ok (Call k d (curr_path st ++ [seg])).

(** diff.rs:380-393 [create_diff_detection_state_based_from_hashes], 370-378. *)
Definition from_hashes (ha hb : list N) (a b : node) (st : call_state) (ds : longest) : res (detection * longest) :=
  if bytes_eqb ha hb then Ok (NoDiffDetected, ds)
  else ds <- update_hash ds a b st ;; Ok (HashDiffDetected, ds).
Definition from_gen_hashes (a b : node) (st : call_state) (ds : longest) : res (detection * longest) :=
  ha <- hash_trie keccak pr a ;;
  hb <- hash_trie keccak pr b ;;
  from_hashes ha hb a b st ds.

Definition type_eqb (a b : node_type) : bool :=
  match a, b with
  | TEmpty, TEmpty | THash, THash | TBranch, TBranch | TExtension, TExtension | TLeaf, TLeaf => true
  | _, _ => false
  end.

(** diff.rs:279-368 [find_latest_diff_point_between_tries_rec]. The loop over the 16 children goes over both lists together. *)
Fixpoint find_latest_rec (a b : node) (st : call_state) (ds : longest) {struct a} : res (detection * longest) :=
  a_hash <- hash_trie keccak pr a ;;
  b_hash <- hash_trie keccak pr b ;;
  if bytes_eqb a_hash b_hash then Ok (NoDiffDetected, ds)
  else if type_eqb (type_of a) (type_of b) && nib_eqb (key_piece_of a) (key_piece_of b) then
    ds <- update_node ds a b st ;; Ok (NodeTypesDiffer, ds)
  else
    match a, b with
    | Empty, Empty => Ok (NoDiffDetected, ds)
    | Hash ha, Hash hb =>
        st <- new_from_parent st a nib_default ;;
        from_hashes ha hb a b st ds
    | Branch ach _, Branch bch _ =>
        ' (found, ds) <-
          (fix children (i : N) (la lb : list node) (found : detection) (ds : longest) : res (detection * longest) :=
             match la, lb with
             | ca :: la, cb :: lb =>
                 n <- from_nibble i ;;
                 st <- new_from_parent st a n ;;
                 ' (r, ds) <- find_latest_rec ca cb st ds ;;
                 children (i + 1) la lb (pick_most_significant found r) ds
             | _, _ => Ok (found, ds)
             end) 0 ach bch NoDiffDetected ds ;;
        match found with
        | NoDiffDetected => Ok (found, ds)
        | _ => from_gen_hashes a b st ds
        end
    | Extension an ac, Extension _ bc =>
        st <- new_from_parent st a an ;;
        find_latest_rec ac bc st ds
    | Leaf _ _, Leaf _ _ => from_gen_hashes a b st ds
    | _, _ => Panic
    end.

(** diff.rs:166-183 [find_latest_diff_point_between_tries], 158-162 [create_diff_between_tries] (its only field). *)
Definition create_diff (a b : node) : res (option diff_point) :=
  ' (_, ds) <- find_latest_rec a b (Call nib_default 0 []) (Longest None None) ;;
  Ok (match node_diff ds with Some p => Some p | None => hash_diff ds end).
End Diff.
