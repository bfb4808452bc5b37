(** Model of how deep the calls of the recursive functions of the crate nest. Every function is the one of Trie.v, Hashing.v, Subset.v,
    Stats.v, Query.v, Diff.v or Cache.v again, with the number [d] of nested calls that the stack has room for. Each level is
    a fixed number of frames: helpers that return before the next level is entered ([flat]), closures, [hash_intern] between two calls of
    [rlp_encode_and_hash_node], are not counted. Dropping a trie, the derived [Debug] and serde's code recurse too: StackDerived.v. The
    functions of the caching trie (Cache.v) make the same calls, except that hashing does not go into a node whose hash is cached. *)
From Coq Require Import String.
From Verif Require Import Base Nibbles Trie Query Diff Stats Rlp Hashing Subset Cache.
Open Scope N_scope.
Open Scope list_scope.

(** [None]: the stack is exhausted, the process is killed. Otherwise the call returns or panics. *)
Definition lim (A : Type) : Type := option (res A).
Definition lbind {A B} (m : lim A) (f : A -> lim B) : lim B :=
  match m with None => None | Some Panic => Some Panic | Some (Ok a) => f a end.
Definition lret {A} (a : A) : lim A := Some (Ok a).
Notation "'let!' x := m 'in' f" := (lbind m (fun x => f)) (at level 200, x pattern, m at level 100, f at level 200).
(** A call of a function that is not recursive: it returns before the next one. *)
Definition flat {A} (r : res A) : lim A := Some r.

(** [f(&children[i])]. *)
Definition lwith_child {A} (f : node -> lim A) (l : list node) (i : nat) : lim A :=
  match nth_error l i with Some c => f c | None => Some Panic end.

(** trie_ops.rs:295-329 [trie_get_intern]. *)
Fixpoint get_lim (d : nat) (pr : profile) (t : node) (k : nibbles) : lim (option (list N)) :=
  match d with
  | O => None
  | S d =>
      match t with
      | Empty => lret None
      | Hash _ => lret None
      | Branch children value =>
          if is_empty k then lret (match value with [] => None | _ => Some value end)
          else
            let! (nib, k') := flat (pop_next_nibble_front pr k) in
            lwith_child (fun c => get_lim d pr c k') children (N.to_nat nib)
      | Extension nibs child =>
          let! (r, k') := flat (pop_nibbles_front pr k (count nibs)) in
          let! same := flat (identical_up_to_smallest pr r nibs) in
          if same : bool then get_lim d pr child k' else lret None
      | Leaf nibs value =>
          let! same := flat (identical_up_to_smallest pr nibs k) in
          if same : bool then lret (Some value) else lret None
      end
  end.

(** trie_ops.rs:363-449 [insert_into_trie_rec]. *)
Fixpoint insert_lim (d : nat) (pr : profile) (t : node) (k : nibbles) (v : val_or_hash) : lim node :=
  match d with
  | O => None
  | S d =>
      match t with
      | Empty => lret (create_node_from_insert_val k v)
      | Hash _ => Some Panic
      | Branch children value =>
          if count k =? 0 then flat (create_node_if_ins_val_not_hash v (fun v => Branch children v))
          else
            let! (nib, k') := flat (pop_next_nibble_front pr k) in
            let! c' := lwith_child (fun c => insert_lim d pr c k' v) children (N.to_nat nib) in
            lret (Branch (set_child children (N.to_nat nib) c') value)
      | Extension nibs child =>
          let! info := flat (get_pre_and_postfixes pr nibs k) in
          let! same := flat (identical_up_to_smallest pr nibs k) in
          if same : bool then
            let! k' := flat (truncate_n_nibbles_front pr k (count nibs)) in
            let! c' := insert_lim d pr child k' v in
            lret (Extension nibs c')
          else
            let! adj := flat (truncate_n_nibbles_front pr (existing_postfix info) 1) in
            let existing := if count adj =? 0 then child else Extension adj child in
            flat (place_branch pr info existing k v)
      | Leaf nibs value =>
          if nib_eqb nibs k then flat (create_node_if_ins_val_not_hash v (fun v => Leaf nibs v))
          else
            let! info := flat (get_pre_and_postfixes pr nibs k) in
            let! n1 := flat (uadd pr (count (common_prefix info)) 1) in
            let! l' := flat (truncate_n_nibbles_front pr nibs n1) in
            flat (place_branch pr info (Leaf l' value) k v)
      end
  end.

(** trie_ops.rs:277-286 [trie_extend], partial_trie.rs:420-429 [from_iter_common]: loops. *)
Fixpoint extend_lim (d : nat) (pr : profile) (t : node) (l : list (nibbles * val_or_hash)) : lim node :=
  match l with
  | [] => lret t
  | (k, v) :: l' => let! t' := insert_lim d pr t k v in extend_lim d pr t' l'
  end.
Definition from_iter_lim (d : nat) (pr : profile) (l : list (nibbles * val_or_hash)) : lim node := extend_lim d pr Empty l.

(** trie_ops.rs:451-529 [delete_intern], 331-345 [trie_delete]. *)
Fixpoint delete_intern_lim (d : nat) (pr : profile) (t : node) (k : nibbles) : lim (option (node * list N)) :=
  match d with
  | O => None
  | S d =>
      match t with
      | Empty => lret None
      | Hash _ => Some Panic
      | Branch children value =>
          if is_empty k then lret (Some (Branch children [], value))
          else
            let! (nib, k') := flat (pop_next_nibble_front pr k) in
            let! r := lwith_child (fun c => delete_intern_lim d pr c k') children (N.to_nat nib) in
            match r with
            | None => lret None
            | Some (c', deleted) =>
                if node_is_empty c' && (get_num_non_empty_children children <=? 2)%nat then
                  match get_other_non_empty_child 0 children (N.to_nat nib) with
                  | None => Some Panic
                  | Some (i, c) => let! n := flat (from_nibble (N.of_nat i)) in lret (Some (Extension n c, deleted))
                  end
                else
                  let! c'' := flat (try_collapse_if_extension pr c') in
                  lret (Some (Branch (set_child children (N.to_nat nib) c'') value, deleted))
            end
      | Extension nibs child =>
          let! same := flat (identical_up_to_smallest pr nibs k) in
          if same : bool then
            let! k' := flat (truncate_n_nibbles_front pr k (count nibs)) in
            let! r := delete_intern_lim d pr child k' in
            match r with
            | None => lret None
            | Some (c', deleted) => let! n := flat (collapse_ext_node_if_needed pr nibs c') in lret (Some (n, deleted))
            end
          else lret None
      | Leaf nibs value =>
          if nib_eqb nibs k then lret (Some (Empty, value)) else lret None
      end
  end.
Definition delete_lim (d : nat) (pr : profile) (t : node) (k : nibbles) : lim (node * option (list N)) :=
  let! r := delete_intern_lim d pr t k in
  match r with
  | None => lret (t, None)
  | Some (t', deleted) => let! t'' := flat (try_collapse_if_extension pr t') in lret (t'', Some deleted)
  end.

(** trie_ops.rs:161-196 [advance_iter_to_next_empty_leaf_or_hash_node], 202-260 [next]. *)
Fixpoint advance_lim (d : nat) (pr : profile) (n : node) (key : nibbles) (st : iter) : lim (iter * option item) :=
  match d with
  | O => None
  | S d =>
      match n with
      | Empty => lret (st, None)
      | Hash h => lret (st, Some (key, HashV h))
      | Branch children value =>
          let st' := Iter key (Trie.SBranch children value 1 :: trie_stack st) in
          let! key' := flat (push_nibble_back key 0) in
          lwith_child (fun c => advance_lim d pr c key' st') children 0
      | Extension nibs child =>
          let st' := match child with
                     | Hash _ => st
                     | _ => Iter (curr_key_after_last_branch st) (Trie.SExtension (count nibs) :: trie_stack st)
                     end in
          let! key' := flat (merge_nibbles pr key nibs) in
          advance_lim d pr child key' st'
      | Leaf nibs value =>
          let! key' := flat (merge_nibbles pr key nibs) in
          lret (st, Some (key', Val value))
      end
  end.
Definition next_step_lim (d : nat) (pr : profile) (st : iter) : lim (option (iter * option item)) :=
  match trie_stack st with
  | [] => lret None
  | e :: rest =>
      let key := curr_key_after_last_branch st in
      match e with
      | Trie.SRoot root => let! r := advance_lim d pr root nib_default (Iter key rest) in lret (Some r)
      | Trie.SExtension n => let! key' := flat (truncate_n_nibbles_back pr key n) in lret (Some (Iter key' rest, None))
      | Trie.SBranch children value curr =>
          if (1 <=? curr) && (curr <=? 15) then
            let st' := Iter key (Trie.SBranch children value (curr + 1) :: rest) in
            let! key' := flat (merge_nibble key curr) in
            let! r := lwith_child (fun c => advance_lim d pr c key' st') children (N.to_nat curr) in
            lret (Some r)
          else if curr =? 16 then
            let it := match value with [] => None | _ => Some (key, Val value) end in
            let! key' := flat (if is_empty key then Ok key else truncate_n_nibbles_back pr key 1) in
            lret (Some (Iter key' rest, it))
          else Some Panic
      end
  end.

(** trie_subsets.rs:44-84 [TrackedNode::new]. *)
Fixpoint track_lim (d : nat) (t : node) : lim tracked :=
  match d with
  | O => None
  | S d =>
      match t with
      | Empty => lret (Subset.TEmpty t false)
      | Hash _ => lret (Subset.THash t false)
      | Branch children _ =>
          let! l := (fix go (l : list node) : lim (list tracked) :=
                       match l with
                       | [] => lret []
                       | c :: l' => let! x := track_lim d c in let! xs := go l' in lret (x :: xs)
                       end) children in
          lret (Subset.TBranch l t false)
      | Extension _ child => let! c := track_lim d child in lret (Subset.TExtension c t false)
      | Leaf _ _ => lret (Subset.TLeaf t false)
      end
  end.
(** trie_subsets.rs:260-296 [mark_nodes_that_are_needed]. *)
Definition lwith_tracked {E} (f : tracked -> lim (result tracked E)) : list tracked -> nat -> lim (result (list tracked) E) :=
  fix go (l : list tracked) (i : nat) {struct l} :=
    match l, i with
    | [], _ => Some Panic
    | c :: l', O => let! r := f c in lret (match r with ROk c' => ROk (c' :: l') | RErr e => RErr e end)
    | c :: l', S i' => let! r := go l' i' in lret (match r with ROk l'' => ROk (c :: l'') | RErr e => RErr e end)
    end.
Fixpoint mark_lim (d : nat) (pr : profile) (t : tracked) (k : nibbles) : lim (result tracked subset_error) :=
  match d with
  | O => None
  | S d =>
      match t with
      | Subset.TEmpty u _ => lret (ROk (Subset.TEmpty u true))
      | Subset.THash u _ => if is_empty k then lret (ROk (Subset.THash u true)) else lret (RErr (UnexpectedKey k u))
      | Subset.TBranch children u _ =>
          if is_empty k then lret (ROk (Subset.TBranch children u true))
          else
            let! (nib, k') := flat (pop_next_nibble_front pr k) in
            let! r := lwith_tracked (fun c => mark_lim d pr c k') children (N.to_nat nib) in
            lret (match r with ROk l => ROk (Subset.TBranch l u true) | RErr e => RErr e end)
      | Subset.TExtension child u _ =>
          let! nibs := flat (get_nibbles_expected u) in
          let! (r, k') := flat (pop_nibbles_front pr k (count nibs)) in
          let! same := flat (identical_up_to_smallest pr r nibs) in
          if same : bool then
            let! r := mark_lim d pr child k' in
            lret (match r with ROk c => ROk (Subset.TExtension c u true) | RErr e => RErr e end)
          else lret (ROk (Subset.TExtension child u true))
      | Subset.TLeaf u _ => lret (ROk (Subset.TLeaf u true))
      end
  end.

Section Hash.
Variable keccak : list N -> list N.
(** trie_hashing.rs:36-76 [rlp_encode_and_hash_node]; each level is two calls there, with [hash_intern] in between. *)
Fixpoint encode_lim (d : nat) (pr : profile) (t : node) : lim encoded_node :=
  match d with
  | O => None
  | S d =>
      match t with
      | Empty => lret (Raw [0x80])
      | Hash h => lret (Hashed h)
      | Branch children value =>
          let! s := (fix go (l : list node) (s : stream) {struct l} : lim stream :=
                       match l with
                       | [] => lret s
                       | c :: l' => let! e := encode_lim d pr c in go l' (append_to_stream s e)
                       end) children new_list in
          let s := match value with [] => append_empty_data s | _ => append s value end in
          let! b := flat (stream_out 17 s) in
          lret (hash_bytes_if_large_enough keccak b)
      | Extension nibs child =>
          let! hp := flat (to_hex_prefix_encoding pr nibs false) in
          let! e := encode_lim d pr child in
          let! b := flat (stream_out 2 (append_to_stream (append new_list hp) e)) in
          lret (hash_bytes_if_large_enough keccak b)
      | Leaf nibs value =>
          let! hp := flat (to_hex_prefix_encoding pr nibs true) in
          let! b := flat (stream_out 2 (append (append new_list hp) value)) in
          lret (hash_bytes_if_large_enough keccak b)
      end
  end.
(** trie_hashing.rs:31-34 [hash_trie]. *)
Definition hash_lim (d : nat) (pr : profile) (t : node) : lim (list N) :=
  let! e := encode_lim d pr t in lret (encoded_to_h256 keccak e).

(** trie_subsets.rs:298-330 [create_partial_trie_subset_from_tracked_trie]; where it hashes a node, that call nests inside this one. *)
Fixpoint create_lim (d : nat) (pr : profile) (t : tracked) : lim node :=
  match d with
  | O => None
  | S d =>
      let keep :=
        match t with
        | Subset.TEmpty _ _ => lret Empty
        | Subset.THash u _ => let! h := flat (get_hash_node_hash_expected u) in lret (Hash h)
        | Subset.TBranch children u _ =>
            let! ch := (fix go (l : list tracked) : lim (list node) :=
                          match l with
                          | [] => lret []
                          | c :: l' => let! n := create_lim d pr c in let! ns := go l' in lret (n :: ns)
                          end) children in
            let! v := flat (get_branch_value_expected u) in
            lret (Branch ch v)
        | Subset.TExtension child u _ =>
            let! n := flat (get_nibbles_expected u) in
            let! c := create_lim d pr child in
            lret (Extension n c)
        | Subset.TLeaf u _ => let! (n, v) := flat (get_leaf_nibbles_and_value_expected u) in lret (Leaf n v)
        end in
      if touched t then keep
      else
        let! e := encode_lim d pr (underlying t) in
        match e with
        | Hashed h => lret (Hash h)
        | Raw _ => keep
        end
  end.
(** trie_subsets.rs:212-220 [create_trie_subset], 245-258 [create_trie_subset_intern]. *)
Fixpoint mark_all_lim (d : nat) (pr : profile) (t : tracked) (ks : list nibbles) : lim (result tracked subset_error) :=
  match ks with
  | [] => lret (ROk t)
  | k :: ks' =>
      let! r := mark_lim d pr t k in
      match r with
      | ROk t' => mark_all_lim d pr t' ks'
      | RErr e => lret (RErr e)
      end
  end.
Definition subset_lim (d : nat) (pr : profile) (t : node) (ks : list nibbles) : lim (result node subset_error) :=
  let! tr := track_lim d t in
  let! r := mark_all_lim d pr tr ks in
  match r with
  | ROk t' => let! n := create_lim d pr t' in lret (ROk n)
  | RErr e => lret (RErr e)
  end.
End Hash.

(** partial_trie.rs:150-191 [eq] of [Node], as [node_eqb] in Cache.v. *)
Fixpoint eq_lim (d : nat) (a b : node) : lim bool :=
  match d with
  | O => None
  | S d =>
      match a, b with
      | Empty, Empty => lret true
      | Hash h1, Hash h2 => lret (bytes_eqb h1 h2)
      | Branch l1 v1, Branch l2 v2 =>
          if bytes_eqb v1 v2 then
            (fix all (l1 l2 : list node) : lim bool :=
               match l1, l2 with
               | [], [] => lret true
               | x :: l1', y :: l2' => let! e := eq_lim d x y in if e : bool then all l1' l2' else lret false
               | _, _ => lret false
               end) l1 l2
          else lret false
      | Extension n1 c1, Extension n2 c2 => if nib_eqb n1 n2 then eq_lim d c1 c2 else lret false
      | Leaf n1 v1, Leaf n2 v2 => lret (nib_eqb n1 n2 && bytes_eqb v1 v2)
      | _, _ => lret false
      end
  end.

(** stats.rs:269-303 [get_trie_stats_rec]. *)
Fixpoint stats_lim (d : nat) (pr : profile) (t : node) (st : tracking) (curr_depth : N) : lim tracking :=
  match d with
  | O => None
  | S d =>
      match st with
      | Tracking (Counts e h b x l) ls hs low =>
          match t with
          | Empty =>
              let! e := flat (uadd pr e 1) in
              lret (Tracking (Counts e h b x l) ls hs low)
          | Hash _ =>
              let! h := flat (uadd pr h 1) in
              let! hs := flat (uadd pr hs curr_depth) in
              lret (Tracking (Counts e h b x l) ls hs (update_lowest_depth low curr_depth))
          | Branch ch _ =>
              let! b := flat (uadd pr b 1) in
              (fix go (cs : list node) (st : tracking) {struct cs} : lim tracking :=
                 match cs with
                 | [] => lret st
                 | c :: cs' =>
                     let! dp := flat (uadd pr curr_depth 1) in
                     let! st := stats_lim d pr c st dp in
                     go cs' st
                 end) ch (Tracking (Counts e h b x l) ls hs low)
          | Extension _ c =>
              let! x := flat (uadd pr x 1) in
              let! dp := flat (uadd pr curr_depth 1) in
              stats_lim d pr c (Tracking (Counts e h b x l) ls hs low) dp
          | Leaf _ _ =>
              let! l := flat (uadd pr l 1) in
              let! ls := flat (uadd pr ls curr_depth) in
              lret (Tracking (Counts e h b x l) ls hs (update_lowest_depth low curr_depth))
          end
      end
  end.
(** stats.rs:251-267 [get_trie_stats_common]. *)
Definition get_trie_stats_lim (d : nat) (pr : profile) (t : node) (nm : option (list N)) : lim trie_stats :=
  let! st := stats_lim d pr t tracking_default 0 in
  lret (Stats nm (counts st) (lowest_depth st)
          (f32_div (as_f32 (leaf_depth_sum st)) (as_f32 (n_leaf (counts st))))
          (f32_div (as_f32 (hash_depth_sum st)) (as_f32 (n_hash (counts st))))).

(** query.rs:265-302 [get_path_from_query_rec]. *)
Fixpoint path_lim (d : nat) (pr : profile) (t : node) (curr_key : nibbles) (out : query_output) : lim (nibbles * query_output) :=
  match d with
  | O => None
  | S d =>
      let! key_piece := flat (key_piece_pulling pr t curr_key) in
      let! seg := flat (get_segment pr t key_piece) in
      let out := QOut (q_key out) (node_path out ++ [seg]) (extra_node_info out ++ [extra_of t]) (node_found out) in
      let! (curr_key, out) :=
        match t with
        | Empty | Hash _ => lret (curr_key, out)
        | Branch ch _ =>
            let! (nib, curr_key) := flat (pop_next_nibble_front pr curr_key) in
            lwith_child (fun c => path_lim d pr c curr_key out) ch (N.to_nat nib)
        | Extension n c =>
            let! _ := flat (next_nibbles_clamped pr curr_key (count n)) in
            path_lim d pr c curr_key out
        | Leaf n _ =>
            let! next := flat (next_nibbles_clamped pr curr_key (count n)) in
            if nib_eqb n next
            then let! (_, curr_key) := flat (pop_nibbles_front pr curr_key (count next)) in lret (curr_key, out)
            else lret (curr_key, out)
        end in
      lret (curr_key, if is_empty curr_key then QOut (q_key out) (node_path out) (extra_node_info out) true else out)
  end.
(** query.rs:253-263 [get_path_from_query]. *)
Definition query_lim (d : nat) (pr : profile) (t : node) (k : nibbles) : lim query_output :=
  let! (_, out) := path_lim d pr t k (QOut k [] [] false) in lret out.

Section Diff.
Variable keccak : list N -> list N.
Variable pr : profile.
(** diff.rs:279-368 [find_latest_diff_point_between_tries_rec]; the hashes it computes nest inside it. The hashes that [update_node] and
    [from_hashes] put into a report are those of the same two nodes again. *)
Definition from_gen_hashes_lim (d : nat) (a b : node) (st : call_state) (ds : longest) : lim (detection * longest) :=
  let! ha := hash_lim keccak d pr a in
  let! hb := hash_lim keccak d pr b in
  flat (from_hashes keccak pr ha hb a b st ds).
Fixpoint find_lim (d : nat) (a b : node) (st : call_state) (ds : longest) : lim (detection * longest) :=
  match d with
  | O => None
  | S d =>
      let! a_hash := hash_lim keccak d pr a in
      let! b_hash := hash_lim keccak d pr b in
      if bytes_eqb a_hash b_hash then lret (NoDiffDetected, ds)
      else if type_eqb (type_of a) (type_of b) && nib_eqb (key_piece_of a) (key_piece_of b) then
        let! ds := flat (update_node keccak pr ds a b st) in lret (NodeTypesDiffer, ds)
      else
        match a, b with
        | Empty, Empty => lret (NoDiffDetected, ds)
        | Hash ha, Hash hb =>
            let! st := flat (new_from_parent pr st a nib_default) in
            flat (from_hashes keccak pr ha hb a b st ds)
        | Branch ach _, Branch bch _ =>
            let! (found, ds) :=
              (fix children (i : N) (la lb : list node) (found : detection) (ds : longest) : lim (detection * longest) :=
                 match la, lb with
                 | ca :: la, cb :: lb =>
                     let! n := flat (from_nibble i) in
                     let! st := flat (new_from_parent pr st a n) in
                     let! (r, ds) := find_lim d ca cb st ds in
                     children (i + 1) la lb (pick_most_significant found r) ds
                 | _, _ => lret (found, ds)
                 end) 0 ach bch NoDiffDetected ds in
            match found with
            | NoDiffDetected => lret (found, ds)
            | _ => from_gen_hashes_lim d a b st ds
            end
        | Extension an ac, Extension _ bc =>
            let! st := flat (new_from_parent pr st a an) in
            find_lim d ac bc st ds
        | Leaf _ _, Leaf _ _ => from_gen_hashes_lim d a b st ds
        | _, _ => Some Panic
        end
  end.
(** diff.rs:158-162 [create_diff_between_tries], 166-183 [find_latest_diff_point_between_tries]. *)
Definition create_diff_lim (d : nat) (a b : node) : lim (option diff_point) :=
  let! (_, ds) := find_lim d a b (Call nib_default 0 []) (Longest None None) in
  lret (match node_diff ds with Some p => Some p | None => hash_diff ds end).
End Diff.
