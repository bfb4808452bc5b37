(** /repo/src/debug_tools/diff.rs on [HashedPartialTrie], with the cached hashes: the functions of Diff.v again, where [hash()] reads
    and fills the cells. *)
From Verif Require Import Base Nibbles Trie Rlp Hashing Query Cache Diff.
Open Scope N_scope.

Section DiffCache.
Variable keccak : list N -> list N.
Variable pr : profile.

(** diff.rs:146-153 [NodeInfo::new]. *)
Definition hnode_info_new (t : hnode) (key : nibbles) (value : option (list N)) : prog node_info :=
  h <~ hhash_of keccak pr t ;; Ret (NodeInfo key value (type_of (erase t)) h).

(** diff.rs:88-104 [DiffPoint::new]. *)
Definition hdiff_point_new (a b : hnode) (parent_k : nibbles) (path : list segment) : prog diff_point :=
  a_key <~ lift (merge_nibbles pr parent_k (key_piece_of (erase a))) ;;
  b_key <~ lift (merge_nibbles pr parent_k (key_piece_of (erase b))) ;;
  ai <~ hnode_info_new a a_key (get_value (erase a)) ;;
  bi <~ hnode_info_new b b_key (get_value (erase b)) ;;
  Ret (DiffPoint 0 path parent_k ai bi).

(** diff.rs:212-225 [replace_longest_field_if_our_key_is_larger], 192-210. *)
Definition hreplace_longest (field : option diff_point) (a b : hnode) (st : call_state) : prog (option diff_point) :=
  if match field with None => true | Some p => count (d_key p) <? count (curr_key st) end
  then p <~ hdiff_point_new a b (curr_key st) (curr_path st) ;; Ret (Some p)
  else Ret field.
Definition hupdate_hash (ds : longest) (a b : hnode) (st : call_state) : prog longest :=
  f <~ hreplace_longest (hash_diff ds) a b st ;; Ret (Longest (node_diff ds) f).
Definition hupdate_node (ds : longest) (a b : hnode) (st : call_state) : prog longest :=
  f <~ hreplace_longest (node_diff ds) a b st ;; Ret (Longest f (hash_diff ds)).

(** diff.rs:380-393 [create_diff_detection_state_based_from_hashes], 370-378. *)
Definition hfrom_hashes (ha hb : list N) (a b : hnode) (st : call_state) (ds : longest) : prog (detection * longest) :=
  if bytes_eqb ha hb then Ret (NoDiffDetected, ds)
  else ds <~ hupdate_hash ds a b st ;; Ret (HashDiffDetected, ds).
Definition hfrom_gen_hashes (a b : hnode) (st : call_state) (ds : longest) : prog (detection * longest) :=
  ha <~ hhash_of keccak pr a ;;
  hb <~ hhash_of keccak pr b ;;
  hfrom_hashes ha hb a b st ds.

(** diff.rs:279-368 [find_latest_diff_point_between_tries_rec]. *)
Fixpoint hfind_latest_rec (a b : hnode) (st : call_state) (ds : longest) {struct a} : prog (detection * longest) :=
  a_hash <~ hhash_of keccak pr a ;;
  b_hash <~ hhash_of keccak pr b ;;
  if bytes_eqb a_hash b_hash then Ret (NoDiffDetected, ds)
  else if type_eqb (type_of (erase a)) (type_of (erase b)) && nib_eqb (key_piece_of (erase a)) (key_piece_of (erase b)) then
    ds <~ hupdate_node ds a b st ;; Ret (NodeTypesDiffer, ds)
  else
    match a, b with
    | HEmpty _, HEmpty _ => Ret (NoDiffDetected, ds)
    | HHash _ ha, HHash _ hb =>
        st <~ lift (new_from_parent pr st (erase a) nib_default) ;;
        hfrom_hashes ha hb a b st ds
    | HBranch _ ach _, HBranch _ bch _ =>
        ' (found, ds) <~
          (fix children (i : N) (la lb : list hnode) (found : detection) (ds : longest) {struct la} : prog (detection * longest) :=
             match la, lb with
             | ca :: la, cb :: lb =>
                 n <~ lift (from_nibble i) ;;
                 st <~ lift (new_from_parent pr st (erase a) n) ;;
                 ' (r, ds) <~ hfind_latest_rec ca cb st ds ;;
                 children (i + 1) la lb (pick_most_significant found r) ds
             | _, _ => Ret (found, ds)
             end) 0 ach bch NoDiffDetected ds ;;
        match found with
        | NoDiffDetected => Ret (found, ds)
        | _ => hfrom_gen_hashes a b st ds
        end
    | HExtension _ an ac, HExtension _ _ bc =>
        st <~ lift (new_from_parent pr st (erase a) an) ;;
        hfind_latest_rec ac bc st ds
    | HLeaf _ _ _, HLeaf _ _ _ => hfrom_gen_hashes a b st ds
    | _, _ => Fail
    end.

(** diff.rs:166-183 [find_latest_diff_point_between_tries], 158-162 [create_diff_between_tries]. *)
Definition hcreate_diff (a b : hnode) : prog (option diff_point) :=
  ' (_, ds) <~ hfind_latest_rec a b (Call nib_default 0 []) (Longest None None) ;;
  Ret (match node_diff ds with Some p => Some p | None => hash_diff ds end).
End DiffCache.
