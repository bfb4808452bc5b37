(** Model of the errors of [create_trie_subset] and [create_trie_subsets] for a [HashedPartialTrie], with their text: trie_subsets.rs:20-27, 207-330.
    Cache.v has the same functions without the text. *)
From Coq Require Import String.
From Verif Require Import Base Nibbles Text Rlp Hashing Trie Query Diff DebugText Cache Subset.
Open Scope N_scope.
Open Scope list_scope.

(** trie_subsets.rs:22-27 [SubsetTrieError::UnexpectedKey]. *)
Inductive text_error : Type := UnexpectedKeyText (k : nibbles) (trie : list N).

(** [f(&mut children[i])]; the children are given as the underlying nodes and the tracked tries. *)
Definition with_htracked {E} (f : hnode -> tracked -> prog (result tracked E)) : list hnode -> list tracked -> nat -> prog (result (list tracked) E) :=
  fix go (l : list hnode) (trs : list tracked) (i : nat) {struct l} :=
    match l, trs, i with
    | c :: l', x :: trs', O => r <~ f c x ;; Ret (match r with ROk x' => ROk (x' :: trs') | RErr e => RErr e end)
    | c :: l', x :: trs', S i' => r <~ go l' trs' i' ;; Ret (match r with ROk trs'' => ROk (x :: trs'') | RErr e => RErr e end)
    | _, _, _ => Fail
    end.

(** trie_subsets.rs:260-296 [mark_nodes_that_are_needed]. The tracked trie is given as the node [t], whose subtrees are the [underlying_node]s,
    and the tracked trie [tr] of [erase t], which has the flags. [locked]: whether the lock of the hash node that is printed is found locked. *)
Fixpoint hmark (pr : profile) (locked : bool) (t : hnode) (tr : tracked) (k : nibbles) {struct t} : prog (result tracked text_error) :=
  match t, tr with
  | HEmpty _, TEmpty u _ => Ret (ROk (TEmpty u true))
  | HHash _ _, THash u _ =>
      if is_empty k then Ret (ROk (THash u true))
      else d <~ handle_dbg pr (fun _ => locked) [] t ;; Ret (RErr (UnexpectedKeyText k (put false (tracked_hash_dbg d))))
  | HBranch _ children _, TBranch trs u _ =>
      if is_empty k then Ret (ROk (TBranch trs u true))
      else
        '(nib, k') <~ lift (pop_next_nibble_front pr k) ;;
        r <~ with_htracked (fun c x => hmark pr locked c x k') children trs (N.to_nat nib) ;;
        Ret (match r with ROk l => ROk (TBranch l u true) | RErr e => RErr e end)
  | HExtension _ nibs child, TExtension x u _ =>
      '(r, k') <~ lift (pop_nibbles_front pr k (count nibs)) ;;
      same <~ lift (identical_up_to_smallest pr r nibs) ;;
      if same : bool then
        r <~ hmark pr locked child x k' ;;
        Ret (match r with ROk c => ROk (TExtension c u true) | RErr e => RErr e end)
      else Ret (ROk (TExtension x u true))
  | HLeaf _ _ _, TLeaf u _ => Ret (ROk (TLeaf u true))
  | _, _ => Fail
  end.

(** trie_subsets.rs:253-255, the loop of [create_trie_subset_intern]. *)
Fixpoint hmark_all (pr : profile) (locked : bool) (t : hnode) (tr : tracked) (ks : list nibbles) : prog (result tracked text_error) :=
  match ks with
  | [] => Ret (ROk tr)
  | k :: ks' =>
      r <~ hmark pr locked t tr k ;;
      match r with
      | ROk tr' => hmark_all pr locked t tr' ks'
      | RErr e => Ret (RErr e)
      end
  end.

Section Hash.
Variable keccak : list N -> list N.
(** trie_subsets.rs:212-220 [create_trie_subset], 245-258. *)
Definition htext_subset (pr : profile) (locked : bool) (t : hnode) (ks : list nibbles) : prog (result hnode text_error) :=
  r <~ hmark_all pr locked t (track (erase t)) ks ;;
  match r with
  | ROk tr => n <~ hcreate_from_tracked keccak pr t tr ;; Ret (ROk n)
  | RErr e => Ret (RErr e)
  end.
(** trie_subsets.rs:225-243 [create_trie_subsets]. *)
Fixpoint htext_subsets_from (pr : profile) (locked : bool) (t : hnode) (tr : tracked) (kss : list (list nibbles)) : prog (result (list hnode) text_error) :=
  match kss with
  | [] => Ret (ROk [])
  | ks :: kss' =>
      r <~ hmark_all pr locked t tr ks ;;
      match r with
      | RErr e => Ret (RErr e)
      | ROk tr' =>
          n <~ hcreate_from_tracked keccak pr t tr' ;;
          rs <~ htext_subsets_from pr locked t (reset_tracked tr') kss' ;;
          Ret (match rs with ROk l => ROk (n :: l) | RErr e => RErr e end)
      end
  end.
Definition htext_subsets (pr : profile) (locked : bool) (t : hnode) (kss : list (list nibbles)) : prog (result (list hnode) text_error) :=
  htext_subsets_from pr locked t (track (erase t)) kss.
End Hash.

(** trie_subsets.rs:22-27 [SubsetTrieError]: its message ([thiserror]'s [Display]), and its derived [Debug]. *)
Definition text_error_text (pr : profile) (e : text_error) : res (list N) :=
  match e with
  | UnexpectedKeyText k trie =>
      d <- key_text pr k ;;
      Ok (txt "Tried to mark nodes in a tracked trie for a key that does not exist! (Key: " ++ d ++ txt ", trie: " ++ trie ++ txt ")")
  end.
Definition text_error_dbg (pr : profile) (e : text_error) : res dbg :=
  match e with UnexpectedKeyText k trie => d <- key_dbg pr k ;; Ok (DTuple (txt "UnexpectedKey") [d; DText trie]) end.
