(** Model of the iterator (/repo/src/trie_ops.rs:140-262) over the nodes of [HashedPartialTrie], which hold cells. *)
From Verif Require Import Base Nibbles Trie Cache.
Open Scope N_scope.

(** trie_ops.rs:140-152 [IterStackEntry], [BranchStackEntry]. The children are clones of [Arc]s: the same nodes. *)
Inductive hstack_entry : Type :=
| HSRoot (n : hnode)
| HSExtension (num_nibbles : N)
| HSBranch (children : list hnode) (value : list N) (curr_nib : N).

(** trie_ops.rs:154-158 [PartialTrieIter]; the top of the stack is the head of the list. *)
Record hiter : Type := HIter { hcurr_key : nibbles; htrie_stack : list hstack_entry }.

(** [f(&children[i])] without access to cells. *)
Definition with_hkid {A} (f : hnode -> res A) : list hnode -> nat -> res A :=
  fix go (l : list hnode) (i : nat) {struct l} : res A :=
    match l, i with
    | [], _ => Panic
    | c :: _, O => f c
    | _ :: l', S i' => go l' i'
    end.

(** trie_ops.rs:161-196 [advance_iter_to_next_empty_leaf_or_hash_node]. [node.as_ref()] is [Deref] (partial_trie.rs:33-37, 389-395), which
    does not touch the lock; so no cell is read or written. *)
Fixpoint hadvance (pr : profile) (n : hnode) (key : nibbles) (st : hiter) {struct n} : res (hiter * option item) :=
  match n with
  | HEmpty _ => Ok (st, None)
  | HHash _ h => Ok (st, Some (key, HashV h))
  | HBranch _ children value =>
      let st' := HIter key (HSBranch children value 1 :: htrie_stack st) in
      key' <- push_nibble_back key 0 ;;
      with_hkid (fun c => hadvance pr c key' st') children 0
  | HExtension _ nibs child =>
      let st' := match child with
                 | HHash _ _ => st
                 | _ => HIter (hcurr_key st) (HSExtension (count nibs) :: htrie_stack st)
                 end in
      key' <- merge_nibbles pr key nibs ;;
      hadvance pr child key' st'
  | HLeaf _ nibs value =>
      key' <- merge_nibbles pr key nibs ;;
      Ok (st, Some (key', Val value))
  end.

(** trie_ops.rs:206-256, the body of the [while] loop of [next]; [None] when the stack is empty ([break]). *)
Definition hnext_step (pr : profile) (st : hiter) : res (option (hiter * option item)) :=
  match htrie_stack st with
  | [] => Ok None
  | e :: rest =>
      let key := hcurr_key st in
      match e with
      | HSRoot root => r <- hadvance pr root nib_default (HIter key rest) ;; Ok (Some r)
      | HSExtension n => key' <- truncate_n_nibbles_back pr key n ;; Ok (Some (HIter key' rest, None))
      | HSBranch children value curr =>
          if (1 <=? curr) && (curr <=? 15) then
            let st' := HIter key (HSBranch children value (curr + 1) :: rest) in
            key' <- merge_nibble key curr ;;
            r <- with_hkid (fun c => hadvance pr c key' st') children (N.to_nat curr) ;;
            Ok (Some r)
          else if curr =? 16 then
            let it := match value with [] => None | _ => Some (key, Val value) end in
            key' <- (if is_empty key then Ok key else truncate_n_nibbles_back pr key 1) ;;
            Ok (Some (HIter key' rest, it))
          else Panic
      end
  end.

(** trie_ops.rs:202-260 [next]; the [while] loop runs on [fuel], [None] means out of fuel. *)
Fixpoint hnext (fuel : nat) (pr : profile) (st : hiter) : option (res (hiter * option item)) :=
  match fuel with
  | O => None
  | S fuel' =>
      match hnext_step pr st with
      | Panic => Some Panic
      | Ok None => Some (Ok (st, None))
      | Ok (Some (st', Some it)) => Some (Ok (st', Some it))
      | Ok (Some (st', None)) => hnext fuel' pr st'
      end
  end.

(** trie_ops.rs:347-352 [trie_items] and partial_trie.rs:359-361 [items]: [self.clone().into()] copies the root node (its children are shared)
    into a new [HashedPartialTrie], with a new cell (partial_trie.rs:39-43, 312-317). *)
Definition hitems (t : hnode) : prog hiter := Alloc (fun c => Ret (HIter nib_default [HSRoot (with_cell c t)])).
