(** What an iteration costs: the iterator of Trie.v once more, with a counter. A round of the loop of [next] is a step, and so is every
    node that it looks at. Key arithmetic and the copy of a branch node's children take constant time and are not counted. *)
From Verif Require Import Base Nibbles Trie.
Open Scope N_scope.

(** A computation with the number of steps that it took so far, also when it panics. *)
Definition counted (A : Type) : Type := (N * res A)%type.
Definition cret {A} (a : A) : counted A := (0, Ok a).
(** A part of the program without steps of its own. *)
Definition clift {A} (m : res A) : counted A := (0, m).
Definition cbind {A B} (m : counted A) (f : A -> counted B) : counted B :=
  match snd m with Ok a => (fst m + fst (f a), snd (f a)) | Panic => (fst m, Panic) end.
Definition step {A} (m : counted A) : counted A := (1 + fst m, snd m).
Notation "x <+ m ;; f" := (cbind m (fun x => f)) (at level 100, m at next level, right associativity).

(** [f(&children[i])]. *)
Definition cwith_child {A} (f : node -> counted A) : list node -> nat -> counted A :=
  fix go (l : list node) (i : nat) {struct l} : counted A :=
    match l, i with
    | [], _ => clift Panic
    | c :: _, O => f c
    | _ :: l', S i' => go l' i'
    end.

(** trie_ops.rs:161-196 [advance_iter_to_next_empty_leaf_or_hash_node]: every call, so every node looked at, is one step. *)
Fixpoint cadvance (pr : profile) (n : node) (key : nibbles) (st : iter) {struct n} : counted (iter * option item) :=
  step match n with
  | Empty => cret (st, None)
  | Hash h => cret (st, Some (key, HashV h))
  | Branch children value =>
      let st' := Iter key (SBranch children value 1 :: trie_stack st) in
      key' <+ clift (push_nibble_back key 0) ;;
      cwith_child (fun c => cadvance pr c key' st') children 0
  | Extension nibs child =>
      let st' := match child with
                 | Hash _ => st
                 | _ => Iter (curr_key_after_last_branch st) (SExtension (count nibs) :: trie_stack st)
                 end in
      key' <+ clift (merge_nibbles pr key nibs) ;;
      cadvance pr child key' st'
  | Leaf nibs value =>
      key' <+ clift (merge_nibbles pr key nibs) ;;
      cret (st, Some (key', Val value))
  end.

(** trie_ops.rs:206-256, the body of the loop of [next]: one step, and those of the walk down. A round that finds the stack empty
    (208-211) is not counted. *)
Definition cnext_step (pr : profile) (st : iter) : counted (option (iter * option item)) :=
  match trie_stack st with
  | [] => cret None
  | e :: rest =>
      let key := curr_key_after_last_branch st in
      step match e with
      | SRoot root => r <+ cadvance pr root nib_default (Iter key rest) ;; cret (Some r)
      | SExtension n => key' <+ clift (truncate_n_nibbles_back pr key n) ;; cret (Some (Iter key' rest, None))
      | SBranch children value curr =>
          if (1 <=? curr) && (curr <=? 15) then
            let st' := Iter key (SBranch children value (curr + 1) :: rest) in
            key' <+ clift (merge_nibble key curr) ;;
            r <+ cwith_child (fun c => cadvance pr c key' st') children (N.to_nat curr) ;;
            cret (Some r)
          else if curr =? 16 then
            let it := match value with [] => None | _ => Some (key, Val value) end in
            key' <+ clift (if is_empty key then Ok key else truncate_n_nibbles_back pr key 1) ;;
            cret (Some (Iter key' rest, it))
          else clift Panic
      end
  end.

(** trie_ops.rs:202-260 [next]. As in Trie.v, [None] means out of fuel. *)
Fixpoint cnext (fuel : nat) (pr : profile) (st : iter) : N * option (res (iter * option item)) :=
  match fuel with
  | O => (0, None)
  | S fuel' =>
      let m := cnext_step pr st in
      match snd m with
      | Panic => (fst m, Some Panic)
      | Ok None => (fst m, Some (Ok (st, None)))
      | Ok (Some (st', Some it)) => (fst m, Some (Ok (st', Some it)))
      | Ok (Some (st', None)) => let r := cnext fuel' pr st' in (fst m + fst r, snd r)
      end
  end.

(** [iter.collect()], as in Trie.v, and trie_ops.rs:347-352 [trie_items]. *)
Fixpoint ccollect (calls fuel : nat) (pr : profile) (st : iter) : N * option (res (list item)) :=
  match calls with
  | O => (0, None)
  | S calls' =>
      let m := cnext fuel pr st in
      match snd m with
      | None => (fst m, None)
      | Some Panic => (fst m, Some Panic)
      | Some (Ok (_, None)) => (fst m, Some (Ok []))
      | Some (Ok (st', Some it)) =>
          let r := ccollect calls' fuel pr st' in
          (fst m + fst r,
           match snd r with
           | None => None
           | Some Panic => Some Panic
           | Some (Ok l) => Some (Ok (it :: l))
           end)
      end
  end.
Definition counted_items (fuel : nat) (pr : profile) (t : node) : N * option (res (list item)) := ccollect fuel fuel pr (items_iter t).

(** The state of an iterator after [n] rounds of its loop, whichever calls of [next] they belong to. *)
Fixpoint after_rounds (n : nat) (pr : profile) (st : iter) : option iter :=
  match n with
  | O => Some st
  | S n' => match next_step pr st with Ok (Some (st', _)) => after_rounds n' pr st' | _ => None end
  end.

(** For the statement of the cost: extension nodes that do not lead to a hash node. *)
Definition is_live_extension (x : N * node) : bool :=
  match snd x with Extension _ (Hash _) => false | Extension _ _ => true | _ => false end.
