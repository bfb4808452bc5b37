(** What a trie means: the map from keys (sequences of nibbles) to stored entries. This file only contains specification
    vocabulary; it uses the node type but none of the operations of the model. *)
From Verif Require Import Base Nibbles NibblesSpec Trie.
Open Scope N_scope.

(** The rest of [k] after the prefix [p], if [p] is a prefix of [k]. *)
Fixpoint strip (p k : list N) : option (list N) :=
  match p, k with
  | [], _ => Some k
  | x :: p', y :: k' => if x =? y then strip p' k' else None
  | _ :: _, [] => None
  end.

Fixpoint key_eqb (a b : list N) : bool :=
  match a, b with
  | [], [] => true
  | x :: a', y :: b' => (x =? y) && key_eqb a' b'
  | _, _ => false
  end.

(** [f] of the [i]th child, [d] if there is none. *)
Definition at_child {A} (f : node -> A) (d : A) : list node -> nat -> A :=
  fix go (l : list node) (i : nat) {struct l} : A :=
    match l, i with
    | [], _ => d
    | c :: _, O => f c
    | _ :: l', S i' => go l' i'
    end.

(** The contents of a trie: the entry stored under a key. An entry is a value or the hash of a hash node. A branch value
    that is the empty byte string means that there is no value. *)
Fixpoint lk (t : node) (k : list N) {struct t} : option val_or_hash :=
  match t with
  | Empty => None
  | Hash h => match k with [] => Some (HashV h) | _ => None end
  | Branch ch v =>
      match k with
      | [] => match v with [] => None | _ => Some (Val v) end
      | d :: k' => at_child (fun c => lk c k') None ch (N.to_nat d)
      end
  | Extension n c => match strip (nseq n) k with Some k' => lk c k' | None => None end
  | Leaf n v => if key_eqb (nseq n) k then Some (Val v) else None
  end.

(** [k] is stored, with a value or a hash. *)
Definition stored (t : node) (k : list N) : Prop := lk t k <> None.

Definition strict_prefix (a b : list N) : Prop := exists x c, b = a ++ x :: c.

(** A trie that fits keys of [L] nibbles: 16 children per branch, well-formed key pieces, no path longer than [L]. *)
Inductive wf : nat -> node -> Prop :=
| wf_empty L : wf L Empty
| wf_hash L h : wf L (Hash h)
| wf_branch L ch v : length ch = 16%nat -> Forall (wf L) ch -> wf (S L) (Branch ch v)
| wf_ext L l c : hexl l -> wf L c -> wf (length l + L) (Extension (enc l) c)
| wf_leaf L l v : hexl l -> (length l <= L)%nat -> wf L (Leaf (enc l) v).

Definition branch_or_hash (t : node) : Prop := match t with Branch _ _ => True | Hash _ => True | _ => False end.

(** The structural invariant that every successful operation keeps: no empty extension, extensions lead to a branch or a
    hash node, every branch has a non-empty child, leaf values are not empty. *)
Inductive shape : node -> Prop :=
| sh_empty : shape Empty
| sh_hash h : shape (Hash h)
| sh_branch ch v : Forall shape ch -> (exists c, In c ch /\ c <> Empty) -> shape (Branch ch v)
| sh_ext n c : nseq n <> [] -> branch_or_hash c -> shape c -> shape (Extension n c)
| sh_leaf n v : v <> [] -> shape (Leaf n v).

(** Number of occupied places of a branch: non-empty children, and the value if it is not empty. *)
Definition occupied (ch : list node) (v : list N) : nat :=
  (length (filter (fun c => match c with Empty => false | _ => true end) ch) +
   match v with [] => 0 | _ => 1 end)%nat.

(** The Yellow Paper structure: in addition, every branch has at least two occupied places
    (non-empty children or a non-empty value). *)
Inductive canon : node -> Prop :=
| cn_empty : canon Empty
| cn_hash h : canon (Hash h)
| cn_branch ch v : Forall canon ch -> (2 <= occupied ch v)%nat -> canon (Branch ch v)
| cn_ext n c : nseq n <> [] -> branch_or_hash c -> canon c -> canon (Extension n c)
| cn_leaf n v : v <> [] -> canon (Leaf n v).

(** The entries in the order of iteration: children first, then the value of a branch. *)
Definition concat_children (f : node -> list (list N * val_or_hash)) : list node -> N -> list (list N * val_or_hash) :=
  fix go (l : list node) (i : N) {struct l} :=
    match l with
    | [] => []
    | c :: l' => map (fun e => (i :: fst e, snd e)) (f c) ++ go l' (i + 1)
    end.

Fixpoint entries (t : node) : list (list N * val_or_hash) :=
  match t with
  | Empty => []
  | Hash h => [([], HashV h)]
  | Branch ch v => concat_children entries ch 0 ++ match v with [] => [] | _ => [([], Val v)] end
  | Extension n c => map (fun e => (nseq n ++ fst e, snd e)) (entries c)
  | Leaf n v => [(nseq n, Val v)]
  end.

(** An entry that may be inserted: a non-empty value, or a hash. *)
Definition proper (v : val_or_hash) : Prop := match v with Val v => v <> [] | HashV _ => True end.

(** A key that the documentation allows: at most 64 nibbles, unused bits zero. *)
Definition kwf (k : nibbles) : Prop := packed k < 16 ^ count k /\ count k <= 64.

(** The key under which [insert] stores a value given for [k]: [k] itself, unless [k] ends strictly inside an extension
    node; then it is the key of the node below that extension. *)
Fixpoint eff (t : node) (k : list N) {struct t} : list N :=
  match t with
  | Branch ch _ => match k with [] => [] | d :: k' => d :: at_child (fun c => eff c k') k' ch (N.to_nat d) end
  | Extension n c =>
      match strip (nseq n) k with
      | Some k' => nseq n ++ eff c k'
      | None => match strip k (nseq n) with Some _ => nseq n | None => k end
      end
  | _ => k
  end.

(** Deleting [k] keeps the other entries: the branch above the leaf of [k] has two more non-empty children, or exactly
    one more and no value. *)
Fixpoint safe_delete (t : node) (k : list N) {struct t} : Prop :=
  match t with
  | Branch ch w =>
      match k with
      | [] => True
      | d :: k' =>
          at_child (fun c => match c with
                             | Leaf n _ => nseq n = k' -> (3 <= occupied ch [] \/ occupied ch w = 2 /\ w = [])%nat
                             | _ => safe_delete c k'
                             end) True ch (N.to_nat d)
      end
  | Extension n c => match strip (nseq n) k with Some k' => safe_delete c k' | None => True end
  | _ => True
  end.

(** Deleting [k] does not leave a branch with a single occupied place. *)
Fixpoint keeps_canon (t : node) (k : list N) {struct t} : Prop :=
  match t with
  | Branch ch _ =>
      match k with
      | [] => (2 <= occupied ch [])%nat
      | d :: k' => at_child (fun c => keeps_canon c k') True ch (N.to_nat d)
      end
  | Extension n c => match strip (nseq n) k with Some k' => keeps_canon c k' | None => keeps_canon c [] end
  | _ => True
  end.
