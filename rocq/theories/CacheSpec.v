(** Programs that use any number of handles of [HashedPartialTrie], and what they should observe. *)
From Verif Require Import Base Nibbles Trie Rlp Hashing Subset Cache Serde Query Diff DiffCache.
Open Scope N_scope.

(** A node made by hand: what it is, and the handles that become its children. *)
Inductive piece : Type :=
| MEmpty
| MHash (h : list N)
| MLeaf (k : nibbles) (v : list N)
| MExtension (k : nibbles) (i : nat)
| MBranch (is : list nat) (v : list N).

(** One use of the public API. Handles are numbered in the order of their creation; a result is a new handle.
    [SubTrie i path] clones a node inside the trie (match on the [Node] that [Deref] gives and clone [children[d]], and so on):
    [path] has the nibbles of the branches taken, and anything for an extension. [Assign i j] is [*ti = tj.deref().clone()], through
    [DerefMut] (partial_trie.rs:397-401). [Reload i] serialises a handle and deserialises the result. [Differ i j] is
    [create_diff_between_tries]. [Make p] builds a node by hand, as [HashedPartialTrie::new(Node::Branch { .. })] or [Node::Branch { .. }.into()]
    do (partial_trie.rs:20-28 and 312-317), with clones of handles for its children (partial_trie.rs:130-148). *)
Inductive op : Type :=
| New (l : list (nibbles * val_or_hash))
| Insert (i : nat) (k : nibbles) (v : val_or_hash)
| Extend (i : nat) (l : list (nibbles * val_or_hash))
| Delete (i : nat) (k : nibbles)
| Get (i : nat) (k : nibbles)
| HashOf (i : nat)
| Equal (i j : nat)
| Clone (i : nat)
| SubTrie (i : nat) (path : list nat)
| Assign (i j : nat)
| Subset (i : nat) (ks : list nibbles)
| Subsets (i : nat) (kss : list (list nibbles))
| Reload (i : nat)
| Differ (i j : nat)
| Make (p : piece).

(** What the caller sees. *)
Inductive obs : Type :=
| Done
| Value (o : option (list N))
| Digest (h : list N)
| Answer (b : bool)
| Error (e : subset_error)
| Difference (d : option diff_point).

Fixpoint replace {A} (l : list A) (i : nat) (x : A) : list A :=
  match l, i with
  | [], _ => []
  | _ :: l', O => x :: l'
  | y :: l', S i' => y :: replace l' i' x
  end.
Definition the {A} (l : list A) (i : nat) : res A := match nth_error l i with Some x => Ok x | None => Panic end.
Fixpoint pick {A} (l : list A) (is : list nat) : res (list A) :=
  match is with [] => Ok [] | i :: is' => x <- the l i ;; xs <- pick l is' ;; Ok (x :: xs) end.
(** The handles that become children. *)
Definition taken (p : piece) : list nat := match p with MExtension _ i => [i] | MBranch is _ => is | _ => [] end.

Section Spec.
Variable keccak : list N -> list N.
Variable pr : profile.

(** ** Tries as plain values: every handle has its own trie, every hash is computed from the contents. *)
Fixpoint subtrie (t : node) (path : list nat) {struct path} : res node :=
  match path with
  | [] => Ok t
  | d :: path' =>
      match t with
      | Branch ch _ => c <- the ch d ;; subtrie c path'
      | Extension _ c => subtrie c path'
      | _ => Panic
      end
  end.

(** The type of a branch has an array of 16 children: with any other number there is no such program. *)
Definition vmake (ts : list node) (p : piece) : res node :=
  match p with
  | MEmpty => Ok Empty
  | MHash h => Ok (Hash h)
  | MLeaf k v => Ok (Leaf k v)
  | MExtension k i => c <- the ts i ;; Ok (Extension k c)
  | MBranch is v => if Nat.eqb (length is) 16 then ch <- pick ts is ;; Ok (Branch ch v) else Panic
  end.

Definition vstep (ts : list node) (o : op) : res (list node * obs) :=
  match o with
  | New l => t <- from_iter pr l ;; Ok (ts ++ [t], Done)
  | Insert i k v => t <- the ts i ;; t' <- trie_insert pr t k v ;; Ok (replace ts i t', Done)
  | Extend i l => t <- the ts i ;; t' <- trie_extend pr t l ;; Ok (replace ts i t', Done)
  | Delete i k => t <- the ts i ;; '(t', d) <- trie_delete pr t k ;; Ok (replace ts i t', Value d)
  | Get i k => t <- the ts i ;; r <- trie_get pr t k ;; Ok (ts, Value r)
  | HashOf i => t <- the ts i ;; h <- hash_trie keccak pr t ;; Ok (ts, Digest h)
  | Equal i j => a <- the ts i ;; b <- the ts j ;; Ok (ts, Answer (node_eqb a b))
  | Clone i => t <- the ts i ;; Ok (ts ++ [t], Done)
  | SubTrie i path => t <- the ts i ;; s <- subtrie t path ;; Ok (ts ++ [s], Done)
  | Assign i j => a <- the ts i ;; b <- the ts j ;; Ok (replace ts i b, Done)
  | Subset i ks =>
      t <- the ts i ;; r <- create_trie_subset keccak pr t ks ;;
      Ok (match r with ROk s => (ts ++ [s], Done) | RErr e => (ts, Error e) end)
  | Subsets i kss =>
      t <- the ts i ;; r <- create_trie_subsets keccak pr t kss ;;
      Ok (match r with ROk l => (ts ++ l, Done) | RErr e => (ts, Error e) end)
  | Reload i => t <- the ts i ;; t' <- reload t ;; Ok (ts ++ [t'], Done)
  | Differ i j => a <- the ts i ;; b <- the ts j ;; d <- create_diff keccak pr a b ;; Ok (ts, Difference d)
  | Make p => t <- vmake ts p ;; Ok (ts ++ [t], Done)
  end.

Fixpoint vrun (ts : list node) (os : list op) : res (list node * list obs) :=
  match os with
  | [] => Ok (ts, [])
  | o :: os' => '(ts', x) <- vstep ts o ;; '(ts'', xs) <- vrun ts' os' ;; Ok (ts'', x :: xs)
  end.

(** ** The same with [HashedPartialTrie] *)
Fixpoint hsubtrie (t : hnode) (path : list nat) {struct path} : res hnode :=
  match path with
  | [] => Ok t
  | d :: path' =>
      match t with
      | HBranch _ ch _ => c <- the ch d ;; hsubtrie c path'
      | HExtension _ _ c => hsubtrie c path'
      | _ => Panic
      end
  end.

Definition hmake (ts : list hnode) (p : piece) : prog hnode :=
  match p with
  | MEmpty => hempty
  | MHash h => hhash h
  | MLeaf k v => hleaf k v
  | MExtension k i => c <~ lift (the ts i) ;; hextension k c
  | MBranch is v => if Nat.eqb (length is) 16 then ch <~ lift (pick ts is) ;; hbranch ch v else Fail
  end.

Definition hstep (ts : list hnode) (o : op) : prog (list hnode * obs) :=
  match o with
  | New l => t <~ hfrom_iter pr l ;; Ret (ts ++ [t], Done)
  | Insert i k v => t <~ lift (the ts i) ;; t' <~ hinsert pr t k v ;; Ret (replace ts i t', Done)
  | Extend i l => t <~ lift (the ts i) ;; t' <~ hextend pr t l ;; Ret (replace ts i t', Done)
  | Delete i k => t <~ lift (the ts i) ;; '(t', d) <~ hdelete pr t k ;; Ret (replace ts i t', Value d)
  | Get i k => t <~ lift (the ts i) ;; r <~ lift (hget pr t k) ;; Ret (ts, Value r)
  | HashOf i => t <~ lift (the ts i) ;; h <~ hhash_of keccak pr t ;; Ret (ts, Digest h)
  | Equal i j => a <~ lift (the ts i) ;; b <~ lift (the ts j) ;; Ret (ts, Answer (heqb a b))
  | Clone i => t <~ lift (the ts i) ;; Ret (ts ++ [t], Done)
  | SubTrie i path => t <~ lift (the ts i) ;; s <~ lift (hsubtrie t path) ;; Ret (ts ++ [s], Done)
  | Assign i j => a <~ lift (the ts i) ;; b <~ lift (the ts j) ;; Ret (replace ts i (with_cell (cell a) b), Done)
  | Subset i ks =>
      t <~ lift (the ts i) ;; r <~ hcreate_trie_subset keccak pr t ks ;;
      Ret (match r with ROk s => (ts ++ [s], Done) | RErr e => (ts, Error e) end)
  | Subsets i kss =>
      t <~ lift (the ts i) ;; r <~ hcreate_trie_subsets keccak pr t kss ;;
      Ret (match r with ROk l => (ts ++ l, Done) | RErr e => (ts, Error e) end)
  | Reload i => t <~ lift (the ts i) ;; t' <~ hreload t ;; Ret (ts ++ [t'], Done)
  | Differ i j => a <~ lift (the ts i) ;; b <~ lift (the ts j) ;; d <~ hcreate_diff keccak pr a b ;; Ret (ts, Difference d)
  | Make p => t <~ hmake ts p ;; Ret (ts ++ [t], Done)
  end.

Fixpoint hrun (ts : list hnode) (os : list op) : prog (list hnode * list obs) :=
  match os with
  | [] => Ret (ts, [])
  | o :: os' => '(ts', x) <~ hstep ts o ;; '(ts'', xs) <~ hrun ts' os' ;; Ret (ts'', x :: xs)
  end.

(** Running a program from the start: no handles, no cells. *)
Definition start (os : list op) : res (list hnode * list obs) :=
  rmap (fun r => fst (fst r)) (exec (hrun [] os) (fun _ => None) 0).

(** ** Comparing runs *)
(** The same observation, but any digest. *)
Definition same_but_digest (x y : obs) : Prop :=
  match x, y with Digest _, Digest _ => True | _, _ => x = y end.
(** The handle that an operation changes. *)
Definition written (o : op) : option nat :=
  match o with Insert i _ _ | Extend i _ | Delete i _ | Assign i _ => Some i | _ => None end.

(** ** Disciplines *)
(** Operations whose results do not depend on hashes, except for digests. *)
Definition hash_free (o : op) : Prop := match o with Subset _ _ | Subsets _ _ | Differ _ _ => False | _ => True end.

(** No handle for an inner node, none that becomes a child, no subset for no key at all; everything else, any number of clones. *)
Definition tame (o : op) : Prop :=
  match o with
  | SubTrie _ _ => False
  | Subset _ ks => ks <> []
  | Subsets _ kss => ~ In [] kss
  | Make p => taken p = []
  | _ => True
  end.
(** Any use that does not make a second handle for a node. *)
Definition uncloned (o : op) : Prop :=
  match o with
  | Clone _ | SubTrie _ _ | Assign _ _ => False
  | Make p => taken p = []
  | _ => True
  end.

(** The general discipline. [Plain] handles may be cloned and assigned; [Single] handles may have a subset for no key at all
    taken from them; a [View] is a handle for a node inside some trie, or for one that becomes a child of a node made by hand, and is not changed. *)
Inductive kind : Type := Plain | Single | View.

(** Which uses are allowed when handle [i] is of kind [K i] and there are [n] handles. *)
Definition legal (K : nat -> kind) (n : nat) (o : op) : Prop :=
  match o with
  | New _ => True
  | Insert i _ _ | Extend i _ | Delete i _ => K i <> View
  | Get _ _ | HashOf _ | Equal _ _ | Differ _ _ => True
  | Clone i => K i <> Single /\ K n = K i
  | SubTrie _ path => path <> [] /\ K n = View
  | Assign i _ => K i = Plain
  | Subset i ks => ks = [] -> K i <> Plain
  | Subsets i kss => In [] kss -> K i <> Plain
  | Reload i => K n = Plain -> K i = Plain
  | Make p => forall i, In i (taken p) -> K i = View
  end.

Fixpoint respects (K : nat -> kind) (ts : list node) (os : list op) : Prop :=
  match os with
  | [] => True
  | o :: os' =>
      legal K (length ts) o /\
      match vstep ts o with Ok (ts', _) => respects K ts' os' | Panic => True end
  end.

(** Operations that change no handle. *)
Definition reader (o : op) : Prop :=
  match o with Get _ _ | HashOf _ | Equal _ _ | Clone _ | SubTrie _ _ | Reload _ | Differ _ _ => True
  | Make p => taken p = [] | _ => False end.

(** ** Threads *)
(** One step of the program of a thread: one access to a lock, or one allocation. *)
Definition tstep {A} (p : prog A) (s : store) (n : N) : prog A * store * N :=
  match p with
  | Ret _ | Fail => (p, s, n)
  | Read c k => (k (s c), s, n)
  | Write c o p' => (p', update s c o, n)
  | Alloc k => (k n, update s n None, n + 1)
  end.
Record pool (A : Type) : Type := Pool { threads : list (prog A); cells : store; next_cell : N }.
Arguments Pool {A}. Arguments threads {A}. Arguments cells {A}. Arguments next_cell {A}.
(** The scheduler lets thread [j] make a step. *)
Definition sched_step {A} (w : pool A) (j : nat) : pool A :=
  match nth_error (threads w) j with
  | None => w
  | Some p => let '(p', s', n') := tstep p (cells w) (next_cell w) in Pool (replace (threads w) j p') s' n'
  end.
(** Any interleaving: the list of the threads that make a step. *)
Definition sched_run {A} (w : pool A) (js : list nat) : pool A := fold_left sched_step js w.
(** The states of an infinite interleaving, and the threads that are done. *)
Definition states {A} (w : pool A) (sched : nat -> nat) (m : nat) : pool A := sched_run w (map sched (seq 0 m)).
Definition finished {A} (p : prog A) : Prop := match p with Ret _ | Fail => True | _ => False end.
End Spec.
Arguments Pool {A}. Arguments threads {A}. Arguments cells {A}. Arguments next_cell {A}.
