(** What the errors of subsets of caching tries should say. Only specification vocabulary. *)
From Coq Require Import String.
From Verif Require Import Base Nibbles NibblesSpec Text TextSpec Trie TrieSpec Query Diff DebugTextSpec Cache Subset SubsetSpec HErrors.
Open Scope N_scope.
Open Scope list_scope.

(** The digits [p] lead from the caching trie [t] to its inner node [u]. *)
Inductive leads : hnode -> list N -> hnode -> Prop :=
| leads_here t : leads t [] t
| leads_child c ch v d x p u : nth_error ch (N.to_nat d) = Some x -> leads x p u -> leads (HBranch c ch v) (d :: p) u
| leads_extension c n x p u : leads x p u -> leads (HExtension c n x) (nseq n ++ p) u.

(** The part of the message about the node: the hash node with hash [h], and what is seen in its cell. *)
Definition line_stop (h : list N) (x : sight) : list N :=
  txt "TrackedNode { node: Hash, info: TrackedNodeInfo { underlying_node: HashedPartialTrie { node: Hash(0x" ++ shown_bytes h ++
  txt "), hash: RwLock { data: " ++ line_sight x ++ txt " } }, touched: true } }".
(** The message, for a key of which the digits [q] are left at the hash node. *)
Definition line_message (q h : list N) (x : sight) : list N :=
  txt "Tried to mark nodes in a tracked trie for a key that does not exist! (Key: " ++ shown_key q ++ txt ", trie: " ++ line_stop h x ++ txt ")".
(** What is seen in a cell with contents [o]. *)
Definition sees (locked : bool) (o : option (list N)) : sight := if locked then Locked else Holds o.
(** The same run, with a text in the error: the text shows a hash node of [t], the node of the error, and what its cell holds at the end. *)
Definition tells {A} (t : hnode) (locked : bool) (r : res (result A subset_error * store * N)) (r' : res (result A text_error * store * N)) : Prop :=
  match r with
  | Panic => r' = Panic
  | Ok (ROk a, s, n) => r' = Ok (ROk a, s, n)
  | Ok (RErr (UnexpectedKey k u), s, n) =>
      exists p c h, u = Hash h /\ leads t p (HHash c h) /\ r' = Ok (RErr (UnexpectedKeyText k (line_stop h (sees locked (s c)))), s, n)
  end.
(** The error is about the first key of the list that leads into a hash node of [t]: [p] are its digits up to the hash node, [q] the others. *)
Definition first_stop (t : hnode) (ks : list nibbles) (p q : list N) (c : N) (h : list N) : Prop :=
  exists ks1 k ks2, ks = ks1 ++ k :: ks2 /\ (forall x, In x ks1 -> ~ into_hash (erase t) (nseq x)) /\
    nseq k = p ++ q /\ q <> [] /\ leads t p (HHash c h).
(** The same for many lists: no key of the lists before leads into a hash node. *)
Definition first_list (t : hnode) (kss : list (list nibbles)) (p q : list N) (c : N) (h : list N) : Prop :=
  exists kss1 ks kss2, kss = kss1 ++ ks :: kss2 /\ (forall ks' x, In ks' kss1 -> In x ks' -> ~ into_hash (erase t) (nseq x)) /\ first_stop t ks p q c h.
