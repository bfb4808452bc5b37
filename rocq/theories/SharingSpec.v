(** What operations of [HashedPartialTrie] create, and what they share with the tries that they start from. *)
From Verif Require Import Base Nibbles Trie TrieSpec Subset Cache CacheSpec.
Open Scope N_scope.

(** The nodes below the root of a trie. Two nodes with the same cell are the same object in memory. *)
Fixpoint parts (t : hnode) : list hnode :=
  t :: match t with
       | HBranch _ ch _ => flat_map parts ch
       | HExtension _ _ c => parts c
       | _ => []
       end.
Definition inner (t : hnode) : list hnode :=
  match t with
  | HBranch _ ch _ => flat_map parts ch
  | HExtension _ _ c => parts c
  | _ => []
  end.

(** Of the nodes that existed before (those with cells below [n]), [t'] has none below its root but those of [t]: all that is kept
    is shared, nothing is taken from elsewhere. *)
Definition shares (n : N) (t t' : hnode) : Prop := forall u, In u (inner t') -> cell u < n -> In u (inner t).

(** Programs that keep any number of versions of tries. *)
Definition versioned (o : op) : Prop :=
  match o with
  | New l | Extend _ l => Forall (fun e => kwf (fst e) /\ proper (snd e)) l
  | Insert _ k v => kwf k /\ proper v
  | Delete _ k => kwf k
  | Get _ _ | HashOf _ | Equal _ _ | Clone _ | Assign _ _ => True
  | SubTrie _ _ | Subset _ _ | Subsets _ _ | Reload _ | Differ _ _ | Make _ => False
  end.

(** The number of tries made from scratch, and of entries inserted and deleted. *)
Definition updates1 (o : op) : N :=
  match o with
  | New l => 1 + N.of_nat (length l)
  | Extend _ l => N.of_nat (length l)
  | Insert _ _ _ | Delete _ _ => 1
  | _ => 0
  end.
Fixpoint updates (os : list op) : N := match os with [] => 0 | o :: os' => updates1 o + updates os' end.
