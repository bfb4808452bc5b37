(** Specification vocabulary for trie subsets. *)
From Verif Require Import Base Nibbles NibblesSpec Trie TrieSpec YellowPaper HashSpec.
Open Scope N_scope.

(** The key leads into a hash node before its end. *)
Definition into_hash (t : node) (k : list N) : Prop := exists p h, lk t p = Some (HashV h) /\ strict_prefix p k.

(** On the way along [k] there is an extension node whose key piece is longer than what is left of [k]. *)
Fixpoint too_short (t : node) (k : list N) {struct t} : Prop :=
  match t with
  | Branch ch _ =>
      match k with
      | [] => False
      | d :: k' => at_child (fun c => too_short c k') False ch (N.to_nat d)
      end
  | Extension n c =>
      (length k < length (nseq n))%nat \/ match strip (nseq n) k with Some k' => too_short c k' | None => False end
  | _ => False
  end.

(** The rests of the keys that start with the nibble [d], or with the key piece [p]. *)
Definition keys_under (d : N) (ks : list (list N)) : list (list N) :=
  flat_map (fun k => match k with x :: k' => if x =? d then [k'] else [] | [] => [] end) ks.
Definition keys_below (p : list N) (ks : list (list N)) : list (list N) :=
  flat_map (fun k => match strip p k with Some k' => [k'] | None => [] end) ks.

(** The children of a branch, each mapped with its nibble. *)
Definition map_children {B} (f : N -> node -> B) : list node -> N -> list B :=
  fix go (l : list node) (i : N) {struct l} :=
    match l with
    | [] => []
    | c :: l' => f i c :: go l' (i + 1)
    end.

Section Prune.
Variable keccak : list N -> list N.

(** The subset for the keys [ks]: a node that no key reaches and that has an encoding of at least 32 bytes is replaced by
    its hash; every other node is kept, with its parts pruned in the same way. *)
Fixpoint prune (ks : list (list N)) (t : node) {struct t} : node :=
  let keep :=
    match t with
    | Branch ch v => Branch (map_children (fun d c => prune (keys_under d ks) c) ch 0) v
    | Extension n c => Extension n (prune (keys_below (nseq n) ks) c)
    | _ => t
    end in
  match ks, t with
  | _ :: _, _ => keep
  | [], Hash _ => t
  | [], _ => if 32 <=? len (RLP (item keccak t)) then Hash (keccak (RLP (item keccak t))) else keep
  end.

(** What [create_trie_subsets] returns for the keys [K] of one list when the earlier lists had the keys [E]: the state of
    the root itself is never cleared, and below a child of the root that a key of [K] enters, the keys of the earlier
    lists still count. *)
Definition prune_after (E K : list (list N)) (t : node) : node :=
  match K ++ E, t with
  | _ :: _, Branch ch v =>
      Branch (map_children (fun d c => prune (match keys_under d K with [] => [] | _ => keys_under d (K ++ E) end) c) ch 0) v
  | _ :: _, Extension n c =>
      Extension n (prune (match keys_below (nseq n) K with [] => [] | _ => keys_below (nseq n) (K ++ E) end) c)
  | _, _ => prune K t
  end.
Fixpoint prune_each (E : list (list N)) (Ks : list (list (list N))) (t : node) : list node :=
  match Ks with
  | [] => []
  | K :: Ks' => prune_after E K t :: prune_each (K ++ E) Ks' t
  end.
End Prune.
