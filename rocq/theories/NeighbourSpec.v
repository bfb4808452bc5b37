(** Which keys to request so that deletes can be replayed on a subset. Specification vocabulary. *)
From Verif Require Import Base Nibbles NibblesSpec Trie TrieSpec TrieHistSpec.
Open Scope N_scope.

(** [k'] is a neighbour of [k]: another stored key, and no other one has a longer common prefix with [k]. *)
Definition neighbour (is_stored : list N -> Prop) (k k' : list N) : Prop :=
  is_stored k' /\ k' <> k /\ forall j, is_stored j -> j <> k -> (lcp j k <= lcp k' k)%nat.

(** The key [k] is not stored, or it is the only stored key, or a neighbour of it is in the list. *)
Definition has_neighbour (is_stored : list N -> Prop) (ks : list nibbles) (k : list N) : Prop :=
  ~ is_stored k \/ (forall j, is_stored j -> j = k) \/ exists k', In k' ks /\ neighbour is_stored k (nseq k').

(** Every key has that when it is deleted. *)
Fixpoint neighbours_requested (m : kvmap) (ks : list nibbles) (ops : list op) : Prop :=
  match ops with
  | [] => True
  | o :: ops' =>
      match o with ODelete k => has_neighbour (fun j => m j <> None) ks (nseq k) | _ => True end /\
      neighbours_requested (fst (spec_op m o)) ks ops'
  end.

(** The same for a trie that may contain hash nodes; the neighbour has a value. *)
Definition held_neighbour (t : node) (ks : list nibbles) (k : list N) : Prop :=
  (forall v, lk t k <> Some (Val v)) \/ (forall j, stored t j -> j = k) \/ exists k' v, In k' ks /\ lk t (nseq k') = Some (Val v) /\ neighbour (stored t) k (nseq k').
Fixpoint neighbours_held (pr : profile) (t : node) (ks : list nibbles) (ops : list op) : Prop :=
  match ops with
  | [] => True
  | o :: ops' =>
      match o with ODelete k => held_neighbour t ks (nseq k) | _ => True end /\
      forall t1 x, trie_op pr t o = Ok (t1, x) -> neighbours_held pr t1 ks ops'
  end.
