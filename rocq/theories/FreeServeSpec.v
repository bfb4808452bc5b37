(** Serving a follower when keys have different lengths and none is the beginning of another. Specification vocabulary for C92. *)
From Verif Require Import Base Nibbles NibblesSpec Trie TrieSpec TrieHistSpec ReplaySpec NeighbourSpec FreeSpec TxSpec FollowSpec.
Open Scope N_scope.

(** As [suffices] (FollowSpec.v); a key that the program gets is stored, or no stored key is longer (FreeSpec.v). *)
Fixpoint suffices_free (m : kvmap) (ks : list nibbles) (p : tx) : Prop :=
  match p with
  | Finish => True
  | Do o next =>
      op_on ks o /\
      match o with ODelete k => has_neighbour (fun j => m j <> None) ks (nseq k) | OGet k => findable m (nseq k) | _ => True end /\
      suffices_free (fst (spec_op m o)) ks (next (snd (spec_op m o)))
  end.
(** The same holds for all keys when they are requested. *)
Fixpoint all_suffice_free (m : kvmap) (plan : list (tx * list nibbles)) : Prop :=
  match plan with
  | [] => True
  | (p, ks) :: plan' => (forall k, In k ks -> findable m (nseq k)) /\ suffices_free m ks p /\ all_suffice_free (fst (map_run m p)) plan'
  end.
