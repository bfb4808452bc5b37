(** Partial tries: the relation between a trie and what is left of it after some subtrees were replaced by hash nodes.
    Specification vocabulary. *)
From Verif Require Import Base Nibbles NibblesSpec Trie TrieSpec YellowPaper HashSpec.
Open Scope N_scope.

Definition not_hash (t : node) : Prop := match t with Hash _ => False | _ => True end.

Section Hides.
Variable keccak : list N -> list N.

(** [hides t t']: [t'] is [t] with any number of subtrees replaced by hash nodes. A subtree may be replaced when its
    encoding has at least 32 bytes (smaller nodes are embedded in their parent, not hashed). *)
Inductive hides : node -> node -> Prop :=
| hd_empty : hides Empty Empty
| hd_hash h : hides (Hash h) (Hash h)
| hd_branch ch ch' v : Forall2 hides ch ch' -> hides (Branch ch v) (Branch ch' v)
| hd_ext n c c' : hides c c' -> hides (Extension n c) (Extension n c')
| hd_leaf n v : hides (Leaf n v) (Leaf n v)
| hd_out t : not_hash t -> 32 <= len (RLP (item keccak t)) -> hides t (Hash (keccak (RLP (item keccak t)))).
End Hides.

(** The merge that deleting [k] from the partial trie [t'] of [t] may cause is visible: when the leaf of [k] is below a
    branch with exactly one other child, that child is not a hidden leaf or extension (it is present, or what it hides is
    a branch). *)
Fixpoint merge_visible (t t' : node) (k : list N) {struct t} : Prop :=
  match t, t' with
  | Branch ch _, Branch ch' _ =>
      match k with
      | [] => True
      | d :: k' =>
          at_child (fun c => merge_visible c (nth (N.to_nat d) ch' Empty) k') True ch (N.to_nat d) /\
          (occupied ch [] <= 2 ->
           match nth (N.to_nat d) ch Empty with
           | Leaf n _ => nseq n = k' -> forall i, i <> N.to_nat d ->
               match nth i ch' Empty with Hash _ => branch_or_hash (nth i ch Empty) | _ => True end
           | _ => True
           end)%nat
      end
  | Extension n c, Extension _ c' =>
      match strip (nseq n) k with
      | Some k' => merge_visible c c' k'
      | None => True
      end
  | _, _ => True
  end.
