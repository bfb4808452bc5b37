(** When working on a partial trie is safe, as far as the partial trie itself shows. Specification vocabulary. *)
From Verif Require Import Base Nibbles NibblesSpec Trie TrieSpec TrieHistSpec YellowPaper HashSpec ReplaySpec.
Open Scope N_scope.

(** The leaf of [k] is not below a branch with just one other child that is a hash node. *)
Fixpoint collapse_visible (t : node) (k : list N) {struct t} : Prop :=
  match t with
  | Branch ch _ =>
      match k with
      | [] => True
      | d :: k' =>
          at_child (fun c => collapse_visible c k') True ch (N.to_nat d) /\
          (occupied ch [] <= 2 ->
           match nth (N.to_nat d) ch Empty with
           | Leaf n _ => nseq n = k' -> forall i h, i <> N.to_nat d -> nth i ch Empty <> Hash h
           | _ => True
           end)%nat
      end
  | Extension n c =>
      match strip (nseq n) k with
      | Some k' => collapse_visible c k'
      | None => True
      end
  | _ => True
  end.

(** At every delete of a history. *)
Fixpoint collapses_visible (pr : profile) (t : node) (ops : list op) : Prop :=
  match ops with
  | [] => True
  | o :: ops' =>
      match o with ODelete k => collapse_visible t (nseq k) | _ => True end /\
      forall t1 x, trie_op pr t o = Ok (t1, x) -> collapses_visible pr t1 ops'
  end.

(** Writes with keys of at most 64 nibbles and values that the Ethereum encoding allows. *)
Definition op_write (o : op) : Prop :=
  match o with
  | OInsert k v => kwf k /\ value_ok v
  | OExtend l => Forall (fun e => kwf (fst e) /\ value_ok (snd e)) l
  | ODelete k => kwf k
  | OGet _ => False
  end.
