(** Specification vocabulary: keys that end inside an extension node, in Release builds. *)
From Verif Require Import Base Nibbles NibblesSpec Trie TrieSpec.
Open Scope N_scope.

(** The key that a Release build follows when it looks for [k]. If less of the key is left than an extension node has nibbles,
    the rest is taken to be as many zeros as the extension node has nibbles, and where these fit, the search goes on below
    with nothing left. *)
Fixpoint filled (t : node) (k : list N) {struct t} : list N :=
  match t with
  | Branch ch _ =>
      match k with
      | [] => []
      | d :: k' => d :: at_child (fun c => filled c k') k' ch (N.to_nat d)
      end
  | Extension n c =>
      let zeros := repeat 0 (length (nseq n)) in
      if (length k <? length (nseq n))%nat then (if key_eqb (nseq n) zeros then zeros ++ filled c [] else zeros)
      else match strip (nseq n) k with
           | Some k' => nseq n ++ filled c k'
           | None => k
           end
  | _ => k
  end.
