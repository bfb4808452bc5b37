(** When the server of ServerSpec.v serves keys of different lengths, none of which is the beginning of another. Specification vocabulary for C92. *)
From Verif Require Import Base Nibbles NibblesSpec Trie TrieSpec TrieHistSpec ReplaySpec FreeSpec HashSpec ServerSpec TxSpec TrieHistSpec FollowSpec.
Open Scope N_scope.

(** The program, run on the map [m], only uses keys in [U], each of which was stored in the map [m0] or was no shorter than the keys stored there (findable in FreeSpec.v);
    and so with [m] when a key is got. *)
Fixpoint tx_free (U : list N -> Prop) (m0 m : kvmap) (p : tx) : Prop :=
  match p with
  | Finish => True
  | Do o next =>
      op_in U o /\ match o with OInsert _ v => value_ok v | OExtend l => Forall (fun e => value_ok (snd e)) l | _ => True end /\ Forall (fun k => findable m0 (nseq k)) (op_keys o) /\
      match o with OGet k => findable m (nseq k) | _ => True end /\
      tx_free U m0 (fst (spec_op m o)) (next (snd (spec_op m o)))
  end.
(** So for each program, with the map that it starts from. *)
Fixpoint all_free (U : list N -> Prop) (m : kvmap) (ps : list tx) : Prop :=
  match ps with
  | [] => True
  | p :: ps' => tx_free U m m p /\ all_free U (fst (map_run m p)) ps'
  end.
