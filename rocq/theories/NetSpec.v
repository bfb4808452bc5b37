(** The net effect of a history. Specification vocabulary. *)
From Verif Require Import Base Nibbles NibblesSpec Trie TrieSpec TrieHistSpec.
Open Scope N_scope.

(** The changes that a history asks for: a key, and its new value, or none if it is deleted. *)
Definition changes_of (o : op) : list (nibbles * option (list N)) :=
  match o with OInsert k v => [(k, Some v)] | OExtend l => map (fun e => (fst e, Some (snd e))) l | ODelete k => [(k, None)] | OGet _ => [] end.
Definition changes (ops : list op) : list (nibbles * option (list N)) := flat_map changes_of ops.

(** The last change of a key ([None]: there is none). *)
Fixpoint last_change (l : list (nibbles * option (list N))) (j : list N) : option (option (list N)) :=
  match l with
  | [] => None
  | (k, w) :: l' => match last_change l' j with Some x => Some x | None => if key_eqb (nseq k) j then Some w else None end
  end.

(** One operation for each key: its last change. *)
Definition change_op (e : nibbles * option (list N)) : op := match snd e with Some v => OInsert (fst e) v | None => ODelete (fst e) end.
Fixpoint lasts (l : list (nibbles * option (list N))) : list (nibbles * option (list N)) :=
  match l with
  | [] => []
  | (k, w) :: l' => match last_change l' (nseq k) with Some _ => lasts l' | None => (k, w) :: lasts l' end
  end.
Definition compact (ops : list op) : list op := map change_op (lasts (changes ops)).
