(** Lists of entries given to [from_iter]. *)
From Verif Require Import Base Nibbles NibblesSpec Trie TrieSpec.
Open Scope N_scope.

(** The value of the last entry for [k]. *)
Fixpoint last_value (l : list (nibbles * list N)) (k : list N) : option (list N) :=
  match l with
  | [] => None
  | (j, v) :: l' => match last_value l' k with Some w => Some w | None => if key_eqb (nseq j) k then Some v else None end
  end.

Definition vals (l : list (nibbles * list N)) : list (nibbles * val_or_hash) := map (fun e => (fst e, Val (snd e))) l.
Definition keys (l : list (nibbles * list N)) : list (list N) := map (fun e => nseq (fst e)) l.
Definition ok_entry (e : nibbles * list N) : Prop := kwf (fst e) /\ snd e <> [].

(** Some key is a strict prefix of two others that continue it with the same nibble. *)
Definition crowded (ks : list (list N)) : Prop :=
  exists k x r s, r <> s /\ In k ks /\ In (k ++ x :: r) ks /\ In (k ++ x :: s) ks.

(** No entry comes after one with a longer key. *)
Fixpoint short_first (l : list (nibbles * list N)) : Prop :=
  match l with
  | [] => True
  | e :: l' => (forall f, In f l' -> (length (nseq (fst e)) <= length (nseq (fst f)))%nat) /\ short_first l'
  end.

(** [k] is new, at least two of the keys [ks] continue it, and all that do, do so with the same nibble. *)
Definition buried (ks : list (list N)) (k : list N) : Prop :=
  ~ In k ks /\ exists x r s, r <> s /\ In (k ++ x :: r) ks /\ In (k ++ x :: s) ks /\ forall y q, In (k ++ y :: q) ks -> y = x.

(** No entry is inserted when its key is buried by those of the entries before it. *)
Definition in_time (l : list (nibbles * list N)) : Prop :=
  forall a e b, l = a ++ e :: b -> ~ buried (keys a) (nseq (fst e)).
