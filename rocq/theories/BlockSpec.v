(** What the items of an excerpt of a trie stand for. Specification vocabulary. *)
From Verif Require Import Base Nibbles NibblesSpec Trie TrieSpec YellowPaper Hashing HashSpec.
Open Scope N_scope.

(** An item with its key as a list of nibbles. *)
Definition spelled (x : nibbles * val_or_hash) : list N * val_or_hash := (nseq (fst x), snd x).
(** The entries [J] with the nibbles [p] in front of each key. *)
Definition below {A} (p : list N) (J : list (list N * A)) : list (list N * A) := map (fun x => (p ++ fst x, snd x)) J.

(** The item stands for itself, or it is a hash item, and stands for the items [b]: these are the entries, below the item's key, of a
    trie that is not empty and has that hash as its root hash. *)
Definition stands_for (keccak : list N -> list N) (pr : profile) (x : nibbles * val_or_hash) (b : list (nibbles * val_or_hash)) : Prop :=
  b = [x] \/
  exists h c J, snd x = HashV h /\ canon c /\ (forall k e, lk c k = Some e <-> In (k, e) J) /\ hash_trie keccak pr c = Ok h /\
    J <> [] /\ map spelled b = below (nseq (fst x)) J.

(** The same if all entries are values, by the Yellow Paper. *)
Definition stands_for_values (keccak : list N -> list N) (x : nibbles * val_or_hash) (b : list (nibbles * val_or_hash)) : Prop :=
  match snd x with
  | Val _ => b = [x]
  | HashV h => exists J : pairs, J <> [] /\ NoDup (map fst J) /\ map spelled b = below (nseq (fst x)) (map (fun e => (fst e, Val (snd e))) J) /\ h = yp_root keccak J
  end.
