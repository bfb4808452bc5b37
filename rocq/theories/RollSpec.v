(** Taking changes of a trie back. Specification vocabulary. *)
From Verif Require Import Base Nibbles NibblesSpec Trie TrieSpec Cache CacheSpec TrieHistSpec.
Open Scope N_scope.

(** The keys that an operation changes. *)
Definition touched (o : op) : list nibbles :=
  match o with OInsert k _ => [k] | OExtend l => map fst l | ODelete k => [k] | OGet _ => [] end.

(** Putting a key back to what it was in [t]: inserting its value again, or deleting the key if it had none. *)
Definition put_back (t : node) (k : nibbles) : op :=
  match lk t (nseq k) with Some (Val w) => OInsert k w | _ => ODelete k end.

(** The journal of a history: for every operation, what puts its keys back to what they were before it; the last operation comes first. *)
Fixpoint journal (pr : profile) (t : node) (ops : list op) : list op :=
  match ops with
  | [] => []
  | o :: ops' =>
      match trie_op pr t o with
      | Ok (t1, _) => journal pr t1 ops' ++ map (put_back t) (touched o)
      | Panic => []
      end
  end.

(** The same operation on handle [i] of a caching trie. *)
Definition on (i : nat) (o : op) : CacheSpec.op :=
  match o with
  | OInsert k v => Insert i k (Val v)
  | OExtend l => Extend i (map (fun e => (fst e, Val (snd e))) l)
  | ODelete k => Delete i k
  | OGet k => Get i k
  end.
(** Its answer. *)
Definition seen (x : out) : obs := match x with ODone => Done | OValue w => Value w end.
