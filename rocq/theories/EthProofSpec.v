(** Proofs about the Ethereum state: what somebody who only knows a root hash has to check before relying on a trie of unknown origin.
    Specification vocabulary for C71. *)
From Verif Require Import Base Nibbles Trie Hashing Json JsonText WitnessSpec.
Open Scope N_scope.

(** The text is read as the trie [t], which passes the checks of WitnessSpec.v and has the root hash [r]. *)
Definition vouched (keccak : list N -> list N) (pr : profile) (limit : option nat) (text : list N) (r : list N) (t : node) : Prop :=
  load_text limit text = Some t /\ checked 64 t = true /\ shaped t = true /\ hash_trie keccak pr t = Ok r.

(** It says that there is the value [v] under the name [a]: [get] finds it. It says that there is none: [delete] finds nothing to delete
    ([get] finds nothing either if a hash node is in the way; [delete] panics then). *)
Definition says (keccak : list N -> list N) (pr : profile) (t : node) (a : list N) (v : option (list N)) : Prop :=
  match v with
  | Some v => trie_get pr t (from_h256_be (keccak a)) = Ok (Some v)
  | None => exists t', trie_delete pr t (from_h256_be (keccak a)) = Ok (t', None)
  end.
