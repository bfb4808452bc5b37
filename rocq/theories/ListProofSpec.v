(** Excerpts of the lists of ListSpec.v (the transactions, receipts or withdrawals of a block), and what somebody who only knows the root of such a list
    can learn from them. Specification vocabulary for C83. *)
From Verif Require Import Base Nibbles Trie TrieHistSpec Hashing ReplaySpec OrderSpec ListSpec.
Open Scope N_scope.

(** The trie built from the entries of the list, in their order. *)
Definition list_trie (pr : profile) (l : list (list N)) (t : node) : Prop := exists es, index_entries l es /\ from_iter pr (vals es) = Ok t.
(** Non-empty values of less than 2^31 bytes, and less than 2^64 of them. *)
Definition a_list (l : list (list N)) : Prop := Forall value_ok l /\ index_ok (length l).

(** The trie says that entry [i] is [v]: [get] finds it. It says that there is no entry [i]: [delete] finds nothing to delete. *)
Definition says_at (pr : profile) (t : node) (i : nat) (v : option (list N)) : Prop :=
  exists k, index_key i = Ok k /\
  match v with
  | Some v => trie_get pr t k = Ok (Some v)
  | None => exists t', trie_delete pr t k = Ok (t', None)
  end.

(** The index that is needed to remove entry [i] from the end of the list: the one before it; but for entry 128, whose key 0x8180 begins like 0x80, the key of
    entry 0. *)
Definition next_to (i : nat) : nat := if Nat.eqb i 128 then 0%nat else (i - 1)%nat.
(** The indices that are needed for an operation on the list [l], and for a history. *)
Definition needs (l : list (list N)) (o : list_op) : list nat :=
  match o with
  | Push _ => [length l]
  | Put i _ => [i]
  | Pop => [(length l - 1)%nat; next_to (length l - 1)]
  | At i => [i]
  end.
Fixpoint needs_all (l : list (list N)) (ops : list list_op) : list nat :=
  match ops with [] => [] | o :: ops' => needs l o ++ needs_all (fst (list_step l o)) ops' end.

Definition only_writes (o : list_op) : Prop := match o with Push _ | Put _ _ => True | _ => False end.
