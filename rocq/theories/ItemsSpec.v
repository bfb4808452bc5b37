(** The order of iteration, single calls of the iterator, and rebuilding a trie from its items. Only specification vocabulary. *)
From Verif Require Import Base Nibbles NibblesSpec Trie TrieSpec TrieHistSpec.
Open Scope N_scope.

(** [a] comes before [b]: where they first differ [a] has the smaller digit, or [b] is a strict prefix of [a]. *)
Definition before (a b : list N) : Prop :=
  (exists p x y r s, a = p ++ x :: r /\ b = p ++ y :: s /\ x < y) \/ strict_prefix b a.

(** The answers to [n] calls of [next] ([fuel] rounds of its loop are allowed for each call). *)
Fixpoint answers (n fuel : nat) (pr : profile) (st : iter) : option (res (list (option item))) :=
  match n with
  | O => Some (Ok [])
  | S n' =>
      match next fuel pr st with
      | Some (Ok (st', a)) =>
          match answers n' fuel pr st' with
          | Some (Ok l) => Some (Ok (a :: l))
          | r => r
          end
      | Some Panic => Some Panic
      | None => None
      end
  end.

(** Some stored key is followed, among the longer stored keys that begin with it, by only one digit; and these longer keys are not
    just one key with a value. *)
Definition narrow (t : node) : Prop :=
  exists k x r0, stored t k /\ stored t (k ++ x :: r0) /\ (forall y r, stored t (k ++ y :: r) -> y = x) /\
    ~ (exists r v, lk t (k ++ x :: r) = Some (Val v) /\ forall s, stored t (k ++ x :: s) -> s = r).
