(** Replaying a log of operations after crashes. Specification vocabulary. *)
From Verif Require Import Base Nibbles NibblesSpec Trie TrieSpec TrieHistSpec.

(** The operations of the log from number [f] up to, not including, number [e]. *)
Definition piece (log : list op) (f e : nat) : list op := firstn (e - f) (skipn f log).

(** The log has [n] operations and has been followed up to number [p]. Every run follows it from some number [f], not later than where the one before stopped, to some
    number [e]; the last one reaches the end. *)
Fixpoint resumes (n p : nat) (runs : list (nat * nat)) : Prop :=
  match runs with
  | [] => p = n
  | (f, e) :: runs' => (f <= p)%nat /\ (f <= e)%nat /\ (e <= n)%nat /\ resumes n e runs'
  end.

(** All that is done. *)
Definition done (log : list op) (runs : list (nat * nat)) : list op := flat_map (fun r => piece log (fst r) (snd r)) runs.
