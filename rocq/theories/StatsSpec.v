(** What the statistics of a trie mean. Only specification vocabulary. *)
From Verif Require Import Base Nibbles Trie.
Open Scope N_scope.

(** All nodes of a trie, each with its depth: the number of nodes above it. *)
Fixpoint subnodes (d : N) (t : node) : list (N * node) :=
  (d, t) :: match t with
            | Branch ch _ => flat_map (subnodes (d + 1)) ch
            | Extension _ c => subnodes (d + 1) c
            | _ => []
            end.

Definition is_empty_node (x : N * node) : bool := match snd x with Empty => true | _ => false end.
Definition is_hash_node (x : N * node) : bool := match snd x with Hash _ => true | _ => false end.
Definition is_branch_node (x : N * node) : bool := match snd x with Branch _ _ => true | _ => false end.
Definition is_extension_node (x : N * node) : bool := match snd x with Extension _ _ => true | _ => false end.
Definition is_leaf_node (x : N * node) : bool := match snd x with Leaf _ _ => true | _ => false end.
Definition is_valued_branch (x : N * node) : bool := match snd x with Branch _ (_ :: _) => true | _ => false end.

(** How many nodes of a trie satisfy [p], and the sum of their depths. *)
Definition how_many (p : N * node -> bool) (t : node) : N := N.of_nat (length (filter p (subnodes 0 t))).
Definition sum (l : list N) : N := fold_right N.add 0 l.
Definition depth_sum (p : N * node -> bool) (t : node) : N := sum (map fst (filter p (subnodes 0 t))).

(** [m] is the largest depth of a node that satisfies [p], 0 if there is none. *)
Definition deepest (p : N * node -> bool) (t : node) (m : N) : Prop :=
  (forall x, In x (subnodes 0 t) -> p x = true -> fst x <= m) /\
  (m = 0 \/ exists x, In x (subnodes 0 t) /\ p x = true /\ fst x = m).
