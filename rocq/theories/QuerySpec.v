(** What a path query should report. Only specification vocabulary. *)
From Verif Require Import Base Nibbles NibblesSpec Trie TrieSpec Query.
Open Scope N_scope.

(** The nodes that a lookup of [k] visits: from the root along the digits of the key, up to a node without a next one. *)
Fixpoint visited (t : node) (k : list N) {struct t} : list node :=
  t :: match t with
       | Branch ch _ => match k with [] => [] | d :: k' => at_child (fun c => visited c k') [] ch (N.to_nat d) end
       | Extension n c => match strip (nseq n) k with Some k' => visited c k' | None => [] end
       | _ => []
       end.

(** The same as path segments; [None] if the key ends at a branch node, for which there is no segment. *)
Fixpoint route (t : node) (k : list N) {struct t} : option (list segment) :=
  match t with
  | Empty => Some [SEmpty]
  | Hash _ => Some [SHash]
  | Branch ch _ =>
      match k with
      | [] => None
      | d :: k' => match at_child (fun c => route c k') None ch (N.to_nat d) with Some p => Some (SBranch d :: p) | None => None end
      end
  | Extension n c =>
      match strip (nseq n) k with
      | Some k' => match route c k' with Some p => Some (SExtension n :: p) | None => None end
      | None => Some [SExtension n]
      end
  | Leaf n _ => Some [SLeaf n]
  end.

Definition not_extension (s : segment) : Prop := match s with SExtension _ => False | _ => True end.

(** What the code does instead: extension nodes do not use up the key. [None] if the key is used up at a branch node; otherwise
    the path and the rest of the key. *)
Fixpoint walk (t : node) (k : list N) {struct t} : option (list node * list segment * list N) :=
  match t with
  | Empty => Some ([t], [SEmpty], k)
  | Hash _ => Some ([t], [SHash], k)
  | Branch ch _ =>
      match k with
      | [] => None
      | d :: k' =>
          match at_child (fun c => walk c k') None ch (N.to_nat d) with
          | Some (ns, p, r) => Some (t :: ns, SBranch d :: p, r)
          | None => None
          end
      end
  | Extension n c => match walk c k with Some (ns, p, r) => Some (t :: ns, SExtension n :: p, r) | None => None end
  | Leaf n _ => Some ([t], [SLeaf n], match strip (nseq n) k with Some r => r | None => k end)
  end.
