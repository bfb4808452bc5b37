(** What the log of an operation should look like. Only specification vocabulary. *)
From Coq Require Import String.
From Verif Require Import Base Nibbles NibblesSpec Trie TrieSpec Query Diff Text TextSpec.
Open Scope N_scope.
Open Scope list_scope.

(** The nodes that a lookup of [k] visits, each with the digits of the key that are left when the lookup arrives there. *)
Fixpoint trail (t : node) (k : list N) {struct t} : list (node * list N) :=
  (t, k) :: match t with
            | Branch ch _ => match k with [] => [] | d :: k' => at_child (fun c => trail c k') [] ch (N.to_nat d) end
            | Extension n c => match strip (nseq n) k with Some k' => trail c k' | None => [] end
            | _ => []
            end.

(** The key does not end inside an extension node. *)
Definition covers (t : node) (k : list N) : Prop :=
  Forall (fun e => match fst e with Extension n _ => (length (nseq n) <= length (snd e))%nat | _ => True end) (trail t k).

(** The developer's view of a key, e.g. Nibbles { count: 2, packed: "0x1f" }. *)
Definition debug_key (l : list N) : list N :=
  txt "Nibbles { count: " ++ dec (N.of_nat (length l)) ++ txt ", packed: """ ++ shown_key l ++ txt """ }".

(** One line for each node visited; [op] is Get, Insert or Delete. A lookup or deletion that ends at a branch node says nothing about
    it, and a deletion that meets a hash node panics before it says so. *)
Definition step_line (op : list N) (e : node * list N) : list (list N) :=
  let is s := list_eq_dec N.eq_dec op (txt s) in
  match fst e, snd e with
  | Empty, _ => [op ++ txt " traversed Empty"]
  | Hash h, _ => if is "Delete"%string then [] else [op ++ txt " traversed Hash(0x" ++ shown_bytes h ++ txt ")"]
  | Branch _ _, [] => if is "Insert"%string then [txt "Insert traversed branch and placed value in node"] else []
  | Branch _ _, d :: _ =>
      [op ++ txt " traversed Branch " ++ (if is "Delete"%string then txt "nibble " ++ [hex_char false d] else txt "(nibble: " ++ [hex_char false d] ++ txt ")")]
  | Extension n _, _ => [op ++ txt " traversed Extension (nibbles: " ++ debug_key (nseq n) ++ txt ")"]
  | Leaf n _, _ => [op ++ txt " traversed Leaf (nibbles: " ++ debug_key (nseq n) ++ txt ")"]
  end.
Definition path_lines (op : string) (t : node) (k : list N) : list (list N) := flat_map (step_line (txt op)) (trail t k).

(** The value of an entry, e.g. Val([1, 255]). *)
Definition debug_value (v : val_or_hash) : list N :=
  match v with
  | Val v => txt "Val([" ++ join (txt ", ") (map dec v) ++ txt "])"
  | HashV h => txt "Hash(0x" ++ shown_bytes h ++ txt ")"
  end.
Definition insert_line (k : list N) (v : val_or_hash) : list N :=
  txt "Inserting new node InsertEntry { nibbles: " ++ debug_key k ++ txt ", v: " ++ debug_value v ++ txt " }...".
Definition delete_line (k : list N) : list N := txt "Deleting a leaf node with key " ++ shown_key k ++ txt " if it exists".

(** ** The way back of a deletion *)
(** What a deletion leaves of a subtree: nothing, an extension node with these nibbles and a child of this type, or a branch node. *)
Inductive remains := Gone | Short (p : list N) (child : node_type) | Kept.
(** The occupied slots of a branch other than [d]. *)
Definition others (ch : list node) (d : N) : list (nat * node) :=
  filter (fun e => negb (Nat.eqb (fst e) (N.to_nat d)) && match snd e with Empty => false | _ => true end) (combine (seq 0 (length ch)) ch).
Definition collapse_line (p : list N) (child : node_type) : list N :=
  txt "Collapsing extension node (" ++ shown_key p ++ txt ") with child " ++ type_name child ++ txt "...".
(** One node of the way, seen on the way back, and what is left of the subtree below it: the lines, and what is left of the subtree from this node on.
    A branch that keeps one child only turns into an extension node. A branch tidies up an extension node below it. An extension node absorbs one below it. *)
Definition back_step (e : node * list N) (below : remains) : list (list N) * remains :=
  match fst e, snd e with
  | Leaf n _, _ => ([txt "Deleting leaf (" ++ shown_key (nseq n) ++ txt ")"], Gone)
  | Branch ch _, d :: _ =>
      match below with
      | Gone => match others ch d with
                | [(i, c)] => ([txt "Branch " ++ [hex_char false d] ++ txt " became an extension when collapsing a branch (may be collapsed further still)." ++ [10] ++ repeat 32 32 ++
                                txt "Single remaining child in slot " ++ [hex_char false (N.of_nat i)] ++ txt " (" ++ type_name (type_of c) ++
                                txt ") will be pointed at with an extension node."], Short [N.of_nat i] (type_of c))
                | _ => ([], Kept)
                end
      | Short p child => ([collapse_line p child], Kept)
      | Kept => ([], Kept)
      end
  | Extension n _, _ =>
      match below with
      | Short p child => ([collapse_line (nseq n) TExtension], Short (nseq n ++ p) child)
      | _ => ([collapse_line (nseq n) TBranch], Short (nseq n) TBranch)
      end
  | _, _ => ([], Kept)
  end.
Fixpoint back (way : list (node * list N)) : list (list N) * remains :=
  match way with
  | [] => ([], Kept)
  | e :: way' => let '(lines, below) := back way' in let '(more, here) := back_step e below in (lines ++ more, here)
  end.
(** The root is tidied up last. *)
Definition back_lines (t : node) (k : list N) : list (list N) :=
  let '(lines, here) := back (trail t k) in lines ++ match here with Short p child => [collapse_line p child] | _ => [] end.
