(** Following a map of which only the root hash is known. Specification vocabulary for C92. *)
From Verif Require Import Base Nibbles NibblesSpec Trie TrieSpec TrieHistSpec TrieInsert Hashing Rlp YellowPaper HashSpec ReplaySpec NeighbourSpec PartialSpec JsonText WitnessSpec TxSpec.
Open Scope N_scope.

(** A program (TxSpec.v) on a plain map, and programs one after the other: what they are answered and the map they leave. *)
Fixpoint map_run (m : kvmap) (p : tx) : kvmap * list out :=
  match p with
  | Finish => (m, [])
  | Do o next => let '(m1, x) := spec_op m o in let '(m2, xs) := map_run m1 (next x) in (m2, x :: xs)
  end.
Fixpoint map_serial (m : kvmap) (ps : list tx) : kvmap * list (list out) :=
  match ps with
  | [] => (m, [])
  | p :: ps' => let '(m1, xs) := map_run m p in let '(m2, xss) := map_serial m1 ps' in (m2, xs :: xss)
  end.

(** Whatever it is answered, it uses keys of [n] nibbles and non-empty byte strings of less than 2^31 bytes. *)
Fixpoint tx_fixed (n : N) (p : tx) : Prop :=
  match p with
  | Finish => True
  | Do o next =>
      (op_fixed n o /\ match o with OInsert _ v => value_ok v | OExtend l => Forall (fun e => value_ok (snd e)) l | _ => True end) /\
      forall x, tx_fixed n (next x)
  end.

(** What somebody who runs a program on a partial trie can check while it runs: no key that is asked for lies at or below a hash node, and no delete leaves a branch over, of whose
    children only a hash node remains. *)
Definition watched (s : node) (o : op) : Prop :=
  match o with
  | OGet k => ~ hash_on_path s (nseq k)
  | ODelete k => collapse_visible s (nseq k)
  | _ => True
  end.
Fixpoint careful (pr : profile) (s : node) (p : tx) : Prop :=
  match p with
  | Finish => True
  | Do o next => watched s o /\ forall s1 x, trie_op pr s o = Ok (s1, x) -> careful pr s1 (next x)
  end.

(** For every program a text is received, from anybody. It is read as a trie that passes the checks of WitnessSpec.v and has the last known root hash. The program runs on that trie alone and
    does not panic. The root hash it leaves is the next known one, and nothing else is kept. *)
Record round : Type := Round { program : tx; received : list N }.
Inductive follows (keccak : list N -> list N) (pr : profile) : list N -> list round -> list (list out) -> list N -> Prop :=
| fo_nil r : follows keccak pr r [] [] r
| fo_cons r p text limit s s' l r1 rs xss r2 :
    load_text limit text = Some s -> checked 64 s = true -> hash_trie keccak pr s = Ok r ->
    careful pr s p -> tx_run pr s p = Ok (s', l) -> hash_trie keccak pr s' = Ok r1 ->
    follows keccak pr r1 rs xss r2 -> follows keccak pr r (Round p text :: rs) (map snd l :: xss) r2.

(** The keys that a program is given suffice for it on the map [m]: it uses no others, and each key that it deletes has a neighbour among them (NeighbourSpec.v) when it is deleted. *)
Fixpoint suffices (m : kvmap) (ks : list nibbles) (p : tx) : Prop :=
  match p with
  | Finish => True
  | Do o next =>
      op_on ks o /\ match o with ODelete k => has_neighbour (fun j => m j <> None) ks (nseq k) | _ => True end /\
      suffices (fst (spec_op m o)) ks (next (snd (spec_op m o)))
  end.
Fixpoint all_suffice (m : kvmap) (plan : list (tx * list nibbles)) : Prop :=
  match plan with
  | [] => True
  | (p, ks) :: plan' => suffices m ks p /\ all_suffice (fst (map_run m p)) plan'
  end.
