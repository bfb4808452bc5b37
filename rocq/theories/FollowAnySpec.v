(** Following a trie with any keys, of which only the root hash is known. Specification vocabulary for C92. *)
From Verif Require Import Base Nibbles NibblesSpec Trie TrieSpec TrieHistSpec TrieInsert Hashing Rlp YellowPaper HashSpec SubsetSpec ReplaySpec PartialSpec JsonText WitnessSpec TxSpec FollowSpec.
Open Scope N_scope.

(** Any key of at most 64 nibbles, also if it is the start of another, and non-empty byte strings of less than 2^31 bytes. *)
Definition op_any (o : op) : Prop := match o with OGet k => kwf k | _ => op_write o end.
(** Whatever it is answered. *)
Fixpoint tx_any (p : tx) : Prop := match p with Finish => True | Do o next => op_any o /\ forall x, tx_any (next x) end.

(** What can be checked while it runs: a get has found a value, or its key neither ends within an extension nor leads to a hash node; and deletes as in FollowSpec.v. *)
Definition seen (s : node) (o : op) (x : out) : Prop :=
  match o with
  | OGet k => x <> OValue None \/ (~ too_short s (nseq k) /\ ~ hash_on_path s (nseq k))
  | ODelete k => collapse_visible s (nseq k)
  | _ => True
  end.
Fixpoint all_seen (pr : profile) (s : node) (p : tx) : Prop :=
  match p with
  | Finish => True
  | Do o next => forall s1 x, trie_op pr s o = Ok (s1, x) -> seen s o x /\ all_seen pr s1 (next x)
  end.

Inductive follows_any (keccak : list N -> list N) (pr : profile) : list N -> list round -> list (list out) -> list N -> Prop :=
| fa_nil r : follows_any keccak pr r [] [] r
| fa_cons r p text limit s s' l r1 rs xss r2 :
    load_text limit text = Some s -> checked 64 s = true -> hash_trie keccak pr s = Ok r ->
    all_seen pr s p -> tx_run pr s p = Ok (s', l) -> hash_trie keccak pr s' = Ok r1 ->
    follows_any keccak pr r1 rs xss r2 -> follows_any keccak pr r (Round p text :: rs) (map snd l :: xss) r2.
