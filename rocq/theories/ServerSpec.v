(** The other side of FollowerSpec.v: whoever has the full trie runs each program on it and sends the excerpt that the follower needs. Specification vocabulary for C92. *)
From Verif Require Import Base Nibbles NibblesSpec Trie TrieSpec Hashing Subset Serde Json JsonText TxSpec TrieHistSpec FollowSpec.
Open Scope N_scope.

Definition op_keys (o : op) : list nibbles := match o with OInsert k _ => [k] | OExtend l => map fst l | ODelete k => [k] | OGet k => [k] end.

(** Of the keys in the list other than [k], one with the longest start in common with [k]. *)
Fixpoint nearest (k : list N) (js : list (list N)) : option (list N) :=
  match js with
  | [] => None
  | j :: js' =>
      if key_eqb j k then nearest k js'
      else match nearest k js' with
           | Some b => if (lcp j k <=? lcp b k)%nat then Some b else Some j
           | None => Some j
           end
  end.

(** The keys that a program uses when it runs on [t], and one next to each key that it deletes; [entries t] are the items of the iterator (C16). *)
Fixpoint keys_for (pr : profile) (t : node) (p : tx) : list nibbles :=
  match p with
  | Finish => []
  | Do o next =>
      op_keys o ++
      match o with ODelete k => match nearest (nseq k) (map fst (entries t)) with Some j => [enc j] | None => [] end | _ => [] end ++
      match trie_op pr t o with Ok (t1, x) => keys_for pr t1 (next x) | Panic => [] end
  end.

(** The text for each program is that of the subset for these keys. *)
Fixpoint server (keccak : list N -> list N) (pr : profile) (t : node) (ps : list tx) : option (list round) :=
  match ps with
  | [] => Some []
  | p :: ps' =>
      match create_trie_subset keccak pr t (keys_for pr t p), tx_run pr t p with
      | Ok (ROk s), Ok (t1, _) => match server keccak pr t1 ps' with Some rs => Some (Round p (to_string (serialize s)) :: rs) | None => None end
      | _, _ => None
      end
  end.
