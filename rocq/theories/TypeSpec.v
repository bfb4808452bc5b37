(** Programs whose arguments are values of the Rust types, with any number of handles; saving and loading as JSON in them. *)
From Verif Require Import Base Nibbles Trie Cache Serde CacheSpec Json JsonSpec.
Open Scope N_scope.

Definition val_type (v : val_or_hash) : Prop := match v with Val b => u8s b | HashV h => h256 h end.
Definition entry_type (e : nibbles * val_or_hash) : Prop := key_type (fst e) /\ val_type (snd e).
Definition piece_type (p : piece) : Prop :=
  match p with
  | MEmpty => True
  | MHash h => h256 h
  | MLeaf k v => key_type k /\ u8s v
  | MExtension k _ => key_type k
  | MBranch _ v => u8s v
  end.
Definition op_type (o : op) : Prop :=
  match o with
  | New l | Extend _ l => Forall entry_type l
  | Insert _ k v => entry_type (k, v)
  | Delete _ k | Get _ k => key_type k
  | Subset _ ks => Forall key_type ks
  | Subsets _ kss => Forall (Forall key_type) kss
  | Make p => piece_type p
  | HashOf _ | Equal _ _ | Clone _ | SubTrie _ _ | Assign _ _ | Reload _ | Differ _ _ => True
  end.

(** Saving a handle as JSON, and loading the result with [unwrap]. *)
Definition hreload_json (t : hnode) : prog hnode :=
  d <~ hserialize t ;; r <~ hread_trie (json d) ;; match r with Some u => Ret u | None => Fail end.
(** As [hstep] and [hrun], but [Reload] goes through JSON. *)
Definition jstep (keccak : list N -> list N) (pr : profile) (ts : list hnode) (o : op) : prog (list hnode * obs) :=
  match o with
  | Reload i => t <~ lift (the ts i) ;; t' <~ hreload_json t ;; Ret (ts ++ [t'], Done)
  | _ => hstep keccak pr ts o
  end.
Fixpoint jrun (keccak : list N -> list N) (pr : profile) (ts : list hnode) (os : list op) : prog (list hnode * list obs) :=
  match os with
  | [] => Ret (ts, [])
  | o :: os' => '(ts', x) <~ jstep keccak pr ts o ;; '(ts'', xs) <~ jrun keccak pr ts' os' ;; Ret (ts'', x :: xs)
  end.
