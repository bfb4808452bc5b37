(** The cost of [hash()] on a [HashedPartialTrie]. *)
From Verif Require Import Base Nibbles Trie Subset Cache CacheSpec.
Open Scope N_scope.

(** The number of nodes that a program looks at for their hash: each look reads the cell of the node once. *)
Fixpoint reads {A} (p : prog A) (s : store) (n : N) : N :=
  match p with
  | Ret _ | Fail => 0
  | Read c k => 1 + reads (k (s c)) s n
  | Write c o p' => reads p' (update s c o) n
  | Alloc k => reads (k n) (update s n None) (n + 1)
  end.

(** What [hash()] of handle [i] costs after a program has run, [None] if the program panics or there is no such handle. *)
Definition hash_cost (keccak : list N -> list N) (pr : profile) (os : list op) (i : nat) : option N :=
  match exec (hrun keccak pr [] os) (fun _ => None) 0 with
  | Ok (hs, _, s, n) => match nth_error hs i with Some t => Some (reads (hhash_of keccak pr t) s n) | None => None end
  | Panic => None
  end.

(** Programs on whole tries: no handles for inner nodes, no nodes made by hand, no assignments through [DerefMut], no subsets for no key at all. All keys
    have at most 64 nibbles. *)
Definition short (k : nibbles) : Prop := count k <= 64.
Definition regular (o : op) : Prop :=
  match o with
  | New l | Extend _ l => Forall (fun e => short (fst e)) l
  | Insert _ k _ | Delete _ k => short k
  | Get _ _ | HashOf _ | Equal _ _ | Clone _ | Differ _ _ | Reload _ => True
  | Subset _ ks => ks <> []
  | Subsets _ kss => ~ In [] kss
  | SubTrie _ _ | Assign _ _ | Make _ => False
  end.

(** The number of entries that a program changes through handle [i]. *)
Definition changes1 (i : nat) (o : op) : N :=
  match o with
  | Insert j _ _ | Delete j _ => if Nat.eqb i j then 1 else 0
  | Extend j l => if Nat.eqb i j then N.of_nat (length l) else 0
  | _ => 0
  end.
Fixpoint changes (i : nat) (os : list op) : N :=
  match os with [] => 0 | o :: os' => changes1 i o + changes i os' end.
