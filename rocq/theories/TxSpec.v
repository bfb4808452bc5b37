(** Transactions: programs that run on an older version of a trie and are committed to the newest. Specification vocabulary. *)
From Verif Require Import Base Nibbles NibblesSpec Trie TrieSpec TrieHistSpec TrieInsert SubsetSpec ReplaySpec FreeSpec RollSpec NetSpec.
Open Scope N_scope.

(** A program that does an operation, and goes on in a way that depends on the answer. *)
Inductive tx : Type := Finish | Do (o : op) (next : out -> tx).

(** Running it on a trie: the trie it leaves, and what it did with the answers it got. *)
Fixpoint tx_run (pr : profile) (t : node) (p : tx) : res (node * list (op * out)) :=
  match p with
  | Finish => Ok (t, [])
  | Do o next => '(t1, x) <- trie_op pr t o ;; '(t2, l) <- tx_run pr t1 (next x) ;; Ok (t2, (o, x) :: l)
  end.

(** Whatever it is answered, it uses keys in [U] and non-empty values, and gets keys that no key in [U] is longer than. *)
Fixpoint tx_in (U : list N -> Prop) (p : tx) : Prop :=
  match p with Finish => True | Do o next => op_in U o /\ get_long_key U o /\ forall x, tx_in U (next x) end.
(** Whatever it is answered, it uses keys in [ks]. *)
Fixpoint tx_on (ks : list nibbles) (p : tx) : Prop :=
  match p with Finish => True | Do o next => op_on ks o /\ forall x, tx_on ks (next x) end.
(** Whatever it is answered, it changes no key at or below a hash node of [t]. *)
Fixpoint tx_clear (t : node) (p : tx) : Prop :=
  match p with Finish => True | Do o next => (forall k, In k (touched o) -> ~ hash_on_path t (nseq k)) /\ forall x, tx_clear t (next x) end.

(** The keys about which an operation tells something. *)
Definition asked (o : op) : list nibbles := match o with ODelete k | OGet k => [k] | _ => [] end.
Definition clash (ks ks' : list nibbles) : bool := existsb (fun k => existsb (fun j => key_eqb (nseq k) (nseq j)) ks') ks.

(** All versions of the trie, the newest first, each with the keys that were changed to make it. *)
Definition store : Type := list (node * list nibbles).
Definition newest (vs : store) : node := match vs with (t, _) :: _ => t | [] => Empty end.

(** A program that was started when the newest version was the one [back] places down the list. It ran on that version. If one of the keys it has been told about was changed in the
    meantime it is refused. If not, only the last change it made to each key is made to what is the newest version now. *)
Definition commit (pr : profile) (vs : store) (p : tx) (back : nat) : res (store * option (list out)) :=
  match nth_error vs back with
  | None => Ok (vs, None)
  | Some (old, _) =>
      '(_, l) <- tx_run pr old p ;;
      if clash (flat_map asked (map fst l)) (flat_map snd (firstn back vs)) then Ok (vs, None)
      else
        let w := compact (map fst l) in
        '(t, _) <- trie_ops pr (newest vs) w ;;
        Ok ((t, flat_map touched w) :: vs, Some (map snd l))
  end.
Fixpoint commits (pr : profile) (vs : store) (cs : list (tx * nat)) : res (store * list (option (list out))) :=
  match cs with
  | [] => Ok (vs, [])
  | (p, back) :: cs' => '(vs1, r) <- commit pr vs p back ;; '(vs2, rs) <- commits pr vs1 cs' ;; Ok (vs2, r :: rs)
  end.

(** The programs that were not refused, and their answers. *)
Fixpoint accepted (cs : list (tx * nat)) (rs : list (option (list out))) : list (tx * list out) :=
  match cs, rs with
  | (p, _) :: cs', Some xs :: rs' => (p, xs) :: accepted cs' rs'
  | _ :: cs', None :: rs' => accepted cs' rs'
  | _, _ => []
  end.

(** Programs run one after the other on one trie. *)
Fixpoint serial (pr : profile) (t : node) (ps : list tx) : res (node * list (list out)) :=
  match ps with
  | [] => Ok (t, [])
  | p :: ps' => '(t1, l) <- tx_run pr t p ;; '(t2, xss) <- serial pr t1 ps' ;; Ok (t2, map snd l :: xss)
  end.
