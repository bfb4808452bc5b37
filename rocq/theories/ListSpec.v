(** Lists stored in a trie as Ethereum stores the transactions, receipts and withdrawals of a block: entry [i] under the key RLP([i]).
    Specification vocabulary for C68, and the calls of the API that a program makes for it. *)
From Verif Require Import Base Nibbles NibblesSpec Trie TrieSpec TrieHistSpec YellowPaper.
Open Scope N_scope.

(** The bytes of the key of entry [i] (Yellow Paper, 4.3.2: the key is the RLP of the index), and its nibbles. *)
Definition index_bytes (i : nat) : list N := RLP (RStr (BE (N.of_nat i))).
Definition index_nibbles (i : nat) : list N := unpair (index_bytes i).
(** The program makes its keys from them: [Nibbles::from_bytes_be(&rlp).unwrap()], nibbles.rs:213-215. *)
Definition index_key (i : nat) : res nibbles := match from_bytes_be (index_bytes i) with ROk k => Ok k | RErr _ => Panic end.

(** What can be done to a list. *)
Inductive list_op : Type :=
| Push (v : list N)
| Put (i : nat) (v : list N)
| Pop
| At (i : nat).

Fixpoint put (l : list (list N)) (i : nat) (v : list N) : list (list N) :=
  match l, i with
  | [], _ => []
  | _ :: l', O => v :: l'
  | x :: l', S i' => x :: put l' i' v
  end.
Definition list_step (l : list (list N)) (o : list_op) : list (list N) * out :=
  match o with
  | Push v => (l ++ [v], ODone)
  | Put i v => (put l i v, ODone)
  | Pop => (removelast l, OValue (nth_error l (length l - 1)))
  | At i => (l, OValue (nth_error l i))
  end.
Fixpoint list_run (l : list (list N)) (ops : list list_op) : list (list N) * list out :=
  match ops with
  | [] => (l, [])
  | o :: ops' => let '(l1, x) := list_step l o in let '(l2, xs) := list_run l1 ops' in (l2, x :: xs)
  end.

(** Only existing entries are overwritten and removed, values are not empty, and indices are 64 bit numbers. *)
Definition index_ok (i : nat) : Prop := N.of_nat i < 2 ^ 64.
Definition list_op_ok (l : list (list N)) (o : list_op) : Prop :=
  match o with
  | Push v => v <> [] /\ index_ok (length l)
  | Put i v => v <> [] /\ (i < length l)%nat
  | Pop => l <> []
  | At i => index_ok i
  end.
Fixpoint list_ops_ok (l : list (list N)) (ops : list list_op) : Prop :=
  match ops with [] => True | o :: ops' => list_op_ok l o /\ list_ops_ok (fst (list_step l o)) ops' end.
(** Values as the hash needs them: bytes, shorter than 2^31. *)
Definition list_op_bytes (o : list_op) : Prop :=
  match o with Push v | Put _ v => bytesl v /\ len v < 2147483648 | _ => True end.

(** The same with a trie and the number of entries. *)
Definition indexed_step (pr : profile) (s : node * nat) (o : list_op) : res ((node * nat) * out) :=
  let '(t, n) := s in
  match o with
  | Push v => k <- index_key n ;; t' <- trie_insert pr t k (Val v) ;; Ok ((t', S n), ODone)
  | Put i v => k <- index_key i ;; t' <- trie_insert pr t k (Val v) ;; Ok ((t', n), ODone)
  | Pop => k <- index_key (n - 1) ;; '(t', w) <- trie_delete pr t k ;; Ok ((t', (n - 1)%nat), OValue w)
  | At i => k <- index_key i ;; w <- trie_get pr t k ;; Ok ((t, n), OValue w)
  end.
Fixpoint indexed_run (pr : profile) (s : node * nat) (ops : list list_op) : res ((node * nat) * list out) :=
  match ops with
  | [] => Ok (s, [])
  | o :: ops' => '(s1, x) <- indexed_step pr s o ;; '(s2, xs) <- indexed_run pr s1 ops' ;; Ok (s2, x :: xs)
  end.

(** The pairs of the Yellow Paper for a list of values. *)
Definition index_pairs (l : list (list N)) : pairs := combine (map index_nibbles (seq 0 (length l))) l.
(** The entries of the trie for a list: each value with the key of its index. *)
Definition index_entries (l : list (list N)) (es : list (nibbles * list N)) : Prop :=
  map snd es = l /\ Forall2 (fun i e => index_key i = Ok (fst e)) (seq 0 (length l)) es.
(** The same with the index itself as key ([i.to_nibbles()] of a u64, nibbles.rs:81-97, 102). *)
Definition integer_entries (l : list (list N)) (es : list (nibbles * list N)) : Prop :=
  map snd es = l /\ map fst es = map (fun i => to_nibbles 64 (N.of_nat i)) (seq 0 (length l)).
