(** Histories of operations, and the map they are compared with. Specification vocabulary. *)
From Verif Require Import Base Nibbles NibblesSpec Trie TrieSpec.
Open Scope N_scope.

(** The tries a user can get: any canonical trie (for example the empty one, a hash node, or one decoded from elsewhere)
    changed by successful inserts of non-empty values or hashes and by successful deletes, with keys of at most 64
    nibbles, and not necessarily prefix-free. *)
Inductive reach (pr : profile) : node -> Prop :=
| reach_start t : wf 64 t -> canon t -> reach pr t
| reach_insert t k v t' : reach pr t -> kwf k -> proper v -> trie_insert pr t k v = Ok t' -> reach pr t'
| reach_delete t k t' w : reach pr t -> kwf k -> trie_delete pr t k = Ok (t', w) -> reach pr t'.

(** A plain key/value map. *)
Definition kvmap : Type := list N -> option (list N).
Definition kv_empty : kvmap := fun _ => None.
Definition kv_set (m : kvmap) (k : list N) (v : option (list N)) : kvmap := fun j => if key_eqb k j then v else m j.

Inductive op : Type :=
| OInsert (k : nibbles) (v : list N)
| OExtend (l : list (nibbles * list N))
| ODelete (k : nibbles)
| OGet (k : nibbles).

(** What the caller sees: nothing, or the value returned by [delete] or [get]. *)
Inductive out : Type := ODone | OValue (v : option (list N)).

Definition spec_op (m : kvmap) (o : op) : kvmap * out :=
  match o with
  | OInsert k v => (kv_set m (nseq k) (Some v), ODone)
  | OExtend l => (fold_left (fun m e => kv_set m (nseq (fst e)) (Some (snd e))) l m, ODone)
  | ODelete k => (kv_set m (nseq k) None, OValue (m (nseq k)))
  | OGet k => (m, OValue (m (nseq k)))
  end.

Fixpoint spec_ops (m : kvmap) (l : list op) : kvmap * list out :=
  match l with
  | [] => (m, [])
  | o :: l' => let '(m1, x) := spec_op m o in let '(m2, xs) := spec_ops m1 l' in (m2, x :: xs)
  end.

(** The same operations on a trie. *)
Definition trie_op (pr : profile) (t : node) (o : op) : res (node * out) :=
  match o with
  | OInsert k v => t' <- trie_insert pr t k (Val v) ;; Ok (t', ODone)
  | OExtend l => t' <- trie_extend pr t (map (fun e => (fst e, Val (snd e))) l) ;; Ok (t', ODone)
  | ODelete k => '(t', w) <- trie_delete pr t k ;; Ok (t', OValue w)
  | OGet k => w <- trie_get pr t k ;; Ok (t, OValue w)
  end.

Fixpoint trie_ops (pr : profile) (t : node) (l : list op) : res (node * list out) :=
  match l with
  | [] => Ok (t, [])
  | o :: l' => '(t1, x) <- trie_op pr t o ;; '(t2, xs) <- trie_ops pr t1 l' ;; Ok (t2, x :: xs)
  end.

(** The operation only uses keys in [U] (of at most 64 nibbles) and non-empty values; [get] only asks for keys of maximal
    length (shorter keys are C11 and C12). *)
Definition op_ok (U : list N -> Prop) (o : op) : Prop :=
  match o with
  | OInsert k v => kwf k /\ U (nseq k) /\ v <> []
  | OExtend l => Forall (fun e => kwf (fst e) /\ U (nseq (fst e)) /\ snd e <> []) l
  | ODelete k => kwf k /\ U (nseq k)
  | OGet k => kwf k /\ U (nseq k) /\ forall j, U j -> (length j <= length (nseq k))%nat
  end.

(** The operation only uses keys of exactly [n] nibbles and non-empty values. *)
Definition op_fixed (n : N) (o : op) : Prop :=
  match o with
  | OInsert k v => kwf k /\ count k = n /\ v <> []
  | OExtend l => Forall (fun e => kwf (fst e) /\ count (fst e) = n /\ snd e <> []) l
  | ODelete k => kwf k /\ count k = n
  | OGet k => kwf k /\ count k = n
  end.

(** No key of [U] is a strict prefix of another. *)
Definition prefix_free (U : list N -> Prop) : Prop := forall a b, U a -> U b -> ~ strict_prefix a b.

(** The trie holds exactly the map, and no hash nodes. *)
Definition holds (t : node) (m : kvmap) : Prop := forall j, lk t j = option_map Val (m j).

(** Where [get] (Debug) finds [v] when asked for [k]: at [k]; or at a stored key that is a strict prefix of [k] and has no
    longer stored key below it; or at a stored key that is the only one extending [k]. *)
Definition finds (t : node) (k : list N) (v : list N) : Prop :=
  lk t k = Some (Val v) \/
  (exists j, lk t j = Some (Val v) /\ strict_prefix j k /\ forall i, stored t i -> ~ strict_prefix j i) \/
  (exists j, lk t j = Some (Val v) /\ strict_prefix k j /\ forall i, stored t i -> is_prefix k i -> i = j).

(** [k] is stored, or the stored keys that strictly extend [k] are: none; or two that differ in the nibble after [k]; or
    exactly one, with a value. *)
Definition insertable (t : node) (k : list N) : Prop :=
  stored t k \/
  (forall j, stored t j -> ~ strict_prefix k j) \/
  (exists x y r s, x <> y /\ stored t (k ++ x :: r) /\ stored t (k ++ y :: s)) \/
  (exists k1 v, strict_prefix k k1 /\ lk t k1 = Some (Val v) /\ forall j, stored t j -> is_prefix k j -> j = k1).

(** [k] can be deleted: at every stored strict prefix [p] of [k], with [d] the next nibble of [k], either another stored
    key continues [p] with [d], or stored keys continue [p] with two nibbles other than [d]. *)
Definition deletable (t : node) (k : list N) : Prop :=
  forall p d s, k = p ++ d :: s -> stored t p ->
     (exists k', k' <> k /\ stored t k' /\ is_prefix (p ++ [d]) k') \/
     (exists d1 d2 r1 r2, d1 <> d2 /\ d1 <> d /\ d2 <> d /\ stored t (p ++ d1 :: r1) /\ stored t (p ++ d2 :: r2)).
