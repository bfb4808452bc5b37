(** Partial tries with keys of different lengths, none of which is the beginning of another. Specification vocabulary. *)
From Verif Require Import Base Nibbles NibblesSpec Trie TrieSpec TrieHistSpec SubsetSpec ReplaySpec NeighbourSpec RefreshSpec.
Open Scope N_scope.

(** A canonical trie for the keys [U]: values are stored at keys in [U], hash nodes at beginnings of them. *)
Definition free_trie (U : list N -> Prop) (t : node) : Prop :=
  wf 64 t /\ canon t /\ (forall k v, lk t k = Some (Val v) -> U k) /\ (forall p h, lk t p = Some (HashV h) -> exists k, U k /\ is_prefix p k).

(** No get of the history uses a key that ends inside an extension node at the time (see SubsetSpec.v; C12 is about those). *)
Fixpoint gets_reach (pr : profile) (t : node) (ops : list op) : Prop :=
  match ops with
  | [] => True
  | o :: ops' =>
      match o with OGet k => ~ too_short t (nseq k) | _ => True end /\
      forall t1 x, trie_op pr t o = Ok (t1, x) -> gets_reach pr t1 ops'
  end.
(** The key of a get is at least as long as every key in [U]. *)
Definition get_long_key (U : list N -> Prop) (o : op) : Prop :=
  match o with OGet k => forall j, U j -> (length j <= length (nseq k))%nat | _ => True end.

(** As [rounds_ok] (RefreshSpec.v), where no key of a get and no key needed after a round ends inside an extension node. *)
Fixpoint free_rounds (pr : profile) (t : node) (ks : list nibbles) (rs : list round) : Prop :=
  match rs with
  | [] => True
  | (ops, ks') :: rs' =>
      Forall (op_on ks) ops /\ neighbours_held pr t ks ops /\ gets_reach pr t ops /\ incl ks' ks /\
      forall t1 xs, trie_ops pr t ops = Ok (t1, xs) -> (forall k, In k ks' -> ~ too_short t1 (nseq k)) /\ free_rounds pr t1 ks' rs'
  end.

(** The operation only uses keys in [U] and non-empty values. *)
Definition op_in (U : list N -> Prop) (o : op) : Prop :=
  match o with
  | OInsert k v => kwf k /\ U (nseq k) /\ v <> []
  | OExtend l => Forall (fun e => kwf (fst e) /\ U (nseq (fst e)) /\ snd e <> []) l
  | ODelete k => kwf k /\ U (nseq k)
  | OGet k => kwf k /\ U (nseq k)
  end.
(** Over a map: the key is stored, or no stored key is longer. *)
Definition findable (m : kvmap) (k : list N) : Prop := m k <> None \/ forall j, m j <> None -> (length j <= length k)%nat.
Fixpoint gets_findable (m : kvmap) (ops : list op) : Prop :=
  match ops with
  | [] => True
  | o :: ops' => match o with OGet k => findable m (nseq k) | _ => True end /\ gets_findable (fst (spec_op m o)) ops'
  end.
Fixpoint free_requested (m : kvmap) (ks : list nibbles) (rs : list round) : Prop :=
  match rs with
  | [] => True
  | (ops, ks') :: rs' =>
      Forall (op_on ks) ops /\ neighbours_requested m ks ops /\ gets_findable m ops /\ incl ks' ks /\
      let m1 := fst (spec_ops m ops) in (forall k, In k ks' -> findable m1 (nseq k)) /\ free_requested m1 ks' rs'
  end.
