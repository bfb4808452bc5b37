(** Replaying operations on a partial trie. Specification vocabulary. *)
From Verif Require Import Base Nibbles NibblesSpec Trie TrieSpec TrieHistSpec YellowPaper HashSpec HideSpec.
Open Scope N_scope.

(** A canonical trie for keys of [n] nibbles: values are stored at keys of exactly [n] nibbles, hash nodes at positions of at
    most [n] nibbles. *)
Definition fixed_trie (n : nat) (t : node) : Prop :=
  wf 64 t /\ canon t /\
  (forall k v, lk t k = Some (Val v) -> length k = n) /\ (forall k h, lk t k = Some (HashV h) -> length k <= n)%nat.

(** The operation only uses keys of the list [ks], and non-empty byte strings of less than 2^31 bytes. *)
Definition value_ok (v : list N) : Prop := v <> [] /\ bytesl v /\ len v < 2147483648.
Definition op_on (ks : list nibbles) (o : op) : Prop :=
  match o with
  | OInsert k v => In k ks /\ value_ok v
  | OExtend l => Forall (fun e => In (fst e) ks /\ value_ok (snd e)) l
  | ODelete k => In k ks
  | OGet k => In k ks
  end.

Definition not_delete (o : op) : Prop := match o with ODelete _ => False | _ => True end.

(** Every delete of the history is [merge_visible] at the time it happens (see HideSpec.v). *)
Fixpoint merges_visible (pr : profile) (t s : node) (ops : list op) : Prop :=
  match ops with
  | [] => True
  | o :: ops' =>
      match o with ODelete k => merge_visible t s (nseq k) | _ => True end /\
      forall t1 x s1 y, trie_op pr t o = Ok (t1, x) -> trie_op pr s o = Ok (s1, y) -> merges_visible pr t1 s1 ops'
  end.
