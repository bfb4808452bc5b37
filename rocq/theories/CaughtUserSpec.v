(** Programs that use handles of [HashedPartialTrie], catch panics, and decide what to do next from what they have seen, panics included.
    Specification vocabulary for C72. *)
From Verif Require Import Base Nibbles Trie Hashing Cache CacheSpec Caught.
Open Scope N_scope.

(** Every call may be one whose panic is caught (Caught.v); the answer [None] is a panic. *)
Inductive xuser (A : Type) : Type :=
| XReturn (a : A)
| XCall (o : xop) (k : option obs -> xuser A).
Arguments XReturn {A} a.
Arguments XCall {A} o k.

Section Play.
Variable keccak : list N -> list N.
Variable pr : profile.

(** On tries as plain values. Such a program never panics. *)
Fixpoint vxplay {A} (ts : list node) (u : xuser A) : list node * A :=
  match u with XReturn a => (ts, a) | XCall o k => let '(ts', x) := vxstep keccak pr ts o in vxplay ts' (k x) end.
(** On handles with their caches. *)
Fixpoint hxplay {A} (ts : list hnode) (u : xuser A) : prog (list hnode * A) :=
  match u with XReturn a => Ret (ts, a) | XCall o k => '(ts', x) <~ hxstep keccak pr ts o ;; hxplay ts' (k x) end.
(** From the start: no handles, no cells. *)
Definition xplay {A} (u : xuser A) : res (list hnode * A) := rmap (fun r => fst (fst r)) (exec (hxplay [] u) (fun _ => None) 0).
(** Threads: each has its own clones of some handles and its own program; the cells are shared (CacheSpec.v, [pool]). *)
Definition xthreads_of {A} (jobs : list (list hnode * xuser A)) (s : store) (n : N) : pool (list hnode * A) :=
  Pool (map (fun job => hxplay (fst job) (snd job)) jobs) s n.

(** Every call that the program may make. *)
Fixpoint xevery {A} (P : op -> Prop) (u : xuser A) : Prop :=
  match u with XReturn _ => True | XCall o k => P (use o) /\ forall x, xevery P (k x) end.
(** The calls that it does make keep to the discipline [K]. *)
Fixpoint xobeys {A} (K : nat -> kind) (ts : list node) (u : xuser A) : Prop :=
  match u with
  | XReturn _ => True
  | XCall o k => xlegal keccak pr K ts o /\ xobeys K (fst (vxstep keccak pr ts o)) (k (snd (vxstep keccak pr ts o)))
  end.
End Play.
