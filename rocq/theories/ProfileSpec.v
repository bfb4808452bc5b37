(** What one build of the crate may do differently from another. Only specification vocabulary, for C85. *)
From Verif Require Import Base Cache CacheSpec.
Open Scope N_scope.

(** [checked] is a call in a build with overflow checks and debug assertions, [other] the same call in another build: the first panics or both come to the same end. *)
Definition panics_or_same {A} (checked other : res A) : Prop := checked = Panic \/ checked = other.
(** For loops that may run out of fuel. *)
Definition loop_panics_or_same {A} (checked other : option (res A)) : Prop := checked = Some Panic \/ checked = other.

(** A thread has panicked. *)
Definition panicked {A} (p : prog A) : Prop := p = Fail.
