(** What the messages of errors should say. Only specification vocabulary. *)
From Coq Require Import String.
From Verif Require Import Base Nibbles Trie Query Diff Text TextSpec.
Open Scope N_scope.
Open Scope list_scope.

(** The number that binary digits write. *)
Definition unbin (l : list N) : N := fold_left (fun a c => 2 * a + (c - 48)) l 0.
Definition binary (l : list N) : Prop := Forall (fun c => c = 48 \/ c = 49) l.

(** [part] occurs in [text]. *)
Fixpoint starts (part text : list N) : bool :=
  match part, text with [], _ => true | x :: p, y :: t => (x =? y) && starts p t | _, [] => false end.
Fixpoint occurs (part text : list N) : bool :=
  starts part text || match text with [] => false | _ :: t => occurs part t end.

(** The message that was meant for an input with too many bytes: first the length, then the bytes. *)
Definition too_long_meant (bytes : list N) : list N :=
  txt "Tried to convert a hex prefix byte string into `Nibbles` that was longer than 64 bytes: (length: " ++ dec (N.of_nat (length bytes)) ++
  txt ", bytes: " ++ shown_bytes bytes ++ txt ")".
