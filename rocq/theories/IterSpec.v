(** Programs with iterators over caching tries. *)
From Verif Require Import Base Nibbles Trie Cache Serde Query Diff DiffCache CacheSpec HIter.
Open Scope N_scope.

(** One use of the API: one of those of CacheSpec.v, [items()] of handle [i], which opens an iterator, or [next()] of iterator [j]. Iterators
    are numbered in the order in which they are opened. *)
Inductive iop : Type :=
| Use (o : op)
| Items (i : nat)
| Next (j : nat).

(** What the caller sees. *)
Inductive iobs : Type :=
| Saw (x : obs)
| Opened
| Item (a : option item).

Section Run.
Variable keccak : list N -> list N.
Variable pr : profile.
(** Rounds of the loop of one call of [next]. *)
Variable fuel : nat.

Definition world : Type := (list hnode * list hiter)%type.

Definition istep (w : world) (o : iop) : prog (world * iobs) :=
  match o with
  | Use o => '(ts, x) <~ hstep keccak pr (fst w) o ;; Ret ((ts, snd w), Saw x)
  | Items i => t <~ lift (the (fst w) i) ;; it <~ hitems t ;; Ret ((fst w, snd w ++ [it]), Opened)
  | Next j =>
      it <~ lift (the (snd w) j) ;;
      match hnext fuel pr it with
      | Some (Ok (it', a)) => Ret ((fst w, replace (snd w) j it'), Item a)
      | Some Panic | None => Fail
      end
  end.

Fixpoint irun (w : world) (os : list iop) : prog (world * list iobs) :=
  match os with
  | [] => Ret (w, [])
  | o :: os' => '(w', x) <~ istep w o ;; '(w'', xs) <~ irun w' os' ;; Ret (w'', x :: xs)
  end.

(** ** The same with plain values: an iterator is the list of the items that are left. *)
Definition vworld : Type := (list node * list (list item))%type.

Definition vistep (w : vworld) (o : iop) : res (vworld * iobs) :=
  match o with
  | Use o => '(ts, x) <- vstep keccak pr (fst w) o ;; Ok ((ts, snd w), Saw x)
  | Items i =>
      t <- the (fst w) i ;;
      match trie_items fuel pr t with
      | Some (Ok l) => Ok ((fst w, snd w ++ [l]), Opened)
      | Some Panic | None => Panic
      end
  | Next j =>
      l <- the (snd w) j ;;
      match l with
      | [] => Ok (w, Item None)
      | a :: l' => Ok ((fst w, replace (snd w) j l'), Item (Some a))
      end
  end.

Fixpoint virun (w : vworld) (os : list iop) : res (vworld * list iobs) :=
  match os with
  | [] => Ok (w, [])
  | o :: os' => '(w', x) <- vistep w o ;; '(w'', xs) <- virun w' os' ;; Ok (w'', x :: xs)
  end.
End Run.

(** A program without its iterators. *)
Fixpoint uses (os : list iop) : list op :=
  match os with
  | [] => []
  | Use o :: os' => o :: uses os'
  | _ :: os' => uses os'
  end.

(** The answers of iterator [j]. *)
Fixpoint answers_of (j : nat) (os : list iop) (xs : list iobs) : list (option item) :=
  match os, xs with
  | Next j' :: os', Item a :: xs' => if Nat.eqb j j' then a :: answers_of j os' xs' else answers_of j os' xs'
  | _ :: os', _ :: xs' => answers_of j os' xs'
  | _, _ => []
  end.
