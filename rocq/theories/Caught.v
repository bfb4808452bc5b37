(** Panics that the caller catches ([std::panic::catch_unwind], or a panic in another thread that shares the trie behind a
    lock). A panic drops what the operation has built so far. What stays are the writes to the cells, and what was already
    assigned to [*self]. *)
From Verif Require Import Base Nibbles Trie Rlp Hashing Subset Cache CacheSpec.
Open Scope N_scope.

(** One use of the API whose panic is caught, or a call of [extend] with an iterator that panics after the elements [l]. *)
Inductive xop : Type :=
| Try (o : op)
| CutShort (i : nat) (l : list (nibbles * val_or_hash)).

Section Caught.
Variable keccak : list N -> list N.
Variable pr : profile.

(** ** On plain values *)
(** [trie_extend] (trie_ops.rs:277-286) up to the first panic. *)
Fixpoint extend_until_panic (t : node) (l : list (nibbles * val_or_hash)) : node :=
  match l with
  | [] => t
  | (k, v) :: l' => match trie_insert pr t k v with Ok t' => extend_until_panic t' l' | Panic => t end
  end.

(** A panic changes nothing, but an [extend] has made the inserts before it. *)
Definition vxstep (ts : list node) (o : xop) : list node * option obs :=
  match o with
  | Try o =>
      match vstep keccak pr ts o with
      | Ok (ts', x) => (ts', Some x)
      | Panic =>
          (match o with
           | Extend i l => match nth_error ts i with Some t => replace ts i (extend_until_panic t l) | None => ts end
           | _ => ts
           end, None)
      end
  | CutShort i l => (match nth_error ts i with Some t => replace ts i (extend_until_panic t l) | None => ts end, None)
  end.
Fixpoint vxrun (ts : list node) (os : list xop) : list node * list (option obs) :=
  match os with
  | [] => (ts, [])
  | o :: os' => let '(ts', x) := vxstep ts o in let '(ts'', xs) := vxrun ts' os' in (ts'', x :: xs)
  end.

(** ** With [HashedPartialTrie] *)
(** trie_ops.rs:264-286: [*self] is assigned after every insert; the result says whether there was no panic. *)
Fixpoint hextend_until_panic (t : hnode) (l : list (nibbles * val_or_hash)) : prog (hnode * bool) :=
  match l with
  | [] => Ret (t, true)
  | (k, v) :: l' =>
      r <~ catch (htrie_insert pr t k v) ;;
      match r with Some t' => hextend_until_panic t' l' | None => Ret (t, false) end
  end.
(** partial_trie.rs:328-336 [extend]: the hash is cleared only after the loop. [whole] is false when the iterator panics at
    its end. *)
Definition hextend_caught (whole : bool) (t : hnode) (l : list (nibbles * val_or_hash)) : prog (hnode * bool) :=
  '(t', done) <~ hextend_until_panic t l ;;
  if done && whole then Write (cell t) None (Ret (t', true)) else Ret (t', false).

(** [insert] and [delete] (trie_ops.rs:272-273, 338-341) assign [*self] last, so that a panic leaves it as it was; the others
    take [&self] or make new tries. *)
Definition hxstep (ts : list hnode) (o : xop) : prog (list hnode * option obs) :=
  let ext i l whole :=
    match nth_error ts i with
    | Some t => '(t', done) <~ hextend_caught whole t l ;; Ret (replace ts i t', if done then Some Done else None)
    | None => Ret (ts, None)
    end in
  match o with
  | Try (Extend i l) => ext i l true
  | Try o => r <~ catch (hstep keccak pr ts o) ;; Ret (match r with Some (ts', x) => (ts', Some x) | None => (ts, None) end)
  | CutShort i l => ext i l false
  end.
Fixpoint hxrun (ts : list hnode) (os : list xop) : prog (list hnode * list (option obs)) :=
  match os with
  | [] => Ret (ts, [])
  | o :: os' => '(ts', x) <~ hxstep ts o ;; '(ts'', xs) <~ hxrun ts' os' ;; Ret (ts'', x :: xs)
  end.
Definition xstart (os : list xop) : res (list hnode * list (option obs)) :=
  rmap (fun r => fst (fst r)) (exec (hxrun [] os) (fun _ => None) 0).

(** ** Disciplines *)
(** The use inside. *)
Definition use (o : xop) : op := match o with Try o => o | CutShort i l => Extend i l end.
(** Every handle keeps to its kind, and no [extend] on a [Single] handle panics after it has changed the contents. *)
Definition xlegal (K : nat -> kind) (ts : list node) (o : xop) : Prop :=
  legal K (length ts) (use o) /\
  match use o with
  | Extend i _ => K i = Single -> snd (vxstep ts o) = Some Done \/ fst (vxstep ts o) = ts
  | _ => True
  end.
Fixpoint xrespects (K : nat -> kind) (ts : list node) (os : list xop) : Prop :=
  match os with
  | [] => True
  | o :: os' => xlegal K ts o /\ xrespects K (fst (vxstep ts o)) os'
  end.
End Caught.
