(** Model of how deep the calls nest in code that the compiler derives for tries (partial_trie.rs:117-148 [Node], 196-197 [StandardTrie]): dropping a trie, [Debug],
    [Serialize], and [Deserialize] as driven by bincode. Continues Stack.v; each level of a trie is a fixed number of frames ([Arc], [Box], the trie, [Node], the
    formatter's or serde's helpers). *)
From Coq Require Import String.
From Verif Require Import Base Nibbles Trie Serde Json Text DebugText JsonText Binary Stack.
Open Scope N_scope.
Open Scope list_scope.

(** Dropping a trie. [shared] tells, for each position (the numbers of the children on the way to it, the last one first), whether another handle refers to that
    node: then only its reference count changes. partial_trie.rs:30-31 [WrappedNode] is an [Arc]. *)
Fixpoint drop_lim (d : nat) (shared : list nat -> bool) (path : list nat) (t : node) : lim unit :=
  match d with
  | O => None
  | S d =>
      match t with
      | Branch children _ =>
          (fix go (i : nat) (l : list node) {struct l} : lim unit :=
             match l with
             | [] => lret tt
             | c :: l' => let! _ := (if shared (i :: path) then lret tt else drop_lim d shared (i :: path) c) in go (S i) l'
             end) O children
      | Extension _ child => if shared (O :: path) then lret tt else drop_lim d shared (O :: path) child
      | _ => lret tt
      end
  end.

(** The derived [Serialize], as [serialize] in Serde.v. *)
Fixpoint serialize_lim (d : nat) (t : node) : lim data :=
  match d with
  | O => None
  | S d =>
      let! n := match t with
                | Empty => lret (DUnitVariant v_Empty)
                | Hash h => lret (DNewtypeVariant v_Hash (DH256 h))
                | Branch ch v =>
                    let! l := (fix go (l : list node) {struct l} : lim (list data) :=
                                 match l with [] => lret [] | c :: l' => let! x := serialize_lim d c in let! xs := go l' in lret (x :: xs) end) ch in
                    lret (DStructVariant v_Branch [(f_children, Serde.DTuple l); (f_value, ser_bytes v)])
                | Extension n c => let! x := serialize_lim d c in lret (DStructVariant v_Extension [(f_nibbles, ser_nibbles n); (f_child, x)])
                | Leaf n v => lret (DStructVariant v_Leaf [(f_nibbles, ser_nibbles n); (f_value, ser_bytes v)])
                end in
      lret (DNewtype n)
  end.

(** The derived [Debug], as [trie_dbg] in DebugText.v. *)
Fixpoint debug_lim (d : nat) (pr : profile) (t : node) : lim dbg :=
  match d with
  | O => None
  | S d =>
      let! n := match t with
                | Empty => lret (DWord (txt "Empty"))
                | Hash h => lret (DTuple (txt "Hash") [h256_dbg h])
                | Branch children v =>
                    let! ch := (fix go (l : list node) {struct l} : lim (list dbg) :=
                                  match l with [] => lret [] | c :: l' => let! x := debug_lim d pr c in let! xs := go l' in lret (x :: xs) end) children in
                    lret (DStruct (txt "Branch") [(txt "children", DList ch); (txt "value", bytes_dbg v)])
                | Extension n child =>
                    let! k := flat (key_dbg pr n) in let! c := debug_lim d pr child in
                    lret (DStruct (txt "Extension") [(txt "nibbles", k); (txt "child", c)])
                | Leaf n v => let! k := flat (key_dbg pr n) in lret (DStruct (txt "Leaf") [(txt "nibbles", k); (txt "value", bytes_dbg v)])
                end in
      lret (DTuple (txt "StandardTrie") [n])
  end.

(** The derived [Deserialize] on bincode's reader, as [get_trie] and [load_from] in Binary.v. [None]: the stack is exhausted; [Some None]: an error. *)
Definition lreader (A : Type) : Type := list N -> option (option (A * list N)).
Definition calm {A} (p : reader A) : lreader A := fun bs => Some (p bs).
Definition lnext {A B} (p : lreader A) (f : A -> lreader B) : lreader B :=
  fun bs => match p bs with None => None | Some None => Some None | Some (Some (a, bs')) => f a bs' end.
Fixpoint lget_times {A} (k : nat) (p : lreader A) : lreader (list A) :=
  match k with O => calm (get []) | S k' => lnext p (fun x => lnext (lget_times k' p) (fun xs => calm (get (x :: xs)))) end.
Definition lget_node (child : lreader data) : lreader data :=
  lnext (calm (get_int 4)) (fun v =>
  match v with
  | 0 => calm (get (DUnitVariant v_Empty))
  | 1 => lnext (calm get_h256) (fun h => calm (get (DNewtypeVariant v_Hash h)))
  | 2 => lnext (lget_times 16 child) (fun ch => lnext (calm get_bytes) (fun v => calm (get (DStructVariant v_Branch [(f_children, Serde.DTuple ch); (f_value, v)]))))
  | 3 => lnext (calm get_nibbles) (fun n => lnext child (fun c => calm (get (DStructVariant v_Extension [(f_nibbles, n); (f_child, c)]))))
  | 4 => lnext (calm get_nibbles) (fun n => lnext (calm get_bytes) (fun v => calm (get (DStructVariant v_Leaf [(f_nibbles, n); (f_value, v)]))))
  | _ => calm bad
  end).
Fixpoint lget_trie (d : nat) : lreader data :=
  match d with O => fun _ => None | S d => lnext (lget_node (lget_trie d)) (fun x => calm (get (DNewtype x))) end.
Definition load_lim (d : nat) (bs : list N) : lim (option (node * list N)) :=
  match lget_trie d bs with
  | None => None
  | Some None => lret None
  | Some (Some (x, rest)) => lret (match deserialize x with Some t => Some (t, rest) | None => None end)
  end.
