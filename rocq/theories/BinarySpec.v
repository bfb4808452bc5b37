(** What is said about saving and loading in a binary format (C74). *)
From Coq Require Import String.
From Verif Require Import Base Nibbles Trie Cache CacheFacts CacheSpec Serde Json JsonSpec Text Binary.
Open Scope N_scope.
Open Scope list_scope.

(** A [Vec] has fewer than 2^64 elements. *)
Definition vec (v : list N) : Prop := N.of_nat (length v) < 2 ^ 64.
Fixpoint vecs (t : node) : Prop :=
  match t with
  | Empty | Hash _ => True
  | Branch ch v => vec v /\ fold_right and True (map vecs ch)
  | Extension _ c => vecs c
  | Leaf _ v => vec v
  end.

(** ** The layout *)
(** The [k] bytes of a number, the lowest first. *)
Definition little (k : nat) (n : N) : list N := map (fun i => n / 256 ^ N.of_nat i mod 256) (seq 0 k).
Definition digit_char (d : N) : N := if d <? 10 then 48 + d else 87 + d.
(** A string or a list of bytes. *)
Definition counted (l : list N) : list N := little 8 (N.of_nat (length l)) ++ l.
(** Hex digits: two for each byte of a hash; for a number as few as possible, but at least one. *)
Definition hash_text (h : list N) : list N := counted (txt "0x" ++ flat_map (fun b => [digit_char (b / 16); digit_char (b mod 16)]) h).
Definition few_digits (n : N) (l : list N) : Prop :=
  fold_left (fun a d => 16 * a + d) l 0 = n /\ Forall (fun d => d < 16) l /\ (hd 0 l <> 0 \/ l = [0]).
(** The bytes of a key, of a trie. *)
Inductive key_layout (n : nibbles) : list N -> Prop :=
| kl l : few_digits (packed n) l -> key_layout n (little 8 (count n) ++ counted (txt "0x" ++ map digit_char l)).
Inductive layout : node -> list N -> Prop :=
| l_empty : layout Empty (little 4 0)
| l_hash h : layout (Hash h) (little 4 1 ++ hash_text h)
| l_branch ch v bss : Forall2 layout ch bss -> layout (Branch ch v) (little 4 2 ++ concat bss ++ counted v)
| l_extension n c k bs : key_layout n k -> layout c bs -> layout (Extension n c) (little 4 3 ++ k ++ bs)
| l_leaf n v k : key_layout n k -> layout (Leaf n v) (little 4 4 ++ k ++ counted v).
(** With the cells of a caching trie. *)
Definition cell_layout (o : option (list N)) : list N := match o with Some h => [1] ++ hash_text h | None => [0] end.
Inductive hlayout (s : store) : hnode -> list N -> Prop :=
| hl_empty c : hlayout s (HEmpty c) (little 4 0 ++ cell_layout (s c))
| hl_hash c h : hlayout s (HHash c h) (little 4 1 ++ hash_text h ++ cell_layout (s c))
| hl_branch c ch v bss : Forall2 (hlayout s) ch bss -> hlayout s (HBranch c ch v) (little 4 2 ++ concat bss ++ counted v ++ cell_layout (s c))
| hl_extension c n t k bs : key_layout n k -> hlayout s t bs -> hlayout s (HExtension c n t) (little 4 3 ++ k ++ bs ++ cell_layout (s c))
| hl_leaf c n v k : key_layout n k -> hlayout s (HLeaf c n v) (little 4 4 ++ k ++ counted v ++ cell_layout (s c)).

(** ** Parts of a file *)
Definition starts {A} (a b : list A) : Prop := exists c, b = a ++ c.
Definition cut_short {A} (a b : list A) : Prop := exists c, c <> [] /\ b = a ++ c.

(** Tries read one after the other until nothing is left. *)
Inductive in_turn {A} (load_from : list N -> option (A * list N)) : list N -> list A -> Prop :=
| it_nil : in_turn load_from [] []
| it_cons bs x rest xs : load_from bs = Some (x, rest) -> in_turn load_from rest xs -> in_turn load_from bs (x :: xs).
(** What the cells of the nodes of a handle hold, in order. *)
Definition held (s : store) (t : hnode) : list (option (list N)) := map (fun u => s (cell u)) (nodes t).

(** ** Programs *)
(** Saving a handle, and loading the result with [unwrap]. *)
Definition hreload_binary (t : hnode) : prog hnode := bs <~ hsave t ;; r <~ hload bs ;; match r with Some u => Ret u | None => Fail end.
(** As [hstep] and [hrun], but [Reload] goes through the bytes. *)
Definition bstep (keccak : list N -> list N) (pr : profile) (ts : list hnode) (o : op) : prog (list hnode * obs) :=
  match o with
  | Reload i => t <~ lift (the ts i) ;; t' <~ hreload_binary t ;; Ret (ts ++ [t'], Done)
  | _ => hstep keccak pr ts o
  end.
Fixpoint brun (keccak : list N -> list N) (pr : profile) (ts : list hnode) (os : list op) : prog (list hnode * list obs) :=
  match os with
  | [] => Ret (ts, [])
  | o :: os' => '(ts', x) <~ bstep keccak pr ts o ;; '(ts'', xs) <~ brun keccak pr ts' os' ;; Ret (ts'', x :: xs)
  end.
