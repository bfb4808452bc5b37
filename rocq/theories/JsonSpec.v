(** What is said about saving and loading as JSON (C61). *)
From Coq Require Import Permutation.
From Verif Require Import Base Nibbles Trie Serde Json.
Open Scope N_scope.

(** ** Values of the Rust types *)
Definition u8s (l : list N) : Prop := Forall (fun b => b < 256) l.
Definition h256 (h : list N) : Prop := length h = 32%nat /\ u8s h.
Definition key_type (n : nibbles) : Prop := count n < 2 ^ 64 /\ packed n < 2 ^ 512.
Inductive node_type : node -> Prop :=
| nt_empty : node_type Empty
| nt_hash h : h256 h -> node_type (Hash h)
| nt_branch ch v : length ch = 16%nat -> (forall c, In c ch -> node_type c) -> u8s v -> node_type (Branch ch v)
| nt_extension n c : key_type n -> node_type c -> node_type (Extension n c)
| nt_leaf n v : key_type n -> u8s v -> node_type (Leaf n v).

(** ** Other texts of the same trie *)
Definition is_field (k : key) : Prop :=
  match k with KName (f_count | f_packed | f_children | f_value | f_nibbles | f_child | f_node | f_hash) => True | _ => False end.
Definition has_field (l : list (key * doc)) : Prop := exists e, In e l /\ is_field (fst e).
(** The structs: their fields, in order. *)
Definition struct (a b : name) : Prop :=
  In (a, b) [(f_count, f_packed); (f_children, f_value); (f_nibbles, f_child); (f_nibbles, f_value); (f_node, f_hash)].

(** [rewritten d d']: [d'] is [d] with some of these changes, anywhere in it: the entries of an object in another order; an entry with an
    unknown name added to the fields of a struct, or removed; [null] for a cached hash added, or removed; a struct as an array. *)
Inductive rewritten : doc -> doc -> Prop :=
| rw_same d : rewritten d d
| rw_trans a b c : rewritten a b -> rewritten b c -> rewritten a c
| rw_array l l' : Forall2 rewritten l l' -> rewritten (JArray l) (JArray l')
| rw_object ks ds ds' : length ks = length ds -> Forall2 rewritten ds ds' -> rewritten (JObject (combine ks ds)) (JObject (combine ks ds'))
| rw_order l l' : Permutation l l' -> rewritten (JObject l) (JObject l')
| rw_extra l s d : has_field l -> rewritten (JObject l) (JObject (l ++ [(KOther s, d)]))
| rw_no_extra l s d : rewritten (JObject (l ++ [(KOther s, d)])) (JObject l)
| rw_null l : (exists d, In (KName f_node, d) l) -> ~ (exists d, In (KName f_hash, d) l) ->
    rewritten (JObject l) (JObject (l ++ [(KName f_hash, JNull)]))
| rw_no_null l : rewritten (JObject (l ++ [(KName f_hash, JNull)])) (JObject l)
| rw_positions a b x y : struct a b -> rewritten (JObject [(KName a, x); (KName b, y)]) (JArray [x; y]).

(** Only the order of the entries of objects, anywhere. *)
Inductive reordered : doc -> doc -> Prop :=
| ro_same d : reordered d d
| ro_trans a b c : reordered a b -> reordered b c -> reordered a c
| ro_array l l' : Forall2 reordered l l' -> reordered (JArray l) (JArray l')
| ro_object ks ds ds' : length ks = length ds -> Forall2 reordered ds ds' -> reordered (JObject (combine ks ds)) (JObject (combine ks ds'))
| ro_order l l' : Permutation l l' -> reordered (JObject l) (JObject l').

(** ** Texts without cached hashes *)
(** Entries named "hash" are [null], and no array holds a string of hex digits. *)
Inductive bare : doc -> Prop :=
| bare_null : bare JNull
| bare_num n : bare (JNum n)
| bare_hex l : bare (JHex l)
| bare_string k : bare (JString k)
| bare_other : bare JOther
| bare_array l : (forall d, In d l -> bare d /\ forall x, d <> JHex x) -> bare (JArray l)
| bare_object l : (forall k d, In (k, d) l -> bare d /\ (k = KName f_hash -> d = JNull)) -> bare (JObject l).

(** ** Nesting *)
(** The nodes on the longest way down, without empty ones. *)
Fixpoint height (t : node) : N :=
  match t with
  | Empty => 0
  | Hash _ | Leaf _ _ => 1
  | Branch ch _ => 1 + fold_right N.max 0 (map height ch)
  | Extension _ c => 1 + height c
  end.
(** Brackets around the innermost value of the text of a trie. [own] is 1 for caching tries, whose nodes have one more pair of brackets. *)
Fixpoint brackets (own : N) (t : node) : N :=
  own + match t with
        | Empty => 0
        | Hash _ => 1
        | Branch ch _ => 3 + fold_right N.max 0 (map (brackets own) ch)
        | Extension _ c => N.max 3 (2 + brackets own c)
        | Leaf _ _ => 3
        end.
