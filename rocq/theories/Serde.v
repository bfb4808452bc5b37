(** Model of the derived [Serialize] and [Deserialize] of [Nibbles] (nibbles.rs:107), [Node] (partial_trie.rs:117-148),
    [StandardTrie] (partial_trie.rs:196-197) and [HashedPartialTrie] (partial_trie.rs:287-291), down to serde's data model. The format
    (JSON, bincode, ...) is taken to give back the data that it was given. *)
From Verif Require Import Base Nibbles Trie Cache.
Open Scope N_scope.

(** The names of fields and variants. *)
Inductive name : Type :=
| f_count | f_packed | f_children | f_value | f_nibbles | f_child | f_node | f_hash
| v_Empty | v_Hash | v_Branch | v_Extension | v_Leaf.

(** The part of serde's data model that is used. [H256] and [U512] are written by the crate [impl-serde] as hex text, which stays the
    value here. *)
Inductive data : Type :=
| DU8 (n : N)
| DU64 (n : N)
| DU512 (n : N)
| DH256 (h : list N)
| DNone
| DSome (d : data)
| DSeq (l : list data)
| DTuple (l : list data)
| DNewtype (d : data)
| DStruct (fields : list (name * data))
| DUnitVariant (v : name)
| DNewtypeVariant (v : name) (d : data)
| DStructVariant (v : name) (fields : list (name * data)).

(** ** The parts *)
(** [Vec<u8>]. *)
Definition ser_bytes (b : list N) : data := DSeq (map DU8 b).
Fixpoint de_u8s (l : list data) : option (list N) :=
  match l with
  | [] => Some []
  | DU8 n :: l' => match de_u8s l' with Some b => Some (n :: b) | None => None end
  | _ => None
  end.
Definition de_bytes (d : data) : option (list N) := match d with DSeq l => de_u8s l | _ => None end.

(** nibbles.rs:107-114 [struct Nibbles]: nothing relates [count] to [packed]. Of the forms that a derived [Deserialize] of a struct
    accepts only the one that the derived [Serialize] makes is modelled, here and below: all fields, in the order of their
    declaration. *)
Definition ser_nibbles (n : nibbles) : data := DStruct [(f_count, DU64 (count n)); (f_packed, DU512 (packed n))].
Definition de_nibbles (d : data) : option nibbles :=
  match d with DStruct [(f_count, DU64 c); (f_packed, DU512 p)] => Some (Nib c p) | _ => None end.

(** [Option<H256>]; [Arc] and [RwLock] serialise as what they hold. *)
Definition ser_cached (o : option (list N)) : data := match o with Some h => DSome (DH256 h) | None => DNone end.
Definition de_cached (d : data) : option (option (list N)) :=
  match d with DNone => Some None | DSome (DH256 h) => Some (Some h) | _ => None end.

(** An array of 16 elements is a tuple of 16 elements. *)
Definition sixteen {A} (l : list A) : bool := Nat.eqb (length l) 16.

(** ** [StandardTrie] *)
Fixpoint serialize (t : node) : data :=
  DNewtype (match t with
            | Empty => DUnitVariant v_Empty
            | Hash h => DNewtypeVariant v_Hash (DH256 h)
            | Branch ch v => DStructVariant v_Branch [(f_children, DTuple (map serialize ch)); (f_value, ser_bytes v)]
            | Extension n c => DStructVariant v_Extension [(f_nibbles, ser_nibbles n); (f_child, serialize c)]
            | Leaf n v => DStructVariant v_Leaf [(f_nibbles, ser_nibbles n); (f_value, ser_bytes v)]
            end).
Fixpoint deserialize (d : data) : option node :=
  match d with
  | DNewtype (DUnitVariant v_Empty) => Some Empty
  | DNewtype (DNewtypeVariant v_Hash (DH256 h)) => Some (Hash h)
  | DNewtype (DStructVariant v_Branch [(f_children, DTuple l); (f_value, dv)]) =>
      if sixteen l then
        match (fix go (l : list data) : option (list node) :=
                 match l with
                 | [] => Some []
                 | d :: l' => match deserialize d with Some c => match go l' with Some ch => Some (c :: ch) | None => None end | None => None end
                 end) l, de_bytes dv with
        | Some ch, Some v => Some (Branch ch v)
        | _, _ => None
        end
      else None
  | DNewtype (DStructVariant v_Extension [(f_nibbles, dn); (f_child, dc)]) =>
      match de_nibbles dn, deserialize dc with Some n, Some c => Some (Extension n c) | _, _ => None end
  | DNewtype (DStructVariant v_Leaf [(f_nibbles, dn); (f_value, dv)]) =>
      match de_nibbles dn, de_bytes dv with Some n, Some v => Some (Leaf n v) | _, _ => None end
  | _ => None
  end.

(** ** [HashedPartialTrie] *)
(** [serialize] reads the cell of every node, after the node itself. *)
Fixpoint hserialize (t : hnode) : prog data :=
  dn <~ match t with
        | HEmpty _ => Ret (DUnitVariant v_Empty)
        | HHash _ h => Ret (DNewtypeVariant v_Hash (DH256 h))
        | HBranch _ ch v =>
            ds <~ (fix go (l : list hnode) : prog (list data) :=
                     match l with
                     | [] => Ret []
                     | c :: l' => d <~ hserialize c ;; ds <~ go l' ;; Ret (d :: ds)
                     end) ch ;;
            Ret (DStructVariant v_Branch [(f_children, DTuple ds); (f_value, ser_bytes v)])
        | HExtension _ n c => d <~ hserialize c ;; Ret (DStructVariant v_Extension [(f_nibbles, ser_nibbles n); (f_child, d)])
        | HLeaf _ n v => Ret (DStructVariant v_Leaf [(f_nibbles, ser_nibbles n); (f_value, ser_bytes v)])
        end ;;
  Read (cell t) (fun o => Ret (DStruct [(f_node, dn); (f_hash, ser_cached o)])).

(** [Arc::new(RwLock::new(o))]. *)
Definition new_cell (mk : N -> hnode) (o : option (list N)) : prog (option hnode) := Alloc (fun c => Write c o (Ret (Some (mk c)))).

(** [deserialize] makes a new cell for every node, with the hash that was saved. *)
Fixpoint hdeserialize (d : data) : prog (option hnode) :=
  match d with
  | DStruct [(f_node, dn); (f_hash, dh)] =>
      r <~ match dn with
           | DUnitVariant v_Empty => Ret (Some HEmpty)
           | DNewtypeVariant v_Hash (DH256 h) => Ret (Some (fun c => HHash c h))
           | DStructVariant v_Branch [(f_children, DTuple l); (f_value, dv)] =>
               if sixteen l then
                 ch <~ (fix go (l : list data) : prog (option (list hnode)) :=
                          match l with
                          | [] => Ret (Some [])
                          | d :: l' =>
                              r <~ hdeserialize d ;;
                              match r with
                              | Some c => rs <~ go l' ;; Ret (match rs with Some ch => Some (c :: ch) | None => None end)
                              | None => Ret None
                              end
                          end) l ;;
                 Ret (match ch, de_bytes dv with Some ch, Some v => Some (fun c => HBranch c ch v) | _, _ => None end)
               else Ret None
           | DStructVariant v_Extension [(f_nibbles, dn); (f_child, dc)] =>
               match de_nibbles dn with
               | Some n => r <~ hdeserialize dc ;; Ret (match r with Some t => Some (fun c => HExtension c n t) | None => None end)
               | None => Ret None
               end
           | DStructVariant v_Leaf [(f_nibbles, dn); (f_value, dv)] =>
               Ret (match de_nibbles dn, de_bytes dv with Some n, Some v => Some (fun c => HLeaf c n v) | _, _ => None end)
           | _ => Ret None
           end ;;
      match r, de_cached dh with Some mk, Some o => new_cell mk o | _, _ => Ret None end
  | _ => Ret None
  end.

(** Saving and loading again: [serialize], then [deserialize] with [unwrap]. *)
Definition reload (t : node) : res node := match deserialize (serialize t) with Some u => Ok u | None => Panic end.
Definition hreload (t : hnode) : prog hnode :=
  d <~ hserialize t ;; r <~ hdeserialize d ;; match r with Some u => Ret u | None => Fail end.
