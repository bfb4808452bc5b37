(** What is said about keys, values and reports in hash sets and maps (C75). *)
From Verif Require Import Base Nibbles Trie JsonSpec BinarySpec Query Diff HashKey.
Open Scope N_scope.
Open Scope list_scope.

(** Values of the Rust types. *)
Definition value_fits (v : val_or_hash) : Prop := match v with Val b => u8s b /\ vec b | HashV h => h256 h end.
Definition seg_fits (s : segment) : Prop := match s with SEmpty | SHash => True | SBranch b => b < 256 | SExtension n | SLeaf n => key_type n end.
Definition path_fits (p : list segment) : Prop := N.of_nat (length p) < 2 ^ 64 /\ Forall seg_fits p.
Definition info_fits (i : node_info) : Prop := key_type (i_key i) /\ (forall v, i_value i = Some v -> u8s v /\ vec v) /\ h256 (i_hash i).
Definition point_fits (d : diff_point) : Prop := d_depth d < 2 ^ 64 /\ path_fits (d_path d) /\ key_type (d_key d) /\ info_fits (a_info d) /\ info_fits (b_info d).

(** A type is fit for hash sets: [==] is equality; what is handed to the hasher says exactly which value it is, also when it is followed by other data. *)
Definition good_hash {A} (fits : A -> Prop) (hashed : A -> list N) (eqb : A -> A -> bool) : Prop :=
  (forall a b, eqb a b = true <-> a = b) /\
  (forall a b, fits a -> fits b -> starts (hashed a) (hashed b) -> a = b).

(** Programs on a map. *)
(** Each operation returns what the map had for the key. *)
Definition function_step {K V} (m : K -> option V) (o : map_op K V) (m' : K -> option V) (out : option V) : Prop :=
  match o with
  | MInsert k v => out = m k /\ m' k = Some v /\ forall j, j <> k -> m' j = m j
  | MRemove k => out = m k /\ m' k = None /\ forall j, j <> k -> m' j = m j
  | MGet k => out = m k /\ forall j, m' j = m j
  end.
Inductive function_run {K V} : (K -> option V) -> list (map_op K V) -> (K -> option V) -> list (option V) -> Prop :=
| fr_nil m : function_run m [] m []
| fr_cons m o m' out os m'' outs : function_step m o m' out -> function_run m' os m'' outs -> function_run m (o :: os) m'' (out :: outs).
