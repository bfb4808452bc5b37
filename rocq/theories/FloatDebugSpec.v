(** What the [Debug] output of the types of stats.rs should say. Only specification vocabulary. *)
From Coq Require Import String SpecFloat QArith Qabs.
From Verif Require Import Base Nibbles NibblesSpec Trie TrieSpec Query Rlp Hashing Cache Diff Text TextSpec Stats FloatSpec DebugTextSpec.
Open Scope Q_scope.
Open Scope list_scope.

(** The [f32]s that occur: not a number, infinite, zero, or a positive number with all 24 bits. *)
Definition normal (m : positive) (e : Z) : Prop := (2 ^ 23 <= N.pos m < 2 ^ 24)%N /\ (-149 <= e <= 104)%Z.
Definition proper (x : f32) : Prop :=
  match x with S754_nan => True | S754_infinity s | S754_zero s => s = false | S754_finite s m e => s = false /\ normal m e end.

(** [l] writes the number [v]: decimal digits with a point among them, or one digit, perhaps more after a point, and a power of ten. *)
Definition digits (l : list N) : Prop := l <> [] /\ Forall (fun c => (48 <= c <= 57)%N) l.
Definition denotes (l : list N) (v : Q) : Prop :=
  (exists k n, writes k l n /\ v == q_of n / q_of (10 ^ N.of_nat k)) \/
  (exists d ds xs (minus : bool), l = (d :: match ds with [] => [] | _ => 46%N :: ds end) ++ 101%N :: (if minus then [45%N] else []) ++ xs /\
    digits (d :: ds) /\ digits xs /\
    v == q_of (undec (d :: ds)) / q_of (10 ^ N.of_nat (length ds)) * (if minus then / q_of (10 ^ undec xs) else q_of (10 ^ undec xs))).
(** [x] is the [f32] that [v] is rounded to: the nearest one; one with an even mantissa if another one is as near. *)
Definition rounds_to (v : Q) (m : positive) (e : Z) : Prop :=
  forall m' e', normal m' e' -> (m', e') <> (m, e) ->
  let x := inject_Z (Z.pos m) * 2 ^ e in
  let y := inject_Z (Z.pos m') * 2 ^ e' in
  Qabs (v - x) <= Qabs (v - y) /\ (Qabs (v - x) == Qabs (v - y) -> N.even (N.pos m) = true).

(** Neither the least nor the greatest of these numbers. [rounds_to] does not see their neighbours. *)
Definition inner (m : positive) (e : Z) : Prop := (m, e) <> (8388608%positive, -149)%Z /\ (m, e) <> (16777215%positive, 104)%Z.
(** No zeros that could be left out: digits, a point and digits; or an exponent behind one digit, perhaps with a point and more digits. *)
Definition tidy_plain (l : list N) : Prop :=
  exists a b, l = a ++ 46%N :: b /\ digits a /\ digits b /\ (a = [48%N] \/ hd 48%N a <> 48%N) /\ (b = [48%N] \/ last b 48%N <> 48%N).
Definition tidy_exp (l : list N) : Prop :=
  exists d ds xs (minus : bool), l = (d :: match ds with [] => [] | _ => 46%N :: ds end) ++ 101%N :: (if minus then [45%N] else []) ++ xs /\
    digits (d :: ds) /\ digits xs /\ d <> 48%N /\ last (d :: ds) 48%N <> 48%N /\ (xs = [48%N] \/ hd 48%N xs <> 48%N).

(** Names in printable ASCII. Quotes and backslashes are preceded by a backslash. *)
Definition printable (s : list N) : Prop := Forall (fun c => (32 <= c <= 126)%N) s.
Definition quoted (s : list N) : list N := [34%N] ++ flat_map (fun c => if N.eqb c 34 then txt "\""" else if N.eqb c 92 then txt "\\" else [c]) s ++ [34%N].
(** One line; [fl x] is the text of the number [x]. *)
Definition line_counts (c : node_counts) : list N :=
  line_struct "NodeCounts" [("empty"%string, dec (n_empty c)); ("hash"%string, dec (n_hash c)); ("branch"%string, dec (n_branch c)); ("extension"%string, dec (n_extension c));
                            ("leaf"%string, dec (n_leaf c))].
Definition line_stats (fl : f32 -> list N) (s : trie_stats) : list N :=
  line_struct "TrieStats" [("name"%string, line_option quoted (name s)); ("counts"%string, line_counts (s_counts s));
    ("depth_stats"%string, line_struct "DepthStats" [("lowest_depth"%string, dec (s_lowest_depth s)); ("avg_leaf_depth"%string, fl (avg_leaf_depth s));
                                                    ("avg_hash_depth"%string, fl (avg_hash_depth s))])].
Definition line_ratio {A} (f : A -> list N) (r : A * A) : list N := line_struct "RatioStat" [("a"%string, f (fst r)); ("b"%string, f (snd r))].
Definition line_comparison (fl : f32 -> list N) (c : comparison_of) : list N :=
  line_struct "TrieComparison"
    [("node_comp"%string, line_struct "NodeComparison"
       [("tot_node_rat"%string, line_ratio dec (tot_node_rat c)); ("non_empty_rat"%string, line_ratio dec (non_empty_rat c)); ("empty_rat"%string, line_ratio dec (empty_rat c));
        ("hash_rat"%string, line_ratio dec (hash_rat c)); ("branch_rat"%string, line_ratio dec (branch_rat c)); ("extension_rat"%string, line_ratio dec (extension_rat c));
        ("leaf_rat"%string, line_ratio dec (leaf_rat c))]);
     ("depth_comp"%string, line_struct "DepthComparison"
       [("lowest_depth_rat"%string, line_ratio dec (lowest_depth_rat c)); ("avg_leaf_depth_rat"%string, line_ratio fl (avg_leaf_depth_rat c));
        ("avg_hash_depth_rat"%string, line_ratio fl (avg_hash_depth_rat c))])].
(** Everything in them is of the kinds above. *)
Definition name_ok (o : option (list N)) : Prop := match o with Some n => printable n | None => True end.
Definition proper_stats (s : trie_stats) : Prop :=
  name_ok (name s) /\ proper (avg_leaf_depth s) /\ proper (avg_hash_depth s).
Definition proper_comparison (c : comparison_of) : Prop :=
  (proper (fst (avg_leaf_depth_rat c)) /\ proper (snd (avg_leaf_depth_rat c))) /\ (proper (fst (avg_hash_depth_rat c)) /\ proper (snd (avg_hash_depth_rat c))).
