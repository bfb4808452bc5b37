(** Model of the builder of path queries in /repo/src/debug_tools/query.rs. *)
From Verif Require Import Base Nibbles Trie Query Rlp Hashing Cache Diff Text.

(** query.rs:46-49 [DebugQueryParamsBuilder] (derived [Default]), 51-69 its three setters. *)
Definition new_builder : query_params := default_params.
Definition print_key_pieces (b : query_params) (enabled : bool) : query_params := QParams enabled (include_node_type b) (include_values b).
Definition print_node_type (b : query_params) (enabled : bool) : query_params := QParams (include_key_piece b) enabled (include_values b).
Definition print_node_specific_values (b : query_params) (enabled : bool) : query_params := QParams (include_key_piece b) (include_node_type b) enabled.
(** query.rs:80-83 [struct DebugQuery], 70-75 [build] (the key is converted by the caller's [Into]), 85-92 [From<Nibbles> for DebugQuery]. *)
Record debug_query : Type := Query { dq_key : nibbles; dq_params : query_params }.
Definition build (b : query_params) (k : nibbles) : debug_query := Query k b.
Definition query_of_key (k : nibbles) : debug_query := Query k default_params.
(** query.rs:253-263 [get_path_from_query] and 164-192 printing its output, which carries the parameters along (155-162, 195-203). *)
Definition run_query (pr : profile) (t : node) (q : debug_query) : res (query_output * query_params) :=
  out <- get_path_from_query pr t (dq_key q) ;;
  Ok (out, dq_params q).
Definition print_output (pr : profile) (o : query_output * query_params) : res (list N) := query_text pr (snd o) (fst o).
