(** Property C48, continued: the settings of a query. *)
From Coq Require Import String.
From Verif Require Import Base Nibbles NibblesSpec NibblesFacts Trie TrieSpec P_Trie Query Rlp Hashing Cache Diff P_Query Text TextSpec TextFacts P_Text QueryBuild.
Open Scope N_scope.
Open Scope list_scope.

(** ** Specification *)
(** The calls of a program on a builder, in order. *)
Inductive setting : Type := KeyPieces (b : bool) | NodeTypes (b : bool) | NodeValues (b : bool).
Definition call (p : query_params) (c : setting) : query_params :=
  match c with
  | KeyPieces b => print_key_pieces p b
  | NodeTypes b => print_node_type p b
  | NodeValues b => print_node_specific_values p b
  end.
(** The last call of a kind decides; [d] if there is none. *)
Definition decided (f : setting -> option bool) (d : bool) (cs : list setting) : bool :=
  last (flat_map (fun c => match f c with Some b => [b] | None => [] end) cs) d.
Definition pieces_shown := decided (fun c => match c with KeyPieces b => Some b | _ => None end) true.
Definition types_shown := decided (fun c => match c with NodeTypes b => Some b | _ => None end) true.
Definition values_shown := decided (fun c => match c with NodeValues b => Some b | _ => None end) false.

(** ** Facts *)
Lemma decided_snoc f d cs c : decided f d (cs ++ [c]) = match f c with Some b => b | None => decided f d cs end.
Proof. unfold decided. rewrite flat_map_app. cbn [flat_map]. rewrite app_nil_r. destruct (f c); [apply last_last|rewrite app_nil_r; reflexivity]. Qed.
Lemma calls_params cs : fold_left call cs new_builder = QParams (pieces_shown cs) (types_shown cs) (values_shown cs).
Proof.
  induction cs as [|c cs IH] using rev_ind; [reflexivity|]. rewrite fold_left_app. cbn [fold_left]. rewrite IH. unfold pieces_shown, types_shown, values_shown.
  rewrite !decided_snoc. destruct c; reflexivity.
Qed.

(** ** Theorems *)
(** After any calls on the builder the output of the query is that of the key alone, and its text shows what the last calls asked for. *)
Theorem C48_builder : forall pr t k cs out, wf 64 t -> kwf k -> get_path_from_query pr t k = Ok out ->
  exists o, run_query pr t (build (fold_left call cs new_builder) k) = Ok o /\ fst o = out /\
  print_output pr o = Ok (shown_query {| include_key_piece := pieces_shown cs; include_node_type := types_shown cs; include_values := values_shown cs |} out).
Proof.
  intros pr t k cs out W Hk E. rewrite calls_params. unfold run_query, build. cbn [dq_key dq_params]. rewrite E. cbn [bind]. eexists. split; [reflexivity|].
  split; [reflexivity|]. unfold print_output. cbn [fst snd]. exact (C48_query_text pr _ t k out W Hk E).
Qed.
(** A key by itself is the query that a new builder makes of it. *)
Theorem C48_plain_key : forall k, query_of_key k = build new_builder k.
Proof. reflexivity. Qed.
Example C48_builder_example :
  let t := Leaf (Nib 2 18) [7] in let k := Nib 2 18 in
  wf 64 t /\ kwf k /\
  (o <- run_query Debug t (build (fold_left call [NodeTypes false; NodeValues true; KeyPieces false; NodeTypes true] new_builder) k) ;; print_output Debug o) =
  Ok (txt "Query Result {" ++ [10] ++ txt "Queried Key: 0x12" ++ [10] ++ txt "Node found: true" ++ [10] ++ txt "}" ++ [10] ++ txt "Query path:" ++ [10] ++ txt "Leaf(Extra Seg Info: Leaf Value: 07)").
Proof.
  cbn zeta. split; [change (Nib 2 18) with (enc [1; 2]); constructor; [repeat constructor; lia|cbn; lia]|]. split; [split; vm_compute; [reflexivity|discriminate]|]. vm_compute. reflexivity.
Qed.

Print Assumptions C48_builder.
Print Assumptions C48_plain_key.
