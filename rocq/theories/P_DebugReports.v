(** Property C63, for the results of the API: the [Debug] texts of what queries and comparisons of tries return. *)
From Coq Require Import String.
From Verif Require Import Base Nibbles NibblesSpec NibblesFacts NibblesFacts2 NibblesFacts3 Trie TrieSpec TrieFacts TrieHistSpec TrieHist Query Diff P_Query Text TextSpec TextFacts P_Text.
From Verif Require Import Rlp Hashing Keccak HashSpec Subset Cache CacheSpec P_Trie P_Hash P_Diff DebugText DebugTextSpec DebugTextFacts DebugTextFacts2 DebugTextFacts3 P_DebugText.
From Verif Require Import Trie TrieSpec Cache Query Diff.
Open Scope N_scope.
Open Scope list_scope.

Lemma kwf_shown k : kwf k -> short k /\ exact k.
Proof. intros [A B]. split; [unfold short; lia|exact A]. Qed.
Lemma path_keys_ok p : Forall segment_ok p -> Forall (fun k => short k /\ exact k) (path_keys p).
Proof.
  induction 1 as [|s p H _ IH]; [constructor|]. unfold path_keys. cbn [flat_map]. apply Forall_app. split; [|exact IH].
  destruct s; try constructor; try constructor; apply kwf_shown; exact H.
Qed.
Lemma both {A} (P Q : A -> Prop) l : Forall (fun a => P a /\ Q a) l -> Forall P l /\ Forall Q l.
Proof. intros H. split; eapply Forall_impl; try exact H; intros a [X Y]; assumption. Qed.
Lemma query_shown pr t k out : wf 64 t -> fits t -> kwf k -> get_path_from_query pr t k = Ok out ->
  Forall short (output_keys out) /\ Forall exact (output_keys out) /\ Forall bytesl (output_hashes out).
Proof.
  intros W F Hk E. destruct (query_out_ok pr t k out W Hk E) as [(O1 & _ & _ & O2) X]. specialize (X F).
  destruct (both short exact (output_keys out)) as [A B].
  { constructor; [apply kwf_shown, O1|apply path_keys_ok, O2]. }
  split; [exact A|]. split; [exact B|]. unfold output_hashes. unfold extras_ok in X. induction X as [|e l He _ IH]; [constructor|]. cbn [flat_map]. apply Forall_app.
  split; [|exact IH]. destruct e as [[h|m|v]|]; repeat constructor. exact He.
Qed.
Lemma diff_shown keccak pr a b d : hash32 keccak -> wf 64 a -> wf 64 b -> shape a -> shape b -> fits a -> fits b -> create_diff keccak pr a b = Ok d ->
  Forall short (diff_keys d) /\ Forall exact (diff_keys d) /\ Forall bytesl (diff_hashes d).
Proof.
  intros K Wa Wb Sa Sb Fa Fb E. destruct d as [p|]; [|repeat constructor].
  destruct (diff_point_ok keccak pr a b p K Wa Wb Sa Sb Fa Fb E) as (O1 & O2 & (O3 & O4 & _) & (O5 & O6 & _)).
  destruct (both short exact (diff_keys (Some p))) as [A B].
  { cbn [diff_keys]. repeat constructor; try (apply kwf_shown; assumption). apply path_keys_ok, O1. }
  split; [exact A|]. split; [exact B|]. repeat constructor; assumption.
Qed.

(** Whatever a query on a trie of the API returns can be shown; the text is the expected one, and it identifies the result and the settings. *)
Theorem C63_api_query : forall pr ps t k out, wf 64 t -> fits t -> kwf k -> get_path_from_query pr t k = Ok out ->
  debug_output pr false out ps = Ok (line_output out ps) /\
  (exists text, debug_output pr true out ps = Ok text /\ line_output out ps = one_line (After 0) text) /\
  forall pr' pretty ps' t' k' out', wf 64 t' -> fits t' -> kwf k' -> get_path_from_query pr' t' k' = Ok out' ->
    debug_output pr pretty out ps = debug_output pr' pretty out' ps' <-> out = out' /\ ps = ps'.
Proof.
  intros pr ps t k out W F Hk E. destruct (query_shown pr t k out W F Hk E) as (S & X & B).
  destruct (C63_query_output pr out ps S B) as (A1 & A2 & A3). split; [exact A1|]. split.
  - unfold debug_output in *. rewrite output_dbg_ok in * by exact S. cbn [bind] in *. eexists. split; [reflexivity|]. apply A2. reflexivity.
  - intros pr' pretty ps' t' k' out' W' F' Hk' E'. destruct (query_shown pr' t' k' out' W' F' Hk' E') as (S' & X' & B'). apply A3; assumption.
Qed.
(** In particular texts of two queries are different if the keys are. *)
Theorem C63_api_query_keys : forall pr ps pretty t k out pr' ps' t' k' out',
  wf 64 t -> fits t -> kwf k -> get_path_from_query pr t k = Ok out -> wf 64 t' -> fits t' -> kwf k' -> get_path_from_query pr' t' k' = Ok out' ->
  debug_output pr pretty out ps = debug_output pr' pretty out' ps' -> k = k' /\ ps = ps' /\ node_path out = node_path out' /\ node_found out = node_found out'.
Proof.
  intros pr ps pretty t k out pr' ps' t' k' out' W F Hk E W' F' Hk' E' T. destruct (C63_api_query pr ps t k out W F Hk E) as (_ & _ & G).
  apply (G pr' pretty ps' t' k' out' W' F' Hk' E') in T as [-> ->]. destruct (C37_output pr t k out' W Hk E) as (Q & _). destruct (C37_output pr' t' k' out' W' Hk' E') as (Q' & _).
  split; [congruence|]. auto.
Qed.
(** The same for the results of comparing two tries. *)
Theorem C63_api_diff : forall keccak pr a b d, hash32 keccak -> wf 64 a -> wf 64 b -> shape a -> shape b -> fits a -> fits b -> create_diff keccak pr a b = Ok d ->
  debug_diff pr false d = Ok (line_diff d) /\
  (exists text, debug_diff pr true d = Ok text /\ line_diff d = one_line (After 0) text) /\
  forall pr' pretty a' b' d', wf 64 a' -> wf 64 b' -> shape a' -> shape b' -> fits a' -> fits b' -> create_diff keccak pr' a' b' = Ok d' ->
    debug_diff pr pretty d = debug_diff pr' pretty d' <-> d = d'.
Proof.
  intros keccak pr a b d K Wa Wb Sa Sb Fa Fb E. destruct (diff_shown keccak pr a b d K Wa Wb Sa Sb Fa Fb E) as (S & X & B).
  destruct (C63_diff pr d S B) as (A1 & A2 & A3). split; [exact A1|]. split.
  - unfold debug_diff in *. rewrite diff_dbg_ok in * by exact S. cbn [bind] in *. eexists. split; [reflexivity|]. apply A2. reflexivity.
  - intros pr' pretty a' b' d' Wa' Wb' Sa' Sb' Fa' Fb' E'. destruct (diff_shown keccak pr' a' b' d' K Wa' Wb' Sa' Sb' Fa' Fb' E') as (S' & X' & B'). apply A3; assumption.
Qed.

(** A query and a comparison that meet the conditions. *)
Definition report_a : node := okn (from_iter Debug [(K 4 0x1234, Val [1]); (K 4 0x1256, Val [2])]).
Definition report_b : node := okn (from_iter Debug [(K 4 0x1334, Val [1]); (K 4 0x1357, Val [2])]).
Example C63_api_example :
  wf 64 some_trie /\ fits some_trie /\ (exists out, get_path_from_query Debug some_trie (K 4 0x7000) = Ok out /\ output_hashes out = [repeat 0xcd 32] /\
    debug_output Debug false out default_params <> debug_output Debug false out (QParams true true true)) /\
  (wf 64 report_a /\ shape report_a /\ fits report_a) /\ (wf 64 report_b /\ shape report_b /\ fits report_b) /\
  exists p, create_diff toy Debug report_a report_b = Ok (Some p) /\ debug_diff Debug false (Some p) <> debug_diff Debug false None.
Proof.
  assert (R : reach Debug some_trie) by (unfold some_trie; reach_tac [(K 4 0x1234, Val [1; 0xab]); (K 4 0x1256, Val [2]); (K 4 0x7000, HashV (repeat 0xcd 32))]).
  destruct (reach_valid Debug _ R) as [W _]. split; [exact W|]. clear R W. split; [vm_compute; repeat split; repeat constructor|]. split.
  { eexists. split; [vm_compute; reflexivity|]. split; [reflexivity|vm_compute; discriminate]. }
  assert (R : reach Debug report_a) by (unfold report_a; reach_tac [(K 4 0x1234, Val [1]); (K 4 0x1256, Val [2])]).
  assert (R' : reach Debug report_b) by (unfold report_b; reach_tac [(K 4 0x1334, Val [1]); (K 4 0x1357, Val [2])]).
  apply reach_valid in R, R'. destruct R as [W S], R' as [W' S']. split; [split; [exact W|split; [exact S|vm_compute; repeat split; repeat constructor]]|].
  split; [split; [exact W'|split; [exact S'|vm_compute; repeat split; repeat constructor]]|]. eexists. split; [vm_compute; reflexivity|]. vm_compute. discriminate.
Qed.
Print Assumptions C63_api_query.
Print Assumptions C63_api_query_keys.
Print Assumptions C63_api_diff.
