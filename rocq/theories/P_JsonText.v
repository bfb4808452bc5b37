(** Property C62: the JSON texts of tries. *)
From Coq Require Import String.
From Verif Require Import Base Nibbles NibblesSpec Trie TrieSpec TrieHistSpec TrieHist HashSpec Hashing HideFacts Keccak Cache CacheSpec CacheFacts Serde Text P_Trie P_Hash P_Serde Json JsonSpec JsonFacts JsonFacts2 TypeSpec TypeFacts TypeFacts2 P_Json JsonText JsonTextSpec JsonTextFacts JsonTextFacts2 JsonTextFacts3.
From Verif Require Import Trie TrieSpec Json JsonSpec JsonText JsonTextSpec.
Open Scope N_scope.
Open Scope list_scope.

(** ** Which texts are read *)
(** Exactly those of the JSON grammar; each has one document. *)
Theorem C62_grammar : forall s d, parse None s = Some d <-> json_text d s.
Proof. intros s d. split; [apply parse_sound|]. intros T. apply parse_complete; [exact T|exact I]. Qed.
Theorem C62_unique : forall d d' s, json_text d s -> json_text d' s -> d = d'.
Proof. intros d d' s A B. apply C62_grammar in A, B. congruence. Qed.
(** With the default limit: those that are not nested too deeply. *)
Theorem C62_limit : forall s d, parse default_limit s = Some d <-> json_text d s /\ within_limit d = true.
Proof.
  intros s d. unfold within_limit. split.
  - intros E. split; [eapply parse_sound, E|]. apply N.ltb_lt. apply (parse_within default_limit s d); [reflexivity|exact E].
  - intros [T L]. apply parse_complete; [exact T|]. apply N.ltb_lt, L.
Qed.
Theorem C62_from_str : forall s t, load_text default_limit s = Some t <-> exists d, json_text d s /\ from_str d = Some t.
Proof.
  intros s t. unfold load_text, from_str. split.
  - destruct (parse default_limit s) as [d|] eqn:E; [|discriminate]. intros R. apply C62_limit in E as [T L]. exists d. rewrite L. split; assumption.
  - intros (d & T & R). destruct (within_limit d) eqn:L; [|discriminate]. assert (E : parse default_limit s = Some d) by (apply C62_limit; split; assumption). rewrite E. exact R.
Qed.
(** Blanks, escapes, a missing "0x" and capital hex digits do not matter: texts of the same document load alike. *)
Theorem C62_same : forall d s s', json_text d s -> json_text d s' ->
  load_text None s = load_text None s' /\ hload_text None s = hload_text None s'.
Proof. intros d s s' A B. apply C62_grammar in A, B. unfold load_text, hload_text. rewrite A, B. split; reflexivity. Qed.
Example C62_grammar_example :
  parse None (txt "{""a"" : [1, -2.5e+3,""0xAb"" ] ,
    ""Leaf"":null}") = Some (JObject [(KOther [97], JArray [JNum 1; JOther; JHex [10; 11]]); (KName v_Leaf, JNull)]) /\
  parse None (txt "[""ab"",""0xAB"", ""aB""]") = Some (JArray [JHex [10; 11]; JHex [10; 11]; JHex [10; 11]]) /\
  parse None (txt "[01]") = None /\ parse None (txt "[1,]") = None /\ parse None (txt "{""a"" 1}") = None /\ parse None (txt "[1] 2") = None /\
  parse None (txt "[""\ud834\udd1e"", ""\t""]") = Some (JArray [JString (KOther [240; 157; 132; 158]); JString (KOther [9])]) /\
  parse None (txt "[""\ud834""]") = None /\ parse None (txt "[nul]") = None /\ parse None (34 :: 10 :: [34]) = None.
Proof. vm_compute. repeat split. Qed.

(** ** Saving and loading *)
Lemma written d : plain d -> json_text d (compact d) /\ json_text d (pretty 0 d).
Proof. intros P. split; [exists [], (compact d), []|exists [], (pretty 0 d), []]; rewrite app_nil_r; (split; [constructor|]; split; [|split; [constructor|reflexivity]]); [apply compact_text|apply pretty_text]; exact P. Qed.
Theorem C62_written : forall t, node_type t ->
  json_text (json (serialize t)) (to_string (serialize t)) /\ json_text (json (serialize t)) (to_string_pretty (serialize t)).
Proof. intros t T. apply (written _ (plain_trie t T)). Qed.
Theorem C62_roundtrip : forall t, node_type t ->
  load_text None (to_string (serialize t)) = Some t /\ load_text None (to_string_pretty (serialize t)) = Some t.
Proof.
  intros t T. destruct (written _ (plain_trie t T)) as [A B]. apply C62_grammar in A, B. unfold load_text, to_string, to_string_pretty. rewrite A, B.
  split; apply C61_roundtrip, T.
Qed.
Theorem C62_roundtrip_limit_partial : forall t, node_type t -> height t <= 42 ->
  load_text default_limit (to_string (serialize t)) = Some t /\ load_text default_limit (to_string_pretty (serialize t)) = Some t.
Proof.
  intros t T H. destruct (written _ (plain_trie t T)) as [A B]. pose proof (C61_limit_partial t T H) as R.
  split; apply C62_from_str; eexists; (split; [|exact R]); assumption.
Qed.
(** Exactly the tries with fewer than 128 nested brackets can be loaded with the default limit. *)
Theorem C62_roundtrip_limit_exact : forall t, node_type t ->
  load_text default_limit (to_string (serialize t)) = (if brackets 0 t <? 128 then Some t else None) /\
  load_text default_limit (to_string_pretty (serialize t)) = (if brackets 0 t <? 128 then Some t else None).
Proof.
  intros t T. pose proof (C61_limit_exact t T) as R. destruct (written _ (plain_trie t T)) as [A B].
  assert (G : forall s, json_text (json (serialize t)) s -> load_text default_limit s = if brackets 0 t <? 128 then Some t else None); [|split; apply G; assumption].
  intros s J. destruct (brackets 0 t <? 128) eqn:L.
  - apply C62_from_str. eexists. split; [exact J|exact R].
  - destruct (load_text default_limit s) as [u|] eqn:E; [|reflexivity]. apply C62_from_str in E as (d & D & F). rewrite (C62_unique _ _ _ D J) in F. congruence.
Qed.
Theorem C62_handle_limit_exact : forall t s n d, node_type (erase t) -> (forall u h, In u (nodes t) -> s (cell u) = Some h -> h256 h) ->
  exec (hserialize t) s n = Ok (d, s, n) -> forall s' n',
  exec (hload_text default_limit (to_string d)) s' n' = if brackets 1 (erase t) <? 128 then exec (hdeserialize d) s' n' else Ok (None, s', n').
Proof.
  intros t s n d T C E s' n'. rewrite <- (C61_handle t s n d T C E s' n'). rewrite exec_hserialize in E. injection E as <-.
  destruct (written _ (plain_handle s t T C)) as [A _]. unfold hload_text, to_string.
  destruct (brackets 1 (erase t) <? 128) eqn:L.
  - assert (P : parse default_limit (compact (json (saved s t))) = Some (json (saved s t))).
    { apply C62_limit. split; [exact A|]. unfold within_limit. rewrite nesting_brackets_handle. exact L. }
    rewrite P. reflexivity.
  - destruct (parse default_limit _) as [d|] eqn:P; [|reflexivity]. apply C62_limit in P as [P W]. rewrite (C62_unique _ _ _ P A) in W.
    unfold within_limit in W. rewrite nesting_brackets_handle in W. congruence.
Qed.
Theorem C62_roundtrip_limit_refuted : forall pr, exists l t, Forall (fun e => kwf (fst e)) l /\ from_iter pr l = Ok t /\
  load_text None (to_string (serialize t)) = Some t /\ load_text default_limit (to_string (serialize t)) = None.
Proof.
  intros pr. destruct (C61_limit_refuted pr) as (l & t & K & E & R & N). exists l, t. split; [exact K|]. split; [exact E|].
  assert (T : node_type t) by (eapply read_type, R). split; [apply C62_roundtrip, T|]. destruct (load_text default_limit _) as [u|] eqn:L; [|reflexivity].
  apply C62_from_str in L as (d & D & F). destruct (written _ (plain_trie t T)) as [A _]. rewrite (C62_unique _ _ _ D A) in F. congruence.
Qed.
Theorem C62_built : forall t, wf 64 t -> fits t ->
  load_text None (to_string (serialize t)) = Some t /\ load_text None (to_string_pretty (serialize t)) = Some t.
Proof. intros t W F. apply C62_roundtrip, (wf_type t 64); [exact W|lia|exact F]. Qed.
Example C62_built_example : wf 64 ex_big /\ fits ex_big /\ height ex_big <= 42.
Proof. destruct ex_big_ok as (_ & W & _ & F). split; [exact W|]. split; [exact F|vm_compute; discriminate]. Qed.
Theorem C62_injective : forall a b, node_type a -> node_type b ->
  to_string (serialize a) = to_string (serialize b) \/ to_string_pretty (serialize a) = to_string_pretty (serialize b) -> a = b.
Proof. intros a b A B E. apply C62_roundtrip in A as [A1 A2], B as [B1 B2]. destruct E as [E|E]; rewrite E in *; congruence. Qed.
(** Whatever the text, what is loaded is of the Rust types, and can be saved and loaded again. *)
Theorem C62_loaded : forall limit s t, load_text limit s = Some t -> node_type t /\ load_text None (to_string (serialize t)) = Some t.
Proof.
  intros limit s t E. unfold load_text in E at 1. destruct (parse limit s) as [d|]; [|discriminate]. apply C61_loaded in E as [T _]. split; [exact T|apply C62_roundtrip, T].
Qed.
Example C62_text_example :
  to_string (serialize (Leaf (K 2 0x12) [1; 255])) = txt "{""Leaf"":{""nibbles"":{""count"":2,""packed"":""0x12""},""value"":[1,255]}}" /\
  to_string_pretty (serialize (Leaf (K 2 0x12) [1; 255])) = txt "{
  ""Leaf"": {
    ""nibbles"": {
      ""count"": 2,
      ""packed"": ""0x12""
    },
    ""value"": [
      1,
      255
    ]
  }
}" /\
  to_string_pretty (serialize (Leaf (K 0 0) [])) = txt "{
  ""Leaf"": {
    ""nibbles"": {
      ""count"": 0,
      ""packed"": ""0x0""
    },
    ""value"": []
  }
}" /\
  to_string (serialize Empty) = txt """Empty""" /\
  load_text default_limit (txt " {""Leaf"": [{""packed"":""012"", ""x"":{}, ""count"":2}, [1,255]]}") = Some (Leaf (K 2 0x12) [1; 255]).
Proof. vm_compute. repeat split. Qed.

(** ** Caching tries *)
Theorem C62_handle : forall t s n d, node_type (erase t) -> (forall u h, In u (nodes t) -> s (cell u) = Some h -> h256 h) ->
  exec (hserialize t) s n = Ok (d, s, n) -> forall s' n',
  exec (hload_text None (to_string d)) s' n' = exec (hdeserialize d) s' n' /\ exec (hload_text None (to_string_pretty d)) s' n' = exec (hdeserialize d) s' n'.
Proof.
  intros t s n d T C E s' n'. pose proof (C61_handle t s n d T C E s' n') as R. rewrite exec_hserialize in E. injection E as <-.
  destruct (written _ (plain_handle s t T C)) as [A B]. apply C62_grammar in A, B. unfold hload_text, to_string, to_string_pretty. rewrite A, B. split; exact R.
Qed.
Theorem C62_handle_contents : forall t s n d, node_type (erase t) -> (forall u h, In u (nodes t) -> s (cell u) = Some h -> h256 h) ->
  exec (hserialize t) s n = Ok (d, s, n) -> exists u s' n', exec (hload_text None (to_string d)) s n = Ok (Some u, s', n') /\ erase u = erase t /\ heqb u t = true.
Proof.
  intros t s n d T C E. destruct (C62_handle t s n d T C E s n) as [R _]. rewrite R, <- (C61_handle t s n d T C E). eapply C61_handle_contents; eassumption.
Qed.
Example C62_handle_example : let t := HLeaf 0 (K 2 0x12) [1] in let s := fun c => if c =? 0 then Some (repeat 171 32) else None in
  node_type (erase t) /\ (forall u h, In u (nodes t) -> s (cell u) = Some h -> h256 h) /\
  exec (hserialize t) s 1 = Ok (saved s t, s, 1) /\
  to_string (saved s t) = txt "{""node"":{""Leaf"":{""nibbles"":{""count"":2,""packed"":""0x12""},""value"":[1]}},""hash"":""0xabababababababababababababababababababababababababababababababab""}".
Proof.
  cbv zeta. split; [|split; [|split; [apply exec_hserialize|vm_compute; reflexivity]]].
  - constructor; [split; vm_compute; reflexivity|]. constructor; [lia|constructor].
  - intros u h [<-|[]] E. cbn in E. injection E as <-. split; [reflexivity|]. repeat (constructor; [reflexivity|]). constructor.
Qed.

(** ** Histories *)
Theorem C62_histories : forall keccak pr os ts xs, hash32 keccak -> Forall op_type os -> vrun keccak pr [] os = Ok (ts, xs) ->
  Forall (fun t => load_text None (to_string (serialize t)) = Some t) ts.
Proof.
  intros keccak pr os ts xs H O E. eapply Forall_impl; [intros t T; apply (C62_roundtrip t T)|]. eapply (vrun_type keccak pr H os []); [exact O|constructor|exact E].
Qed.
(** A program that saves and loads handles as JSON texts has the same tries, observations and cached hashes as one in which the format is taken to
    be lossless (C44). *)
Lemma tstep_eq keccak pr write o hs s n : write = to_string \/ write = to_string_pretty -> hash32 keccak -> op_type o -> Forall htype hs -> (forall c, cached_type (s c)) ->
  exec (tstep keccak pr write hs o) s n = exec (hstep keccak pr hs o) s n.
Proof.
  intros Wr H O F S. destruct o; try reflexivity. cbn [tstep hstep]. unfold the. destruct (nth_error hs i) as [t|] eqn:En; [|reflexivity]. cbn [lift pbind].
  rewrite !exec_bind. unfold hreload_text, hreload. rewrite !exec_bind, exec_hserialize, !exec_bind.
  assert (T : node_type (erase t)) by (rewrite Forall_forall in F; apply F; eapply nth_error_In, En).
  assert (C : forall u h, In u (nodes t) -> s (cell u) = Some h -> h256 h) by (intros u h _ Eh; specialize (S (cell u)); rewrite Eh in S; exact S).
  destruct (C62_handle t s n (saved s t) T C (exec_hserialize t s n) s n) as [R1 R2]. destruct Wr as [-> | ->]; [rewrite R1|rewrite R2]; reflexivity.
Qed.
Theorem C62_handle_histories : forall keccak pr write os, write = to_string \/ write = to_string_pretty -> hash32 keccak -> Forall op_type os ->
  exec (trun keccak pr write [] os) (fun _ => None) 0 = exec (hrun keccak pr [] os) (fun _ => None) 0.
Proof.
  intros keccak pr write os Wr H O. assert (G : forall hs s n, Forall htype hs -> (forall c, cached_type (s c)) -> exec (trun keccak pr write hs os) s n = exec (hrun keccak pr hs os) s n).
  { induction O as [|o os Oo O IH]; intros hs s n F S; cbn [trun hrun]; [reflexivity|]. rewrite !exec_bind, tstep_eq by assumption.
    destruct (exec (hstep keccak pr hs o) s n) as [[[[hs' x] s'] n']|] eqn:E; [|reflexivity].
    destruct (safe_exec _ _ s n _ s' n' S (hstep_type keccak pr H hs o Oo F) E) as [F' S']. rewrite !exec_bind, IH by assumption. reflexivity. }
  apply G; [constructor|intros c; exact I].
Qed.
Example C62_histories_example : hash32 keccak256 /\ Forall op_type (ex_reload ++ [HashOf 0; Reload 0; Equal 0 1; HashOf 1]) /\ vrun keccak256 Debug [] ex_reload = Ok ex_reload_r.
Proof. destruct C61_histories_example as (A & B & C & _). auto. Qed.
(** Loading never panics, whatever the text. *)
Theorem C62_no_panic : forall limit x s n, exec (hload_text limit x) s n <> Panic.
Proof. intros limit x s n. unfold hload_text. destruct (parse limit x) as [d|]; [apply C61_no_panic|discriminate]. Qed.

(** ** Damaged texts *)
(** After a text nothing but blanks may follow. *)
Theorem C62_trailing : forall limit d s x d', json_text d s -> closed d -> parse limit (s ++ x) = Some d' -> blank x /\ d' = d.
Proof.
  intros limit d s x d' T C E. apply parse_sound, C62_grammar in E. apply C62_grammar in T. exact (text_end s x d d' None T C I E).
Qed.
Lemma ends d p x : closed d -> plain d -> x <> [] -> compact d = p ++ x \/ pretty 0 d = p ++ x -> forall limit, parse limit p = None.
Proof.
  intros C P X E limit. destruct (exists_last X) as (y & z & ->). destruct (written d P) as [A B].
  assert (H : forall s, s = p ++ y ++ [z] -> json_text d s -> In (hd 0 s) [34; 91; 123] -> (exists s0, s = s0 ++ [34] \/ s = s0 ++ [93] \/ s = s0 ++ [125]) -> parse limit p = None).
  { intros s -> T Hd (s0 & L). eapply no_prefix; [exact T|exact Hd|]. rewrite app_assoc in L. cbn [In]. destruct L as [L|[L|L]]; apply app_inj_tail in L as [_ ->]; auto. }
  destruct E as [E|E].
  - apply (H _ E A); [|apply last_compact, C]. destruct d; try destruct C; cbn; auto.
  - apply (H _ E B); [|apply last_pretty, C]. destruct d; try destruct C; cbn; auto.
Qed.
Lemma trie_closed t : closed (json (serialize t)).
Proof. destruct t; exact I. Qed.
Lemma saved_closed s t : closed (json (saved s t)).
Proof. destruct t; exact I. Qed.
(** No part of the text of a trie, from its start, is taken for another trie: a text that was cut off is refused. *)
Theorem C62_cut : forall limit t p x, node_type t -> x <> [] -> to_string (serialize t) = p ++ x \/ to_string_pretty (serialize t) = p ++ x -> load_text limit p = None.
Proof.
  intros limit t p x T X E. unfold load_text. rewrite (ends (json (serialize t)) p x (trie_closed t) (plain_trie t T) X E). reflexivity.
Qed.
Theorem C62_cut_handle : forall limit t s n d p x s' n', node_type (erase t) -> (forall u h, In u (nodes t) -> s (cell u) = Some h -> h256 h) ->
  exec (hserialize t) s n = Ok (d, s, n) -> x <> [] -> to_string d = p ++ x \/ to_string_pretty d = p ++ x -> exec (hload_text limit p) s' n' = Ok (None, s', n').
Proof.
  intros limit t s n d p x s' n' T C E X P. rewrite exec_hserialize in E. injection E as <-. unfold hload_text.
  rewrite (ends (json (saved s t)) p x (saved_closed s t) (plain_handle s t T C) X P). reflexivity.
Qed.
Example C62_cut_example : exists p x, x <> [] /\ to_string (serialize (Leaf (K 2 0x12) [1])) = p ++ x /\ last p 0 = 125 /\ node_type (Leaf (K 2 0x12) [1]).
Proof.
  exists (txt "{""Leaf"":{""nibbles"":{""count"":2,""packed"":""0x12""},""value"":[1]}"), [125]. split; [discriminate|]. split; [vm_compute; reflexivity|]. split; [vm_compute; reflexivity|].
  constructor; [split; vm_compute; reflexivity|]. constructor; [lia|constructor].
Qed.

(** ** What the texts look like *)
(** The compact text is one line of visible ASCII characters, and the pretty text is the same up to blanks,
    with the usual layout. *)
Theorem C62_ascii : forall t, node_type t -> Forall (fun c => 33 <= c < 127) (to_string (serialize t)).
Proof. intros t T. apply compact_visible; [apply plain_trie, T|apply json_known]. Qed.
Theorem C62_ascii_handle : forall t s n d, node_type (erase t) -> (forall u h, In u (nodes t) -> s (cell u) = Some h -> h256 h) ->
  exec (hserialize t) s n = Ok (d, s, n) -> Forall (fun c => 33 <= c < 127) (to_string d).
Proof. intros t s n d T C E. rewrite exec_hserialize in E. injection E as <-. apply compact_visible; [apply plain_handle; assumption|apply json_known]. Qed.
Theorem C62_pretty : forall t, node_type t -> no_blanks (to_string_pretty (serialize t)) = to_string (serialize t).
Proof. intros t T. apply pretty_compact; [apply plain_trie, T|apply json_known]. Qed.
Theorem C62_layout : forall t, node_type t -> to_string_pretty (serialize t) = layout 0 (to_string (serialize t)).
Proof.
  intros t T. pose proof (layout_compact _ (plain_trie t T) (json_known _) 0 []) as L. rewrite !app_nil_r in L. symmetry. exact L.
Qed.
Theorem C62_layout_handle : forall t s n d, node_type (erase t) -> (forall u h, In u (nodes t) -> s (cell u) = Some h -> h256 h) ->
  exec (hserialize t) s n = Ok (d, s, n) -> to_string_pretty d = layout 0 (to_string d).
Proof.
  intros t s n d T C E. rewrite exec_hserialize in E. injection E as <-. pose proof (layout_compact _ (plain_handle s t T C) (json_known _) 0 []) as L.
  rewrite !app_nil_r in L. symmetry. exact L.
Qed.

Print Assumptions C62_grammar.
Print Assumptions C62_unique.
Print Assumptions C62_limit.
Print Assumptions C62_from_str.
Print Assumptions C62_same.
Print Assumptions C62_written.
Print Assumptions C62_roundtrip.
Print Assumptions C62_roundtrip_limit_partial.
Print Assumptions C62_roundtrip_limit_exact.
Print Assumptions C62_handle_limit_exact.
Print Assumptions C62_roundtrip_limit_refuted.
Print Assumptions C62_built.
Print Assumptions C62_injective.
Print Assumptions C62_loaded.
Print Assumptions C62_handle.
Print Assumptions C62_handle_contents.
Print Assumptions C62_histories.
Print Assumptions C62_handle_histories.
Print Assumptions C62_no_panic.
Print Assumptions C62_trailing.
Print Assumptions C62_cut.
Print Assumptions C62_cut_handle.
Print Assumptions C62_ascii.
Print Assumptions C62_ascii_handle.
Print Assumptions C62_pretty.
Print Assumptions C62_layout.
Print Assumptions C62_layout_handle.
