(** Property C92: the follower as a program. *)
From Verif Require Import Base Nibbles NibblesSpec NibblesFacts NibblesFacts2 NibblesFacts3 Trie TrieSpec TrieHistSpec TrieFacts TrieInsert TrieGet TrieDelete TrieUnique TrieIter TrieHist TrieObs InsertWf Rlp YellowPaper Hashing Keccak HashSpec HideSpec HashFacts HashBind KeccakFacts HideFacts HideBind HideDelete JoinFacts P_Trie P_Hash P_Join Subset SubsetSpec SubsetFacts SubsetFacts2 P_Subset ReplaySpec ReplayFacts P_Replay NeighbourSpec NeighbourFacts P_Neighbour NeighbourSeen PartialSpec P_Partial Serde Json JsonSpec TypeSpec TypeFacts TypeFacts2 P_Json JsonText JsonTextSpec P_JsonText WitnessSpec P_Witness TxSpec TrieHistSpec FollowSpec JsonTextFacts JsonTextFacts2 P_Follow FollowAnySpec P_FollowAny FollowerSpec.
Open Scope N_scope.

(** ** The walks decide what they are meant to *)
Lemma meets_hash_iff t : forall k, meets_hash t k = true <-> hash_on_path t k.
Proof.
  induction t as [|h|ch w IH|n c IH|n w] using node_ind'; intros k; cbn [meets_hash].
  - split; [discriminate|]. intros (p & h & E & _). discriminate.
  - split; [|reflexivity]. intros _. exists [], h. split; [reflexivity|exists k; reflexivity].
  - destruct k as [|d k]; [split; [discriminate|]; intros H; destruct (hop_branch_nil ch w H)|]. rewrite hop_branch, at_child_nth. unfold child.
    destruct (nth_error ch (N.to_nat d)) as [c|] eqn:E.
    + rewrite (nth_error_nth _ _ Empty E). apply (proj1 (Forall_forall _ _) IH). eapply nth_error_In, E.
    + rewrite nth_overflow by (apply nth_error_None, E). split; [discriminate|]. intros (p & h & X & _). discriminate.
  - split.
    + destruct (strip (nseq n) k) as [k'|] eqn:E; [|discriminate]. apply strip_some in E as ->. intros H. apply IH in H. destruct H as (p & h & X & q & ->).
      exists (nseq n ++ p), h. cbn [lk]. rewrite strip_app. split; [exact X|]. exists q. apply app_assoc.
    + intros (p & h & X & q & ->). cbn [lk] in X. destruct (strip (nseq n) p) as [p'|] eqn:E; [|discriminate]. apply strip_some in E as ->. rewrite <- app_assoc, strip_app.
      apply IH. exists p', h. split; [exact X|exists q; reflexivity].
  - split; [discriminate|]. intros H. destruct (hop_leaf n w k H).
Qed.

Lemma ends_early_iff t : forall k, ends_early t k = true <-> too_short t k.
Proof.
  induction t as [|h|ch w IH|n c IH|n w] using node_ind'; intros k; cbn [ends_early too_short]; try (split; [discriminate|intros []]).
  - destruct k as [|d k]; [split; [discriminate|intros []]|]. rewrite !at_child_nth. destruct (nth_error ch (N.to_nat d)) as [c|] eqn:E; [|split; [discriminate|intros []]].
    apply (proj1 (Forall_forall _ _) IH). eapply nth_error_In, E.
  - rewrite Bool.orb_true_iff, Nat.ltb_lt. destruct (strip (nseq n) k) as [k'|]; [rewrite IH; reflexivity|]. split; (intros [A|A]; [left; exact A|]); [discriminate|destruct A].
Qed.

Lemma delete_ok_iff t : forall k, delete_ok t k = true <-> collapse_visible t k.
Proof.
  induction t as [|h|ch w IH|n c IH|n w] using node_ind'; intros k; cbn [delete_ok collapse_visible]; try (split; [intros; exact Logic.I|reflexivity]).
  - destruct k as [|d k]; [split; [intros; exact Logic.I|reflexivity]|]. rewrite Bool.andb_true_iff, !at_child_nth.
    assert (A : (match nth_error ch (N.to_nat d) with Some c => delete_ok c k | None => true end) = true <-> match nth_error ch (N.to_nat d) with Some c => collapse_visible c k | None => True end).
    { destruct (nth_error ch (N.to_nat d)) as [c|] eqn:E; [|split; [intros; exact Logic.I|reflexivity]]. apply (proj1 (Forall_forall _ _) IH). eapply nth_error_In, E. }
    rewrite A. clear A. assert (B : forall P Q R : Prop, (Q <-> R) -> (P /\ Q <-> P /\ R)) by tauto. apply B. clear B.
    destruct (nth (N.to_nat d) ch Empty) as [|h|ch' w'|n c|n v] eqn:En; try (split; [intros; exact Logic.I|reflexivity]).
    rewrite !Bool.orb_true_iff, !Bool.negb_true_iff, Nat.ltb_lt. split.
    + intros H Oc Ek i h Ni Eh. destruct H as [[H|H]|H].
      * destruct (key_eqb_spec (nseq n) k); [discriminate|contradiction].
      * lia.
      * assert (X : existsb is_hash ch = true); [|congruence]. apply existsb_exists. exists (Hash h). split; [|reflexivity]. rewrite <- Eh. apply nth_In.
        destruct (Nat.ltb_spec i (length ch)); [assumption|]. rewrite nth_overflow in Eh by assumption. discriminate.
    + intros H. destruct (key_eqb_spec (nseq n) k) as [Ek|Nk]; [|auto]. destruct (Nat.leb_spec (occupied ch []) 2) as [Oc|Oc]; [|left; right; exact Oc]. right.
      destruct (existsb is_hash ch) eqn:X; [exfalso|reflexivity]. apply existsb_exists in X as (c & I & Hc). destruct c as [|h| | |]; try discriminate.
      apply (In_nth _ _ Empty) in I as (i & Li & Ei). apply (H Oc Ek i h); [|exact Ei]. intros ->. congruence.
  - destruct (strip (nseq n) k) as [k'|]; [apply IH|split; [intros; exact Logic.I|reflexivity]].
Qed.

Lemma check_iff s o : check s o = true <-> watched s o.
Proof.
  destruct o as [k v|l|k|k]; cbn [check watched]; try (split; [intros; exact Logic.I|reflexivity]); [apply delete_ok_iff|].
  rewrite Bool.negb_true_iff, <- meets_hash_iff. destruct (meets_hash s (nseq k)); split; intros; congruence.
Qed.
Lemma check_any_iff s o x : check_any s o x = true <-> seen s o x.
Proof.
  destruct o as [k v|l|k|k]; cbn [check_any seen]; try (split; [intros; exact Logic.I|reflexivity]); [apply delete_ok_iff|].
  assert (A : negb (ends_early s (nseq k)) && negb (meets_hash s (nseq k)) = true <-> ~ too_short s (nseq k) /\ ~ hash_on_path s (nseq k)).
  { rewrite Bool.andb_true_iff, !Bool.negb_true_iff, <- meets_hash_iff, <- ends_early_iff. destruct (ends_early s (nseq k)), (meets_hash s (nseq k)); intuition congruence. }
  destruct x as [|[v|]]; try (split; [intros; left; discriminate|reflexivity]). rewrite A. split; [auto|]. intros [X|X]; [congruence|exact X].
Qed.

(** ** One program *)
Lemma run_iff pr p : forall s s' xs, checked_run (fun s o _ => check s o) pr s p = Some (s', xs) <-> careful pr s p /\ exists l, tx_run pr s p = Ok (s', l) /\ map snd l = xs.
Proof.
  induction p as [|o next IH]; intros s s' xs; cbn [checked_run careful tx_run].
  - split; [intros [= <- <-]; split; [exact Logic.I|]; exists []; auto|]. intros (_ & l & [= <- <-] & <-). reflexivity.
  - destruct (trie_op pr s o) as [[s1 x]|] eqn:E; [|split; [discriminate|intros (_ & l & X & _); discriminate]]. cbn [bind]. pose proof (check_iff s o) as Ck. split.
    + destruct (check s o); [|discriminate]. destruct (checked_run _ pr s1 (next x)) as [[s2 ys]|] eqn:Er; [|discriminate]. intros [= <- <-]. apply IH in Er as (Ca & l & Et & <-).
      split; [split; [apply Ck; reflexivity|]; intros s3 y [= <- <-]; exact Ca|]. rewrite Et. cbn [bind]. eexists. split; [reflexivity|]. reflexivity.
    + intros ((Wt & Ca) & l & Et & <-). rewrite (proj2 Ck Wt). destruct (tx_run pr s1 (next x)) as [[s2 l2]|] eqn:E2; [|discriminate]. cbn [bind] in Et. injection Et as <- <-.
      rewrite (proj2 (IH x s1 s2 (map snd l2))); [reflexivity|]. split; [exact (Ca s1 x eq_refl)|]. eauto.
Qed.
Lemma run_any_iff pr p : forall s s' xs, checked_run check_any pr s p = Some (s', xs) <-> all_seen pr s p /\ exists l, tx_run pr s p = Ok (s', l) /\ map snd l = xs.
Proof.
  induction p as [|o next IH]; intros s s' xs; cbn [checked_run all_seen tx_run].
  - split; [intros [= <- <-]; split; [exact Logic.I|]; exists []; auto|]. intros (_ & l & [= <- <-] & <-). reflexivity.
  - destruct (trie_op pr s o) as [[s1 x]|] eqn:E; [|split; [discriminate|intros (_ & l & X & _); discriminate]]. cbn [bind]. pose proof (check_any_iff s o x) as Ck. split.
    + destruct (check_any s o x); [|discriminate]. destruct (checked_run _ pr s1 (next x)) as [[s2 ys]|] eqn:Er; [|discriminate]. intros [= <- <-]. apply IH in Er as (Ca & l & Et & <-).
      split; [intros s3 y [= <- <-]; split; [apply Ck; reflexivity|exact Ca]|]. rewrite Et. cbn [bind]. eexists. split; [reflexivity|]. reflexivity.
    + intros (Ca & l & Et & <-). destruct (Ca s1 x eq_refl) as [Wt Cn]. rewrite (proj2 Ck Wt). destruct (tx_run pr s1 (next x)) as [[s2 l2]|] eqn:E2; [|discriminate]. cbn [bind] in Et. injection Et as <- <-.
      rewrite (proj2 (IH x s1 s2 (map snd l2))); [reflexivity|]. split; [exact Cn|]. eauto.
Qed.

Lemma load_unlimited limit text s : load_text limit text = Some s -> load_text None text = Some s.
Proof. unfold load_text. destruct (parse limit text) as [d|] eqn:E; [|discriminate]. apply parse_sound, (proj2 (C62_grammar _ _)) in E. rewrite E. auto. Qed.

(** What the program answers is what FollowSpec.v calls following, and nothing else: it accepts, with these answers and this last root hash, iff they follow. It reads texts without a limit on
    their nesting; with a limit it accepts less. *)
Theorem C92_program : forall keccak pr rs r xss r2, follow keccak pr None r rs = Some (xss, r2) <-> follows keccak pr r rs xss r2.
Proof.
  intros keccak pr. unfold follow. induction rs as [|[p text] rs IH]; intros r xss r2; cbn [follower].
  - split; [intros [= <- <-]; constructor|]. intros F. inversion F; subst. reflexivity.
  - unfold one_round. cbn [received program]. split.
    + destruct (load_text None text) as [s|] eqn:L; [|discriminate]. destruct (checked 64 s) eqn:Ck; [|discriminate]. destruct (hash_trie keccak pr s) as [r0|] eqn:Eh; [|discriminate].
      destruct (key_eqb_spec r0 r) as [->|]; [|discriminate]. destruct (checked_run _ pr s p) as [[s' xs]|] eqn:Er; [|discriminate]. apply run_iff in Er as (Ca & l & Et & <-).
      destruct (hash_trie keccak pr s') as [r1|] eqn:E1; [|discriminate]. destruct (follower _ keccak pr None r1 rs) as [[yss r3]|] eqn:Ef; [|discriminate]. intros [= <- <-]. apply IH in Ef.
      econstructor; eauto.
    + intros F. inversion F as [|? ? ? limit s s' l r1 ? yss ? L Ck Eh Ca Et E1 Ff]; subst. rewrite (load_unlimited _ _ _ L), Ck, Eh, key_eqb_refl.
      rewrite (proj2 (run_iff pr p s s' (map snd l))) by eauto. rewrite E1. apply IH in Ff. rewrite Ff. reflexivity.
Qed.
Theorem C92_program_any : forall keccak pr rs r xss r2, follow_any keccak pr None r rs = Some (xss, r2) <-> follows_any keccak pr r rs xss r2.
Proof.
  intros keccak pr. unfold follow_any. induction rs as [|[p text] rs IH]; intros r xss r2; cbn [follower].
  - split; [intros [= <- <-]; constructor|]. intros F. inversion F; subst. reflexivity.
  - unfold one_round. cbn [received program]. split.
    + destruct (load_text None text) as [s|] eqn:L; [|discriminate]. destruct (checked 64 s) eqn:Ck; [|discriminate]. destruct (hash_trie keccak pr s) as [r0|] eqn:Eh; [|discriminate].
      destruct (key_eqb_spec r0 r) as [->|]; [|discriminate]. destruct (checked_run _ pr s p) as [[s' xs]|] eqn:Er; [|discriminate]. apply run_any_iff in Er as (Ca & l & Et & <-).
      destruct (hash_trie keccak pr s') as [r1|] eqn:E1; [|discriminate]. destruct (follower _ keccak pr None r1 rs) as [[yss r3]|] eqn:Ef; [|discriminate]. intros [= <- <-]. apply IH in Ef.
      econstructor; eauto.
    + intros F. inversion F as [|? ? ? limit s s' l r1 ? yss ? L Ck Eh Ca Et E1 Ff]; subst. rewrite (load_unlimited _ _ _ L), Ck, Eh, key_eqb_refl.
      rewrite (proj2 (run_any_iff pr p s s' (map snd l))) by eauto. rewrite E1. apply IH in Ff. rewrite Ff. reflexivity.
Qed.
Theorem C92_program_limit : forall keccak pr fine limit rs r y, follower fine keccak pr limit r rs = Some y -> follower fine keccak pr None r rs = Some y.
Proof.
  intros keccak pr fine limit. induction rs as [|R rs IH]; intros r y; cbn [follower]; [auto|]. unfold one_round.
  destruct (load_text limit (received R)) as [s|] eqn:L; [|discriminate]. rewrite (load_unlimited _ _ _ L).
  destruct (if checked 64 s then _ else None) as [[xs r1]|]; [|discriminate]. destruct (follower fine keccak pr limit r1 rs) as [z|] eqn:E; [|discriminate]. rewrite (IH _ _ E). auto.
Qed.

(** So whoever runs the program, with whatever limit, on texts from anybody, has the answers of the map and the root hash of the map it became, or has been sent a collision. *)
Theorem C92_program_sound : forall keccak pr n limit ops0 rs J0 xss r,
  hash32 keccak -> Forall (op_fixed n) ops0 -> Forall op_bytes ops0 -> Forall (fun R => tx_fixed n (program R)) rs ->
  lists_map J0 (fst (spec_ops kv_empty ops0)) -> follow keccak pr limit (yp_root keccak J0) rs = Some (xss, r) ->
  (xss = snd (map_serial (fst (spec_ops kv_empty ops0)) (map program rs)) /\
   forall J, lists_map J (fst (map_serial (fst (spec_ops kv_empty ops0)) (map program rs))) -> r = yp_root keccak J) \/
  exists rs1 R rs2 t0 t1 yss limit s, rs = rs1 ++ R :: rs2 /\ trie_ops pr Empty ops0 = Ok (t0, snd (spec_ops kv_empty ops0)) /\ serial pr t0 (map program rs1) = Ok (t1, yss) /\
    load_text limit (received R) = Some s /\ collision keccak (encodings keccak t1) (encodings keccak s).
Proof.
  intros keccak pr n limit ops0 rs J0 xss r K A B C L E. apply (C92_follow keccak pr n ops0 rs J0 xss r K A B C L). apply C92_program. exact (C92_program_limit _ _ _ _ _ _ _ E).
Qed.

Theorem C92_program_any_sound : forall keccak pr limit ops0 t0 ys rs r xss r2,
  hash32 keccak -> Forall op_any ops0 -> trie_ops pr Empty ops0 = Ok (t0, ys) -> hash_trie keccak pr t0 = Ok r -> Forall (fun R => tx_any (program R)) rs -> follow_any keccak pr limit r rs = Some (xss, r2) ->
  (exists t1, serial pr t0 (map program rs) = Ok (t1, xss) /\ hash_trie keccak pr t1 = Ok r2) \/
  exists rs1 R rs2 t1 yss limit s, rs = rs1 ++ R :: rs2 /\ serial pr t0 (map program rs1) = Ok (t1, yss) /\
    load_text limit (received R) = Some s /\ collision keccak (encodings keccak t1) (encodings keccak s).
Proof.
  intros keccak pr limit ops0 t0 ys rs r xss r2 K A B C D E. apply (C92_any keccak pr ops0 t0 ys rs r xss r2 K A B C D). apply C92_program_any. exact (C92_program_limit _ _ _ _ _ _ _ E).
Qed.

(** And whoever has the map can send texts that the program accepts, with the answers of the map. *)
Theorem C92_program_served : forall keccak pr n ops0 plan J0,
  hash32 keccak -> Forall (op_fixed n) ops0 -> Forall op_bytes ops0 -> Forall (fun e => Forall kwf (snd e) /\ forall k, In k (snd e) -> count k = n) plan ->
  lists_map J0 (fst (spec_ops kv_empty ops0)) -> all_suffice (fst (spec_ops kv_empty ops0)) plan ->
  exists rs r, map program rs = map fst plan /\ follow keccak pr None (yp_root keccak J0) rs = Some (snd (map_serial (fst (spec_ops kv_empty ops0)) (map fst plan)), r) /\
    forall J, lists_map J (fst (map_serial (fst (spec_ops kv_empty ops0)) (map fst plan))) -> r = yp_root keccak J.
Proof.
  intros keccak pr n ops0 plan J0 K A B C L Al. destruct (C92_served keccak pr n ops0 plan J0 K A B C L Al) as (rs & r & E & F & R). exists rs, r. split; [exact E|]. split; [|exact R].
  apply C92_program, F.
Qed.

(** The program, run: two programs and the texts of two excerpts are accepted; the same with a changed value in the second text, or with an excerpt that leaves out the key, are not. *)
Definition ex_full : node := match trie_ops Debug Empty ex_ops0 with Ok (t, _) => t | Panic => Empty end.
Definition ex_after : node := match tx_run Debug ex_full ex_first with Ok (t, _) => t | Panic => Empty end.
Definition text_of (t : node) (ks : list nibbles) : list N := to_string (serialize (oks (create_trie_subset keccak256 Debug t ks))).
Definition ex_root : list N := match hash_trie keccak256 Debug ex_full with Ok h => h | Panic => [] end.
Definition ex_forged : node := match trie_insert Debug (oks (create_trie_subset keccak256 Debug ex_after ex_pair)) (K 4 0x5699) (Val [8]) with Ok t => t | Panic => Empty end.
Example C92_program_example :
  match follow keccak256 Debug default_limit ex_root [Round ex_first (text_of ex_full ex_pair); Round ex_second (text_of ex_after ex_pair)] with
  | Some (xss, r) => xss = [[OValue (Some (big 2)); ODone]; [OValue (Some [7]); ODone]] /\ r <> ex_root
  | None => False
  end /\
  follow keccak256 Debug default_limit ex_root [Round ex_first (text_of ex_full ex_pair); Round ex_second (to_string (serialize ex_forged))] = None /\
  follow keccak256 Debug default_limit ex_root [Round ex_first (text_of ex_full [K 4 0x5678])] = None /\
  follow_any keccak256 Debug default_limit (match hash_trie keccak256 Debug any_trie with Ok h => h | Panic => [] end) [Round any_prog (to_string (serialize any_part))] <> None.
Proof. split; [vm_compute; split; [reflexivity|discriminate]|]. split; [vm_compute; reflexivity|]. split; [vm_compute; reflexivity|vm_compute; discriminate]. Qed.

Print Assumptions C92_program.
Print Assumptions C92_program_any.
Print Assumptions C92_program_limit.
Print Assumptions C92_program_sound.
Print Assumptions C92_program_any_sound.
Print Assumptions C92_program_served.
