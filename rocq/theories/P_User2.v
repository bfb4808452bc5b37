(** Property C72, continued: a program over caching tries panics exactly when it would panic over plain tries. *)
From Verif Require Import Base Nibbles NibblesSpec NibblesFacts Trie TrieSpec TrieFacts Hashing RlpFacts Keccak P_Trie P_Hash
  Cache CacheSpec CacheFacts CacheFacts2 CacheFacts3 FailFacts CaughtFacts UserSpec P_User.
Open Scope N_scope.

Section General.
Variable keccak : list N -> list N.
Variable pr : profile.
(** A panic may be preceded by writes into the caches, all of which are allowed. *)
Lemma exec_fails {A} (p : prog A) : forall b V s, fails p b V -> CacheFacts.keeps b V s -> exec p s b = Panic.
Proof.
  intros b V s F Kp. destruct (exec p s b) as [[[a s'] b']|] eqn:E; [|reflexivity]. exfalso.
  destruct (exec_wp _ _ _ _ _ F Kp) as (o & s1 & b1 & V1 & Ex & _ & _ & ->). rewrite (exec_catch _ _ _ _ _ _ E) in Ex. discriminate.
Qed.
Lemma hplay_panics {A} K (u : user A) : forall hs b V s,
  inv keccak pr K None b V hs -> CacheFacts.keeps b V s -> obeys keccak pr K (map erase hs) u -> vplay keccak pr (map erase hs) u = Panic ->
  exec (hplay keccak pr hs u) s b = Panic.
Proof.
  induction u as [a0|o k IH]; intros hs b V s I Kp R E; cbn [vplay hplay obeys] in *; [discriminate|].
  destruct R as [L R]. rewrite map_length in L. rewrite exec_bind. destruct (vstep keccak pr (map erase hs) o) as [[ts1 x]|] eqn:Ev.
  - cbn [bind] in E. destruct (hstep_ok keccak pr K hs o ts1 x b V s I Kp L Ev) as (hs1 & s1 & b1 & V1 & Ex & <- & I1 & Kp1).
    rewrite Ex. exact (IH x hs1 b1 V1 s1 I1 Kp1 R E).
  - rewrite (exec_fails _ b V s); [reflexivity| |exact Kp]. eapply fails_hstep; eauto.
Qed.
Lemma hrun_panics K os : forall hs b V s,
  inv keccak pr K None b V hs -> CacheFacts.keeps b V s -> respects keccak pr K (map erase hs) os -> vrun keccak pr (map erase hs) os = Panic ->
  exec (hrun keccak pr hs os) s b = Panic.
Proof.
  induction os as [|o os IH]; intros hs b V s I Kp R E; cbn [vrun hrun respects] in *; [discriminate|].
  destruct R as [L R]. rewrite map_length in L. rewrite exec_bind. destruct (vstep keccak pr (map erase hs) o) as [[ts1 x]|] eqn:Ev.
  - cbn [bind] in E. destruct (hstep_ok keccak pr K hs o ts1 x b V s I Kp L Ev) as (hs1 & s1 & b1 & V1 & Ex & <- & I1 & Kp1).
    rewrite Ex. rewrite exec_bind, (IH hs1 b1 V1 s1 I1 Kp1 R); [reflexivity|].
    destruct (vrun keccak pr (map erase hs1) os) as [[ts2 xs]|]; [discriminate|reflexivity].
  - rewrite (exec_fails _ b V s); [reflexivity| |exact Kp]. eapply fails_hstep; eauto.
Qed.
Lemma start_panics K os : respects keccak pr K [] os -> vrun keccak pr [] os = Panic -> start keccak pr os = Panic.
Proof.
  intros R P. unfold start. rewrite (hrun_panics K os [] 0 no_ghost (fun _ => None) (inv_nil keccak pr K) keeps_nil R P). reflexivity.
Qed.
End General.

(** The same for a fixed list of calls (the programs of C29): with the discipline of [C29_discipline_partial] the run over caching tries and the run
    over plain tries end alike, in tries, answers and panics. *)
Theorem C29_same_partial : forall keccak pr K os,
  respects keccak pr K [] os ->
  ('(hs, xs) <- start keccak pr os ;; Ok (map erase hs, xs)) = vrun keccak pr [] os.
Proof.
  intros keccak pr K os R. destruct (vrun keccak pr [] os) as [[ts xs]|] eqn:E.
  - destruct (start_ok keccak pr K os ts xs R E) as (hs & -> & <-). reflexivity.
  - rewrite (start_panics keccak pr K os R E). reflexivity.
Qed.
Print Assumptions C29_same_partial.

(** Under the discipline of [C72_discipline] the caches are invisible in panics too: the two runs end together, or panic together. *)
Theorem C72_panics : forall keccak pr K A (u : user A),
  obeys keccak pr K [] u -> (play keccak pr u = Panic <-> vplay keccak pr [] u = Panic).
Proof.
  intros keccak pr K A u R. split; intros P.
  - destruct (vplay keccak pr [] u) as [[ts a]|] eqn:E; [|reflexivity]. exfalso.
    destruct (C72_discipline keccak pr K A u ts a R E) as (hs & Eh & _). congruence.
  - unfold play. rewrite (hplay_panics keccak pr K u [] 0 no_ghost (fun _ => None) (inv_nil keccak pr K) keeps_nil R P). reflexivity.
Qed.
Print Assumptions C72_panics.

(** So the answer of the program, or that it panics, is always that of the program over plain tries. *)
Theorem C72_same : forall keccak pr K A (u : user A),
  obeys keccak pr K [] u ->
  ('(hs, a) <- play keccak pr u ;; Ok (map erase hs, a)) = vplay keccak pr [] u.
Proof.
  intros keccak pr K A u R. destruct (vplay keccak pr [] u) as [[ts a]|] eqn:E.
  - destruct (C72_discipline keccak pr K A u ts a R E) as (hs & -> & <-). reflexivity.
  - rewrite (proj2 (C72_panics keccak pr K A u R) E). reflexivity.
Qed.
Print Assumptions C72_same.

(** A program that clones tries, and inserts a key below a hash node: both runs panic. *)
Definition panicking : user unit :=
  Call (New [(K 2 0x12, Val [1]); (K 1 0x3, HashV (repeat 7 32))]) (fun _ => Call (HashOf 0) (fun _ => Call (Clone 0) (fun _ =>
    Call (Insert 1 (K 2 0x31) (Val [5])) (fun _ => Return tt)))).
Example C72_panics_example : obeys keccak256 Debug (fun _ => Plain) [] panicking /\ vplay keccak256 Debug [] panicking = Panic.
Proof.
  split; [|vm_compute; reflexivity]. apply (every_obeys keccak256 Debug _ tame); [apply tame_legal|]. cbn [panicking every tame]. repeat split.
Qed.
