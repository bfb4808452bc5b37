(** Property C76, continued: the code that the compiler derives. *)
From Coq Require Import String.
From Verif Require Import Base Nibbles Query Diff Stats Rlp Hashing Subset P_Serde P_Binary P_Stack.
From Verif Require Import Trie TrieSpec TrieFacts TrieHistSpec HideFacts Serde Json JsonSpec Text DebugText JsonText Binary BinarySpec Stack StackSpec StackFacts StackDerived StackDerivedFacts.
From Verif Require Import Trie TrieSpec Serde Binary.
Open Scope N_scope.
Open Scope list_scope.

(** * Dropping, printing and saving *)
(** Dropping a trie, whichever of its nodes other handles refer to, and printing it need no more nested calls than it has levels; dropping the only handle to all of
    it, saving it and printing it (if this does not panic) need exactly as many. *)
Theorem C76_derived : forall pr t,
  (forall shared, runs (levels t) (fun d => drop_lim d shared [] t) (Ok tt)) /\
  needs (levels t) (fun d => drop_lim d (fun _ => false) [] t) (Ok tt) /\
  needs (levels t) (fun d => serialize_lim d t) (Ok (serialize t)) /\
  runs (levels t) (fun d => debug_lim d pr t) (trie_dbg pr t) /\
  (forall x, trie_dbg pr t = Ok x -> needs (levels t) (fun d => debug_lim d pr t) (Ok x)).
Proof.
  intros pr t.
  assert (Q : forall A (f : nat -> lim A) r, (forall d, ok (levels t <= d)%nat (f d) r) -> (forall d, f d = Some r -> (levels t <= d)%nat) -> needs (levels t) f r).
  { intros A f r H1 H2 d. split; intros L; destruct (H1 d) as [E|[E N]]; try assumption; [contradiction|]. apply H2 in E. lia. }
  split; [intros shared; apply ok_runs; intros d; apply drop_ok|]. split; [apply Q; intros d; [apply drop_ok|apply drop_needs]|].
  split; [apply Q; intros d; [apply serialize_ok|apply serialize_needs]|]. split; [apply ok_runs; intros d; apply debug_ok|].
  intros x E. apply Q; intros d; [rewrite <- E; apply debug_ok|apply debug_needs].
Qed.
Print Assumptions C76_derived.
(** Tries built by the API, however many entries they have. *)
Theorem C76_derived_api : forall pr pr' t, reach pr' t ->
  (forall shared, runs 65 (fun d => drop_lim d shared [] t) (Ok tt)) /\
  runs 65 (fun d => serialize_lim d t) (Ok (serialize t)) /\
  runs 65 (fun d => debug_lim d pr t) (trie_dbg pr t).
Proof.
  intros pr pr' t R. pose proof (C76_levels pr' t R) as L.
  split; [intros shared|split]; (eapply runs_more; [apply ok_runs; intros d|exact L]); [apply drop_ok|apply serialize_ok|apply debug_ok].
Qed.
Print Assumptions C76_derived_api.

(** * Loading bytes *)
Lemma dlev_deserialize d : forall t, deserialize d = Some t -> dlev d = levels t.
Proof.
  revert d. fix IH 1. intros d. destruct d as [| | | | | | | |d'| | | |]; try discriminate. destruct d'; try discriminate; cbn [deserialize].
  - destruct v; try discriminate. intros t [= <-]. reflexivity.
  - destruct v, d'; try discriminate. intros t [= <-]. reflexivity.
  - assert (Z1 : forall y n, de_nibbles y = Some n -> dlev y = 0%nat) by (intros [] ?; try discriminate; reflexivity).
    assert (Z2 : forall y n, de_bytes y = Some n -> dlev y = 0%nat) by (intros [] ?; try discriminate; reflexivity).
    destruct v; try discriminate; destruct fields as [|[[] d1] [|[[] d2] [|]]]; try discriminate; try (destruct d1; discriminate).
    + destruct d1; try discriminate. destruct (sixteen l) eqn:L; [|discriminate]. intros t.
      match goal with |- match ?f l with _ => _ end = _ -> _ =>
        assert (S : forall l ch, f l = Some ch -> map dlev l = map levels ch)
      end.
      { clear - IH. fix IHl 1. intros [|d l] ch; [intros [= <-]; reflexivity|].
        destruct (deserialize d) as [c|] eqn:Ed; [|discriminate].
        match goal with |- match ?m with _ => _ end = _ -> _ => destruct m as [cs|] eqn:El; [|discriminate] end. intros [= <-].
        apply IH in Ed. apply IHl in El. cbn [map]. rewrite Ed, El. reflexivity. }
      match goal with |- match ?m with _ => _ end = _ -> _ => destruct m as [cs|] eqn:El; [|discriminate] end. apply S in El.
      destruct (de_bytes d2) eqn:E2; [|discriminate]. intros [= <-]. cbn [dlev levels map fold_right snd]. rewrite El, (Z2 _ _ E2). lia.
    + intros t. destruct (de_nibbles d1) eqn:E1; [|discriminate]. destruct (deserialize d2) as [c|] eqn:Ed; [|discriminate]. intros [= <-].
      apply (IH d2) in Ed. cbn [dlev levels map fold_right snd]. rewrite Ed, (Z1 _ _ E1). lia.
    + intros t. destruct (de_nibbles d1) eqn:E1; [|discriminate]. destruct (de_bytes d2) eqn:E2; [|discriminate]. intros [= <-]. cbn [dlev levels map fold_right snd].
      rewrite (Z1 _ _ E1), (Z2 _ _ E2). reflexivity.
Qed.
(** Any bytes: a quarter of their number, and one more, is room enough to load them or to find that they are not a trie. If they are one, its levels are needed. *)
Theorem C76_load : forall bs,
  runs (S (length bs / 4)) (fun d => load_lim d bs) (Ok (load_from bs)) /\
  forall t rest, load_from bs = Some (t, rest) -> needs (levels t) (fun d => load_lim d bs) (Ok (Some (t, rest))).
Proof.
  intros bs. split; [apply load_runs|]. intros t rest E d. pose proof (load_runs bs d) as R. cbv beta in R. rewrite E in R.
  unfold load_from in E. destruct (get_trie (S (length bs)) bs) as [[x b]|] eqn:G; [|discriminate]. destruct (deserialize x) as [u|] eqn:D; [|discriminate]. injection E as -> ->.
  pose proof (dlev_deserialize x t D) as Lx. split; intros L.
  - unfold load_lim. rewrite (trie_enough d _ _ _ _ G) by lia. rewrite D. reflexivity.
  - destruct R as [R|[R _]]; [|exact R]. exfalso. unfold load_lim, lret in R. destruct (lget_trie d bs) as [[[y b']|]|] eqn:E; [|discriminate..].
    destruct (deserialize y) as [u|] eqn:Dy; [|discriminate]. injection R as -> ->. apply trie_deep in E. rewrite (dlev_deserialize y t Dy) in E. lia.
Qed.
Print Assumptions C76_load.
(** What was received ends the process while it is loaded: for a stack of any size, 23 bytes for each level. With room for one more call
    it loads; a thread with the smaller stack that is then given the trie cannot drop, save or print it. *)
Theorem C76_received_load : forall d, exists bs t, (length bs = 23 * d + 4)%nat /\ u8s bs /\ load bs = Some t /\
  load_lim d bs = None /\ load_lim (S d) bs = Some (Ok (Some (t, []))) /\
  drop_lim d (fun _ => false) [] t = None /\ serialize_lim d t = None /\ forall pr, debug_lim d pr t = None.
Proof.
  intros d. exists (save (chain d)), (chain d). destruct (chain_type d) as [T V]. pose proof (chain_levels d) as L.
  assert (E : load_from (save (chain d)) = Some (chain d, [])) by (rewrite <- (app_nil_r (save _)); apply C74_roundtrip; assumption).
  split; [apply chain_length|]. split; [apply chain_length|]. split; [unfold load; rewrite E; reflexivity|].
  destruct (C76_load (save (chain d))) as [_ H]. specialize (H _ _ E). split; [apply (H d); lia|]. split; [apply (H (S d)); lia|].
  destruct (C76_derived Debug (chain d)) as (_ & D2 & D3 & _). split; [apply (D2 d); lia|]. split; [apply (D3 d); lia|].
  intros pr. assert (X : exists x, trie_dbg pr (chain d) = Ok x).
  { clear. induction d as [|d [x IH]]; [eexists; reflexivity|]. cbn [chain trie_dbg]. destruct (key_dbg pr (Nib 0 0)) as [k|] eqn:K; [|destruct pr; discriminate K].
    cbn [bind]. rewrite IH. cbn [bind]. eexists. reflexivity. }
  destruct X as [x X]. destruct (C76_derived pr (chain d)) as (_ & _ & _ & _ & D5). apply (D5 x X d). lia.
Qed.
Print Assumptions C76_received_load.

(** * Examples *)
(** Five levels. Shared below its first branch, dropping stops there; bytes that are no trie are refused with little room, or exhaust it. *)
Example C76_derived_example : levels stacked = 5%nat /\
  drop_lim 4 (fun _ => false) [] stacked = None /\ drop_lim 5 (fun _ => false) [] stacked = Some (Ok tt) /\
  drop_lim 2 (fun p => match p with [_] => false | _ => true end) [] stacked = Some (Ok tt) /\
  (exists x, trie_dbg Debug stacked = Ok x) /\ debug_lim 4 Debug stacked = None /\
  load_from (save stacked) = Some (stacked, []) /\ load_lim 4 (save stacked) = None /\ load_lim 5 (save stacked ++ [7]) = Some (Ok (Some (stacked, [7]))) /\
  load_lim 1 [5; 0; 0; 0] = Some (Ok None) /\ load_lim 1 [2; 0; 0; 0; 9; 0; 0; 0] = None /\ load_lim 2 [2; 0; 0; 0; 9; 0; 0; 0] = Some (Ok None).
Proof. repeat split; try (vm_compute; reflexivity). vm_compute. eexists. reflexivity. Qed.
