(** Properties C34 and C19, continued: exactly when the order of the entries does not matter; root hashes for keys of any
    lengths. *)
From Verif Require Import Base Nibbles NibblesSpec NibblesFacts NibblesFacts2 Trie TrieSpec TrieHistSpec TrieUnique Hashing YellowPaper HashSpec InsertWf HideFacts OrderSpec OrderFacts OrderExact P_Trie P_Hash.
From Coq Require Import Permutation.
Open Scope N_scope.

(** Unless a key is a strict prefix of two others that continue it with the same nibble, [from_iter] holds the last value of
    each key ... *)
Theorem C34_spaced_partial : forall pr l, Forall ok_entry l -> ~ crowded (keys l) ->
  exists t, from_iter pr (vals l) = Ok t /\ holds t (last_value l).
Proof. intros pr l F NC. destruct (run_spaced pr l F NC) as (t & E & _ & H). eauto. Qed.

(** ... and with shorter keys first it does so for all keys. *)
Theorem C34_short_first_partial : forall pr l, Forall ok_entry l -> short_first l ->
  exists t, from_iter pr (vals l) = Ok t /\ holds t (last_value l).
Proof. intros pr l F SF. destruct (run_short pr l F SF) as (t & E & _ & H). eauto. Qed.

(** For distinct keys this is exact: all orders give the same trie if and only if no key is a strict prefix of two others that
    continue it with the same nibble; and if there is such a key, some order does not give a trie with the given contents. *)
Theorem C34_order_exact_partial : forall pr l, Forall ok_entry l -> NoDup (keys l) ->
  ((forall l', Permutation l l' -> from_iter pr (vals l') = from_iter pr (vals l)) <-> ~ crowded (keys l)) /\
  ((forall l', Permutation l l' -> exists t, from_iter pr (vals l') = Ok t /\ holds t (last_value l)) <-> ~ crowded (keys l)).
Proof.
  intros pr l F ND.
  assert (Good : ~ crowded (keys l) -> forall l', Permutation l l' -> exists t, from_iter pr (vals l') = Ok t /\ vtrie t /\ holds t (last_value l)).
  { intros NC l' P. destruct (run_spaced pr l') as (t & E & V & H).
    - eapply Permutation_Forall; eauto.
    - intros (k & x & r & s & D & I1 & I2 & I3). apply NC. exists k, x, r, s. pose proof (Permutation_map (fun e => nseq (fst e)) P) as Q.
      split; [exact D|]. repeat split; (eapply Permutation_in; [apply Permutation_sym; exact Q|assumption]).
    - exists t. split; [exact E|]. split; [exact V|]. intros j. rewrite H. f_equal. symmetry. apply last_value_perm; assumption. }
  split; split.
  - intros A CR. destruct (run_crowded pr l F ND CR) as (l' & P & N). destruct (short_order l) as (l0 & P0 & S0).
    destruct (run_short pr l0 ltac:(eapply Permutation_Forall; eauto) S0) as (t & E & V & H).
    rewrite (A l0 P0) in E. rewrite <- (A l' P) in E. apply (N t E). intros j. rewrite H. f_equal. symmetry. apply last_value_perm; assumption.
  - intros NC l' P. destruct (Good NC l' P) as (t' & E' & V' & H'). destruct (Good NC l (Permutation_refl l)) as (t & E & V & H).
    rewrite E', E. f_equal. eapply holds_unique; eauto.
  - intros A CR. destruct (run_crowded pr l F ND CR) as (l' & P & N). destruct (A l' P) as (t & E & H). exact (N t E H).
  - intros NC l' P. destruct (Good NC l' P) as (t' & E' & _ & H'). eauto.
Qed.

(** 0x1 is a prefix of 0x1234 and 0x1335, but they part right after it; with 0x1236 the keys are crowded. *)
Definition ex_spaced : list (nibbles * list N) := [(K 4 0x1234, [1]); (K 1 1, [2]); (K 4 0x1335, [3])].
Example C34_exact_example :
  Forall ok_entry ((K 4 0x1236, [4]) :: ex_spaced) /\ NoDup (keys ((K 4 0x1236, [4]) :: ex_spaced)) /\
  ~ crowded (keys ex_spaced) /\ crowded (keys ((K 4 0x1236, [4]) :: ex_spaced)) /\ short_first [(K 1 1, [2]); (K 4 0x1234, [1]); (K 4 0x1236, [4])].
Proof.
  split; [|split; [|split; [|split]]].
  - repeat constructor; cbn; vm_compute; (reflexivity || (intro; discriminate)).
  - vm_compute. repeat constructor; cbn; intuition congruence.
  - intros (k & x & r & s & D & I1 & I2 & I3).
    assert (Ek : keys ex_spaced = [[1; 2; 3; 4]; [1]; [1; 3; 3; 5]]) by (vm_compute; reflexivity). rewrite Ek in *. cbn [In] in *.
    destruct I1 as [<-|[<-|[<-|[]]]]; cbn [app] in *; intuition congruence.
  - exists [1], 2, [3; 4], [3; 6]. split; [congruence|]. vm_compute. auto 7.
  - cbn. repeat split; intros f I; intuition (subst; vm_compute; lia).
Qed.

(** For a list of entries in the order given, with keys of any lengths: [from_iter] gives a trie with the last value of each key if no entry
    comes when its key is buried by the keys before it, and for distinct keys only then. *)
Theorem C34_exact_partial : forall pr l, Forall ok_entry l ->
  (in_time l -> exists t, from_iter pr (vals l) = Ok t /\ holds t (last_value l)) /\
  (NoDup (keys l) -> (exists t, from_iter pr (vals l) = Ok t /\ holds t (last_value l)) -> in_time l).
Proof.
  intros pr l F. split.
  - intros T. destruct (run_in_time pr l F T) as (t & E & _ & H). eauto.
  - intros ND (t & E & H). apply (run_late pr l t F ND E). apply holds_stored. exact H.
Qed.

(** Shorter keys first, or no crowded keys, are two ways to be in time. *)
Theorem C34_in_time : forall l, short_first l \/ ~ crowded (keys l) -> in_time l.
Proof.
  intros l O a [k v] b -> (Nk & x & r & s & D & I1 & I2 & A). cbn [fst] in *. destruct O as [O|O].
  - unfold keys in I1. apply in_map_iff in I1. destruct I1 as (f & Ef & If). pose proof (short_first_app a (k, v) b O f If) as L.
    rewrite Ef, app_length in L. cbn [fst length] in L. lia.
  - apply O. exists (nseq k), x, r, s. unfold keys in *. rewrite map_app. split; [exact D|].
    split; [apply in_or_app; right; left; reflexivity|]. split; apply in_or_app; left; assumption.
Qed.

(** 0x1 after 0x1234 and 0x1236 is too late, after 0x1335 as well it is not; nor is it if it comes again. *)
Example C34_in_time_example :
  let l := [(K 4 0x1234, [1]); (K 4 0x1236, [2])] in
  buried (keys l) [1] /\ ~ in_time (l ++ [(K 1 1, [3])]) /\ in_time (l ++ [(K 4 0x1335, [4]); (K 1 1, [3])]) /\
  ~ short_first (l ++ [(K 4 0x1335, [4]); (K 1 1, [3])]) /\ crowded (keys (l ++ [(K 4 0x1335, [4]); (K 1 1, [3])])).
Proof.
  intros l. assert (B : buried (keys l) [1]).
  { split; [vm_compute; intuition congruence|]. exists 2, [3; 4], [3; 6]. split; [congruence|]. split; [vm_compute; auto|]. split; [vm_compute; auto|].
    intros y q [I|[I|[]]]; vm_compute in I; congruence. }
  split; [exact B|]. split; [intros T; exact (T l (K 1 1, [3]) [] eq_refl B)|].
  assert (E0 : nseq (K 4 0x1234) = [1; 2; 3; 4]) by (vm_compute; reflexivity). assert (E1 : nseq (K 4 0x1236) = [1; 2; 3; 6]) by (vm_compute; reflexivity).
  assert (E2 : nseq (K 4 0x1335) = [1; 3; 3; 5]) by (vm_compute; reflexivity). assert (E3 : nseq (K 1 1) = [1]) by (vm_compute; reflexivity).
  assert (Short : forall ks k, (forall j, In j ks -> (length j <= length k)%nat) -> ~ buried ks k).
  { intros ks k H (_ & x & r & s & _ & I1 & _). apply H in I1. rewrite app_length in I1. cbn [length] in I1. lia. }
  split; [|split].
  - intros a e b E. unfold l in E. cbn [app] in E.
    destruct a as [|a0 a]; cbn [app] in E; injection E as <- E; [apply Short; intros j []|].
    destruct a as [|a1 a]; cbn [app] in E; injection E as <- E; [apply Short; cbn [keys map fst]; rewrite E0, E1; intros j [<-|[]]; vm_compute; lia|].
    destruct a as [|a2 a]; cbn [app] in E; injection E as <- E; [apply Short; cbn [keys map fst]; rewrite E0, E1, E2; intros j [<-|[<-|[]]]; vm_compute; lia|].
    destruct a as [|a3 a]; cbn [app] in E; injection E as <- E; [|destruct a; discriminate].
    cbn [keys map fst]. rewrite E0, E1, E2, E3. intros (_ & x & r & s & _ & _ & _ & A).
    pose proof (A 2 [3; 4] ltac:(cbn; auto)) as A1. pose proof (A 3 [3; 5] ltac:(cbn; auto)) as A2. congruence.
  - cbn. intros [H _]. specialize (H (K 1 1, [3]) ltac:(cbn; auto)). vm_compute in H. lia.
  - exists [1], 2, [3; 4], [3; 6]. split; [congruence|]. vm_compute. auto 8.
Qed.

(** * C19 for keys of any lengths: inserted in time (shorter keys first, or without crowding) they have the Yellow Paper root *)
Theorem C19_any_keys : forall keccak pr l J,
  hash32 keccak -> Forall ok_entry l -> Forall (fun e => bytesl (snd e) /\ len (snd e) < 2147483648) l ->
  in_time l -> lists_map J (last_value l) ->
  exists t, from_iter pr (vals l) = Ok t /\ hash_trie keccak pr t = Ok (yp_root keccak J).
Proof.
  intros keccak pr l J HK F FB O HJ.
  destruct (run_in_time pr l F O) as (t & E & (W & C & _) & H). exists t. split; [exact E|]. apply C19_canonical; auto.
  - apply (extend_fits pr (vals l) Empty t); [exact I| |exact E]. unfold vals. rewrite Forall_map. exact FB.
  - eapply lists_holds; eauto.
Qed.
Example C19_any_keys_example : let l := [(K 1 1, [2]); (K 4 0x1234, [1]); (K 4 0x1236, [4])] in
  Forall ok_entry l /\ Forall (fun e => bytesl (snd e) /\ len (snd e) < 2147483648) l /\ in_time l /\
  lists_map [([1], [2]); ([1; 2; 3; 4], [1]); ([1; 2; 3; 6], [4])] (last_value l).
Proof.
  split; [repeat constructor; cbn; vm_compute; (reflexivity || (intro; discriminate))|].
  split; [repeat constructor; cbn; vm_compute; (reflexivity || (intro; discriminate))|].
  split; [apply C34_in_time; left; apply C34_exact_example|]. split; [cbn; repeat constructor; cbn; intuition congruence|].
  intros k v. rewrite last_value_in by (vm_compute; repeat constructor; cbn; intuition congruence). split.
  - intros (j & [I|[I|[I|[]]]] & <-); injection I as <- <-; vm_compute; auto.
  - intros [I|[I|[I|[]]]]; injection I as <- <-; eexists; (split; [cbn [In]; eauto|vm_compute; reflexivity]).
Qed.

Print Assumptions C34_spaced_partial.
Print Assumptions C34_short_first_partial.
Print Assumptions C34_order_exact_partial.
Print Assumptions C34_exact_partial.
Print Assumptions C34_in_time.
Print Assumptions C19_any_keys.
