(** Property C69: the tries of the Ethereum state. *)
From Verif Require Import Base Nibbles NibblesSpec NibblesFacts Trie TrieSpec TrieHistSpec TrieFacts TrieHist Hashing YellowPaper RlpFacts HashSpec Keccak P_Trie P_Hash EthSpec EthFacts.
Open Scope N_scope.

Definition account_ok (x : account) : Prop :=
  nonce x < 2 ^ 256 /\ balance x < 2 ^ 256 /\ bytesl (code_hash x) /\ len (code_hash x) = 32 /\ Forall (fun e => snd e < 2 ^ 256) (slots x).
Definition kept_ok keccak S (e : list N * kept) (e' : list N * account) : Prop :=
  fst e = fst e' /\ k_nonce (snd e) = nonce (snd e') /\ k_balance (snd e) = balance (snd e') /\ k_code (snd e) = code_hash (snd e') /\
  keeps keccak S word_rlp (storage (snd e)) (slots (snd e')) /\ account_ok (snd e').
Definition client_ok keccak S (c : client) (w : world) : Prop :=
  keeps keccak S (account_rlp keccak) (state c) w /\ Forall2 (kept_ok keccak S) (accounts c) w.

Lemma kept_find keccak S l w a : Forall2 (kept_ok keccak S) l w ->
  match find a l, find a w with Some k, Some x => kept_ok keccak S (a, k) (a, x) | None, None => True | _, _ => False end.
Proof.
  induction 1 as [|[j k] [j' x] l w H F IH]; cbn [find]; [exact Logic.I|]. pose proof H as (E & _). cbn [fst] in E. subst j'.
  destruct (key_eqb_spec j a) as [->|]; [exact H|exact IH].
Qed.
Lemma kept_assign keccak S l w a k x : Forall2 (kept_ok keccak S) l w -> kept_ok keccak S (a, k) (a, x) -> Forall2 (kept_ok keccak S) (assign a k l) (assign a x w).
Proof.
  intros F G. induction F as [|[j y] [j' z] l w H F IH]; cbn [assign]; [repeat constructor; apply G|]. pose proof H as (E & _). cbn [fst] in E. subst j'.
  destruct (key_eqb_spec j a) as [->|]; constructor; auto.
Qed.
Lemma kept_remove keccak S l w a : Forall2 (kept_ok keccak S) l w -> Forall2 (kept_ok keccak S) (remove a l) (remove a w).
Proof.
  intros F. induction F as [|[j y] [j' z] l w H F IH]; cbn [remove]; [constructor|]. pose proof H as (E & _). cbn [fst] in E. subst j'.
  destruct (key_eqb_spec j a) as [->|]; [exact IH|constructor; auto].
Qed.
Lemma assign_values {A} (P : A -> Prop) k x (l : list (list N * A)) : P x -> Forall (fun e => P (snd e)) l -> Forall (fun e => P (snd e)) (assign k x l).
Proof. intros Px F. induction F as [|[j y] l H F IH]; cbn [assign]; [repeat constructor; exact Px|]. destruct (key_eqb j k); constructor; auto. Qed.
Lemma remove_values {A} (P : A -> Prop) k (l : list (list N * A)) : Forall (fun e => P (snd e)) l -> Forall (fun e => P (snd e)) (remove k l).
Proof. intros F. induction F as [|[j y] l H F IH]; cbn [remove]; [constructor|]. destruct (key_eqb j k); [exact IH|constructor; auto]. Qed.

Lemma write_ok keccak pr S c w a k x : hash32 keccak -> no_clash keccak S -> In a S -> client_ok keccak S c w -> kept_ok keccak S (a, k) (a, x) ->
  exists c', write_account keccak pr c a k = Ok (c', ODone) /\ client_ok keccak S c' (assign a x w).
Proof.
  intros H32 NC Ha [KS F] G. pose proof G as (_ & E1 & E2 & E3 & KT & (A1 & A2 & A3 & A4 & A5)). cbn [fst snd] in *.
  unfold write_account. rewrite (keeps_hash keccak H32 S NC word_rlp pr _ _ KT). cbn [bind]. rewrite E1, E2, E3.
  destruct (yp_root_ok keccak H32 (map (fun e => (key keccak (fst e), word_rlp (snd e))) (slots x))) as [R1 R2].
  destruct (entry_ok (nonce x) (balance x) _ (code_hash x) A1 A2 R1 R2 A3 A4) as (V1 & V2 & V3).
  destruct (keeps_insert keccak H32 S NC (account_rlp keccak) pr (state c) w a x KS Ha V1 V2 V3) as (t & E & KS').
  change (account_rlp keccak x) with (entry_rlp (nonce x) (balance x) (yp_root keccak (map (fun e => (key keccak (fst e), word_rlp (snd e))) (slots x))) (code_hash x)) in E.
  rewrite E. cbn [bind]. eexists. split; [reflexivity|]. split; [exact KS'|]. apply kept_assign; assumption.
Qed.

Lemma kept_mk keccak S a n b code t l : keeps keccak S word_rlp t l -> n < 2 ^ 256 -> b < 2 ^ 256 -> bytesl code -> len code = 32 -> Forall (fun e => snd e < 2 ^ 256) l ->
  kept_ok keccak S (a, Kept n b code t) (a, Account n b code l).
Proof. intros K A B C D E. do 4 (split; [reflexivity|]). split; [exact K|]. do 4 (split; [assumption|]). exact E. Qed.
Definition op_names (o : world_op) : list (list N) := names [o].
Lemma step_ok keccak pr S c w o : hash32 keccak -> no_clash keccak S -> incl (op_names o) S -> client_ok keccak S c w -> world_op_ok o ->
  exists c', client_step keccak pr c o = Ok (c', snd (world_step keccak w o)) /\ client_ok keccak S c' (fst (world_step keccak w o)).
Proof.
  intros H32 NC IN C O. pose proof C as [KS F]. unfold op_names, names in IN. cbn [flat_map] in IN. rewrite app_nil_r in IN.
  destruct o as [a n b code|a s v|a|a|a s]; cbn [client_step world_step world_op_ok] in *.
  - destruct O as (O1 & O2 & O3 & O4). pose proof (kept_find keccak S _ _ a F) as G. cbn [fst snd].
    apply write_ok; [exact H32|exact NC|apply IN; left; reflexivity|exact C|]. apply kept_mk; try assumption.
    + destruct (find a (accounts c)) as [k|], (find a w) as [x|]; try contradiction; [apply G|apply keeps_empty].
    + unfold len. rewrite O4. reflexivity.
    + destruct (find a (accounts c)) as [k|], (find a w) as [x|]; try contradiction; [apply G|constructor].
  - pose proof (kept_find keccak S _ _ a F) as G. destruct (find a (accounts c)) as [k|], (find a w) as [x|]; try contradiction; [|exists c; auto].
    pose proof G as (_ & E1 & E2 & E3 & KT & (A1 & A2 & A3 & A4 & A5)). cbn [fst snd] in *.
    assert (Hs : In s S) by (apply IN; right; left; reflexivity). assert (Ha : In a S) by (apply IN; left; reflexivity).
    unfold put_slot. destruct (N.eqb_spec v 0) as [->|Nv].
    + destruct (keeps_delete keccak H32 S NC word_rlp pr _ _ s KT Hs) as (t & E & KT'). rewrite E. cbn [bind].
      apply write_ok; try assumption. rewrite E1, E2, E3. apply kept_mk; try assumption. apply (remove_values (fun v => v < 2 ^ 256)), A5.
    + destruct (word_ok v O) as (V1 & V2 & V3). destruct (keeps_insert keccak H32 S NC word_rlp pr _ _ s v KT Hs V1 V2 V3) as (t & E & KT'). rewrite E. cbn [bind].
      apply write_ok; try assumption. rewrite E1, E2, E3. apply kept_mk; try assumption. apply (assign_values (fun v => v < 2 ^ 256)); assumption.
  - destruct (keeps_delete keccak H32 S NC (account_rlp keccak) pr _ _ a KS ltac:(apply IN; left; reflexivity)) as (t & E & KS'). rewrite E. cbn [bind fst snd].
    eexists. split; [reflexivity|]. split; [exact KS'|]. apply kept_remove, F.
  - rewrite (keeps_get keccak H32 S (account_rlp keccak) pr _ _ a KS ltac:(apply IN; left; reflexivity)). cbn [bind fst snd]. exists c. auto.
  - pose proof (kept_find keccak S _ _ a F) as G. destruct (find a (accounts c)) as [k|], (find a w) as [x|]; try contradiction; [|exists c; auto].
    destruct G as (_ & _ & _ & _ & KT & _). cbn [fst snd] in *.
    rewrite (keeps_get keccak H32 S word_rlp pr _ _ s KT ltac:(apply IN; right; left; reflexivity)). cbn [bind]. exists c. auto.
Qed.
Lemma run_ok keccak pr S ops : hash32 keccak -> no_clash keccak S -> incl (names ops) S -> Forall world_op_ok ops ->
  forall c w, client_ok keccak S c w ->
  exists c', client_run keccak pr c ops = Ok (c', snd (world_run keccak w ops)) /\ client_ok keccak S c' (fst (world_run keccak w ops)).
Proof.
  intros H32 NC. induction ops as [|o ops IH]; intros IN O c w C; cbn [client_run world_run]; [exists c; auto|]. inversion O as [|? ? O1 O2]; subst.
  assert (I1 : incl (op_names o) S) by (intros x Hx; apply IN; unfold op_names, names in *; cbn [flat_map] in *; rewrite app_nil_r in Hx; apply in_app_iff; auto).
  assert (I2 : incl (names ops) S) by (intros x Hx; apply IN; unfold names in *; cbn [flat_map]; apply in_app_iff; auto).
  destruct (step_ok keccak pr S c w o H32 NC I1 C O1) as (c1 & E1 & C1). rewrite E1. cbn [bind]. destruct (world_step keccak w o) as [w1 x]. cbn [fst snd] in *.
  destruct (IH I2 O2 c1 w1 C1) as (c2 & E2 & C2). rewrite E2. cbn [bind]. destruct (world_run keccak w1 ops) as [w2 xs]. exists c2. auto.
Qed.
Lemma new_ok keccak S : client_ok keccak S new_client [].
Proof. split; [apply keeps_empty|constructor]. Qed.

(** Any history of changes to accounts and their storage, kept in tries as in examples/ethereum_trie.rs, reads back what was written, without a
    panic, and the root hash of the state trie is the state root of the Yellow Paper for the resulting accounts and their storage. The
    only hypothesis on the names is that no two of them have the same hash. *)
Theorem C69_state : forall keccak pr ops w xs,
  hash32 keccak -> no_clash keccak (names ops) -> Forall world_op_ok ops -> world_run keccak [] ops = (w, xs) ->
  exists c, client_run keccak pr new_client ops = Ok (c, xs) /\ hash_trie keccak pr (state c) = Ok (state_root keccak w) /\
    forall a x, find a w = Some x -> exists k, find a (accounts c) = Some k /\ hash_trie keccak pr (storage k) = Ok (storage_root keccak (slots x)).
Proof.
  intros keccak pr ops w xs H32 NC O E. destruct (run_ok keccak pr (names ops) ops H32 NC (incl_refl _) O new_client [] (new_ok keccak _)) as (c & R & KS & F).
  rewrite E in *. cbn [fst snd] in *. exists c. split; [exact R|]. split; [exact (keeps_hash keccak H32 _ NC _ pr _ _ KS)|].
  intros a x Fx. pose proof (kept_find keccak _ _ _ a F) as G. rewrite Fx in G. destruct (find a (accounts c)) as [k|]; [|contradiction]. exists k. split; [reflexivity|].
  destruct G as (_ & _ & _ & _ & KT & _). exact (keeps_hash keccak H32 _ NC _ pr _ _ KT).
Qed.
Print Assumptions C69_state.

Lemma collision_incl keccak A B A' B' : collision keccak A B -> incl A A' -> incl B B' -> collision keccak A' B'.
Proof. intros (x & y & Hx & Hy & H) IA IB. exists x, y. auto. Qed.

(** The state root is a commitment to all of it: two states with the same root have the same accounts with the same storage, unless two
    different byte strings with the same hash are among the addresses, slots and encoded nodes of the two states. *)
Theorem C69_binding : forall keccak pr1 pr2 ops1 ops2 w1 w2 xs1 xs2 c1 c2,
  hash32 keccak -> no_clash keccak (names ops1) -> no_clash keccak (names ops2) -> Forall world_op_ok ops1 -> Forall world_op_ok ops2 ->
  world_run keccak [] ops1 = (w1, xs1) -> world_run keccak [] ops2 = (w2, xs2) ->
  client_run keccak pr1 new_client ops1 = Ok (c1, xs1) -> client_run keccak pr2 new_client ops2 = Ok (c2, xs2) ->
  hash_trie keccak pr1 (state c1) = hash_trie keccak pr2 (state c2) ->
  same_world w1 w2 \/ collision keccak (preimages (encodings keccak) w1 c1) (preimages (encodings keccak) w2 c2).
Proof.
  intros keccak pr1 pr2 ops1 ops2 w1 w2 xs1 xs2 c1 c2 H32 NC1 NC2 O1 O2 E1 E2 R1 R2 HE.
  destruct (run_ok keccak pr1 (names ops1) ops1 H32 NC1 (incl_refl _) O1 new_client [] (new_ok keccak _)) as (c1' & R1' & KS1 & F1).
  destruct (run_ok keccak pr2 (names ops2) ops2 H32 NC2 (incl_refl _) O2 new_client [] (new_ok keccak _)) as (c2' & R2' & KS2 & F2).
  rewrite E1, E2 in *. cbn [fst snd] in *. assert (c1' = c1) by congruence. assert (c2' = c2) by congruence. subst c1' c2'.
  destruct (collision_dec keccak (preimages (encodings keccak) w1 c1) (preimages (encodings keccak) w2 c2)) as [C|C]; [right; exact C|left].
  assert (P : forall w c, incl (map fst w) (preimages (encodings keccak) w c) /\ incl (encodings keccak (state c)) (preimages (encodings keccak) w c) /\
    (forall e, In e w -> incl (map fst (slots (snd e))) (preimages (encodings keccak) w c)) /\
    (forall e, In e (accounts c) -> incl (encodings keccak (storage (snd e))) (preimages (encodings keccak) w c))).
  { intros w c. unfold preimages. repeat split.
    - apply incl_appl, incl_refl.
    - apply incl_appr, incl_appr, incl_appl, incl_refl.
    - intros e He y Hy. rewrite !in_app_iff. right. left. apply in_flat_map. eauto.
    - intros e He y Hy. rewrite !in_app_iff. right. right. right. apply in_flat_map. eauto. }
  assert (T : forall A S S' (f : A -> list N) t t' l l', keeps keccak S f t l -> keeps keccak S' f t' l' -> hash_trie keccak pr1 t = hash_trie keccak pr2 t' ->
    incl (map fst l) (preimages (encodings keccak) w1 c1) -> incl (map fst l') (preimages (encodings keccak) w2 c2) ->
    incl (encodings keccak t) (preimages (encodings keccak) w1 c1) -> incl (encodings keccak t') (preimages (encodings keccak) w2 c2) ->
    forall a, option_map f (find a l) = option_map f (find a l')).
  { intros A S S' f t t' l l' K K' H I1 I2 I3 I4. pose proof K as (_ & _ & Ft & m & (W & _) & _). pose proof K' as (_ & _ & Ft' & m' & (W' & _) & _).
    destruct (C21_binding keccak pr1 pr2 t t' H32 W W' Ft Ft' (keeps_hash_free keccak S f t l K) (keeps_hash_free keccak S' f t' l' K') H) as [<-|X].
    - apply (keeps_same keccak S S' f t l l' K K'). intros X. apply C. eapply collision_incl; eauto.
    - exfalso. apply C. eapply collision_incl; eauto. }
  destruct (P w1 c1) as (P1 & P2 & P3 & P4). destruct (P w2 c2) as (Q1 & Q2 & Q3 & Q4).
  intros a. pose proof (T _ _ _ _ _ _ _ _ KS1 KS2 HE P1 Q1 P2 Q2 a) as Ea.
  pose proof (kept_find keccak _ _ _ a F1) as G1. pose proof (kept_find keccak _ _ _ a F2) as G2.
  destruct (find a w1) as [x|] eqn:X1, (find a w2) as [y|] eqn:X2; cbn [option_map] in Ea; try discriminate Ea; [|exact Logic.I].
  destruct (find a (accounts c1)) as [k|] eqn:Y1; [|contradiction]. destruct (find a (accounts c2)) as [k'|] eqn:Y2; [|contradiction].
  destruct G1 as (_ & _ & _ & _ & KT & (A1 & A2 & A3 & A4 & A5)). destruct G2 as (_ & _ & _ & _ & KT' & (B1 & B2 & B3 & B4 & B5)). cbn [fst snd] in *.
  injection Ea as Ea. unfold account_rlp in Ea.
  apply entry_inj in Ea; try assumption; try (apply (yp_root_ok keccak H32)). destruct Ea as (D1 & D2 & D3 & D4). unfold same_account. repeat split; try assumption.
  assert (Hk : forall (l : list (list N * kept)) k, find a l = Some k -> In (a, k) l).
  { clear. intros l k. induction l as [|[j z] l IH]; cbn [find]; [discriminate|]. destruct (key_eqb_spec j a) as [->|]; [intros [= ->]; left; reflexivity|intros E; right; auto]. }
  intros s. assert (Es : option_map word_rlp (find s (slots x)) = option_map word_rlp (find s (slots y))).
  { apply (T _ _ _ _ _ _ _ _ KT KT').
    - rewrite (keeps_hash keccak H32 _ NC1 _ pr1 _ _ KT), (keeps_hash keccak H32 _ NC2 _ pr2 _ _ KT'). f_equal. exact D3.
    - apply (P3 (a, x)). apply find_in; [apply KS1|exact X1].
    - apply (Q3 (a, y)). apply find_in; [apply KS2|exact X2].
    - apply (P4 (a, k)), Hk, Y1.
    - apply (Q4 (a, k')), Hk, Y2. }
  destruct (find s (slots x)) as [v|] eqn:V1, (find s (slots y)) as [v'|] eqn:V2; cbn [option_map] in Es; try discriminate Es; [|reflexivity]. f_equal. injection Es as Es.
  rewrite Forall_forall in A5, B5. apply word_inj; [apply (A5 (s, v)), find_in; [apply KT|exact V1]|apply (B5 (s, v')), find_in; [apply KT'|exact V2]|exact Es].
Qed.
Print Assumptions C69_binding.

Definition clash_free (hs : list (list N * list N)) : bool :=
  forallb (fun x => forallb (fun y => key_eqb (fst x) (fst y) || negb (key_eqb (snd x) (snd y))) hs) hs.
Lemma no_clash_check l hs : map (fun x => (x, keccak256 x)) (nodup (list_eq_dec N.eq_dec) l) = hs -> clash_free hs = true -> no_clash keccak256 l.
Proof.
  intros <- G x y Hx Hy E. unfold clash_free in G. rewrite forallb_forall in G.
  assert (M : forall z, In z l -> In (z, keccak256 z) (map (fun x => (x, keccak256 x)) (nodup (list_eq_dec N.eq_dec) l)))
    by (intros z Hz; apply in_map_iff; exists z; split; [reflexivity|apply nodup_In, Hz]).
  specialize (G _ (M x Hx)). rewrite forallb_forall in G. specialize (G _ (M y Hy)). cbn [fst snd] in G. destruct (key_eqb_spec x y) as [|N]; [assumption|].
  destruct (key_eqb_spec (keccak256 x) (keccak256 y)); [discriminate|contradiction].
Qed.
Ltac clash := eapply no_clash_check; [vm_compute; reflexivity|vm_compute; reflexivity].
Ltac world_ok :=
  repeat (apply Forall_cons; [cbn [world_op_ok]; try exact Logic.I; try (vm_compute; reflexivity)|]); try apply Forall_nil;
  (split; [vm_compute; reflexivity|]; split; [vm_compute; reflexivity|]; split; [|reflexivity]; apply Forall_forall; intros z Hz; apply repeat_spec in Hz; subst z; lia).

(** Two accounts with storage, one slot that is cleared again, one account that is destroyed; with Keccak-256. *)
Definition ex_address (i : N) : list N := repeat i 20.
Definition ex_slot (i : N) : list N := repeat 0 31 ++ [i].
Definition ex_code : list N := repeat 0xc5 32.
Definition ex_world_ops : list world_op :=
  [SetAccount (ex_address 1) 0 1000000000000000000 ex_code; SetAccount (ex_address 2) 7 0 ex_code; SetSlot (ex_address 2) (ex_slot 0) 0xdeadbeef;
   SetSlot (ex_address 2) (ex_slot 1) 1; SetAccount (ex_address 3) 1 1 ex_code; SetSlot (ex_address 2) (ex_slot 0) 0; Destroy (ex_address 3);
   SetAccount (ex_address 2) 8 5 ex_code; ReadSlot (ex_address 2) (ex_slot 1); ReadSlot (ex_address 2) (ex_slot 0); ReadAccount (ex_address 3);
   SetSlot (ex_address 3) (ex_slot 0) 1].
Example C69_example :
  hash32 keccak256 /\ no_clash keccak256 (names ex_world_ops) /\ Forall world_op_ok ex_world_ops /\
  fst (world_run keccak256 [] ex_world_ops) =
    [(ex_address 1, Account 0 1000000000000000000 ex_code []); (ex_address 2, Account 8 5 ex_code [(ex_slot 1, 1)])] /\
  skipn 8 (snd (world_run keccak256 [] ex_world_ops)) = [OValue (Some [1]); OValue None; OValue None; ODone].
Proof.
  split; [exact keccak256_hash32|]. split; [|split; [|split; vm_compute; reflexivity]].
  - clash.
  - world_ok.
Qed.
