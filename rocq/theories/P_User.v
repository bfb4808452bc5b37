(** Property C72: programs that react to what they see, over caching tries. *)
From Verif Require Import Base Nibbles NibblesSpec NibblesFacts Trie TrieSpec TrieHistSpec TrieFacts TrieHist Hashing YellowPaper RlpFacts HashSpec Keccak P_Trie P_Hash
  Cache CacheSpec CacheFacts CacheFacts2 CacheFacts3 EthSpec EthFacts P_Eth UserSpec.
Open Scope N_scope.

Section General.
Variable keccak : list N -> list N.
Variable pr : profile.
Lemma vplay_bind {A B} (u : user A) (f : A -> user B) : forall ts, vplay keccak pr ts (ubind u f) = ('(ts', a) <- vplay keccak pr ts u ;; vplay keccak pr ts' (f a)).
Proof. induction u as [a|o k IH]; intros ts; cbn [ubind vplay bind]; [reflexivity|]. destruct (vstep keccak pr ts o) as [[ts' x]|]; cbn [bind]; [apply IH|reflexivity]. Qed.
Lemma every_bind {A B} (P : op -> Prop) (u : user A) (f : A -> user B) : every P u -> (forall a, every P (f a)) -> every P (ubind u f).
Proof. induction u as [a|o k IH]; cbn [ubind every]; intros H G; [apply G|]. destruct H as [H1 H2]. split; auto. Qed.
Lemma every_obeys {A} K (P : op -> Prop) (u : user A) : (forall n o, P o -> legal K n o) -> every P u -> forall ts, obeys keccak pr K ts u.
Proof.
  intros L. induction u as [a|o k IH]; cbn [every obeys]; intros H ts; [exact Logic.I|]. destruct H as [H1 H2]. split; [apply L, H1|].
  destruct (vstep keccak pr ts o) as [[ts' x]|]; [apply IH, H2|exact Logic.I].
Qed.
Lemma hplay_ok {A} K (u : user A) : forall hs ts' a b V s,
  inv keccak pr K None b V hs -> CacheFacts.keeps b V s -> obeys keccak pr K (map erase hs) u -> vplay keccak pr (map erase hs) u = Ok (ts', a) ->
  exists hs' s' b' V', exec (hplay keccak pr hs u) s b = Ok ((hs', a), s', b') /\ map erase hs' = ts' /\
    inv keccak pr K None b' V' hs' /\ CacheFacts.keeps b' V' s'.
Proof.
  induction u as [a0|o k IH]; intros hs ts' a b V s I Kp R E; cbn [vplay hplay obeys] in *.
  - injection E as <- <-. exists hs, s, b, V. auto.
  - destruct R as [L R]. rewrite map_length in L. destruct (vstep keccak pr (map erase hs) o) as [[ts1 x]|] eqn:Ev; [|discriminate]. cbn [bind] in E.
    destruct (hstep_ok keccak pr K hs o ts1 x b V s I Kp L Ev) as (hs1 & s1 & b1 & V1 & Ex & <- & I1 & Kp1).
    destruct (IH x hs1 ts' a b1 V1 s1 I1 Kp1 R E) as (hs2 & s2 & b2 & V2 & Ex2 & M). exists hs2, s2, b2, V2. split; [|exact M]. rewrite exec_bind, Ex. exact Ex2.
Qed.
Lemma wp_hplay {A} (u : user A) : forall hs ts' a b V,
  inv keccak pr (fun _ => Plain) None b V hs -> every tame u -> vplay keccak pr (map erase hs) u = Ok (ts', a) ->
  wp (hplay keccak pr hs u) b V (fun r _ _ => map erase (fst r) = ts' /\ snd r = a).
Proof.
  induction u as [a0|o k IH]; intros hs ts' a b V I T E; cbn [vplay hplay every] in *.
  - injection E as <- <-. cbn [wp fst snd]. auto.
  - destruct T as [T1 T2]. destruct (vstep keccak pr (map erase hs) o) as [[ts1 x]|] eqn:Ev; [|discriminate]. cbn [bind] in E.
    apply wp_bind. eapply wp_conseq; [apply (wp_hstep keccak pr (fun _ => Plain)); [exact I|apply tame_legal; exact T1|exact Ev]|].
    intros [hs1 x1] b1 V1 X1 (R1 & Rx & I1 & _). cbn [fst snd] in *. subst ts1 x1. apply IH; [|apply T2|exact E].
    destruct I1 as [J1 J2]. split; [|exact J2]. intros i t Et. destruct (J1 i t Et) as (A1 & B & S). repeat split; auto.
    unfold slot in *. destruct (match target o with Some j => Nat.eqb i j | None => false end); [|exact S]. destruct S as [y S]. exact S.
Qed.
End General.

(** A program over caching tries does what it would do over plain tries, if the calls that it makes keep to a discipline: what a handle may
    be used for is fixed when it is made, and may depend on everything that has been seen. *)
Theorem C72_discipline : forall keccak pr K A (u : user A) ts a,
  obeys keccak pr K [] u -> vplay keccak pr [] u = Ok (ts, a) -> exists hs, play keccak pr u = Ok (hs, a) /\ map erase hs = ts.
Proof.
  intros keccak pr K A u ts a R E. destruct (hplay_ok keccak pr K u [] ts a 0 no_ghost (fun _ => None) (inv_nil keccak pr K) keeps_nil R E) as (hs & s & b & V & Ex & M & _).
  exists hs. unfold play. rewrite Ex. auto.
Qed.
Print Assumptions C72_discipline.

(** In particular if it never makes a second handle for a node, or only clones whole tries. *)
Theorem C72_uncloned : forall keccak pr A (u : user A) ts a,
  every uncloned u \/ every tame u -> vplay keccak pr [] u = Ok (ts, a) -> exists hs, play keccak pr u = Ok (hs, a) /\ map erase hs = ts.
Proof.
  intros keccak pr A u ts a [U|T] E.
  - apply (C72_discipline keccak pr (fun _ => Single)); [|exact E]. apply (every_obeys keccak pr _ uncloned); [apply uncloned_legal|exact U].
  - apply (C72_discipline keccak pr (fun _ => Plain)); [|exact E]. apply (every_obeys keccak pr _ tame); [apply tame_legal|exact T].
Qed.
Print Assumptions C72_uncloned.

(** Any number of threads, each with clones of some of the handles that a program has made, and each with a program of its own. Whatever the
    order of their steps, if thread [j] gets its turn again and again it ends, with the tries and the result that its program has when it runs alone
    on plain tries. *)
Theorem C72_threads : forall keccak pr A B (u : user B) ts b hs s n (jobs : list (list hnode * user A)) (sched : nat -> nat) j job ts' a,
  every tame u -> vplay keccak pr [] u = Ok (ts, b) -> exec (hplay keccak pr [] u) (fun _ => None) 0 = Ok ((hs, b), s, n) ->
  Forall (fun job => incl (fst job) hs /\ every tame (snd job) /\ exists r, vplay keccak pr (map erase (fst job)) (snd job) = Ok r) jobs ->
  nth_error jobs j = Some job -> vplay keccak pr (map erase (fst job)) (snd job) = Ok (ts', a) ->
  (forall m, exists m', (m <= m')%nat /\ sched m' = j) ->
  exists m hs', nth_error (threads (states (threads_of keccak pr jobs s n) sched m)) j = Some (Ret (hs', a)) /\ map erase hs' = ts'.
Proof.
  intros keccak pr A B u ts b hs s n jobs sched j job ts' a T E Ex FJ Ej Ev Fair.
  destruct (hplay_ok keccak pr (fun _ => Plain) u [] ts b 0 no_ghost (fun _ => None) (inv_nil keccak pr _) keeps_nil) as (hs1 & s1 & n1 & V & Ex1 & _ & I & Kp).
  { apply (every_obeys keccak pr _ tame); [apply tame_legal|exact T]. }
  { exact E. }
  rewrite Ex in Ex1. injection Ex1 as <- <- <-.
  set (Qs := fun (j : nat) (r : list hnode * A) => exists job, nth_error jobs j = Some job /\ vplay keccak pr (map erase (fst job)) (snd job) = Ok (map erase (fst r), snd r)).
  assert (P0 : pool_ok Qs (threads_of keccak pr jobs s n)).
  { exists V. cbn [threads_of next_cell cells threads]. split; [exact Kp|]. intros i p Ep. rewrite nth_error_map in Ep.
    destruct (nth_error jobs i) as [[hsi ui]|] eqn:Ei; [|discriminate]. cbn [option_map fst snd] in Ep. injection Ep as <-.
    rewrite Forall_forall in FJ. destruct (FJ _ (nth_error_In _ _ Ei)) as (Inc & Ti & [[tsi ai] Evi]). cbn [fst snd] in *.
    eapply wp_conseq; [apply (wp_hplay keccak pr ui hsi tsi ai); [eapply inv_clones; eauto|exact Ti|exact Evi]|].
    intros r b' V' _ [R1 R2]. exists (hsi, ui). split; [exact Ei|]. cbn [fst snd]. rewrite R1, R2. exact Evi. }
  assert (E0 : nth_error (threads (states (threads_of keccak pr jobs s n) sched 0)) j = Some (hplay keccak pr (fst job) (snd job))).
  { unfold states. cbn [seq map sched_run fold_left threads_of threads]. rewrite nth_error_map, Ej. reflexivity. }
  destruct (thread_finishes _ sched j _ Fair 0 E0) as (m & q & _ & Eq & Fq).
  destruct (sched_run_ok Qs (map sched (seq 0 m)) _ P0) as (V' & _ & W). change (sched_run _ (map sched (seq 0 m))) with (states (threads_of keccak pr jobs s n) sched m) in W.
  specialize (W j q Eq). destruct q as [[hs' a']| | | |]; try contradiction. destruct W as (job' & Ej' & Ev'). rewrite Ej in Ej'. injection Ej' as <-.
  cbn [fst snd] in Ev'. rewrite Ev in Ev'. injection Ev' as -> ->. exists m, hs'. auto.
Qed.
Print Assumptions C72_threads.

(** ** The Ethereum state *)
Section Eth.
Variable keccak : list N -> list N.
Variable pr : profile.
Definition idx (e : list N * hkept) : nat := h_storage (snd e).
Definition linked (ts : list node) (e : list N * hkept) (e' : list N * kept) : Prop :=
  fst e = fst e' /\ h_nonce (snd e) = k_nonce (snd e') /\ h_balance (snd e) = k_balance (snd e') /\ h_code (snd e) = k_code (snd e') /\
  nth_error ts (idx e) = Some (storage (snd e')) /\ idx e <> 0%nat.
Definition link (ts : list node) (h : hclient) (c : client) : Prop :=
  made h = length ts /\ nth_error ts 0 = Some (state c) /\ Forall2 (linked ts) (holds h) (accounts c) /\
  NoDup (map fst (holds h)) /\ (forall a b x y, find a (holds h) = Some x -> find b (holds h) = Some y -> h_storage x = h_storage y -> a = b).

Lemma linked_find ts l l' a : Forall2 (linked ts) l l' ->
  match find a l, find a l' with Some x, Some k => linked ts (a, x) (a, k) | None, None => True | _, _ => False end.
Proof.
  induction 1 as [|[j k] [j' x] l w H F IH]; cbn [find]; [exact Logic.I|]. pose proof H as (E & _). cbn [fst] in E. subst j'.
  destruct (key_eqb_spec j a) as [->|]; [exact H|exact IH].
Qed.
Lemma linked_remove ts l l' a : Forall2 (linked ts) l l' -> Forall2 (linked ts) (remove a l) (remove a l').
Proof.
  induction 1 as [|[j k] [j' x] l w H F IH]; cbn [remove]; [constructor|]. pose proof H as (E & _). cbn [fst] in E. subst j'.
  destruct (key_eqb j a); [exact IH|constructor; assumption].
Qed.
(** Storing for [a] in a handle that no other account has. *)
Lemma linked_assign ts ts' l l' a x k : Forall2 (linked ts) l l' -> NoDup (map fst l) -> linked ts' (a, x) (a, k) ->
  (forall b y, b <> a -> find b l = Some y -> nth_error ts' (h_storage y) = nth_error ts (h_storage y)) ->
  Forall2 (linked ts') (assign a x l) (assign a k l').
Proof.
  intros F ND L H. assert (G : forall b y, b <> a -> In (b, y) l -> nth_error ts' (h_storage y) = nth_error ts (h_storage y)).
  { intros b y Nb Hin. apply H with (b := b); [exact Nb|]. apply find_in; assumption. }
  clear H. induction F as [|[j y] [j' z] l l' Hl F IH]; cbn [assign]; [constructor; [exact L|constructor]|]. pose proof Hl as (E & _). cbn [fst] in E. subst j'.
  cbn [map fst] in ND. inversion ND as [|? ? N1 N2]; subst.
  assert (T : forall m m', Forall2 (linked ts) m m' -> (forall e, In e m -> In e l) -> ~ In a (map fst m) -> Forall2 (linked ts') m m').
  { induction 1 as [|[i u] [i' v] m m' (E1 & E2 & E3 & E4 & E5 & E6) Fm IHm]; intros Im Na; constructor.
    - repeat (split; [assumption|]). split; [|exact E6]. cbn [fst snd] in *. rewrite <- E5. unfold idx. cbn [snd]. apply (G i u); [|right; apply Im; left; reflexivity].
      intros ->. apply Na. left. reflexivity.
    - apply IHm; [intros e He; apply Im; right; exact He|]. intros Hin. apply Na. right. exact Hin. }
  destruct (key_eqb_spec j a) as [->|Nj].
  - constructor; [exact L|]. apply T; [exact F|auto|exact N1].
  - constructor; [|apply IH; [exact N2|]; intros b w Nb Hin; apply (G b w Nb); right; exact Hin].
    destruct Hl as (E1 & E2 & E3 & E4 & E5 & E6). repeat (split; [assumption|]). split; [|exact E6]. rewrite <- E5. apply (G j y Nj). left. reflexivity.
Qed.

Lemma the_nth {A} (l : list A) i x : nth_error l i = Some x -> the l i = Ok x.
Proof. intros E. unfold the. rewrite E. reflexivity. Qed.

Lemma hwrite_ok ts0 ts h0 h c a x k c' o : link ts0 h0 c -> holds h = holds h0 -> made h = length ts -> nth_error ts 0 = Some (state c) ->
  linked ts (a, x) (a, k) -> (forall b y, b <> a -> find b (holds h0) = Some y -> nth_error ts (h_storage y) = nth_error ts0 (h_storage y) /\ h_storage y <> h_storage x) ->
  write_account keccak pr c a k = Ok (c', o) ->
  exists ts' h', vplay keccak pr ts (hwrite keccak h a x) = Ok (ts', (h', Said o)) /\ link ts' h' c'.
Proof.
  intros (_ & _ & F & ND & U) Eh M N0 L O W. pose proof L as (_ & E1 & E2 & E3 & E4 & E5). cbn [fst snd] in *. unfold idx in *. cbn [snd] in *. unfold write_account in W.
  destruct (hash_trie keccak pr (storage k)) as [r|] eqn:Er; [|discriminate]. cbn [bind] in W.
  destruct (trie_insert pr (state c) (from_h256_be (keccak a)) (Val (entry_rlp (k_nonce k) (k_balance k) r (k_code k)))) as [t|] eqn:Et; [|discriminate]. cbn [bind] in W.
  injection W as <- <-. unfold hwrite. cbn [vplay vstep]. rewrite (the_nth _ _ _ E4). cbn [bind]. rewrite Er. cbn [bind vplay vstep].
  rewrite (the_nth _ _ _ N0). cbn [bind]. rewrite E1, E2, E3, Et. cbn [bind vplay]. eexists _, _. split; [reflexivity|].
  assert (NE : forall i, i <> 0%nat -> nth_error (replace ts 0 t) i = nth_error ts i) by (intros i Hi; apply nth_replace_ne; auto).
  split; [cbn [made]; rewrite replace_length; exact M|]. cbn [state accounts holds]. split; [apply nth_replace_eq; apply nth_error_Some; congruence|]. rewrite Eh.
  split; [|split; [apply assign_nodup, ND|]].
  - apply linked_assign with (ts := ts0); [exact F|exact ND| |].
    + split; [reflexivity|]. cbn [fst snd]. do 3 (split; [assumption|]). unfold idx. cbn [snd]. split; [rewrite NE by exact E5; exact E4|exact E5].
    + intros b y Nb Fb. rewrite NE; [apply (O b y Nb Fb)|]. pose proof (linked_find ts0 _ _ b F) as G. rewrite Fb in G. destruct (find b (accounts c)); [|contradiction]. apply G.
  - intros b b' y y'. rewrite !find_assign. destruct (key_eqb_spec a b) as [<-|Nb], (key_eqb_spec a b') as [<-|Nb']; intros Fb Fb' E; [reflexivity| | |apply (U b b' y y' Fb Fb' E)].
    + injection Fb as <-. destruct (O b' y' (not_eq_sym Nb') Fb') as [_ G]. congruence.
    + injection Fb' as <-. destruct (O b y (not_eq_sym Nb) Fb) as [_ G]. congruence.
Qed.

Lemma hserve_ok ts h c o c' x : link ts h c -> client_step keccak pr c o = Ok (c', x) ->
  exists ts' h', vplay keccak pr ts (hserve keccak h (Do o)) = Ok (ts', (h', Said x)) /\ link ts' h' c'.
Proof.
  intros L E. pose proof L as (M & N0 & F & ND & U).
  assert (B : forall a y, find a (holds h) = Some y -> exists k, find a (accounts c) = Some k /\ linked ts (a, y) (a, k)).
  { intros a y Fa. pose proof (linked_find ts _ _ a F) as G. rewrite Fa in G. destruct (find a (accounts c)) as [k|]; [eauto|contradiction]. }
  assert (Z : forall a, find a (holds h) = None -> find a (accounts c) = None).
  { intros a Fa. pose proof (linked_find ts _ _ a F) as G. rewrite Fa in G. destruct (find a (accounts c)); [contradiction|reflexivity]. }
  destruct o as [a n b code|a s v|a|a|a s]; cbn [client_step hserve] in *.
  - destruct (find a (holds h)) as [y|] eqn:Fa.
    + destruct (B a y Fa) as (k & Fk & Lk). rewrite Fk in E. eapply hwrite_ok; [exact L|reflexivity|exact M|exact N0| | |exact E].
      * destruct Lk as (_ & _ & _ & _ & E4 & E5). do 4 (split; [reflexivity|]). split; assumption.
      * intros b' y' Nb Fb. split; [reflexivity|]. cbn [h_storage]. intros Es. apply Nb. exact (U _ _ _ _ Fb Fa Es).
    + rewrite (Z a Fa) in E. cbn [vplay vstep]. cbn [from_iter trie_extend bind].
      change (from_iter pr []) with (Ok Empty). cbn [bind vplay]. eapply hwrite_ok with (ts0 := ts); [exact L|reflexivity| | | | |exact E].
      * cbn [made]. rewrite app_length, M. cbn [length]. lia.
      * rewrite nth_error_app1; [exact N0|]. apply nth_error_Some. congruence.
      * do 4 (split; [reflexivity|]). unfold idx. cbn [snd h_storage storage]. rewrite M. split; [rewrite nth_error_app2, Nat.sub_diag by lia; reflexivity|].
        intros E0. destruct ts; [discriminate N0|discriminate E0].
      * intros b' y' Nb Fb. destruct (B b' y' Fb) as (k' & _ & (_ & _ & _ & _ & E4 & _)). unfold idx in E4. cbn [snd] in E4.
        assert (Hl : (h_storage y' < length ts)%nat) by (apply nth_error_Some; congruence). split; [apply nth_error_app1, Hl|]. cbn [h_storage]. lia.
  - destruct (find a (holds h)) as [y|] eqn:Fa.
    + destruct (B a y Fa) as (k & Fk & Lk). rewrite Fk in E. pose proof Lk as (_ & E1 & E2 & E3 & E4 & E5). cbn [fst snd] in *. unfold idx in *. cbn [snd] in *.
      destruct (if v =? 0 then '(t, _) <- trie_delete pr (storage k) (from_h256_be (keccak s)) ;; Ok t
                else trie_insert pr (storage k) (from_h256_be (keccak s)) (Val (word_rlp v))) as [t|] eqn:Et; [|discriminate E]. cbn [bind] in E.
      assert (Ev : exists d, vstep keccak pr ts (if v =? 0 then Delete (h_storage y) (from_h256_be (keccak s)) else Insert (h_storage y) (from_h256_be (keccak s)) (Val (word_rlp v)))
                  = Ok (replace ts (h_storage y) t, d)).
      { destruct (v =? 0); cbn [vstep]; rewrite (the_nth _ _ _ E4); cbn [bind].
        - destruct (trie_delete pr (storage k) (from_h256_be (keccak s))) as [[t' d]|]; [|discriminate Et]. cbn [bind] in *. injection Et as <-. eauto.
        - rewrite Et. cbn [bind]. eauto. }
      destruct Ev as [d Ev]. cbn [vplay]. rewrite Ev. cbn [bind]. eapply hwrite_ok with (ts0 := ts); [exact L|reflexivity| | | | |exact E].
      * rewrite replace_length. exact M.
      * rewrite nth_replace_ne by exact E5. exact N0.
      * split; [reflexivity|]. cbn [fst snd k_nonce k_balance k_code storage]. do 3 (split; [assumption|]). unfold idx. cbn [snd]. split; [|exact E5].
        apply nth_replace_eq. apply nth_error_Some. congruence.
      * intros b' y' Nb Fb. assert (Ne : h_storage y' <> h_storage y) by (intros Es; apply Nb; exact (U _ _ _ _ Fb Fa Es)).
        split; [apply nth_replace_ne; auto|exact Ne].
    + rewrite (Z a Fa) in E. injection E as <- <-. cbn [vplay]. eauto.
  - destruct (trie_delete pr (state c) (from_h256_be (keccak a))) as [[t d]|] eqn:Et; [|discriminate E]. cbn [bind] in E. injection E as <- <-.
    cbn [vplay vstep]. rewrite (the_nth _ _ _ N0). cbn [bind]. rewrite Et. cbn [bind vplay]. eexists _, _. split; [reflexivity|].
    split; [cbn [made]; rewrite replace_length; exact M|]. cbn [state accounts holds]. split; [apply nth_replace_eq; apply nth_error_Some; congruence|].
    split; [|split; [apply remove_nodup, ND|]].
    + apply linked_remove. clear - F. induction F as [|e e' l l' (E1 & E2 & E3 & E4 & E5 & E6) F IH]; constructor; [|exact IH].
      do 4 (split; [assumption|]). split; [rewrite nth_replace_ne by auto; exact E5|exact E6].
    + intros b b' y y'. rewrite !find_remove. destruct (key_eqb a b), (key_eqb a b'); try discriminate. apply U.
  - destruct (trie_get pr (state c) (from_h256_be (keccak a))) as [v|] eqn:Et; [|discriminate E]. cbn [bind] in E. injection E as <- <-.
    cbn [vplay vstep]. rewrite (the_nth _ _ _ N0). cbn [bind]. rewrite Et. cbn [bind vplay value_of]. eauto.
  - destruct (find a (holds h)) as [y|] eqn:Fa.
    + destruct (B a y Fa) as (k & Fk & (_ & _ & _ & _ & E4 & _)). rewrite Fk in E. unfold idx in E4. cbn [snd] in E4.
      destruct (trie_get pr (storage k) (from_h256_be (keccak s))) as [v|] eqn:Et; [|discriminate E]. cbn [bind] in E. injection E as <- <-.
      cbn [vplay vstep]. rewrite (the_nth _ _ _ E4). cbn [bind]. rewrite Et. cbn [bind vplay value_of]. eauto.
    + rewrite (Z a Fa) in E. injection E as <- <-. cbn [vplay]. eauto.
Qed.

Definition plain (o : op) : Prop := match o with New _ | Insert _ _ _ | Delete _ _ | Get _ _ | HashOf _ => True | _ => False end.
Lemma hwrite_every h a x : every plain (hwrite keccak h a x).
Proof. cbn [hwrite every]. split; [exact Logic.I|]. intros d. destruct d; cbn [every]; auto. split; [exact Logic.I|]. intros; exact Logic.I. Qed.
Lemma hserve_every h q : every plain (hserve keccak h q).
Proof.
  destruct q as [[a n b code|a s v|a|a|a s]| |a]; cbn [hserve].
  - destruct (find a (holds h)); [apply hwrite_every|]. split; [exact Logic.I|]. intros. apply hwrite_every.
  - destruct (find a (holds h)); [|exact Logic.I]. split; [destruct (v =? 0); exact Logic.I|]. intros. apply hwrite_every.
  - split; [exact Logic.I|]. intros. exact Logic.I.
  - split; [exact Logic.I|]. intros. exact Logic.I.
  - destruct (find a (holds h)); [|exact Logic.I]. split; [exact Logic.I|]. intros. exact Logic.I.
  - split; [exact Logic.I|]. intros. exact Logic.I.
  - destruct (find a (holds h)); [|exact Logic.I]. split; [exact Logic.I|]. intros. exact Logic.I.
Qed.
Lemma hserve_all_every qs : forall h, every plain (hserve_all keccak h qs).
Proof.
  induction qs as [|q qs IH]; intros h; cbn [hserve_all]; [exact Logic.I|]. apply every_bind; [apply hserve_every|]. intros r. apply every_bind; [apply IH|]. intros; exact Logic.I.
Qed.

Lemma every_weaken {A} (P Q : op -> Prop) (u : user A) : (forall o, P o -> Q o) -> every P u -> every Q u.
Proof. intros H. induction u as [a|o k IH]; cbn [every]; [auto|]. intros [H1 H2]. split; auto. Qed.
Lemma plain_tame o : plain o -> tame o.
Proof. destruct o; cbn; tauto. Qed.

Lemma serve_ok S qs : hash32 keccak -> no_clash keccak S -> incl (names (asked qs)) S -> Forall world_op_ok (asked qs) ->
  forall ts h c w, link ts h c -> client_ok keccak S c w -> exists ts' h' c', vplay keccak pr ts (hserve_all keccak h qs) = Ok (ts', (h', world_answers keccak w qs)) /\ link ts' h' c' /\ client_ok keccak S c' (world_after keccak w qs).
Proof.
  intros H32 NC. induction qs as [|q qs IH]; intros IS O ts h c w L C; cbn [hserve_all world_answers world_after vplay]; [eauto 8|].
  assert (G : exists ts1 h1 c1, vplay keccak pr ts (hserve keccak h q) = Ok (ts1, (h1, snd (world_serve keccak w q))) /\ link ts1 h1 c1 /\
    client_ok keccak S c1 (fst (world_serve keccak w q))).
  { destruct q as [o| |a]; cbn [world_serve fst snd].
    - cbn [asked flat_map app] in IS, O. inversion O as [|? ? O1 O2]; subst.
      assert (Io : incl (op_names o) S). { intros z Hz. apply IS. unfold names. cbn [flat_map]. apply in_or_app. left. unfold op_names, names in Hz. cbn [flat_map] in Hz. rewrite app_nil_r in Hz. exact Hz. }
      destruct (step_ok keccak pr S c w o H32 NC Io C O1) as (c1 & E & C1). destruct (hserve_ok ts h c o _ _ L E) as (ts1 & h1 & V & L1). exists ts1, h1, c1. auto.
    - destruct C as [KS F]. exists ts, h, c. split; [|split; [exact L|split; assumption]]. destruct L as (_ & N0 & _). cbn [hserve vplay vstep]. rewrite (the_nth _ _ _ N0). cbn [bind].
      rewrite (keeps_hash keccak H32 S NC _ pr _ _ KS). reflexivity.
    - exists ts, h, c. split; [|split; [exact L|exact C]]. destruct L as (_ & _ & F & _). destruct C as [KS F']. pose proof (linked_find ts _ _ a F) as G. pose proof (kept_find keccak _ _ _ a F') as G'.
      cbn [hserve]. destruct (find a (holds h)) as [y|], (find a (accounts c)) as [k|], (find a w) as [x|]; try contradiction; [|reflexivity].
      destruct G as (_ & _ & _ & _ & E4 & _). unfold idx in E4. cbn [snd] in E4. destruct G' as (_ & _ & _ & _ & KT & _). cbn [snd] in KT.
      cbn [vplay vstep]. rewrite (the_nth _ _ _ E4). cbn [bind]. rewrite (keeps_hash keccak H32 S NC _ pr _ _ KT). reflexivity. }
  destruct G as (ts1 & h1 & c1 & V & L1 & C1). rewrite vplay_bind, V. cbn [bind fst snd]. rewrite vplay_bind.
  assert (IS' : incl (names (asked qs)) S).
  { intros z Hz. apply IS. unfold asked, names in *. cbn [flat_map]. rewrite flat_map_app. apply in_or_app. right. exact Hz. }
  assert (O' : Forall world_op_ok (asked qs)) by (unfold asked in *; cbn [flat_map] in O; apply Forall_app in O; apply O).
  destruct (IH IS' O' ts1 h1 c1 _ L1 C1) as (ts2 & h2 & c2 & V2 & L2 & C2). rewrite V2. cbn [bind vplay fst snd]. eauto 8.
Qed.

Lemma node_ok S qs : hash32 keccak -> no_clash keccak S -> incl (names (asked qs)) S -> Forall world_op_ok (asked qs) ->
  exists ts h c, vplay keccak pr [] (node_program keccak qs) = Ok (ts, (h, world_answers keccak [] qs)) /\ link ts h c /\ client_ok keccak S c (world_after keccak [] qs).
Proof.
  intros H32 NC IS O. destruct (serve_ok S qs H32 NC IS O [Empty] (HClient 1 []) new_client []) as (ts & h & c & V & L & C).
  - split; [reflexivity|]. split; [reflexivity|]. split; [constructor|]. split; [constructor|]. intros a b x y E. discriminate E.
  - apply new_ok.
  - exists ts, h, c. auto.
Qed.
Lemma node_tame qs : every tame (node_program keccak qs).
Proof. apply (every_weaken plain); [exact plain_tame|]. split; [exact Logic.I|]. intros _. apply hserve_all_every. Qed.
End Eth.

(** A program that keeps the Ethereum state in caching tries, with a handle for the state trie and one for the storage trie of every account,
    and answers requests: whatever the requests, in whatever order, it never panics, and every answer is the one that the state itself gives.
    In particular every root it is asked for, at any time, is the root that the Yellow Paper defines for the state at that time. *)
Theorem C72_ethereum : forall keccak pr qs,
  hash32 keccak -> no_clash keccak (names (asked qs)) -> Forall world_op_ok (asked qs) ->
  exists hs c, play keccak pr (node_program keccak qs) = Ok (hs, (c, world_answers keccak [] qs)).
Proof.
  intros keccak pr qs H32 NC O. destruct (node_ok keccak pr (names (asked qs)) qs H32 NC (incl_refl _) O) as (ts & h & c & V & _).
  destruct (C72_uncloned keccak pr _ (node_program keccak qs) ts (h, world_answers keccak [] qs)) as (hs & P & _); [right|exact V|eauto].
  apply node_tame.
Qed.
Print Assumptions C72_ethereum.

(** Any number of threads that start from clones of the handles of such a program, each with requests of its own: thread [j] ends with the answers
    that the state at the time of the cloning gives, changed by its own requests only. *)
Theorem C72_snapshots : forall keccak pr qs qss hs c xs s n (sched : nat -> nat) j qsj,
  hash32 keccak -> no_clash keccak (names (asked (qs ++ concat qss))) -> Forall world_op_ok (asked (qs ++ concat qss)) ->
  exec (hplay keccak pr [] (node_program keccak qs)) (fun _ => None) 0 = Ok ((hs, (c, xs)), s, n) ->
  nth_error qss j = Some qsj -> (forall m, exists m', (m <= m')%nat /\ sched m' = j) ->
  exists m hs' c', nth_error (threads (states (threads_of keccak pr (map (fun q => (hs, hserve_all keccak c q)) qss) s n) sched m)) j =
    Some (Ret (hs', (c', world_answers keccak (world_after keccak [] qs) qsj))).
Proof.
  intros keccak pr qs qss hs c xs s n sched j qsj H32 NC O Ex Ej Fair. set (S := names (asked (qs ++ concat qss))) in *.
  assert (Sub : forall q q' q'', qs ++ concat qss = q ++ q' ++ q'' -> incl (names (asked q')) S /\ Forall world_op_ok (asked q')).
  { intros q q' q'' Eq. assert (Ea : asked (qs ++ concat qss) = asked q ++ asked q' ++ asked q'') by (rewrite Eq; unfold asked; rewrite !flat_map_app; reflexivity). split.
    - unfold S. rewrite Ea. intros z Hz. unfold names in *. rewrite !flat_map_app. apply in_or_app. right. apply in_or_app. left. exact Hz.
    - rewrite Ea in O. apply Forall_app in O. destruct O as [_ O]. apply Forall_app in O. apply O. }
  assert (Part : forall q, In q qss -> incl (names (asked q)) S /\ Forall world_op_ok (asked q)).
  { intros q Hq. apply in_split in Hq. destruct Hq as (l1 & l2 & Eq). apply (Sub (qs ++ concat l1) q (concat l2)). rewrite Eq, concat_app. cbn [concat]. rewrite !app_assoc. reflexivity. }
  destruct (Sub [] qs (concat qss) eq_refl) as [I0 O0].
  destruct (node_ok keccak pr S qs H32 NC I0 O0) as (ts & h & cl & V & L & C).
  destruct (hplay_ok keccak pr (fun _ => Plain) (node_program keccak qs) [] ts (h, world_answers keccak [] qs) 0 no_ghost (fun _ => None) (inv_nil keccak pr _) keeps_nil) as (hs1 & s1 & n1 & V1 & Ex1 & Em & _).
  { apply (every_obeys keccak pr _ tame); [apply tame_legal|apply node_tame]. }
  { exact V. }
  rewrite Ex in Ex1. injection Ex1 as <- -> -> <- <-.
  assert (Run : forall q, In q qss -> exists ts' h' c', vplay keccak pr ts (hserve_all keccak h q) = Ok (ts', (h', world_answers keccak (world_after keccak [] qs) q)) /\ link ts' h' c').
  { intros q Hq. destruct (Part q Hq) as [Iq Oq]. destruct (serve_ok keccak pr S q H32 NC Iq Oq ts h cl _ L C) as (t1 & h1 & c1 & Vq & Lq & _). eauto. }
  destruct (Run qsj (nth_error_In _ _ Ej)) as (ts' & h' & c' & Vj & _).
  destruct (C72_threads keccak pr _ _ (node_program keccak qs) ts _ hs s n (map (fun q => (hs, hserve_all keccak h q)) qss) sched j (hs, hserve_all keccak h qsj) ts' (h', world_answers keccak (world_after keccak [] qs) qsj)
    (node_tame keccak qs) V Ex) as (m & hs' & Em' & _).
  - apply Forall_forall. intros job Hj. apply in_map_iff in Hj. destruct Hj as (q & <- & Hq). cbn [fst snd]. split; [apply incl_refl|].
    split; [apply (every_weaken plain); [exact plain_tame|apply hserve_all_every]|]. rewrite Em. destruct (Run q Hq) as (t1 & h1 & c1 & Vq & _). eauto.
  - rewrite nth_error_map, Ej. reflexivity.
  - cbn [fst snd]. rewrite Em. exact Vj.
  - exact Fair.
  - exists m, hs', h'. exact Em'.
Qed.
Print Assumptions C72_snapshots.

(** A program that goes on inserting until the first byte of the root hash is at least 200, and tells how many values it needed. *)
Fixpoint search (fuel : nat) (n : N) : user N :=
  match fuel with
  | O => Return n
  | S fuel' => Call (Insert 0 (K 4 0x1234) (Val [n])) (fun _ => Call (HashOf 0) (fun d => match d with Digest (b :: _) => if 200 <=? b then Return n else search fuel' (n + 1) | _ => Return 0 end))
  end.
Lemma search_uncloned fuel : forall n, every uncloned (search fuel n).
Proof.
  induction fuel as [|fuel IH]; intros n; [exact Logic.I|]. split; [exact Logic.I|]. intros _. split; [exact Logic.I|].
  intros [| |[|b h]| | |]; cbn [every]; auto. destruct (200 <=? b); [exact Logic.I|apply IH].
Qed.
Example C72_search_example :
  every uncloned (Call (New []) (fun _ => search 5 1)) /\
  rmap snd (vplay keccak256 Debug [] (Call (New []) (fun _ => search 5 1))) = Ok 2.
Proof. split; [split; [exact Logic.I|]; intros _; apply search_uncloned|vm_compute; reflexivity]. Qed.

(** Requests with roots in between, a slot that is cleared again, an account that is destroyed and made again. *)
Definition ex_requests : list request :=
  [AskRoot; Do (SetAccount (ex_address 1) 0 10 ex_code); AskRoot; Do (SetSlot (ex_address 1) (ex_slot 0) 7); AskStorage (ex_address 1); AskRoot;
   Do (SetSlot (ex_address 1) (ex_slot 0) 0); AskRoot; Do (Destroy (ex_address 1)); AskStorage (ex_address 1); AskRoot;
   Do (SetAccount (ex_address 1) 0 10 ex_code); AskRoot].
Definition root_is (x y : answer) : bool := match x, y with Root h, Root h' => key_eqb h h' | _, _ => false end.
Example C72_example :
  hash32 keccak256 /\ no_clash keccak256 (names (asked ex_requests)) /\ Forall world_op_ok (asked ex_requests) /\
  (let xs := world_answers keccak256 [] ex_requests in
   map (fun p => root_is (nth (fst p) xs NoAccount) (nth (snd p) xs NoAccount)) [(0, 10); (2, 7); (2, 12); (2, 5); (0, 2)]%nat) = [true; true; true; false; false].
Proof. split; [exact keccak256_hash32|]. split; [clash|]. split; [world_ok|vm_compute; reflexivity]. Qed.

(** Two threads in turns, on clones of the state with one account: one fills a slot, the other destroys the account. *)
Definition ex_first : list request := [Do (SetAccount (ex_address 1) 0 10 ex_code); AskRoot].
Definition ex_second : list (list request) := [[Do (SetSlot (ex_address 1) (ex_slot 0) 7); AskStorage (ex_address 1)]; [Do (Destroy (ex_address 1)); AskStorage (ex_address 1)]].
Definition is_root (x : answer) : bool := match x with Root _ => true | _ => false end.
Example C72_snapshots_example :
  hash32 keccak256 /\ no_clash keccak256 (names (asked (ex_first ++ concat ex_second))) /\ Forall world_op_ok (asked (ex_first ++ concat ex_second)) /\
  (forall j m, (j < 2)%nat -> exists m', (m <= m')%nat /\ Nat.modulo m' 2 = j) /\
  match exec (hplay keccak256 Debug [] (node_program keccak256 ex_first)) (fun _ => None) 0 with Ok ((_, (_, xs)), _, _) => map is_root xs | Panic => [] end = [false; true] /\
  map (fun q => map is_root (world_answers keccak256 (world_after keccak256 [] ex_first) q)) ex_second = [[false; true]; [false; false]].
Proof.
  split; [exact keccak256_hash32|]. split; [clash|]. split; [world_ok|]. split; [|split; vm_compute; reflexivity].
  intros j m Hj. exists (m * 2 + j)%nat. split; [lia|]. rewrite Nat.add_comm, Nat.mod_add by lia. apply Nat.mod_small. exact Hj.
Qed.
