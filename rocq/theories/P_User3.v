(** Property C72, continued: programs that catch panics and react to them. *)
From Verif Require Import Base Nibbles NibblesSpec NibblesFacts Trie TrieSpec TrieFacts Hashing RlpFacts Keccak P_Trie P_Hash
  Cache CacheSpec CacheFacts CacheFacts2 CacheFacts3 FailFacts Caught CaughtFacts UserSpec P_User CaughtUserSpec.
Open Scope N_scope.

Section General.
Variable keccak : list N -> list N.
Variable pr : profile.
Lemma xevery_obeys {A} (u : xuser A) : xevery tame u -> forall ts, xobeys keccak pr (fun _ => Plain) ts u.
Proof.
  induction u as [a|o k IH]; cbn [xevery xobeys]; intros H ts; [exact Logic.I|]. destruct H as [H1 H2]. split; [apply xtame_legal, H1|apply IH, H2].
Qed.
Lemma hxplay_ok {A} K (u : xuser A) : forall hs b V s,
  inv keccak pr K None b V hs -> CacheFacts.keeps b V s -> xobeys keccak pr K (map erase hs) u ->
  exists hs' s' b' V', exec (hxplay keccak pr hs u) s b = Ok ((hs', snd (vxplay keccak pr (map erase hs) u)), s', b') /\
    map erase hs' = fst (vxplay keccak pr (map erase hs) u) /\ inv keccak pr K None b' V' hs' /\ CacheFacts.keeps b' V' s'.
Proof.
  induction u as [a0|o k IH]; intros hs b V s I Kp R; cbn [vxplay hxplay xobeys] in *.
  - exists hs, s, b, V. auto.
  - destruct R as [L R]. destruct (hxstep_ok keccak pr K hs o b V s I Kp L) as (hs1 & s1 & b1 & V1 & Ex & M1 & I1 & Kp1).
    destruct (vxstep keccak pr (map erase hs) o) as [ts1 x]. cbn [fst snd] in *. subst ts1.
    destruct (IH x hs1 b1 V1 s1 I1 Kp1 R) as (hs2 & s2 & b2 & V2 & Ex2 & M). exists hs2, s2, b2, V2. split; [|exact M]. rewrite exec_bind, Ex. exact Ex2.
Qed.
Lemma wp_hxplay {A} (u : xuser A) : forall hs b V, inv keccak pr (fun _ => Plain) None b V hs -> xevery tame u ->
  wp (hxplay keccak pr hs u) b V (fun r _ _ => (map erase (fst r), snd r) = vxplay keccak pr (map erase hs) u).
Proof.
  induction u as [a0|o k IH]; intros hs b V I T; cbn [vxplay hxplay xevery] in *.
  - cbn [wp fst snd]. reflexivity.
  - destruct T as [T1 T2]. apply wp_bind. eapply wp_conseq; [apply wp_hxstep; [exact I|exact T1]|]. cbn beta.
    intros [hs1 x1] b1 V1 _ (R1 & Rx & I1). cbn [fst snd] in *. destruct (vxstep keccak pr (map erase hs) o) as [ts1 x]. cbn [fst snd] in *. subst ts1 x1.
    apply IH; [exact I1|apply T2].
Qed.
End General.

(** Programs that never take handles of inner nodes, and no subset for no keys, but catch any panics and go on as they like: they see exactly
    what they would see on plain tries, where an operation that panics has no effect (an [extend] has that of the elements before the panic). *)
Theorem C72_caught : forall keccak pr A (u : xuser A), xevery tame u ->
  exists hs, xplay keccak pr u = Ok (hs, snd (vxplay keccak pr [] u)) /\ map erase hs = fst (vxplay keccak pr [] u).
Proof.
  intros keccak pr A u T.
  destruct (hxplay_ok keccak pr (fun _ => Plain) u [] 0 no_ghost (fun _ => None) (inv_nil keccak pr _) keeps_nil) as (hs & s & b & V & Ex & M & _).
  { apply xevery_obeys, T. }
  exists hs. unfold xplay. rewrite Ex. auto.
Qed.
Print Assumptions C72_caught.

(** The same under any discipline of [C43_discipline_partial], for the calls that the program does make. *)
Theorem C72_caught_discipline : forall keccak pr K A (u : xuser A), xobeys keccak pr K [] u ->
  exists hs, xplay keccak pr u = Ok (hs, snd (vxplay keccak pr [] u)) /\ map erase hs = fst (vxplay keccak pr [] u).
Proof.
  intros keccak pr K A u R.
  destruct (hxplay_ok keccak pr K u [] 0 no_ghost (fun _ => None) (inv_nil keccak pr K) keeps_nil R) as (hs & s & b & V & Ex & M & _).
  exists hs. unfold xplay. rewrite Ex. auto.
Qed.
Print Assumptions C72_caught_discipline.

(** Threads that catch panics and react to them, on clones of the handles of such a program. Whatever the order of their steps, a thread that gets
    its turn again and again ends, with the tries and the result that its program has when it runs alone on plain tries. Panics in other
    threads do not matter. *)
Theorem C72_caught_threads : forall keccak pr A B (u : xuser B) b hs s n (jobs : list (list hnode * xuser A)) (sched : nat -> nat) j job,
  xevery tame u -> exec (hxplay keccak pr [] u) (fun _ => None) 0 = Ok ((hs, b), s, n) ->
  Forall (fun job => incl (fst job) hs /\ xevery tame (snd job)) jobs -> nth_error jobs j = Some job ->
  (forall m, exists m', (m <= m')%nat /\ sched m' = j) ->
  exists m hs' a, nth_error (threads (states (xthreads_of keccak pr jobs s n) sched m)) j = Some (Ret (hs', a)) /\
    vxplay keccak pr (map erase (fst job)) (snd job) = (map erase hs', a).
Proof.
  intros keccak pr A B u b hs s n jobs sched j job T Ex FJ Ej Fair.
  destruct (hxplay_ok keccak pr (fun _ => Plain) u [] 0 no_ghost (fun _ => None) (inv_nil keccak pr _) keeps_nil) as (hs1 & s1 & n1 & V & Ex1 & _ & I & Kp).
  { apply xevery_obeys, T. }
  rewrite Ex in Ex1. injection Ex1 as <- _ <- <-.
  set (Qs := fun (j : nat) (r : list hnode * A) => exists job, nth_error jobs j = Some job /\ (map erase (fst r), snd r) = vxplay keccak pr (map erase (fst job)) (snd job)).
  assert (P0 : pool_ok Qs (xthreads_of keccak pr jobs s n)).
  { exists V. cbn [xthreads_of next_cell cells threads]. split; [exact Kp|]. intros i p Ep. rewrite nth_error_map in Ep.
    destruct (nth_error jobs i) as [[hsi ui]|] eqn:Ei; [|discriminate]. cbn [option_map fst snd] in Ep. injection Ep as <-.
    rewrite Forall_forall in FJ. destruct (FJ _ (nth_error_In _ _ Ei)) as (Inc & Ti). cbn [fst snd] in *.
    eapply wp_conseq; [apply (wp_hxplay keccak pr ui hsi); [eapply inv_clones; eauto|exact Ti]|].
    intros r b' V' _ R1. exists (hsi, ui). split; [exact Ei|exact R1]. }
  assert (E0 : nth_error (threads (states (xthreads_of keccak pr jobs s n) sched 0)) j = Some (hxplay keccak pr (fst job) (snd job))).
  { unfold states. cbn [seq map sched_run fold_left xthreads_of threads]. rewrite nth_error_map, Ej. reflexivity. }
  destruct (thread_finishes _ sched j _ Fair 0 E0) as (m & q & _ & Eq & Fq).
  destruct (sched_run_ok Qs (map sched (seq 0 m)) _ P0) as (V' & _ & W). change (sched_run _ (map sched (seq 0 m))) with (states (xthreads_of keccak pr jobs s n) sched m) in W.
  specialize (W j q Eq). destruct q as [[hs' a']| | | |]; try contradiction. destruct W as (job' & Ej' & Ev'). rewrite Ej in Ej'. injection Ej' as <-.
  exists m, hs', a'. auto.
Qed.
Print Assumptions C72_caught_threads.

(** A program that asks for a node of a subset, and fetches it from the full trie only if its insert panics: it retries on a clone of the full trie.
    The first insert panics below a hash node, the second one does not. *)
Definition retrying (k : nibbles) : xuser (option obs) :=
  XCall (Try (New [(K 4 0x1234, Val (repeat 9 40)); (K 4 0x5678, Val (repeat 8 40))])) (fun _ =>
  XCall (Try (HashOf 0)) (fun _ =>
  XCall (Try (Subset 0 [K 4 0x1234])) (fun _ =>
  XCall (Try (Insert 1 k (Val [1]))) (fun x =>
    match x with
    | None => XCall (Try (Clone 0)) (fun _ => XCall (Try (Insert 2 k (Val [1]))) (fun _ => XCall (Try (HashOf 2)) XReturn))
    | Some _ => XCall (Try (HashOf 1)) XReturn
    end)))).
Example C72_caught_example : forall k, xevery tame (retrying k) /\
  length (fst (vxplay keccak256 Debug [] (retrying (K 4 0x5679)))) = 3%nat /\ length (fst (vxplay keccak256 Debug [] (retrying (K 4 0x1233)))) = 2%nat.
Proof.
  intros k. split; [|split; vm_compute; reflexivity]. cbn [retrying xevery use tame]. repeat (split; [first [exact Logic.I|discriminate]|intros ?]).
  destruct x2; cbn [xevery use tame]; repeat (split; [exact Logic.I|intros ?]); exact Logic.I.
Qed.
(** Threads: the first one tries inserts below a hash node. *)
Definition caught_setup : xuser unit :=
  XCall (Try (New [(K 4 0x1234, Val (repeat 9 40)); (K 4 0x5678, Val (repeat 8 40))])) (fun _ => XCall (Try (Subset 0 [K 4 0x1234])) (fun _ => XReturn tt)).
Definition try_insert (i : nat) (k : nibbles) : xuser bool :=
  XCall (Try (Insert i k (Val [1]))) (fun x => XCall (Try (HashOf i)) (fun _ => XReturn (match x with None => true | Some _ => false end))).
Definition caught_setup_state := match exec (hxplay keccak256 Debug [] caught_setup) (fun _ => None) 0 with Ok r => r | Panic => (([], tt), fun _ => None, 0) end.
Example C72_caught_threads_example :
  let hs := fst (fst (fst caught_setup_state)) in
  let jobs := [(hs, try_insert 1 (K 4 0x5679)); (hs, try_insert 0 (K 4 0x5679))] in
  xevery tame caught_setup /\ exec (hxplay keccak256 Debug [] caught_setup) (fun _ => None) 0 = Ok caught_setup_state /\
  Forall (fun job => incl (fst job) hs /\ xevery tame (snd job)) jobs /\
  map (fun job => snd (vxplay keccak256 Debug (map erase (fst job)) (snd job))) jobs = [true; false].
Proof.
  cbn zeta. split; [|split; [|split]]; [|vm_compute; reflexivity| |vm_compute; reflexivity].
  - cbn [caught_setup xevery use tame]. repeat (split; [first [exact Logic.I|discriminate]|intros ?]). exact Logic.I.
  - apply Forall_forall. intros job [<-|[<-|[]]]; cbn [fst snd]; (split; [apply incl_refl|]); cbn [try_insert xevery use tame];
      repeat (split; [exact Logic.I|intros ?]); exact Logic.I.
Qed.
