(** Proofs for Locks.v: the locks keep their promise, every run is an interleaving of atomic steps, every run ends. *)
From Verif Require Import Base Cache CacheSpec CacheFacts3 Locks.
Open Scope nat_scope.

(** ** Lists *)
Lemma replace_length {A} (l : list A) : forall i x, length (replace l i x) = length l.
Proof. induction l as [|y l IH]; intros [|i] x; cbn [replace length]; auto. Qed.
Lemma replace_nth {A} (l : list A) : forall i j x, nth_error (replace l i x) j = if i =? j then match nth_error l j with Some _ => Some x | None => None end else nth_error l j.
Proof.
  induction l as [|y l IH]; intros [|i] [|j] x; cbn [replace nth_error Nat.eqb]; try reflexivity.
  - destruct (i =? j); reflexivity.
  - apply IH.
Qed.
Lemma Forall2_replace {A B} (R : A -> B -> Prop) l l' : Forall2 R l l' -> forall j y y', R y y' -> Forall2 R (replace l j y) (replace l' j y').
Proof. induction 1 as [|a b l l' H F IH]; intros [|j] y y' Hy; cbn [replace]; constructor; auto. Qed.
Lemma Forall2_nth {A B} (R : A -> B -> Prop) l l' : Forall2 R l l' -> forall j x, nth_error l j = Some x -> exists y, nth_error l' j = Some y /\ R x y.
Proof. induction 1 as [|a b l l' H F IH]; intros [|j] x E; try discriminate; cbn [nth_error] in *; [injection E as <-; eauto|auto]. Qed.
Lemma Forall2_nth' {A B} (R : A -> B -> Prop) l l' : Forall2 R l l' -> forall j y, nth_error l' j = Some y -> exists x, nth_error l j = Some x /\ R x y.
Proof. induction 1 as [|a b l l' H F IH]; intros [|j] x E; try discriminate; cbn [nth_error] in *; [injection E as <-; eauto|auto]. Qed.
Lemma replace_self {A} (l : list A) : forall j x, nth_error l j = Some x -> replace l j x = l.
Proof. induction l as [|y l IH]; intros [|j] x E; try discriminate; cbn [replace nth_error] in *; [congruence|rewrite IH; auto]. Qed.

Definition cnt {A} (f : A -> bool) (l : list A) : nat := length (filter f l).
Definition one (b : bool) : nat := if b then 1 else 0.
Lemma cnt_cons {A} (f : A -> bool) x l : cnt f (x :: l) = one (f x) + cnt f l.
Proof. unfold cnt. cbn [filter]. destruct (f x); reflexivity. Qed.
Lemma cnt_replace {A} (f : A -> bool) l : forall j x y, nth_error l j = Some x -> cnt f (replace l j y) + one (f x) = cnt f l + one (f y).
Proof.
  induction l as [|z l IH]; intros [|j] x y E; try discriminate; cbn [replace nth_error] in *; rewrite !cnt_cons.
  - injection E as ->. lia.
  - specialize (IH j x y E). lia.
Qed.
Lemma cnt_in {A} (f : A -> bool) l : forall j x, nth_error l j = Some x -> f x = true -> 1 <= cnt f l.
Proof.
  induction l as [|z l IH]; intros [|j] x E T; try discriminate; cbn [nth_error] in *; rewrite cnt_cons.
  - injection E as ->. rewrite T. cbn [one]. lia.
  - specialize (IH j x E T). lia.
Qed.
Lemma cnt_two {A} (f : A -> bool) l : forall i j x y, i <> j -> nth_error l i = Some x -> nth_error l j = Some y -> f x = true -> f y = true -> 2 <= cnt f l.
Proof.
  induction l as [|z l IH]; intros [|i] [|j] x y N E1 E2 T1 T2; try discriminate; try contradiction; cbn [nth_error] in *; rewrite cnt_cons.
  - injection E1 as ->. rewrite T1. pose proof (cnt_in f l j y E2 T2). cbn [one]. lia.
  - injection E2 as ->. rewrite T2. pose proof (cnt_in f l i x E1 T1). cbn [one]. lia.
  - assert (i <> j) as N' by congruence. pose proof (IH i j x y N' E1 E2 T1 T2). lia.
Qed.
Lemma cnt_none {A} (f : A -> bool) l : (forall j x, nth_error l j = Some x -> f x = false) -> cnt f l = 0.
Proof.
  induction l as [|z l IH]; intros H; [reflexivity|]. rewrite cnt_cons, (H 0 z eq_refl). cbn [one Nat.add]. apply IH. intros j x E. apply (H (S j) x E).
Qed.

(** ** The phases of an access, and the invariant *)
Inductive phase {A} : lprog A -> prog A -> Prop :=
| ph_idle p : phase (locked p) p
| ph_get c k : phase (LGet c (fun o => LUnlock false c (locked (k o)))) (Read c k)
| ph_put c o p : phase (LPut c o (LUnlock true c (locked p))) (Write c o p)
| ph_unlock w c p : phase (LUnlock w c (locked p)) p.

(** The thread holds the lock of [c]. *)
Definition holds {A} (w : bool) (c : N) (p : lprog A) : bool :=
  match p with
  | LGet c' _ => negb w && (c' =? c)%N
  | LPut c' _ _ => w && (c' =? c)%N
  | LUnlock w' c' _ => Bool.eqb w w' && (c' =? c)%N
  | _ => false
  end.
Lemma holds_locked {A} w c (p : prog A) : holds w c (locked p) = false.
Proof. destruct p; reflexivity. Qed.

Definition lock_ok {A} (l : lock) (c : N) (ps : list (lprog A)) : Prop :=
  readers l = cnt (holds false c) ps /\ one (writer l) = cnt (holds true c) ps /\ (writer l = true -> readers l = 0).

Definition linv {A} (w : lpool A) (w0 : pool A) : Prop :=
  Forall2 phase (lthreads w) (threads w0) /\ lcells w = cells w0 /\ lnext w = next_cell w0 /\
  forall c, lock_ok (llocks w c) c (lthreads w).

Lemma lstart_inv {A} (w : pool A) : linv (lstart w) w.
Proof.
  unfold linv, lstart. cbn [lthreads lcells lnext llocks]. split; [|split; [reflexivity|split; [reflexivity|]]].
  - induction (threads w) as [|p l IH]; constructor; [constructor|exact IH].
  - intros c. unfold lock_ok, free. cbn [readers writer one].
    assert (forall b, cnt (holds b c) (map locked (threads w)) = 0) as H.
    { intros b. apply cnt_none. intros j x E. rewrite nth_error_map in E. destruct (nth_error (threads w) j); [|discriminate].
      injection E as <-. apply holds_locked. }
    rewrite !H. auto.
Qed.

Lemma lock_ok_same {A} l c (ps : list (lprog A)) j p p' :
  lock_ok l c ps -> nth_error ps j = Some p -> (forall b, holds b c p' = holds b c p) -> lock_ok l c (replace ps j p').
Proof.
  intros (R & W & X) E H. pose proof (cnt_replace (holds false c) ps j p p' E). pose proof (cnt_replace (holds true c) ps j p p' E).
  rewrite H in *. unfold lock_ok. lia.
Qed.

(** One step keeps the invariant; the atomic pool makes the same step at the access, and none otherwise. *)
Lemma lstep_inv {A} refuses (w : lpool A) w0 j w' :
  linv w w0 -> lsched_try refuses w j = Some w' -> exists js, linv w' (sched_run w0 js).
Proof.
  intros (F & Es & En & LK) T. unfold lsched_try in T. destruct (refuses w j); [discriminate|].
  destruct (nth_error (lthreads w) j) as [lp|] eqn:Ej; [|discriminate].
  destruct (Forall2_nth _ _ _ F j lp Ej) as (p & Ep & Ph).
  assert (ST : forall js' w1, js' = [j] -> w1 = sched_step w0 j -> sched_run w0 js' = w1) by (intros; subst; reflexivity).
  assert (L0 : forall lp', phase lp' p -> Forall2 phase (replace (lthreads w) j lp') (threads w0)).
  { intros lp' Ph'. rewrite <- (replace_self (threads w0) j p Ep). apply Forall2_replace; assumption. }
  inversion Ph; subst; clear Ph.
  - destruct p as [a| |c k|c o p|k]; cbn [locked lstep] in T; try discriminate.
    + (* read lock *)
      unfold acquire in T. destruct (writer (llocks w c)) eqn:Wr; [discriminate|]. injection T as <-. exists [].
      cbn [sched_run fold_left]. unfold linv. cbn [lthreads lcells lnext llocks]. split; [apply L0; constructor|]. split; [auto|]. split; [auto|].
      intros c'. unfold set_lock. destruct (N.eqb_spec c' c) as [->|Nc].
      * destruct (LK c) as (R & W & _). pose proof (cnt_replace (holds false c) _ j _ (LGet c (fun o => LUnlock false c (locked (k o)))) Ej) as C1.
        pose proof (cnt_replace (holds true c) _ j _ (LGet c (fun o => LUnlock false c (locked (k o)))) Ej) as C2.
        cbn [holds negb andb locked] in C1, C2. rewrite N.eqb_refl in C1. rewrite Wr in W. cbn [one] in *. unfold lock_ok. cbn [readers writer one]. split; [lia|]. split; [lia|discriminate].
      * apply lock_ok_same with (p := locked (Read c k)); [apply LK|exact Ej|]. intros b. cbn [holds locked]. destruct (N.eqb_spec c c'); [congruence|]. destruct b; reflexivity.
    + (* write lock *)
      unfold acquire in T. destruct (writer (llocks w c)) eqn:Wr; [discriminate|]. destruct (readers (llocks w c)) eqn:Rd; [|discriminate].
      injection T as <-. exists [].
      cbn [sched_run fold_left]. unfold linv. cbn [lthreads lcells lnext llocks]. split; [apply L0; constructor|]. split; [auto|]. split; [auto|].
      intros c'. unfold set_lock. destruct (N.eqb_spec c' c) as [->|Nc].
      * destruct (LK c) as (R & W & _). pose proof (cnt_replace (holds false c) _ j _ (LPut c o (LUnlock true c (locked p))) Ej) as C1.
        pose proof (cnt_replace (holds true c) _ j _ (LPut c o (LUnlock true c (locked p))) Ej) as C2.
        cbn [holds negb andb locked] in C1, C2. rewrite N.eqb_refl in C2. rewrite Wr in W. rewrite Rd in R. cbn [one] in *. unfold lock_ok. cbn [readers writer one]. split; [lia|]. split; [lia|auto].
      * apply lock_ok_same with (p := locked (Write c o p)); [apply LK|exact Ej|]. intros b. cbn [holds locked]. destruct (N.eqb_spec c c'); [congruence|]. destruct b; reflexivity.
    + (* alloc *)
      injection T as <-. exists [j]. cbn [sched_run fold_left]. unfold sched_step. rewrite Ep. cbn [tstep]. unfold linv.
      cbn [lthreads lcells lnext llocks threads cells next_cell]. rewrite <- Es, <- En.
      split; [apply Forall2_replace; [exact F|constructor]|]. split; [auto|]. split; [auto|]. intros c'. eapply lock_ok_same; [apply LK|exact Ej|]. intros b. rewrite !holds_locked. reflexivity.
  - (* get *)
    cbn [lstep] in T. injection T as <-. exists [j]. cbn [sched_run fold_left]. unfold sched_step. rewrite Ep. cbn [tstep]. unfold linv.
    cbn [lthreads lcells lnext llocks threads cells next_cell]. rewrite <- Es, <- En.
    split; [apply Forall2_replace; [exact F|constructor]|]. split; [auto|]. split; [auto|]. intros c'. eapply lock_ok_same; [apply LK|exact Ej|]. intros b. destruct b; reflexivity.
  - (* put *)
    cbn [lstep] in T. injection T as <-. exists [j]. cbn [sched_run fold_left]. unfold sched_step. rewrite Ep. cbn [tstep]. unfold linv.
    cbn [lthreads lcells lnext llocks threads cells next_cell]. rewrite <- Es, <- En.
    split; [apply Forall2_replace; [exact F|constructor]|]. split; [auto|]. split; [auto|]. intros c'. eapply lock_ok_same; [apply LK|exact Ej|]. intros b. destruct b; reflexivity.
  - (* unlock *)
    rename w1 into wr. cbn [lstep] in T. injection T as <-. exists [].
    cbn [sched_run fold_left]. unfold linv. cbn [lthreads lcells lnext llocks]. split; [apply L0; constructor|]. split; [auto|]. split; [auto|].
    intros c'. unfold set_lock. destruct (N.eqb_spec c' c) as [->|Nc].
    + destruct (LK c) as (R & W & X). pose proof (cnt_replace (holds false c) _ j _ (locked p) Ej) as C1.
      pose proof (cnt_replace (holds true c) _ j _ (locked p) Ej) as C2.
      rewrite holds_locked in C1, C2. cbn [holds negb andb] in C1, C2. rewrite N.eqb_refl in C1, C2.
      destruct (llocks w c) as [wf rf]. cbn [writer readers] in *. unfold lock_ok, release.
      destruct wr, wf; cbn [writer readers one Bool.eqb andb] in *; try lia; (split; [lia|]; split; [lia|]); intros; try discriminate; lia.
    + apply lock_ok_same with (p := LUnlock wr c (locked p)); [apply LK|exact Ej|]. intros b. rewrite holds_locked. cbn [holds].
      destruct (N.eqb_spec c c'); [congruence|]. rewrite Bool.andb_false_r. reflexivity.
Qed.

Lemma sched_run_app {A} (w : pool A) a b : sched_run w (a ++ b) = sched_run (sched_run w a) b.
Proof. unfold sched_run. apply fold_left_app. Qed.
Lemma lrun_inv {A} refuses js : forall (w : lpool A) w0, linv w w0 -> exists js', linv (lsched_run refuses w js) (sched_run w0 js').
Proof.
  induction js as [|j js IH]; intros w w0 I; [exists []; exact I|]. cbn [lsched_run fold_left].
  unfold lsched_step at 2. destruct (lsched_try refuses w j) as [w'|] eqn:T.
  - destruct (lstep_inv _ _ _ _ _ I T) as [js1 I1]. destruct (IH w' _ I1) as [js2 I2]. exists (js1 ++ js2). rewrite sched_run_app. exact I2.
  - apply IH, I.
Qed.

(** ** No data races *)
Lemma no_race {A} (w : lpool A) w0 i j p q c :
  linv w w0 -> i <> j -> nth_error (lthreads w) i = Some p -> nth_error (lthreads w) j = Some q ->
  about_to_write p c -> ~ about_to_read q c /\ ~ about_to_write q c.
Proof.
  intros (_ & _ & _ & LK) N Ei Ej Wp. destruct (LK c) as (R & W & X).
  assert (holds true c p = true) as Hp. { destruct p; try contradiction. cbn in Wp |- *. subst. apply N.eqb_refl. }
  pose proof (cnt_in _ _ _ _ Ei Hp) as C. assert (writer (llocks w c) = true) as Wr by (destruct (writer (llocks w c)); cbn [one] in W; [reflexivity|lia]).
  specialize (X Wr). rewrite Wr in W. cbn [one] in W. split; intros Q.
  - assert (holds false c q = true) as Hq. { destruct q; try contradiction. cbn in Q |- *. subst. apply N.eqb_refl. }
    pose proof (cnt_in _ _ _ _ Ej Hq). lia.
  - assert (holds true c q = true) as Hq. { destruct q; try contradiction. cbn in Q |- *. subst. apply N.eqb_refl. }
    pose proof (cnt_two _ _ _ _ _ _ N Ei Ej Hp Hq). lia.
Qed.

(** ** No deadlock *)
Definition waits_to_write {A} (p : lprog A) : bool := match p with LLock true _ _ => true | _ => false end.
Definition is_holder {A} (p : lprog A) : bool := match p with LGet _ _ | LPut _ _ _ | LUnlock _ _ _ => true | _ => false end.
Definition is_done {A} (p : lprog A) : bool := match p with LRet _ | LFail => true | _ => false end.
Lemma find_index {A} (f : A -> bool) l : (exists j x, nth_error l j = Some x /\ f x = true) \/ (forall j x, nth_error l j = Some x -> f x = false).
Proof.
  induction l as [|y l IH]; [right; intros [|j] x; discriminate|].
  destruct (f y) eqn:E; [left; exists 0, y; auto|]. destruct IH as [(j & x & E1 & T)|H]; [left; exists (S j), x; auto|].
  right. intros [|j] x Ex; [cbn in Ex; congruence|apply (H j x Ex)].
Qed.

Lemma no_refusal {A} refuses (w : lpool A) j p : polite refuses -> nth_error (lthreads w) j = Some p ->
  (forall c q, p = LLock false c q -> forall i r, nth_error (lthreads w) i = Some r -> waits_to_write r = false) -> refuses w j = false.
Proof.
  intros Po E H. destruct (refuses w j) eqn:R; [|reflexivity]. destruct (Po _ _ R) as (c & p' & i & q & Ej & Ei). rewrite E in Ej. injection Ej as ->.
  specialize (H c p' eq_refl i _ Ei). discriminate.
Qed.

Lemma someone_steps {A} refuses (w : lpool A) w0 : polite refuses -> linv w w0 ->
  (exists j p, nth_error (lthreads w) j = Some p /\ ~ lfinished p) -> exists j w', lsched_try refuses w j = Some w'.
Proof.
  intros Po (F & _ & _ & LK) (j0 & p0 & E0 & N0).
  assert (ST : forall j p, nth_error (lthreads w) j = Some p -> refuses w j = false -> lstep p (lcells w) (lnext w) (llocks w) <> None ->
                exists j w', lsched_try refuses w j = Some w').
  { intros j p E R S. exists j. unfold lsched_try. rewrite R, E. destruct (lstep p _ _ _) as [[[[p' s'] n'] L']|]; [eauto|contradiction]. }
  destruct (find_index is_holder (lthreads w)) as [(j & p & E & H)|NH].
  - apply (ST j p E).
    + apply (no_refusal _ _ _ _ Po E). intros c q ->. discriminate.
    + destruct p; try discriminate.
  - assert (FR : forall c, llocks w c = free).
    { intros c. destruct (LK c) as (R & W & _).
      assert (forall b, cnt (holds b c) (lthreads w) = 0) as Z.
      { intros b. apply cnt_none. intros j x E. specialize (NH j x E). destruct x; try discriminate NH; reflexivity. }
      rewrite Z in R, W. destruct (llocks w c) as [[|] r]; cbn [writer readers one] in *; [lia|]. subst. reflexivity. }
    destruct (find_index waits_to_write (lthreads w)) as [(j & p & E & H)|NW].
    + apply (ST j p E).
      * apply (no_refusal _ _ _ _ Po E). intros c q ->. discriminate.
      * destruct p as [| |[|] c p| | | |]; try discriminate. cbn [lstep]. rewrite FR. discriminate.
    + apply (ST j0 p0 E0).
      * apply (no_refusal _ _ _ _ Po E0). intros c q _. apply NW.
      * specialize (NH j0 p0 E0). destruct p0 as [| |wr c p| | | |]; cbn in N0; try tauto; try discriminate NH; cbn [lstep]; [|discriminate].
        rewrite FR. destruct wr; discriminate.
Qed.

(** ** No infinite run *)
Inductive lsub {A} : lprog A -> lprog A -> Prop :=
| sub_lock w c p : lsub p (LLock w c p)
| sub_get c k o : lsub (k o) (LGet c k)
| sub_put c o p : lsub p (LPut c o p)
| sub_unlock w c p : lsub p (LUnlock w c p)
| sub_alloc k n : lsub (k n) (LAlloc k).
Lemma lsub_wf {A} (p : lprog A) : Acc lsub p.
Proof. induction p; constructor; intros q S; inversion S; subst; auto. Qed.

Inductive shrinks {A} : list (lprog A) -> list (lprog A) -> Prop :=
| shrink_one l j p p' : nth_error l j = Some p -> lsub p' p -> shrinks (replace l j p') l.
Lemma shrinks_wf {A} (l : list (lprog A)) : Acc shrinks l.
Proof.
  induction l as [|p l IH].
  - constructor. intros l' S. inversion S as [l0 j p p' E]; subst. destruct j; discriminate.
  - revert l IH. induction (lsub_wf p) as [p _ IHp]. intros l Al. induction Al as [l Hl IHl].
    constructor. intros l' S. inversion S as [l0 [|j] q q' E Sq]; subst; cbn [replace nth_error] in *.
    + injection E as ->. apply IHp; [exact Sq|]. constructor. exact Hl.
    + apply IHl. econstructor; eauto.
Qed.
Lemma try_shrinks {A} refuses (w : lpool A) j w' : lsched_try refuses w j = Some w' -> shrinks (lthreads w') (lthreads w).
Proof.
  unfold lsched_try. destruct (refuses w j); [discriminate|]. destruct (nth_error (lthreads w) j) as [p|] eqn:E; [|discriminate].
  destruct (lstep p _ _ _) as [[[[p' s'] n'] L']|] eqn:S; [|discriminate]. intros T. injection T as <-. cbn [lthreads].
  apply shrink_one with (p := p); [exact E|]. destruct p as [| |wr c p| | | |]; cbn [lstep] in S; try discriminate; try (injection S as <- _ _ _; constructor).
  destruct (acquire wr _); [|discriminate]. injection S as <- _ _ _. constructor.
Qed.

(** ** Fair runs end *)
Lemma lstates_S {A} refuses (w : lpool A) sched m : lstates refuses w sched (S m) = lstates refuses (lsched_step refuses w (sched 0)) (fun i => sched (S i)) m.
Proof.
  unfold lstates. cbn [seq map lsched_run fold_left]. rewrite <- seq_shift, map_map. reflexivity.
Qed.
Lemma lstates_add {A} refuses (w : lpool A) sched a b : lstates refuses w sched (a + b) = lstates refuses (lstates refuses w sched a) (fun i => sched (a + i)) b.
Proof.
  revert w sched. induction a as [|a IH]; intros w sched; [reflexivity|]. cbn [Nat.add]. rewrite !lstates_S, IH. reflexivity.
Qed.
(** Either nothing has changed after [m] turns, or there is a first change. *)
Lemma first_change {A} refuses (w : lpool A) sched m :
  (forall i, i < m -> lsched_try refuses w (sched i) = None) \/
  exists i w', i < m /\ lsched_try refuses w (sched i) = Some w' /\ lstates refuses w sched (S i) = w'.
Proof.
  assert (SAME : forall m, (forall i, i < m -> lsched_try refuses w (sched i) = None) -> lstates refuses w sched m = w).
  { intros k H. unfold lstates, lsched_run. induction k as [|k IH]; [reflexivity|]. rewrite seq_S, map_app, fold_left_app, IH by (intros; apply H; lia).
    cbn [Nat.add map fold_left]. unfold lsched_step. rewrite H by lia. reflexivity. }
  induction m as [|m [IH|IH]].
  - left. intros; lia.
  - destruct (lsched_try refuses w (sched m)) as [w'|] eqn:E.
    + right. exists m, w'. split; [lia|]. split; [exact E|]. replace (S m) with (m + 1) by lia. rewrite lstates_add, (SAME m IH).
      unfold lstates. cbn [seq map lsched_run fold_left]. unfold lsched_step. rewrite Nat.add_0_r, E. reflexivity.
    + left. intros i Hi. destruct (Nat.eq_dec i m) as [->|]; [exact E|]. apply IH. lia.
  - right. destruct IH as (i & w' & L & T). exists i, w'. split; [lia|exact T].
Qed.

Lemma try_inv {A} refuses (w : lpool A) w0 j w' : linv w w0 -> lsched_try refuses w j = Some w' -> exists w1, linv w' w1.
Proof. intros I T. destruct (lstep_inv _ _ _ _ _ I T) as [js I']. eauto. Qed.

Lemma lfair_ends {A} refuses : polite refuses -> forall l, Acc shrinks l -> forall (w : lpool A) w0, lthreads w = l -> linv w w0 -> forall sched,
  (forall j m, j < length l -> exists m', m <= m' /\ sched m' = j) ->
  exists m, forall j p, nth_error (lthreads (lstates refuses w sched m)) j = Some p -> lfinished p.
Proof.
  intros Po l Al. induction Al as [l _ IH]. intros w w0 El I sched Fair.
  destruct (find_index (fun p => negb (is_done p)) (lthreads w)) as [(j0 & p0 & E0 & N0)|D].
  - destruct (someone_steps refuses w w0 Po I) as (j & w' & T).
    { exists j0, p0. split; [exact E0|]. destruct p0; try discriminate; auto. }
    assert (j < length l) as Lj.
    { subst l. apply nth_error_Some. unfold lsched_try in T. destruct (refuses w j); [discriminate|]. destruct (nth_error (lthreads w) j); [discriminate|discriminate]. }
    destruct (Fair j 0 Lj) as (m' & _ & Em).
    destruct (first_change refuses w sched (S m')) as [H|(i & w1 & _ & T1 & E1)].
    + specialize (H m' ltac:(lia)). rewrite Em, T in H. discriminate.
    + destruct (try_inv _ _ _ _ _ I T1) as [w01 I1]. pose proof (try_shrinks _ _ _ _ T1) as Sh. rewrite El in Sh.
      assert (length (lthreads w1) = length l) as Len. { inversion Sh as [l0 j1 q q' E Sq Eq]; subst. apply replace_length. }
      destruct (IH (lthreads w1) Sh w1 w01 eq_refl I1 (fun k => sched (S i + k))) as [m Hm].
      { intros j1 m1 L1. rewrite Len in L1. destruct (Fair j1 (S i + m1) L1) as (m2 & L2 & E2). exists (m2 - S i). split; [lia|]. replace (S i + (m2 - S i)) with m2 by lia. exact E2. }
      exists (S i + m). rewrite lstates_add, E1. exact Hm.
  - exists 0. intros j p E. cbn in E. specialize (D j p E). destruct p; try discriminate; exact Logic.I.
Qed.
