(** Iterators over caching tries: proofs. *)
From Verif Require Import Base Nibbles Cache Serde Query Diff DiffCache CacheSpec HIter IterSpec CacheFacts CacheFacts2 CacheFacts3 Trie ItemsSpec ItemsFacts.
Open Scope N_scope.

Definition eentry (e : hstack_entry) : stack_entry :=
  match e with
  | HSRoot n => SRoot (erase n)
  | HSExtension n => SExtension n
  | HSBranch ch v c => SBranch (map erase ch) v c
  end.
Definition eiter (st : hiter) : iter := Iter (hcurr_key st) (map eentry (htrie_stack st)).

Lemma kid_erase {A} (f : hnode -> res A) (g : node -> res A) ch : Forall (fun c => f c = g (erase c)) ch ->
  forall i, with_hkid f ch i = with_child g (map erase ch) i.
Proof. induction 1 as [|c ch H F IH]; intros [|i]; cbn; auto. Qed.

Definition er (r : res (hiter * option item)) : res (iter * option item) := rmap (fun r => (eiter (fst r), snd r)) r.

Lemma kid_er (f : hnode -> res (hiter * option item)) (g : node -> res (iter * option item)) ch :
  (forall c, In c ch -> er (f c) = g (erase c)) -> forall i, er (with_hkid f ch i) = with_child g (map erase ch) i.
Proof.
  induction ch as [|c ch IH]; intros H [|i]; cbn; auto.
  - apply H. left. reflexivity.
  - apply IH. intros c' I. apply H. right. exact I.
Qed.

Lemma hadvance_erase pr t : forall key st, er (hadvance pr t key st) = advance pr (erase t) key (eiter st).
Proof.
  induction t as [c|c h|c ch v IH|c n t IH|c n v] using hnode_ind'; intros key st; cbn [hadvance erase advance]; try reflexivity.
  - destruct (push_nibble_back key 0) as [key'|]; cbn [bind]; [|reflexivity].
    apply (kid_er _ (fun c => advance pr c key' (Iter key (SBranch (map erase ch) v 1 :: trie_stack (eiter st))))).
    rewrite Forall_forall in IH. intros x I. rewrite (IH x I). reflexivity.
  - destruct (merge_nibbles pr key n) as [key'|]; cbn [bind]; [|reflexivity]. rewrite IH. destruct t; reflexivity.
  - destruct (merge_nibbles pr key n) as [key'|]; reflexivity.
Qed.

Lemma hnext_step_erase pr st :
  rmap (option_map (fun r => (eiter (fst r), snd r))) (hnext_step pr st) = next_step pr (eiter st).
Proof.
  destruct st as [key stk]. unfold hnext_step, next_step, eiter. cbn [htrie_stack hcurr_key trie_stack curr_key_after_last_branch].
  destruct stk as [|[t|n|ch v cur] rest]; cbn [map eentry]; [reflexivity| | |].
  - pose proof (hadvance_erase pr t nib_default (HIter key rest)) as E. unfold eiter in E. cbn [htrie_stack hcurr_key] in E. rewrite <- E.
    destruct (hadvance pr t nib_default (HIter key rest)) as [[st a]|]; reflexivity.
  - destruct (truncate_n_nibbles_back pr key n); reflexivity.
  - destruct ((1 <=? cur) && (cur <=? 15)).
    + destruct (merge_nibble key cur) as [key'|]; cbn [bind]; [|reflexivity].
      assert (K := kid_er (fun c => hadvance pr c key' (HIter key (HSBranch ch v (cur + 1) :: rest)))
        (fun c => advance pr c key' (Iter key (SBranch (map erase ch) v (cur + 1) :: map eentry rest))) ch).
      rewrite <- K by (intros c _; exact (hadvance_erase pr c key' (HIter key (HSBranch ch v (cur + 1) :: rest)))).
      destruct (with_hkid _ ch _) as [[st a]|]; reflexivity.
    + destruct (cur =? 16); [|reflexivity].
      destruct (is_empty key); [|destruct (truncate_n_nibbles_back pr key 1)]; reflexivity.
Qed.

Lemma hnext_erase pr : forall fuel st, option_map er (hnext fuel pr st) = next fuel pr (eiter st).
Proof.
  induction fuel as [|fuel IH]; intros st; [reflexivity|]. cbn [hnext next]. rewrite <- hnext_step_erase.
  destruct (hnext_step pr st) as [[[st' [it|]]|]|]; cbn [rmap option_map fst snd]; [reflexivity|apply IH|reflexivity..].
Qed.

(** The state of an iterator after [n] calls. *)
Fixpoint after (n fuel : nat) (pr : profile) (st : iter) : option (iter * list (option item)) :=
  match n with
  | O => Some (st, [])
  | S n' =>
      match next fuel pr st with
      | Some (Ok (st', a)) => match after n' fuel pr st' with Some (st'', l) => Some (st'', a :: l) | None => None end
      | _ => None
      end
  end.
Lemma after_answers n fuel pr : forall st st' l, after n fuel pr st = Some (st', l) -> answers n fuel pr st = Some (Ok l).
Proof.
  induction n as [|n IH]; intros st st' l E; cbn [after answers] in *; [congruence|].
  destruct (next fuel pr st) as [[[st1 a]|]|]; try discriminate. destruct (after n fuel pr st1) as [[st2 l2]|] eqn:E2; [|discriminate].
  injection E as <- <-. rewrite (IH _ _ _ E2). reflexivity.
Qed.
Lemma after_length n fuel pr : forall st st' l, after n fuel pr st = Some (st', l) -> length l = n.
Proof.
  induction n as [|n IH]; intros st st' l E; cbn [after] in *; [injection E as _ <-; reflexivity|].
  destruct (next fuel pr st) as [[[st1 a]|]|]; try discriminate. destruct (after n fuel pr st1) as [[st2 l2]|] eqn:E2; [|discriminate].
  injection E as <- <-. cbn [length]. f_equal. eapply IH; eauto.
Qed.
Lemma answers_more n fuel pr : forall st st' l, after n fuel pr st = Some (st', l) -> forall m,
  answers (n + m) fuel pr st = match answers m fuel pr st' with Some (Ok l') => Some (Ok (l ++ l')) | r => r end.
Proof.
  induction n as [|n IH]; intros st st' l E m; cbn [after answers plus] in *.
  - injection E as <- <-. destruct (answers m fuel pr st) as [[]|]; reflexivity.
  - destruct (next fuel pr st) as [[[st1 a]|]|]; try discriminate. destruct (after n fuel pr st1) as [[st2 l2]|] eqn:E2; [|discriminate].
    injection E as <- <-. rewrite (IH _ _ _ E2 m). destruct (answers m fuel pr st2) as [[]|]; reflexivity.
Qed.

Lemma nth_replace' {A} (l : list A) : forall i j x, nth_error (replace l i x) j = if Nat.eqb i j then (match nth_error l i with Some _ => Some x | None => None end) else nth_error l j.
Proof. induction l as [|y l IH]; intros [|i] [|j] x; cbn; auto. destruct (Nat.eqb i j); reflexivity. Qed.

Section Run.
Variable keccak : list N -> list N.
Variable pr : profile.
Variable fuel : nat.

Lemma irun_iter j : forall os w it w' xs s n s' n', nth_error (snd w) j = Some it ->
  exec (irun keccak pr fuel w os) s n = Ok (w', xs, s', n') ->
  exists it', nth_error (snd w') j = Some it' /\
    after (length (answers_of j os xs)) fuel pr (eiter it) = Some (eiter it', answers_of j os xs).
Proof.
  induction os as [|o os IH]; intros w it w' xs s n s' n' Hj E; cbn [irun] in E.
  - injection E as <- <- _ _. exists it. split; [exact Hj|reflexivity].
  - rewrite exec_bind in E. destruct (exec (istep keccak pr fuel w o) s n) as [[[[w1 x] s1] n1]|] eqn:E1; [|discriminate].
    rewrite exec_bind in E. destruct (exec (irun keccak pr fuel w1 os) s1 n1) as [[[[w2 xs2] s2] n2]|] eqn:E2; [|discriminate].
    cbn [exec] in E. injection E as <- <- <- <-.
    destruct o as [o|i|j']; cbn [istep] in E1; rewrite exec_bind in E1.
    + destruct (exec (hstep keccak pr (fst w) o) s n) as [[[[ts y] s3] n3]|]; [|discriminate]. cbn [exec] in E1. injection E1 as <- <- <- <-.
      destruct (IH (ts, snd w) it _ _ _ _ _ _ Hj E2) as (it' & A & B). exists it'. split; [exact A|exact B].
    + destruct (the (fst w) i) as [t|]; [|discriminate]. cbn [lift exec hitems pbind] in E1. injection E1 as <- <- <- <-.
      assert (Lj : (j < length (snd w))%nat) by (apply nth_error_Some; congruence).
      destruct (IH (fst w, snd w ++ [_]) it _ _ _ _ _ _ (eq_trans (nth_error_app1 _ _ Lj) Hj) E2) as (it' & A & B).
      exists it'. split; [exact A|exact B].
    + destruct (the (snd w) j') as [it1|] eqn:Et; [|discriminate]. cbn [lift exec] in E1.
      destruct (hnext fuel pr it1) as [[[it2 a]|]|] eqn:En; try discriminate. cbn [exec] in E1. injection E1 as <- <- <- <-.
      unfold the in Et. destruct (nth_error (snd w) j') as [it3|] eqn:Ej; [|discriminate]. injection Et as ->.
      cbn [answers_of]. destruct (Nat.eqb_spec j j') as [<-|Nj].
      * assert (it1 = it) by congruence. subst it1.
        destruct (IH (fst w, replace (snd w) j it2) it2 _ _ _ _ _ _ ltac:(cbn [snd]; rewrite nth_replace', Nat.eqb_refl, Ej; reflexivity) E2) as (it' & A & B).
        exists it'. split; [exact A|]. cbn [length after]. pose proof (hnext_erase pr fuel it) as Er. rewrite En in Er. cbn [option_map er rmap fst snd] in Er.
        rewrite <- Er, B. reflexivity.
      * destruct (IH (fst w, replace (snd w) j' it2) it _ _ _ _ _ _ ltac:(cbn [snd]; rewrite nth_replace'; destruct (Nat.eqb_spec j' j); [congruence|exact Hj]) E2) as (it' & A & B).
        exists it'. auto.
Qed.

Lemma erase_with_cell c t : erase (with_cell c t) = erase t.
Proof. destruct t; reflexivity. Qed.

Lemma irun_items i t os w w' xs s n s' n' : nth_error (fst w) i = Some t ->
  exec (irun keccak pr fuel w (Items i :: os)) s n = Ok (w', xs, s', n') ->
  exists xs' it', xs = Opened :: xs' /\ nth_error (snd w') (length (snd w)) = Some it' /\
    after (length (answers_of (length (snd w)) os xs')) fuel pr (items_iter (erase t)) = Some (eiter it', answers_of (length (snd w)) os xs').
Proof.
  intros Hi E. cbn [irun istep] in E. unfold the in E. rewrite Hi in E. cbn [lift pbind hitems exec] in E.
  rewrite exec_bind in E. destruct (exec (irun keccak pr fuel _ os) _ _) as [[[[w2 xs2] s2] n2]|] eqn:E2; [|discriminate].
  cbn [exec] in E. injection E as <- <- <- <-. exists xs2.
  destruct (irun_iter (length (snd w)) os (fst w, snd w ++ [_]) _ _ _ _ _ _ _ (eq_trans (nth_error_app2 _ _ (Nat.le_refl _)) ltac:(rewrite Nat.sub_diag; reflexivity)) E2) as (it' & A & B).
  exists it'. split; [reflexivity|]. split; [exact A|]. unfold eiter in B at 1. cbn [hcurr_key htrie_stack map eentry] in B. rewrite erase_with_cell in B. exact B.
Qed.

Definition yields (it : hiter) (l : list item) : Prop := (0 < fuel)%nat /\ exists calls, collect calls fuel pr (eiter it) = Some (Ok l).

Lemma yields_next it l : yields it l -> exists it', hnext fuel pr it = Some (Ok (it', hd_error l)) /\ yields it' (tl l).
Proof.
  intros [F [[|calls] E]]; [discriminate|]. cbn [collect] in E. rewrite <- hnext_erase in E.
  destruct (hnext fuel pr it) as [[[it' a]|]|] eqn:En; try discriminate. cbn [option_map er rmap fst snd] in E. exists it'.
  destruct a as [a|].
  - destruct (collect calls fuel pr (eiter it')) as [[l'|]|] eqn:Ec; try discriminate. injection E as <-. split; [reflexivity|]. split; [exact F|eauto].
  - injection E as <-. split; [reflexivity|]. split; [exact F|]. exists 1%nat. cbn [collect tl].
    assert (S : trie_stack (eiter it') = []).
    { apply (next_ends fuel pr (eiter it)). rewrite <- hnext_erase, En. reflexivity. }
    destruct fuel as [|f]; [lia|]. cbn [next]. unfold next_step. rewrite S. reflexivity.
Qed.

Lemma Forall2_nth {A B} (R : A -> B -> Prop) l l' : Forall2 R l l' -> forall i y, nth_error l' i = Some y -> exists x, nth_error l i = Some x /\ R x y.
Proof. induction 1 as [|x y l l' H F IH]; intros [|i] z E; try discriminate; cbn in *; [injection E as <-; eauto|eauto]. Qed.
Lemma Forall2_replace {A B} (R : A -> B -> Prop) l l' : Forall2 R l l' -> forall i x y, R x y -> Forall2 R (replace l i x) (replace l' i y).
Proof. induction 1 as [|x y l l' H F IH]; intros [|i] a b E; cbn; constructor; auto. Qed.
Lemma Forall2_same {A B} (R : A -> B -> Prop) l l' : Forall2 R l l' -> forall i x y, nth_error l' i = Some y -> R x y -> Forall2 R (replace l i x) l'.
Proof. induction 1 as [|x y l l' H F IH]; intros [|i] a b E; cbn in *; intros; constructor; eauto. congruence. Qed.

Lemma irun_ok K os : forall hs its ls w' xs b V s,
  inv keccak pr K None b V hs -> keeps b V s -> Forall2 yields its ls -> respects keccak pr K (map erase hs) (uses os) ->
  virun keccak pr fuel (map erase hs, ls) os = Ok (w', xs) ->
  exists hs' its' s' b', exec (irun keccak pr fuel (hs, its) os) s b = Ok (((hs', its'), xs), s', b') /\ map erase hs' = fst w' /\
    Forall2 yields its' (snd w').
Proof.
  induction os as [|o os IH]; intros hs its ls w' xs b V s I Kp Y R E.
  - cbn in E. injection E as <- <-. exists hs, its, s, b. auto.
  - cbn [virun] in E. okbind E. destruct a as [w1 x]. okbind E. destruct a as [w2 xs']. injection E as <- <-.
    destruct o as [o|i|j]; cbn [vistep fst snd uses respects] in E0, R.
    + okbind E0. destruct a as [ts1 y]. injection E0 as <- <-. destruct R as [L R]. rewrite map_length in L.
      destruct (hstep_ok keccak pr K hs o ts1 y b V s I Kp L E) as (hs1 & s1 & b1 & V1 & Ex & <- & I1 & Kp1).
      destruct (IH hs1 its ls w2 xs' b1 V1 s1 I1 Kp1 Y R E1) as (hs2 & its2 & s2 & b2 & Ex2 & M & Y2).
      exists hs2, its2, s2, b2. split; [|auto]. cbn [irun istep fst snd]. rewrite exec_bind, exec_bind, Ex. cbn [exec]. rewrite exec_bind, Ex2. reflexivity.
    + okbind E0. destruct (the_map _ _ _ E) as (t & Et & Et' & Er). destruct (trie_items fuel pr a) as [[l|]|] eqn:El; try discriminate. injection E0 as <- <-.
      assert (Yl : yields (HIter nib_default [HSRoot (with_cell b t)]) l).
      { unfold trie_items in El. split; [destruct fuel; [discriminate|lia]|]. exists fuel. unfold eiter. cbn [hcurr_key htrie_stack map eentry].
        rewrite erase_with_cell, Er. exact El. }
      pose proof (Forall2_app Y (Forall2_cons _ _ Yl (Forall2_nil _))) as Y1.
      destruct (IH hs _ _ w2 xs' (b + 1) (gset V b (None, true)) (update s b None)
        (inv_ext _ _ _ _ _ _ _ _ _ (ext_alloc b V _) I) (keeps_alloc b V s _ Kp) Y1 R E1) as (hs2 & its2 & s2 & b2 & Ex2 & M & Y2).
      exists hs2, its2, s2, b2. split; [|auto]. cbn [irun istep fst snd]. rewrite Et'. cbn [lift pbind hitems exec]. rewrite exec_bind, Ex2. reflexivity.
    + okbind E0. unfold the in E. destruct (nth_error ls j) as [l|] eqn:Ej; [|discriminate]. injection E as <-.
      destruct (Forall2_nth _ _ _ Y j l Ej) as (it & Ei & Yi). destruct (yields_next it l Yi) as (it' & En & Y').
      assert (H : w1 = (map erase hs, snd w1) /\ x = Item (hd_error l) /\ Forall2 yields (replace its j it') (snd w1)).
      { destruct l as [|a l]; injection E0 as <- <-; (split; [reflexivity|]; split; [reflexivity|]); cbn [snd].
        - apply (Forall2_same _ _ _ Y j it' [] Ej Y').
        - apply (Forall2_replace _ _ _ Y j it' l Y'). }
      destruct H as (Hw & -> & Y1). rewrite Hw in E1.
      destruct (IH hs _ _ w2 xs' b V s I Kp Y1 R E1) as (hs2 & its2 & s2 & b2 & Ex2 & M & Y2).
      exists hs2, its2, s2, b2. split; [|auto]. cbn [irun istep fst snd]. unfold the. rewrite Ei. cbn [lift pbind]. rewrite En.
      cbn [pbind exec]. rewrite exec_bind, Ex2. reflexivity.
Qed.
End Run.
