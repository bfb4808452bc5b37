(** Iteration. *)
From Verif Require Import Base Nibbles NibblesSpec NibblesFacts NibblesFacts2 NibblesFacts3 Trie TrieSpec TrieFacts TrieInsert TrieGet.
Open Scope N_scope.

(** ** [entries] is [lk] *)
Lemma in_concat f l : forall i k e,
  In (k, e) (concat_children f l i) <->
  exists j r, k = (i + N.of_nat j) :: r /\ (j < length l)%nat /\ In (r, e) (f (nth j l Empty)).
Proof.
  induction l as [|c l IH]; intros i k e; cbn [concat_children length].
  - split; [intros []|intros (j & r & _ & H & _); lia].
  - rewrite in_app_iff, in_map_iff, IH. split.
    + intros [([r e'] & E & H)|(j & r & -> & H & H')].
      * cbn [fst snd] in E. injection E as <- <-. exists 0%nat, r. cbn [nth]. repeat split; [f_equal; lia|lia|exact H].
      * exists (S j), r. cbn [nth]. repeat split; [f_equal; lia|lia|exact H'].
    + intros (j & r & -> & H & H'). destruct j as [|j]; cbn [nth] in H'.
      * left. exists (r, e). cbn [fst snd]. split; [do 2 f_equal; lia|exact H'].
      * right. exists j, r. repeat split; [f_equal; lia|lia|exact H'].
Qed.

Lemma entries_lk t : forall k e, In (k, e) (entries t) <-> lk t k = Some e.
Proof.
  induction t as [|h|ch w IH|n c IH|n w] using node_ind'; intros k e; cbn [entries].
  - cbn. split; [intros []|discriminate].
  - cbn. destruct k; split; intros H; try discriminate.
    + destruct H as [H|[]]. congruence.
    + left. congruence.
    + destruct H as [H|[]]. discriminate.
  - rewrite in_app_iff, in_concat. split.
    + intros [(j & r & -> & Hj & H)|H].
      * rewrite lk_branch. unfold child. replace (N.to_nat (0 + N.of_nat j)) with j by lia.
        rewrite Forall_forall in IH. apply IH; [apply nth_In; exact Hj|exact H].
      * destruct w as [|b w]; [destruct H|]. destruct H as [H|[]]. injection H as <- <-. reflexivity.
    + destruct k as [|d k].
      * cbn. intros H. right. destruct w; [discriminate|]. left. congruence.
      * rewrite lk_branch. intros H. left. exists (N.to_nat d), k.
        destruct (child_in ch d) as [E0|I0]; [rewrite E0 in H; discriminate|].
        destruct (le_lt_dec (length ch) (N.to_nat d)) as [Ho|Ho].
        { unfold child in H. rewrite nth_overflow in H by exact Ho. discriminate. }
        repeat split; [f_equal; lia|exact Ho|]. rewrite Forall_forall in IH. apply IH; [exact I0|exact H].
  - rewrite in_map_iff. cbn [lk]. split.
    + intros ([r e'] & E & H). cbn [fst snd] in E. injection E as <- <-. rewrite strip_app. apply IH, H.
    + destruct (strip (nseq n) k) as [r|] eqn:Es; [|discriminate]. intros H. apply strip_some in Es. subst k.
      exists (r, e). split; [reflexivity|]. apply IH, H.
  - cbn [lk]. destruct (key_eqb_spec (nseq n) k) as [<-|Hn].
    + split; [intros [H|[]]; congruence|intros H; left; congruence].
    + split; [intros [H|[]]; congruence|discriminate].
Qed.

Lemma NoDup_app {A} (a b : list A) : NoDup a -> NoDup b -> (forall x, In x a -> ~ In x b) -> NoDup (a ++ b).
Proof.
  intros Ha Hb H. induction Ha as [|x a Hx Ha IH]; [exact Hb|]. cbn [app]. constructor.
  - rewrite in_app_iff. intros [Q|Q]; [exact (Hx Q)|]. apply (H x); [left; reflexivity|exact Q].
  - apply IH. intros y Hy. apply H. right. exact Hy.
Qed.

Lemma NoDup_map_inj {A B} (f : A -> B) l : (forall x y, f x = f y -> x = y) -> NoDup l -> NoDup (map f l).
Proof.
  intros Hf H. induction H as [|x l Hx H IH]; cbn [map]; constructor; [|exact IH].
  rewrite in_map_iff. intros (y & E & Hy). apply Hf in E. subst. exact (Hx Hy).
Qed.

Lemma concat_nodup f l : Forall (fun c => NoDup (map fst (f c))) l -> forall i, NoDup (map fst (concat_children f l i)).
Proof.
  induction 1 as [|c l Hc H IH]; intros i; cbn [concat_children]; [constructor|].
  rewrite map_app, map_map. cbn [fst].
  apply NoDup_app.
  - rewrite <- (map_map fst (cons i)). apply NoDup_map_inj; [congruence|exact Hc].
  - apply IH.
  - intros k H1 H2. apply in_map_iff in H1. destruct H1 as (e1 & <- & _).
    apply in_map_iff in H2. destruct H2 as ([k2 e2] & E & H2). apply in_concat in H2.
    destruct H2 as (j & r & -> & _ & _). cbn [fst] in E. injection E as E _. lia.
Qed.

Lemma entries_nodup t : NoDup (map fst (entries t)).
Proof.
  induction t as [|h|ch w IH|n c IH|n w] using node_ind'; cbn [entries].
  - constructor.
  - cbn. repeat constructor. tauto.
  - rewrite map_app. apply NoDup_app.
    + apply concat_nodup, IH.
    + destruct w; cbn; repeat constructor. tauto.
    + intros k H1 H2. apply in_map_iff in H1. destruct H1 as ([k1 e1] & E & H1). apply in_concat in H1.
      destruct H1 as (j & r & -> & _). cbn [fst] in E. subst k. destruct w; [destruct H2|]. destruct H2 as [H2|[]]. discriminate.
  - rewrite map_map. cbn [fst]. rewrite <- (map_map fst (app (nseq n))). apply NoDup_map_inj; [|exact IH].
    intros x y. apply app_inv_head.
  - cbn. repeat constructor. tauto.
Qed.

(** ** The iterator *)
Definition ent : Type := (list N * val_or_hash)%type.
Definition pre_ (p : list N) (l : list ent) : list ent := map (fun e => (p ++ fst e, snd e)) l.
Definition item_of (e : ent) : item := (enc (fst e), snd e).
Definition drop1 (k : list N) : list N := firstn (length k - 1) k.

Fixpoint stack_items (key : list N) (stk : list stack_entry) : list ent :=
  match stk with
  | [] => []
  | SRoot t :: rest => entries t ++ stack_items key rest
  | SExtension n :: rest => stack_items (firstn (length key - N.to_nat n) key) rest
  | SBranch ch v cur :: rest =>
      pre_ key (concat_children entries (skipn (N.to_nat cur) ch) cur ++ match v with [] => [] | _ => [([], Val v)] end) ++
      stack_items (drop1 key) rest
  end.

Fixpoint stack_ok (key : list N) (stk : list stack_entry) : Prop :=
  match stk with
  | [] => True
  | SRoot t :: rest => key = [] /\ wf 64 t /\ shape t /\ rest = []
  | SExtension n :: rest => stack_ok (firstn (length key - N.to_nat n) key) rest
  | SBranch ch v cur :: rest =>
      1 <= cur <= 16 /\ length ch = 16%nat /\
      (exists L, (length key + S L <= 64)%nat /\ Forall (wf L) ch) /\ Forall shape ch /\ stack_ok (drop1 key) rest
  end.

Fixpoint nsize (t : node) : nat :=
  match t with
  | Branch ch v => 16 + (fix go l := match l with [] => 0 | c :: l' => nsize c + go l' end) ch
  | Extension _ c => S (nsize c)
  | _ => 0
  end%nat.
Definition csize (l : list node) : nat := list_sum (map nsize l).
Lemma nsize_branch ch v : nsize (Branch ch v) = (16 + csize ch)%nat.
Proof. cbn [nsize]. f_equal. unfold csize. induction ch as [|c ch IH]; [reflexivity|]. cbn [map list_sum fold_right]. rewrite IH. reflexivity. Qed.

Fixpoint measure (stk : list stack_entry) : nat :=
  match stk with
  | [] => 0
  | SRoot t :: rest => S (nsize t) + measure rest
  | SExtension _ :: rest => S (measure rest)
  | SBranch ch _ cur :: rest => (17 - N.to_nat cur) + csize (skipn (N.to_nat cur) ch) + measure rest
  end%nat.

Lemma skipn_child ch d : length ch = 16%nat -> d < 16 -> skipn (N.to_nat d) ch = child ch d :: skipn (N.to_nat (d + 1)) ch.
Proof.
  intros L H. replace (N.to_nat (d + 1)) with (S (N.to_nat d)) by lia. apply nth_error_skipn_cons.
  apply nth_error_child; assumption.
Qed.

Lemma drop1_snoc p d : drop1 (p ++ [d]) = p.
Proof. unfold drop1. rewrite app_length. cbn [length]. replace (length p + 1 - 1)%nat with (length p) by lia. apply firstn_exact. Qed.

Lemma drop_ext p l : firstn (length (drop1 (p ++ l)) - length l) (drop1 (p ++ l)) = drop1 p.
Proof.
  unfold drop1. rewrite firstn_firstn, firstn_length, app_length.
  replace (Nat.min (Nat.min (length p + length l - 1) (length p + length l) - length l) (length p + length l - 1)) with (length p - 1)%nat by lia.
  rewrite firstn_app. replace (length p - 1 - length p)%nat with 0%nat by lia. rewrite firstn_O, app_nil_r. reflexivity.
Qed.

Lemma hexl_drop1 p : hexl p -> hexl (drop1 p).
Proof. apply hexl_firstn. Qed.

Lemma pre_app p a b : pre_ p (a ++ b) = pre_ p a ++ pre_ p b.
Proof. apply map_app. Qed.

Lemma pre_pre p q l : pre_ p (pre_ q l) = pre_ (p ++ q) l.
Proof. unfold pre_. rewrite map_map. apply map_ext. intros [k e]. cbn [fst snd]. rewrite app_assoc. reflexivity. Qed.

Lemma concat_cons c l i : concat_children entries (c :: l) i = pre_ [i] (entries c) ++ concat_children entries l (i + 1).
Proof. reflexivity. Qed.

Definition opt {A} (o : option A) : list A := match o with Some a => [a] | None => [] end.

Lemma advance_spec pr t : forall L p c stk,
  wf L t -> shape t -> hexl p -> hexl c -> (length p + L <= 64)%nat -> (length c <= 64)%nat -> (is_branch t \/ c = drop1 p) -> (t <> Empty -> stack_ok (drop1 p) stk) ->
  stack_ok c stk \/ is_branch t ->
  exists it c' stk', advance pr t (enc p) (Iter (enc c) stk) = Ok (Iter (enc c') stk', option_map item_of it) /\
    hexl c' /\ (length c' <= 64)%nat /\ stack_ok c' stk' /\ (measure stk' <= nsize t + measure stk)%nat /\
    opt it ++ stack_items c' stk' = pre_ p (entries t) ++ stack_items (drop1 p) stk.
Proof.
  induction t as [|h|ch w IH|n c0 IH|n w] using node_ind'; intros L p c stk W Sh Hp Hc HL HcL Hcd Hok Hok'; cbn [advance].
  - destruct Hcd as [[]|Hcd]. exists None, c, stk. cbn. destruct Hok' as [Hok'|[]]. repeat split; auto. rewrite Hcd. reflexivity.
  - destruct Hcd as [[]|Hcd]. exists (Some (p, HashV h)), c, stk. cbn. destruct Hok' as [Hok'|[]].
    repeat split; auto. rewrite Hcd, app_nil_r. reflexivity.
  - inversion W as [| |L0 ? ? Hl F| |]; subst. inversion Sh as [| |? ? FS X| |]; subst.
    rewrite push_back_enc by (assumption || lia). cbn [bind].
    change 0%nat with (N.to_nat 0). rewrite with_child_ok by (assumption || lia).
    assert (Hp0 : hexl (p ++ [0])) by (apply hexl_app; split; [exact Hp|constructor; [lia|constructor]]).
    assert (SO : stack_ok (drop1 (p ++ [0])) (SBranch ch w 1 :: stk)).
    { rewrite drop1_snoc. cbn [stack_ok]. split; [lia|]. split; [exact Hl|]. split; [exists L0; split; [lia|exact F]|].
      split; [exact FS|]. apply Hok. congruence. }
    assert (IHc : exists it c' stk', advance pr (child ch 0) (enc (p ++ [0])) (Iter (enc p) (SBranch ch w 1 :: stk)) = Ok (Iter (enc c') stk', option_map item_of it) /\
      hexl c' /\ (length c' <= 64)%nat /\ stack_ok c' stk' /\ (measure stk' <= nsize (child ch 0) + measure (SBranch ch w 1 :: stk))%nat /\
      opt it ++ stack_items c' stk' = pre_ (p ++ [0]) (entries (child ch 0)) ++ stack_items (drop1 (p ++ [0])) (SBranch ch w 1 :: stk)).
    { destruct (child_in ch 0) as [E0|I0].
      - rewrite E0. cbn [advance]. exists None, p, (SBranch ch w 1 :: stk). rewrite drop1_snoc in *. 
        split; [reflexivity|]. split; [exact Hp|]. split; [lia|]. split; [exact SO|]. split; [cbn [nsize]; lia|reflexivity].
      - rewrite Forall_forall in IH, F, FS. apply (IH _ I0 L0); auto.
        + rewrite app_length. cbn [length]. lia.
        + lia.
        + right. symmetry. apply drop1_snoc.
        + left. rewrite drop1_snoc in SO. exact SO. }
    destruct IHc as (it & c' & stk' & E & Hc' & Lc' & SO' & M & It). cbn [curr_key_after_last_branch trie_stack]. rewrite E.
    exists it, c', stk'. split; [reflexivity|]. split; [exact Hc'|]. split; [exact Lc'|]. split; [exact SO'|]. split.
    + rewrite nsize_branch. cbn [measure] in M. change (skipn (N.to_nat 1) ch) with (skipn (N.to_nat (0 + 1)) ch) in M.
      replace (csize ch) with (nsize (child ch 0) + csize (skipn (N.to_nat (0 + 1)) ch))%nat.
      * change (17 - N.to_nat 1)%nat with 16%nat in M. lia.
      * change ch with (skipn (N.to_nat 0) ch) at 3. rewrite (skipn_child ch 0) by (assumption || lia). reflexivity.
    + rewrite It, drop1_snoc. cbn [stack_items entries]. change (skipn (N.to_nat 1) ch) with (skipn (N.to_nat (0 + 1)) ch).
      change (concat_children entries ch 0) with (concat_children entries (skipn (N.to_nat 0) ch) 0).
      rewrite (skipn_child ch 0) by (assumption || lia). rewrite concat_cons, !pre_app, pre_pre, <- !app_assoc. reflexivity.
  - inversion W as [| | |L0 l c1 Hl Wc|]; subst. inversion Sh as [| | |? ? Hn B Sc|]; subst.
    assert (Hpl : hexl (p ++ l)) by (apply hexl_app; auto).
    destruct c0 as [|h|ch w|n' c'|n' w]; try contradiction.
    + destruct Hcd as [[]|Hcd]. rewrite merge_nibbles_enc by (assumption || lia). cbn [bind advance].
      exists (Some (p ++ l, HashV h)), c, stk. cbn [option_map item_of fst snd opt entries pre_ map].
      destruct Hok' as [Hok'|[]]. rewrite nseq_enc, app_nil_r by exact Hl. subst c.
      split; [reflexivity|]. split; [exact Hc|]. split; [exact HcL|]. split; [exact Hok'|]. split; [cbn; lia|reflexivity].
    + rewrite merge_nibbles_enc by (assumption || lia). cbn [bind curr_key_after_last_branch trie_stack].
      assert (SO : stack_ok (drop1 (p ++ l)) (SExtension (count (enc l)) :: stk)).
      { cbn [stack_ok]. rewrite count_enc, Nat2N.id, drop_ext. apply Hok. congruence. }
      destruct (IH L0 (p ++ l) c (SExtension (count (enc l)) :: stk)) as (it & c2 & stk2 & E & Hc2 & Lc2 & SO2 & M & It); auto.
      * rewrite app_length. lia.
      * rewrite E. exists it, c2, stk2. split; [reflexivity|]. split; [exact Hc2|]. split; [exact Lc2|]. split; [exact SO2|]. split.
        -- cbn [measure] in M. change (nsize (Extension (enc l) (Branch ch w))) with (S (nsize (Branch ch w))). lia.
        -- rewrite It. cbn [stack_items]. rewrite count_enc, Nat2N.id, drop_ext.
           f_equal. change (entries (Extension (enc l) (Branch ch w))) with (pre_ (nseq (enc l)) (entries (Branch ch w))).
           rewrite nseq_enc, pre_pre by exact Hl. reflexivity.
  - destruct Hcd as [[]|Hcd]. inversion W as [| | | |L0 l v0 Hl Ll]; subst.
    rewrite merge_nibbles_enc by (assumption || lia). cbn [bind].
    exists (Some (p ++ l, Val w)), (drop1 p), stk. cbn [option_map item_of fst snd opt entries pre_ map].
    destruct Hok' as [Hok'|[]]. rewrite nseq_enc by exact Hl.
    split; [reflexivity|]. split; [exact Hc|]. split; [exact HcL|]. split; [exact Hok'|]. split; [cbn; lia|reflexivity].
Qed.

Lemma next_step_spec pr c stk : hexl c -> (length c <= 64)%nat -> stack_ok c stk -> stk <> [] ->
  exists it c' stk', next_step pr (Iter (enc c) stk) = Ok (Some (Iter (enc c') stk', option_map item_of it)) /\
    hexl c' /\ (length c' <= 64)%nat /\ stack_ok c' stk' /\ (measure stk' < measure stk)%nat /\
    opt it ++ stack_items c' stk' = stack_items c stk.
Proof.
  intros Hc Lc SO Ne. destruct stk as [|[t|n|ch v cur] rest]; [congruence| | |]; unfold next_step; cbn [trie_stack curr_key_after_last_branch].
  - destruct SO as (-> & W & Sh & ->).
    destruct (advance_spec pr t 64 [] [] [] W Sh Hc Hc) as (it & c' & stk' & E & Hc' & Lc' & SO' & M & It);
      [cbn; lia|cbn; lia|right; reflexivity|intros _; exact I|left; exact I|].
    change nib_default with (enc []). rewrite E. cbn [bind]. exists it, c', stk'. split; [reflexivity|].
    split; [exact Hc'|]. split; [exact Lc'|]. split; [exact SO'|]. split; [cbn [measure] in *; lia|].
    rewrite It. cbn [stack_items]. f_equal. unfold pre_. rewrite <- (map_id (entries t)) at 2. apply map_ext. intros [k e]. reflexivity.
  - cbn [stack_ok] in SO. rewrite <- (N2Nat.id n). rewrite truncate_back_enc by (assumption || lia). cbn [bind].
    exists None, (firstn (length c - N.to_nat n) c), rest. rewrite N2Nat.id in *. split; [reflexivity|].
    split; [apply hexl_firstn, Hc|]. split; [rewrite firstn_length; lia|]. split; [exact SO|]. split; [cbn [measure]; lia|reflexivity].
  - destruct SO as (Hcur & Hl & (L & HL & F) & FS & SO).
    destruct (N.leb_spec 1 cur) as [H1|H1]; [|lia].
    destruct (N.leb_spec cur 15) as [H2|H2]; cbn [andb].
    + rewrite merge_nibble_enc by (assumption || lia). cbn [bind]. rewrite with_child_ok by (assumption || lia).
      assert (Hd : hexl (c ++ [cur])) by (apply hexl_app; split; [exact Hc|constructor; [lia|constructor]]).
      assert (SO2 : stack_ok c (SBranch ch v (cur + 1) :: rest)).
      { cbn [stack_ok]. split; [lia|]. split; [exact Hl|]. split; [exists L; auto|]. split; auto. }
      destruct (advance_spec pr (child ch cur) L (c ++ [cur]) c (SBranch ch v (cur + 1) :: rest))
        as (it & c' & stk' & E & Hc' & Lc' & SO' & M & It); auto.
      * apply Forall_child; [constructor|exact F].
      * apply Forall_child; [constructor|exact FS].
      * rewrite app_length; cbn [length]; lia.
      * right. symmetry. apply drop1_snoc.
      * intros _. rewrite drop1_snoc. exact SO2.
      * rewrite E. cbn [bind]. exists it, c', stk'. split; [reflexivity|].
        split; [exact Hc'|]. split; [exact Lc'|]. split; [exact SO'|]. split.
        -- cbn [measure] in *. rewrite (skipn_child ch cur) by (assumption || lia).
           change (csize (child ch cur :: skipn (N.to_nat (cur + 1)) ch)) with (nsize (child ch cur) + csize (skipn (N.to_nat (cur + 1)) ch))%nat. lia.
        -- rewrite It, drop1_snoc. cbn [stack_items]. rewrite (skipn_child ch cur) by (assumption || lia).
           rewrite concat_cons, !pre_app, pre_pre, <- !app_assoc. reflexivity.
    + assert (cur = 16) as -> by lia. change (16 =? 16) with true. cbv iota.
      assert (E : (if is_empty (enc c) then Ok (enc c) else truncate_n_nibbles_back pr (enc c) 1) = Ok (enc (drop1 c))).
      { change 1 with (N.of_nat 1). rewrite truncate_back_enc by (assumption || lia). rewrite is_empty_enc. destruct c; reflexivity. }
      rewrite E. cbn [bind].
      exists (match v with [] => None | _ => Some (c, Val v) end), (drop1 c), rest. split; [destruct v; reflexivity|].
      split; [apply hexl_drop1, Hc|]. split; [unfold drop1; rewrite firstn_length; lia|]. split; [exact SO|]. split; [cbn [measure]; lia|].
      cbn [stack_items]. change (N.to_nat 16) with 16%nat. rewrite skipn_all2 by lia. cbn [concat_children app].
      destruct v; [reflexivity|]. cbn [pre_ map fst snd app opt]. rewrite app_nil_r. reflexivity.
Qed.

Lemma next_spec pr : forall fuel c stk, hexl c -> (length c <= 64)%nat -> stack_ok c stk -> (measure stk < fuel)%nat ->
  match stack_items c stk with
  | [] => exists st, next fuel pr (Iter (enc c) stk) = Some (Ok (st, None))
  | it :: l => exists c' stk', next fuel pr (Iter (enc c) stk) = Some (Ok (Iter (enc c') stk', Some (item_of it))) /\
      hexl c' /\ (length c' <= 64)%nat /\ stack_ok c' stk' /\ (measure stk' < measure stk)%nat /\ stack_items c' stk' = l
  end.
Proof.
  induction fuel as [|fuel IH]; intros c stk Hc Lc SO M; [lia|].
  destruct stk as [|e rest]; [cbn; eauto|].
  destruct (next_step_spec pr c (e :: rest) Hc Lc SO) as (it & c' & stk' & E & Hc' & Lc' & SO' & M' & It); [congruence|].
  cbn [next]. rewrite E. destruct it as [it|]; cbn [option_map opt app] in *.
  - rewrite <- It. exists c', stk'. auto 8.
  - specialize (IH c' stk' Hc' Lc' SO' ltac:(lia)). rewrite It in IH.
    destruct (stack_items c (e :: rest)); [exact IH|].
    destruct IH as (c2 & stk2 & E2 & A & B & C & D & F). exists c2, stk2. repeat split; auto; lia.
Qed.

Lemma collect_spec pr fuel : forall calls c stk, hexl c -> (length c <= 64)%nat -> stack_ok c stk -> (measure stk < fuel)%nat ->
  (measure stk < calls)%nat -> collect calls fuel pr (Iter (enc c) stk) = Some (Ok (map item_of (stack_items c stk))).
Proof.
  induction calls as [|calls IH]; intros c stk Hc Lc SO M1 M2; [lia|]. cbn [collect].
  pose proof (next_spec pr fuel c stk Hc Lc SO M1) as H. destruct (stack_items c stk) as [|it l].
  - destruct H as [st ->]. reflexivity.
  - destruct H as (c' & stk' & -> & A & B & C & D & <-). rewrite IH by (auto; lia). reflexivity.
Qed.

(** Every sufficiently long run of the iterator yields exactly the entries. *)
Theorem items_spec pr t : wf 64 t -> shape t -> forall fuel, (nsize t + 1 < fuel)%nat ->
  trie_items fuel pr t = Some (Ok (map item_of (entries t))).
Proof.
  intros W Sh fuel H. unfold trie_items, items_iter. change nib_default with (enc []).
  rewrite collect_spec; [|constructor|cbn; lia|cbn; auto|cbn [measure]; lia|cbn [measure]; lia].
  cbn [stack_items]. rewrite app_nil_r. reflexivity.
Qed.
