(** Tries with keys longer than 64 nibbles: proofs. *)
From Verif Require Import Base Nibbles NibblesSpec NibblesFacts NibblesFacts2 NibblesFacts3 Trie TrieSpec TrieHistSpec TrieFacts TrieInsert TrieGet TrieDelete TrieUnique TrieIter TrieHist ItemsSpec ItemsFacts LongSpec.
Open Scope N_scope.

Lemma short_wf t : forall L m, wf L t -> shape t -> t <> Empty -> (forall k, stored t k -> (length k <= m)%nat) -> wf m t.
Proof.
  induction t as [|h|ch w IH|n c IH|n w] using node_ind'; intros L m W Sh NE H.
  - congruence.
  - constructor.
  - inversion W as [| |L0 ? ? Hl F| |]; subst. inversion Sh as [| |? ? FS (c0 & I0 & N0)| |]; subst.
    assert (Q : forall c, In c ch -> c <> Empty -> exists d, child ch d = c).
    { intros c I _. destruct (In_nth ch c Empty I) as (i & Hi & E). exists (N.of_nat i). unfold child. rewrite Nat2N.id. exact E. }
    assert (m <> 0)%nat.
    { destruct (Q c0 I0 N0) as (d & Ed). rewrite Forall_forall in FS. destruct (shape_stored c0 (FS _ I0) N0) as (k & Sk).
      intros ->. assert (stored (Branch ch w) (d :: k)) by (unfold stored in *; rewrite lk_branch, Ed; exact Sk).
      specialize (H _ H0). cbn [length] in H. lia. }
    destruct m as [|m]; [congruence|]. constructor; [exact Hl|]. rewrite Forall_forall in *. intros c I.
    destruct c as [| | | |]; [constructor|..];
      (destruct (Q _ I ltac:(discriminate)) as (d & Ed); apply (IH _ I L0); [apply F, I|apply FS, I|discriminate|];
       intros k Sk; assert (Sd : stored (Branch ch w) (d :: k)) by (unfold stored in *; rewrite lk_branch, Ed; exact Sk);
       specialize (H _ Sd); cbn [length] in H; lia).
  - inversion W as [| | |L0 l c1 Hl Wc|]; subst. inversion Sh as [| | |? ? Hn B Sc|]; subst.
    assert (NEc : c <> Empty) by (destruct c; [contradiction|discriminate..]).
    destruct (shape_stored c Sc NEc) as (k0 & S0).
    assert (Up : forall k, stored c k -> (length l + length k <= m)%nat).
    { intros k Sk. rewrite <- app_length. apply H. unfold stored in *. rewrite lk_ext_nseq, strip_app by exact Hl. exact Sk. }
    pose proof (Up _ S0). replace m with (length l + (m - length l))%nat by lia. constructor; [exact Hl|].
    apply (IH L0); auto. intros k Sk. specialize (Up _ Sk). lia.
  - inversion W as [| | | |L0 l v0 Hl Ll]; subst. constructor; [exact Hl|]. apply H. unfold stored. cbn [lk].
    rewrite nseq_enc, key_eqb_refl by exact Hl. discriminate.
Qed.

(** ** The iterator *)
Definition long (e : ent) : Prop := (64 < length (fst e))%nat.
Definition starts_long (l : list ent) : Prop := exists e r, l = e :: r /\ long e.
Definition fine (it : option ent) : Prop := match it with Some e => (length (fst e) <= 64)%nat | None => True end.

Fixpoint stack_okl (key : list N) (stk : list stack_entry) : Prop :=
  match stk with
  | [] => True
  | SRoot t :: rest => key = [] /\ wf 127 t /\ shape t /\ rest = []
  | SExtension n :: rest => stack_okl (firstn (length key - N.to_nat n) key) rest
  | SBranch ch v cur :: rest =>
      1 <= cur <= 16 /\ length ch = 16%nat /\ (length key < 64)%nat /\
      (exists L, (length key + S L <= 127)%nat /\ Forall (wf L) ch) /\ Forall shape ch /\ stack_okl (drop1 key) rest
  end.

Lemma starts_app a b : starts_long a -> starts_long (a ++ b).
Proof. intros (e & r & -> & H). exists e, (r ++ b). auto. Qed.
Lemma pre_starts p l : l <> [] -> (64 < length p)%nat -> starts_long (pre_ p l).
Proof.
  intros H Lp. destruct l as [|e l]; [congruence|]. unfold pre_. cbn [map]. eexists _, _. split; [reflexivity|].
  unfold long. cbn [fst]. rewrite app_length. lia.
Qed.
Lemma entries_ne t : shape t -> t <> Empty -> entries t <> [].
Proof.
  intros Sh NE E. destruct (shape_stored t Sh NE) as (k & S). unfold stored in S. destruct (lk t k) as [e|] eqn:El; [|congruence].
  apply entries_lk in El. rewrite E in El. exact El.
Qed.
Lemma branch_starts p ch w : shape (Branch ch w) -> (64 <= length p)%nat -> starts_long (pre_ p (entries (Branch ch w))).
Proof.
  intros Sh Lp. inversion Sh as [| |? ? FS (c0 & I0 & N0)| |]; subst. cbn [entries]. rewrite pre_app. apply starts_app.
  rewrite Forall_forall in FS. pose proof (entries_ne c0 (FS _ I0) N0) as NE. destruct (In_nth ch c0 Empty I0) as (i & Hi & Ei).
  destruct (concat_children entries ch 0) as [|e l] eqn:Ec.
  - exfalso. destruct (entries c0) as [|[k e] l0] eqn:E0; [congruence|].
    assert (In ((0 + N.of_nat i) :: k, e) (concat_children entries ch 0)) as Q.
    { apply in_concat. exists i, k. repeat split; [exact Hi|]. rewrite Ei, E0. left. reflexivity. }
    rewrite Ec in Q. exact Q.
  - assert (In e (concat_children entries ch 0)) as Q by (rewrite Ec; left; reflexivity).
    destruct e as [k e]. apply in_concat in Q. destruct Q as (j & r & -> & _). unfold pre_. cbn [map fst snd].
    eexists _, _. split; [reflexivity|]. unfold long. cbn [fst]. rewrite app_length. cbn [length]. lia.
Qed.
Lemma push_back_panic p d : (64 <= length p)%nat -> push_nibble_back (enc p) d = Panic.
Proof. intros H. unfold push_nibble_back. rewrite append_asserts_panic by (left; exact H). reflexivity. Qed.

Lemma advance_long pr t : forall L p c stk,
  wf L t -> shape t -> hexl p -> hexl c -> (length p <= 64)%nat -> (length p + L <= 127)%nat -> (length c <= 64)%nat ->
  (is_branch t \/ c = drop1 p) -> (t <> Empty -> stack_okl (drop1 p) stk) -> stack_okl c stk \/ is_branch t ->
  (exists it c' stk', advance pr t (enc p) (Iter (enc c) stk) = Ok (Iter (enc c') stk', option_map item_of it) /\
    hexl c' /\ (length c' <= 64)%nat /\ stack_okl c' stk' /\ (measure stk' <= nsize t + measure stk)%nat /\
    opt it ++ stack_items c' stk' = pre_ p (entries t) ++ stack_items (drop1 p) stk /\ fine it) \/
  (advance pr t (enc p) (Iter (enc c) stk) = Panic /\ starts_long (pre_ p (entries t))).
Proof.
  induction t as [|h|ch w IH|n c0 IH|n w] using node_ind'; intros L p c stk W Sh Hp Hc H64 HL HcL Hcd Hok Hok'; cbn [advance].
  - left. destruct Hcd as [[]|Hcd]. exists None, c, stk. cbn. destruct Hok' as [Hok'|[]]. repeat split; auto. rewrite Hcd. reflexivity.
  - left. destruct Hcd as [[]|Hcd]. exists (Some (p, HashV h)), c, stk. cbn. destruct Hok' as [Hok'|[]].
    repeat split; auto. rewrite Hcd, app_nil_r. reflexivity.
  - destruct (le_lt_dec 64 (length p)) as [G|G].
    { right. rewrite push_back_panic by exact G. split; [reflexivity|]. apply branch_starts; assumption. }
    inversion W as [| |L0 ? ? Hl F| |]; subst. inversion Sh as [| |? ? FS X| |]; subst.
    rewrite push_back_enc by (assumption || lia). cbn [bind].
    change 0%nat with (N.to_nat 0). rewrite with_child_ok by (assumption || lia).
    assert (Hp0 : hexl (p ++ [0])) by (apply hexl_app; split; [exact Hp|constructor; [lia|constructor]]).
    assert (SO : stack_okl (drop1 (p ++ [0])) (SBranch ch w 1 :: stk)).
    { rewrite drop1_snoc. cbn [stack_okl]. split; [lia|]. split; [exact Hl|]. split; [exact G|]. split; [exists L0; split; [lia|exact F]|].
      split; [exact FS|]. apply Hok. congruence. }
    assert (Ee : pre_ p (entries (Branch ch w)) = pre_ (p ++ [0]) (entries (child ch 0)) ++
      pre_ p (concat_children entries (skipn (N.to_nat (0 + 1)) ch) (0 + 1) ++ match w with [] => [] | _ => [([], Val w)] end)).
    { cbn [entries]. change (concat_children entries ch 0) with (concat_children entries (skipn (N.to_nat 0) ch) 0).
      rewrite (skipn_child ch 0) by (assumption || lia). rewrite concat_cons, !pre_app, pre_pre, <- !app_assoc. reflexivity. }
    assert (IHc : (exists it c' stk', advance pr (child ch 0) (enc (p ++ [0])) (Iter (enc p) (SBranch ch w 1 :: stk)) = Ok (Iter (enc c') stk', option_map item_of it) /\
      hexl c' /\ (length c' <= 64)%nat /\ stack_okl c' stk' /\ (measure stk' <= nsize (child ch 0) + measure (SBranch ch w 1 :: stk))%nat /\
      opt it ++ stack_items c' stk' = pre_ (p ++ [0]) (entries (child ch 0)) ++ stack_items (drop1 (p ++ [0])) (SBranch ch w 1 :: stk) /\ fine it) \/
      (advance pr (child ch 0) (enc (p ++ [0])) (Iter (enc p) (SBranch ch w 1 :: stk)) = Panic /\ starts_long (pre_ (p ++ [0]) (entries (child ch 0))))).
    { destruct (child_in ch 0) as [E0|I0].
      - left. rewrite E0. cbn [advance]. exists None, p, (SBranch ch w 1 :: stk). rewrite drop1_snoc in *. 
        split; [reflexivity|]. split; [exact Hp|]. split; [lia|]. split; [exact SO|]. split; [cbn [nsize]; lia|]. split; [reflexivity|exact I].
      - rewrite Forall_forall in IH, F, FS. apply (IH _ I0 L0); auto.
        + rewrite app_length. cbn [length]. lia.
        + rewrite app_length. cbn [length]. lia.
        + right. symmetry. apply drop1_snoc.
        + left. rewrite drop1_snoc in SO. exact SO. }
    cbn [curr_key_after_last_branch trie_stack].
    destruct IHc as [(it & c' & stk' & E & Hc' & Lc' & SO' & M & It & Fi)|[E St]]; rewrite E.
    2: { right. split; [reflexivity|]. rewrite Ee. apply starts_app, St. }
    left. exists it, c', stk'. split; [reflexivity|]. split; [exact Hc'|]. split; [exact Lc'|]. split; [exact SO'|]. split; [|split; [|exact Fi]].
    + rewrite nsize_branch. cbn [measure] in M. change (skipn (N.to_nat 1) ch) with (skipn (N.to_nat (0 + 1)) ch) in M.
      replace (csize ch) with (nsize (child ch 0) + csize (skipn (N.to_nat (0 + 1)) ch))%nat.
      * change (17 - N.to_nat 1)%nat with 16%nat in M. lia.
      * change ch with (skipn (N.to_nat 0) ch) at 3. rewrite (skipn_child ch 0) by (assumption || lia). reflexivity.
    + rewrite It, drop1_snoc, Ee. cbn [stack_items]. rewrite <- app_assoc. reflexivity.
  - inversion W as [| | |L0 l c1 Hl Wc|]; subst. inversion Sh as [| | |? ? Hn B Sc|]; subst.
    assert (Hpl : hexl (p ++ l)) by (apply hexl_app; auto).
    assert (Ee : pre_ p (entries (Extension (enc l) c0)) = pre_ (p ++ l) (entries c0)).
    { change (entries (Extension (enc l) c0)) with (pre_ (nseq (enc l)) (entries c0)). rewrite nseq_enc, pre_pre by exact Hl. reflexivity. }
    destruct (le_lt_dec (length p + length l) 64) as [G|G].
    2: { right. rewrite Ee. rewrite merge_nibbles_panic by lia. split; [destruct c0; try contradiction; reflexivity|].
         apply pre_starts; [|rewrite app_length; lia]. apply entries_ne; [exact Sc|]. destruct c0; [contradiction|discriminate..]. }
    destruct c0 as [|h|ch w|n' c'|n' w]; try contradiction.
    + left. destruct Hcd as [[]|Hcd]. rewrite merge_nibbles_enc by (assumption || lia). cbn [bind advance].
      exists (Some (p ++ l, HashV h)), c, stk. rewrite Ee. cbn [option_map item_of fst snd opt entries pre_ map].
      destruct Hok' as [Hok'|[]]. rewrite app_nil_r. subst c.
      split; [reflexivity|]. split; [exact Hc|]. split; [exact HcL|]. split; [exact Hok'|]. split; [cbn; lia|]. split; [reflexivity|].
      cbn [fine fst]. rewrite app_length. exact G.
    + rewrite merge_nibbles_enc by (assumption || lia). cbn [bind curr_key_after_last_branch trie_stack].
      assert (SO : stack_okl (drop1 (p ++ l)) (SExtension (count (enc l)) :: stk)).
      { cbn [stack_okl]. rewrite count_enc, Nat2N.id, drop_ext. apply Hok. congruence. }
      rewrite Ee.
      destruct (IH L0 (p ++ l) c (SExtension (count (enc l)) :: stk)) as [(it & c2 & stk2 & E & Hc2 & Lc2 & SO2 & M & It & Fi)|[E St]]; auto.
      * rewrite app_length. lia.
      * rewrite app_length. lia.
      * left. rewrite E. exists it, c2, stk2. split; [reflexivity|]. split; [exact Hc2|]. split; [exact Lc2|]. split; [exact SO2|]. split; [|split; [|exact Fi]].
        -- cbn [measure] in M. change (nsize (Extension (enc l) (Branch ch w))) with (S (nsize (Branch ch w))). lia.
        -- rewrite It. cbn [stack_items]. rewrite count_enc, Nat2N.id, drop_ext. reflexivity.
  - destruct Hcd as [[]|Hcd]. inversion W as [| | | |L0 l v0 Hl Ll]; subst.
    assert (Ee : pre_ p (entries (Leaf (enc l) w)) = [(p ++ l, Val w)]) by (cbn [entries pre_ map fst snd]; rewrite nseq_enc by exact Hl; reflexivity).
    rewrite Ee. destruct (le_lt_dec (length p + length l) 64) as [G|G].
    2: { right. rewrite merge_nibbles_panic by lia. split; [reflexivity|]. eexists _, _. split; [reflexivity|].
         unfold long. cbn [fst]. rewrite app_length. exact G. }
    left. rewrite merge_nibbles_enc by (assumption || lia). cbn [bind].
    exists (Some (p ++ l, Val w)), (drop1 p), stk. cbn [option_map item_of fst snd opt].
    destruct Hok' as [Hok'|[]].
    split; [reflexivity|]. split; [exact Hc|]. split; [exact HcL|]. split; [exact Hok'|]. split; [cbn; lia|]. split; [reflexivity|].
    cbn [fine fst]. rewrite app_length. exact G.
Qed.

Lemma next_step_long pr c stk : hexl c -> (length c <= 64)%nat -> stack_okl c stk -> stk <> [] ->
  (exists it c' stk', next_step pr (Iter (enc c) stk) = Ok (Some (Iter (enc c') stk', option_map item_of it)) /\
    hexl c' /\ (length c' <= 64)%nat /\ stack_okl c' stk' /\ (measure stk' < measure stk)%nat /\
    opt it ++ stack_items c' stk' = stack_items c stk /\ fine it) \/
  (next_step pr (Iter (enc c) stk) = Panic /\ starts_long (stack_items c stk)).
Proof.
  intros Hc Lc SO Ne. destruct stk as [|[t|n|ch v cur] rest]; [congruence| | |]; unfold next_step; cbn [trie_stack curr_key_after_last_branch].
  - destruct SO as (-> & W & Sh & ->).
    assert (Ee : pre_ [] (entries t) = entries t).
    { unfold pre_. rewrite <- (map_id (entries t)) at 2. apply map_ext. intros [k e]. reflexivity. }
    change nib_default with (enc []). cbn [stack_items].
    destruct (advance_long pr t 127 [] [] [] W Sh Hc Hc) as [(it & c' & stk' & E & Hc' & Lc' & SO' & M & It & Fi)|[E St]];
      [cbn; lia|cbn; lia|cbn; lia|right; reflexivity|intros _; exact I|left; exact I| |]; rewrite E; cbn [bind]; rewrite Ee in *.
    + left. exists it, c', stk'. split; [reflexivity|].
      split; [exact Hc'|]. split; [exact Lc'|]. split; [exact SO'|]. split; [cbn [measure] in *; lia|]. split; [exact It|exact Fi].
    + right. split; [reflexivity|]. apply starts_app, St.
  - left. cbn [stack_okl] in SO. rewrite <- (N2Nat.id n). rewrite truncate_back_enc by (assumption || lia). cbn [bind].
    exists None, (firstn (length c - N.to_nat n) c), rest. rewrite N2Nat.id in *. split; [reflexivity|].
    split; [apply hexl_firstn, Hc|]. split; [rewrite firstn_length; lia|]. split; [exact SO|]. split; [cbn [measure]; lia|]. split; [reflexivity|exact I].
  - destruct SO as (Hcur & Hl & Hlc & (L & HL & F) & FS & SO).
    destruct (N.leb_spec 1 cur) as [H1|H1]; [|lia].
    destruct (N.leb_spec cur 15) as [H2|H2]; cbn [andb].
    + rewrite merge_nibble_enc by (assumption || lia). cbn [bind]. rewrite with_child_ok by (assumption || lia).
      assert (Hd : hexl (c ++ [cur])) by (apply hexl_app; split; [exact Hc|constructor; [lia|constructor]]).
      assert (SO2 : stack_okl c (SBranch ch v (cur + 1) :: rest)).
      { cbn [stack_okl]. split; [lia|]. split; [exact Hl|]. split; [exact Hlc|]. split; [exists L; auto|]. split; auto. }
      assert (Ee : stack_items c (SBranch ch v cur :: rest) = pre_ (c ++ [cur]) (entries (child ch cur)) ++ stack_items c (SBranch ch v (cur + 1) :: rest)).
      { cbn [stack_items]. rewrite (skipn_child ch cur) by (assumption || lia).
        rewrite concat_cons, !pre_app, pre_pre, <- !app_assoc. reflexivity. }
      destruct (advance_long pr (child ch cur) L (c ++ [cur]) c (SBranch ch v (cur + 1) :: rest))
        as [(it & c' & stk' & E & Hc' & Lc' & SO' & M & It & Fi)|[E St]]; auto.
      * apply Forall_child; [constructor|exact F].
      * apply Forall_child; [constructor|exact FS].
      * rewrite app_length; cbn [length]; lia.
      * rewrite app_length; cbn [length]; lia.
      * right. symmetry. apply drop1_snoc.
      * intros _. rewrite drop1_snoc. exact SO2.
      * left. rewrite E. cbn [bind]. exists it, c', stk'. split; [reflexivity|].
        split; [exact Hc'|]. split; [exact Lc'|]. split; [exact SO'|]. split; [|split; [|exact Fi]].
        -- cbn [measure] in *. rewrite (skipn_child ch cur) by (assumption || lia).
           change (csize (child ch cur :: skipn (N.to_nat (cur + 1)) ch)) with (nsize (child ch cur) + csize (skipn (N.to_nat (cur + 1)) ch))%nat. lia.
        -- rewrite It, drop1_snoc, Ee. reflexivity.
      * right. rewrite E. split; [reflexivity|]. rewrite Ee. apply starts_app, St.
    + left. assert (cur = 16) as -> by lia. change (16 =? 16) with true. cbv iota.
      assert (E : (if is_empty (enc c) then Ok (enc c) else truncate_n_nibbles_back pr (enc c) 1) = Ok (enc (drop1 c))).
      { change 1 with (N.of_nat 1). rewrite truncate_back_enc by (assumption || lia). rewrite is_empty_enc. destruct c; reflexivity. }
      rewrite E. cbn [bind].
      exists (match v with [] => None | _ => Some (c, Val v) end), (drop1 c), rest. split; [destruct v; reflexivity|].
      split; [apply hexl_drop1, Hc|]. split; [unfold drop1; rewrite firstn_length; lia|]. split; [exact SO|]. split; [cbn [measure]; lia|].
      cbn [stack_items]. change (N.to_nat 16) with 16%nat. rewrite skipn_all2 by lia. cbn [concat_children app].
      destruct v; [split; [reflexivity|exact I]|]. cbn [pre_ map fst snd app opt]. rewrite app_nil_r. split; [reflexivity|exact Lc].
Qed.

Lemma next_long pr : forall fuel c stk, hexl c -> (length c <= 64)%nat -> stack_okl c stk -> (measure stk < fuel)%nat ->
  match stack_items c stk with
  | [] => exists st, next fuel pr (Iter (enc c) stk) = Some (Ok (st, None))
  | it :: l =>
      (exists c' stk', next fuel pr (Iter (enc c) stk) = Some (Ok (Iter (enc c') stk', Some (item_of it))) /\
        hexl c' /\ (length c' <= 64)%nat /\ stack_okl c' stk' /\ (measure stk' < measure stk)%nat /\ stack_items c' stk' = l /\ ~ long it) \/
      (next fuel pr (Iter (enc c) stk) = Some Panic /\ long it)
  end.
Proof.
  induction fuel as [|fuel IH]; intros c stk Hc Lc SO M; [lia|].
  destruct stk as [|e rest]; [cbn; eauto|]. cbn [next].
  destruct (next_step_long pr c (e :: rest) Hc Lc SO) as [(it & c' & stk' & E & Hc' & Lc' & SO' & M' & It & Fi)|[E (e0 & r & Es & Lg)]]; [congruence| |].
  - rewrite E. destruct it as [it|]; cbn [option_map opt app] in *.
    + rewrite <- It. left. exists c', stk'. repeat (split; [auto; fail|]). unfold long. cbn [fine] in Fi. lia.
    + specialize (IH c' stk' Hc' Lc' SO' ltac:(lia)). rewrite It in IH.
      destruct (stack_items c (e :: rest)); [exact IH|].
      destruct IH as [(c2 & stk2 & E2 & A & B & C & D & F & G)|Q]; [|right; exact Q]. left. exists c2, stk2. repeat split; auto; lia.
  - rewrite Es, E. right. auto.
Qed.

(** [n] calls: the first [n] items if all of them are short, otherwise a panic. *)
Lemma answers_long pr fuel : forall n c stk, hexl c -> (length c <= 64)%nat -> stack_okl c stk -> (measure stk < fuel)%nat ->
  ((forall e, In e (firstn n (stack_items c stk)) -> ~ long e) /\
   answers n fuel pr (Iter (enc c) stk) = Some (Ok (firstn n (map Some (map item_of (stack_items c stk)) ++ repeat None n)))) \/
  ((exists e, In e (firstn n (stack_items c stk)) /\ long e) /\ answers n fuel pr (Iter (enc c) stk) = Some Panic).
Proof.
  induction n as [|n IH]; intros c stk Hc Lc SO M; [left; split; [intros e []|reflexivity]|]. cbn [answers].
  pose proof (next_long pr fuel c stk Hc Lc SO M) as H. destruct (stack_items c stk) as [|it l].
  - left. split; [intros e []|]. destruct H as [st E]. rewrite E. rewrite (answers_end n fuel pr st) by (lia || exact (next_ends _ _ _ _ E)).
    cbn [map app repeat firstn]. rewrite firstn_all2 by (rewrite repeat_length; lia). reflexivity.
  - destruct H as [(c' & stk' & -> & A & B & C & D & E & G)|[-> Lg]].
    2: { right. split; [|reflexivity]. exists it. split; [left; reflexivity|exact Lg]. }
    destruct (IH c' stk' A B C ltac:(lia)) as [[H1 ->]|[(e & H1 & H2) ->]]; rewrite E in *.
    + left. split; [intros e [<-|I]; [exact G|apply H1, I]|]. cbn [map app firstn]. do 3 f_equal.
      cbn [repeat]. change (None :: repeat None n) with (repeat (@None item) (S n)).
      generalize (map Some (map item_of l)). intros a. clear. revert a.
      assert (Q : forall m k1 k2 (a : list (option item)), (m <= k1)%nat -> (m <= k2)%nat -> firstn m (a ++ repeat None k1) = firstn m (a ++ repeat None k2)).
      { induction m as [|m IHm]; intros k1 k2 [|x a] L1 L2; try reflexivity.
        - cbn [app]. apply firstn_repeat2; assumption.
        - cbn [app firstn]. f_equal. destruct k1, k2; try lia. apply IHm; lia. }
      intros a. apply Q; lia.
    + right. split; [|reflexivity]. exists e. split; [right; exact H1|exact H2].
Qed.

Lemma collect_long pr fuel : forall calls c stk, hexl c -> (length c <= 64)%nat -> stack_okl c stk -> (measure stk < fuel)%nat ->
  (measure stk < calls)%nat ->
  ((forall e, In e (stack_items c stk) -> ~ long e) /\ collect calls fuel pr (Iter (enc c) stk) = Some (Ok (map item_of (stack_items c stk)))) \/
  ((exists e, In e (stack_items c stk) /\ long e) /\ collect calls fuel pr (Iter (enc c) stk) = Some Panic).
Proof.
  induction calls as [|calls IH]; intros c stk Hc Lc SO M1 M2; [lia|]. cbn [collect].
  pose proof (next_long pr fuel c stk Hc Lc SO M1) as H. destruct (stack_items c stk) as [|it l].
  - left. destruct H as [st ->]. split; [intros e []|reflexivity].
  - destruct H as [(c' & stk' & -> & A & B & C & D & E & G)|[-> Lg]].
    + destruct (IH c' stk' A B C ltac:(lia) ltac:(lia)) as [[H1 ->]|[(e & H1 & H2) ->]]; rewrite E in *.
      * left. split; [intros e [<-|I]; [exact G|apply H1, I]|reflexivity].
      * right. split; [|reflexivity]. exists e. split; [right; exact H1|exact H2].
    + right. split; [|reflexivity]. exists it. split; [left; reflexivity|exact Lg].
Qed.

Lemma short_entries t : short t <-> forall e, In e (entries t) -> ~ long e.
Proof.
  split.
  - intros S [k e] I L. apply entries_lk in I. specialize (S k ltac:(unfold stored; congruence)). unfold long in L. cbn [fst] in L. lia.
  - intros H k S. unfold stored in S. destruct (lk t k) as [e|] eqn:E; [|congruence]. apply entries_lk in E. specialize (H _ E).
    unfold long in H. cbn [fst] in H. lia.
Qed.
Lemma long_dec (e : ent) : {long e} + {~ long e}.
Proof. destruct (le_lt_dec (length (fst e)) 64); [right; unfold long; lia|left; assumption]. Qed.
Lemma short_dec t : short t \/ ~ short t.
Proof.
  destruct (Exists_dec long (entries t) long_dec) as [H|H].
  - right. intros S. apply Exists_exists in H. destruct H as (e & I & L). exact (proj1 (short_entries t) S e I L).
  - left. apply short_entries. intros e I L. apply H, Exists_exists. eauto.
Qed.

(** ** Built tries *)
Lemma linsert pr t k v : wf 127 t -> shape t -> nwf k -> proper v ->
  (exists t', trie_insert pr t k v = Ok t' /\ ins_post 127 t (nseq k) v t' /\ ~ blocked t (nseq k) v) \/
  (trie_insert pr t k v = Panic /\ blocked t (nseq k) v).
Proof.
  intros W Sh Hk Pv. destruct (nwf_ex k Hk) as (l & E & Es & H & L & _). rewrite Es. rewrite E.
  destruct (insert_spec pr t 127 l v W Sh H L ltac:(lia) Pv) as [(t' & E' & P & _ & NB)|Q]; [left; eauto|right; exact Q].
Qed.

Definition ldel_post (t : node) (k : list N) (r : res (node * option (list N))) : Prop :=
  match r with
  | Panic => hash_on_path t (eff t k) \/ ~ safe_delete t k \/ ~ short t
  | Ok (t', None) => t' = t /\ ~ hash_on_path t (eff t k) /\ eff t k = k /\ lk t k = None
  | Ok (t', Some w) =>
      ~ hash_on_path t (eff t k) /\ lk t (eff t k) = val_opt w /\ wf 127 t' /\ shape t' /\
      (forall j, j <> eff t k -> ~ strict_prefix j (eff t k) -> lk t' j = lk t j) /\
      lk t' (eff t k) = None /\
      (safe_delete t k -> forall j, j <> eff t k -> lk t' j = lk t j) /\
      (canon t -> safe_delete t k -> keeps_canon t k -> canon t')
  end.

Lemma ldelete pr t k : wf 127 t -> shape t -> nwf k -> ldel_post t (nseq k) (trie_delete pr t k).
Proof.
  intros W Sh Hk. destruct (nwf_ex k Hk) as (l & E & Es & H & L & _). rewrite Es. rewrite E.
  assert (P : trie_delete pr t (enc l) = Panic -> short t -> hash_on_path t (eff t l) \/ ~ safe_delete t l).
  { intros Ep S. destruct t as [| | | |]; [discriminate Ep|..];
      (match goal with |- hash_on_path ?t _ \/ _ =>
         pose proof (short_wf t 127 64 W Sh ltac:(discriminate) S) as W64;
         pose proof (delete_spec pr t 64 l W64 Sh H ltac:(lia) (Nat.le_refl _)) as G; unfold trie_delete in Ep;
         destruct (delete_intern pr t (enc l)) as [[[t' w]|]|]; cbn [bind del_post] in *; [|discriminate Ep|exact G];
         destruct G as (_ & _ & G3 & G4 & _); destruct (try_collapse_spec pr t' 64 G3 (Nat.le_refl _) G4) as (t'' & Et & _);
         rewrite Et in Ep; discriminate Ep end). }
  pose proof (delete_gen True pr t 127 l W Sh H L (Nat.le_refl _) ltac:(auto)) as G.
  destruct (trie_delete pr t (enc l)) as [[t1 w1]|] eqn:Ed.
  2: { cbn [ldel_post]. 
       assert (D : forall q, (short t -> hash_on_path t q \/ ~ safe_delete t l) -> hash_on_path t q \/ ~ safe_delete t l \/ ~ short t).
       { intros q Q. destruct (short_dec t) as [S|S]; [destruct (Q S); auto|auto]. }
       apply D. apply P. reflexivity. }
  unfold trie_delete in Ed. clear P.
  destruct (delete_intern pr t (enc l)) as [[[t' w]|]|]; cbn [bind del_gen] in *; [| |discriminate].
  - destruct G as (G1 & G2 & G3 & G4 & G5 & G6 & G7 & G8 & G9 & _).
    destruct (try_collapse_gen True pr t' 127 G3 (Nat.le_refl _) ltac:(auto) G4) as [(t'' & Et & W' & K & S' & C' & _)|[Et _]]; rewrite Et in Ed; cbn [bind] in Ed; [|discriminate].
    assert (t1 = t'' /\ w1 = Some w) as [-> ->] by (split; congruence). cbn [ldel_post].
    split; [exact G1|]. split; [exact G2|]. split; [exact W'|]. split; [exact S'|].
    split; [intros j A B; rewrite K; apply G6; assumption|]. split; [rewrite K; exact G7|].
    split; [intros A j B; rewrite K; apply G8; assumption|]. intros C1 C2 C3. apply C', G9; assumption.
  - assert (t1 = t /\ w1 = None) as [-> ->] by (split; congruence). cbn [ldel_post]. tauto.
Qed.

Lemma built_valid pr t : built pr t -> wf 127 t /\ shape t.
Proof.
  induction 1 as [|t k v t' R [W Sh] Hk Pv E|t k t' w R [W Sh] Hk E].
  - split; constructor.
  - destruct (linsert pr t k v W Sh Hk Pv) as [(t1 & E1 & (P1 & P2 & _) & _)|[E1 _]]; [|congruence].
    assert (t1 = t') by congruence. subst t1. auto.
  - pose proof (ldelete pr t k W Sh Hk) as G. rewrite E in G. destruct w as [w|]; cbn [ldel_post] in G; [tauto|].
    destruct G as [-> _]. auto.
Qed.
