(** Properties C14, C15, C33: everything [delete] can do to a trie built by insertions, for every key. *)
From Verif Require Import Base Nibbles NibblesSpec NibblesFacts NibblesFacts2 NibblesFacts3 Trie TrieSpec TrieHistSpec TrieFacts TrieInsert TrieGet TrieDelete TrieUnique TrieIter TrieHist TrieObs AbsentFacts DeleteExact P_Trie.
Open Scope N_scope.

(** * Specification *)
(** [k] is the only stored key that strictly extends the stored key [p]. *)
Definition only_child (t : node) (p k : list N) : Prop :=
  stored t p /\ strict_prefix p k /\ forall j, stored t j -> strict_prefix p j -> j = k.

(** Two families below the stored key [p]: [k] alone continues [p] with the nibble [d], and all other stored keys that
    strictly extend [p] (at least one) continue it with one and the same other nibble [e]. *)
Definition two_families (t : node) (p k : list N) : Prop :=
  stored t p /\ exists d e,
    d <> e /\ is_prefix (p ++ [d]) k /\ (exists j, stored t j /\ is_prefix (p ++ [e]) j) /\
    forall j, stored t j -> strict_prefix p j -> j = k \/ is_prefix (p ++ [e]) j.

(** A stored hash stands at a prefix of [k], or is the only stored key extending [k]. *)
Definition meets_hash (t : node) (k : list N) : Prop :=
  exists p h, lk t p = Some (HashV h) /\
    (is_prefix p k \/ strict_prefix k p /\ forall j, stored t j -> is_prefix k j -> j = p).

(** [m] is the longest common prefix of the stored keys that extend [k]. *)
Definition lcp_above (t : node) (k m : list N) : Prop :=
  (forall j, stored t j -> is_prefix k j -> is_prefix m j) /\
  forall q, (forall j, stored t j -> is_prefix k j -> is_prefix q j) -> is_prefix q m.

(** * C14: stored keys *)
Lemma prefix_one p d j : is_prefix (p ++ [d]) j <-> exists r, j = p ++ d :: r.
Proof. split; intros [r ->]; exists r; rewrite <- ?app_assoc; reflexivity. Qed.

(** At most one stored prefix of [k] is left with [k] as the only key continuing it the way [k] does. *)
Lemma bad_unique t k p d s q e r : k = p ++ d :: s -> k = q ++ e :: r -> stored t p -> stored t q ->
  (forall u, stored t (p ++ d :: u) -> p ++ d :: u = k) -> (forall u, stored t (q ++ e :: u) -> q ++ e :: u = k) -> p = q /\ d = e /\ s = r.
Proof.
  intros Ep Eq Sp Sq Up Uq.
  destruct (compare_keys p q) as [E|y a E|y a E|c y a z b E1 E2 D].
  - subst q. rewrite Ep in Eq. apply app_inv_head in Eq. split; [reflexivity|]. split; congruence.
  - exfalso. rewrite E in Eq. rewrite <- app_assoc in Eq. rewrite Ep in Eq. apply app_inv_head in Eq. cbn in Eq.
    assert (d = y) by congruence. subst y. rewrite E in Sq. pose proof (Up a Sq) as Q. rewrite Ep in Q. apply app_inv_head in Q.
    assert (a = s) by congruence. subst a. assert (s = s ++ e :: r) as Z by congruence.
    apply (f_equal (@length N)) in Z. rewrite app_length in Z. cbn in Z. lia.
  - exfalso. rewrite E in Ep. rewrite <- app_assoc in Ep. rewrite Eq in Ep. apply app_inv_head in Ep. cbn in Ep.
    assert (e = y) by congruence. subst y. rewrite E in Sp. pose proof (Uq a Sp) as Q. rewrite Eq in Q. apply app_inv_head in Q.
    assert (a = r) by congruence. subst a. assert (r = r ++ d :: s) as Z by congruence.
    apply (f_equal (@length N)) in Z. rewrite app_length in Z. cbn in Z. lia.
  - exfalso. rewrite E1 in Ep. rewrite E2 in Eq. rewrite Ep in Eq. rewrite <- !app_assoc in Eq. apply app_inv_head in Eq. cbn in Eq. congruence.
Qed.

Definition lost_two (t t' : node) (k p : list N) : Prop := forall j, lk t' j = if key_eqb k j || key_eqb p j then None else lk t j.

Lemma delete_bad pr t k v : wf 64 t -> canon t -> kwf k -> lk t (nseq k) = Some (Val v) -> ~ deletable t (nseq k) ->
  (exists p, only_child t p (nseq k)) /\ trie_delete pr t k = Panic \/
  exists p, two_families t p (nseq k) /\ exists t', trie_delete pr t k = Ok (t', Some v) /\ lost_two t t' (nseq k) p.
Proof.
  intros W C Hk E ND. destruct (kwf_ex k Hk) as (l & El & Es & Hl & Ll). rewrite Es in *. rewrite El. unfold trie_delete.
  assert (NS : ~ safe_delete t l) by (intros S; apply ND; eapply safe_obs_conv; eauto).
  destruct (del_unsafe pr t 64 l v W (le_n _) C E NS) as (p & d & s & Ek & Sp & U & B).
  destruct B as [[O P]|[(e & Ne & (r & Se) & O) (t' & R & K)]].
  - left. rewrite P. split; [|reflexivity]. exists p. split; [exact Sp|]. split; [exists d, s; exact Ek|].
    intros j Sj (x & u & ->). pose proof (O x u Sj). subst x. apply U, Sj.
  - right. exists p. split.
    + split; [exact Sp|]. exists d, e. split; [congruence|]. split; [apply prefix_one; eauto|].
      split; [exists (p ++ e :: r); split; [exact Se|apply prefix_one; eauto]|].
      intros j Sj (x & u & ->). destruct (O x u Sj) as [->| ->]; [left; apply U, Sj|right; apply prefix_one; eauto].
    + rewrite R. cbn [bind].
      pose proof (delete_spec pr t 64 l W (canon_shape _ C) Hl ltac:(lia) ltac:(lia)) as G. rewrite R in G. cbn [del_post] in G.
      destruct G as (_ & _ & G3 & G4 & _).
      destruct (try_collapse_spec pr t' 64 G3 (le_n _) G4) as (t2 & -> & _ & K2 & _). cbn [bind].
      exists t2. split; [reflexivity|]. intros j. rewrite K2. apply K.
Qed.

Lemma only_child_bad t p k : only_child t p k -> stored t k -> exists d s, k = p ++ d :: s /\ stored t p /\
  (forall u, stored t (p ++ d :: u) -> p ++ d :: u = k) /\ forall e u, stored t (p ++ e :: u) -> e = d.
Proof.
  intros (S & (d & s & E) & U) Sk. exists d, s. split; [exact E|]. split; [exact S|]. split.
  - intros u Su. apply U; [exact Su|exists d, u; reflexivity].
  - intros e u Su. assert (Q : p ++ e :: u = k) by (apply U; [exact Su|exists e, u; reflexivity]). rewrite E in Q. apply app_inv_head in Q. congruence.
Qed.

Lemma families_bad t p k : two_families t p k -> exists d s e r, k = p ++ d :: s /\ stored t p /\
  (forall u, stored t (p ++ d :: u) -> p ++ d :: u = k) /\ d <> e /\ stored t (p ++ e :: r) /\
  forall x u, stored t (p ++ x :: u) -> x = d \/ x = e.
Proof.
  intros (S & d & e & D & P & (j & Sj & Pj) & U). apply prefix_one in P. destruct P as (s & ->). apply prefix_one in Pj. destruct Pj as (r & ->).
  exists d, s, e, r. repeat (split; [assumption || reflexivity|]). split; [|split; [exact D|split; [exact Sj|]]].
  - intros u Su. destruct (U _ Su ltac:(exists d, u; reflexivity)) as [Q|Q]; [exact Q|]. apply prefix_one in Q. destruct Q as (r' & Q). apply app_inv_head in Q. congruence.
  - intros x u Su. destruct (U _ Su ltac:(exists x, u; reflexivity)) as [Q|Q]; [left; apply app_inv_head in Q; congruence|].
    apply prefix_one in Q. destruct Q as (r' & Q). apply app_inv_head in Q. right. congruence.
Qed.

Lemma not_deletable t k p d s : k = p ++ d :: s -> stored t p -> (forall u, stored t (p ++ d :: u) -> p ++ d :: u = k) ->
  (forall x y, x <> d -> y <> d -> (exists u, stored t (p ++ x :: u)) -> (exists u, stored t (p ++ y :: u)) -> x = y) -> ~ deletable t k.
Proof.
  intros Ek Sp U O D. destruct (D p d s Ek Sp) as [(k' & Nk & Sk & Pk)|(d1 & d2 & r1 & r2 & N1 & N2 & N3 & S1 & S2)].
  - apply prefix_one in Pk. destruct Pk as (u & ->). apply Nk, U, Sk.
  - apply N1. apply O; eauto.
Qed.

(** Deleting a stored key always ends in exactly one of three ways, decided by the set of
    stored keys. *)
Theorem C14_three_ways : forall pr t k v,
  wf 64 t -> canon t -> kwf k -> lk t (nseq k) = Some (Val v) ->
  deletable t (nseq k) /\ (exists t', trie_delete pr t k = Ok (t', Some v) /\ updated t t' (nseq k) None) \/
  (exists p, only_child t p (nseq k)) /\ trie_delete pr t k = Panic \/
  (exists p t', two_families t p (nseq k) /\ trie_delete pr t k = Ok (t', Some v) /\
     lk t' (nseq k) = None /\ lk t' p = None /\ forall j, j <> nseq k -> j <> p -> lk t' j = lk t j).
Proof.
  intros pr t k v W C Hk E. destruct (safe_dec t (nseq k)) as [S|NS].
  - left. pose proof (safe_obs_conv t 64 _ v W C E S) as D. split; [exact D|]. apply C14_delete_exact_partial; assumption.
  - right. assert (ND : ~ deletable t (nseq k)) by (intros D; apply NS; eapply safe_delete_obs; eauto).
    destruct (delete_bad pr t k v W C Hk E ND) as [A|(p & F & t' & R & K)]; [left; exact A|].
    right. exists p, t'. split; [exact F|]. split; [exact R|].
    split; [rewrite K, key_eqb_refl; reflexivity|]. split; [rewrite K, key_eqb_refl, Bool.orb_true_r; reflexivity|].
    intros j N1 N2. rewrite K. destruct (key_eqb_spec (nseq k) j); [congruence|]. destruct (key_eqb_spec p j); [congruence|]. reflexivity.
Qed.
Print Assumptions C14_three_ways.

(** It panics exactly when [k] is the only key stored below a stored key. *)
Theorem C14_panics_iff : forall pr t k v,
  wf 64 t -> canon t -> kwf k -> lk t (nseq k) = Some (Val v) ->
  (trie_delete pr t k = Panic <-> exists p, only_child t p (nseq k)).
Proof.
  intros pr t k v W C Hk E. split.
  - intros P. destruct (C14_three_ways pr t k v W C Hk E) as [(_ & t' & R & _)|[(O & _)|(p & t' & _ & R & _)]]; [congruence|exact O|congruence].
  - intros (p & O). assert (Sk : stored t (nseq k)) by (unfold stored; congruence).
    destruct (only_child_bad t p _ O Sk) as (d & s & Ek & Sp & U & X).
    assert (ND : ~ deletable t (nseq k)).
    { apply (not_deletable t _ p d s Ek Sp U). intros x y Nx Ny (u & Su) _. exfalso. apply Nx. eapply X, Su. }
    destruct (delete_bad pr t k v W C Hk E ND) as [[_ P]|(q & F & t' & R & K)]; [exact P|exfalso].
    destruct (families_bad t q _ F) as (d' & s' & e & r & Ek' & Sq & U' & De & Se & _).
    destruct (bad_unique t (nseq k) p d s q d' s' Ek Ek' Sp Sq U U') as (-> & -> & ->). apply De. symmetry. eapply X, Se.
Qed.
Print Assumptions C14_panics_iff.

(** It loses another stored key exactly when that key has two families, [k] alone being one. *)
Theorem C14_loses_iff : forall pr t k v p,
  wf 64 t -> canon t -> kwf k -> lk t (nseq k) = Some (Val v) -> p <> nseq k -> stored t p ->
  ((exists t' w, trie_delete pr t k = Ok (t', w) /\ lk t' p = None) <-> two_families t p (nseq k)).
Proof.
  intros pr t k v p W C Hk E Np Sp. split.
  - intros (t' & w & R & L). destruct (C14_three_ways pr t k v W C Hk E) as [(_ & t1 & R1 & U)|[(_ & P)|(q & t1 & F & R1 & _ & _ & K)]].
    + exfalso. assert (t1 = t') by congruence. subst t1. specialize (U p). destruct (key_eqb_spec (nseq k) p); [congruence|]. unfold stored in Sp. congruence.
    + congruence.
    + assert (t1 = t') by congruence. subst t1. destruct (key_eqb_spec q p) as [->|N]; [exact F|].
      exfalso. apply Sp. rewrite <- K by congruence. exact L.
  - intros F. destruct (families_bad t p _ F) as (d & s & e & r & Ek & _ & U & De & Se & X).
    assert (ND : ~ deletable t (nseq k)).
    { apply (not_deletable t _ p d s Ek Sp U). intros x y Nx Ny (u & Su) (u' & Su'). destruct (X _ _ Su), (X _ _ Su'); congruence. }
    destruct (delete_bad pr t k v W C Hk E ND) as [[(q & O) P]|(q & F' & t' & R & K)].
    + exfalso. destruct (only_child_bad t q _ O ltac:(unfold stored; congruence)) as (d' & s' & Ek' & Sq & U' & X').
      destruct (bad_unique t (nseq k) p d s q d' s' Ek Ek' Sp Sq U U') as (<- & <- & <-). apply De. symmetry. eapply X', Se.
    + destruct (families_bad t q _ F') as (d' & s' & e' & r' & Ek' & Sq & U' & _).
      destruct (bad_unique t (nseq k) p d s q d' s' Ek Ek' Sp Sq U U') as (<- & _). exists t', (Some v). split; [exact R|].
      rewrite K, key_eqb_refl, Bool.orb_true_r. reflexivity.
Qed.
Print Assumptions C14_loses_iff.

(** Each of the three ways happens. *)
Definition ex_only : node := okn (from_iter Debug [(K 2 0x12, Val [1]); (K 4 0x1234, Val [2])]).
Definition ex_fam : node := okn (from_iter Debug [(K 2 0x12, Val [1]); (K 4 0x1234, Val [2]); (K 4 0x1256, Val [3]); (K 4 0x1257, Val [4])]).
Lemma stored_list t j : stored t j -> In j (map fst (entries t)).
Proof. intros S. destruct (lk t j) as [v|] eqn:E; [|destruct (S E)]. apply entries_lk in E. apply (in_map fst) in E. exact E. Qed.
Example C14_ways_example :
  only_child ex_only [1; 2] [1; 2; 3; 4] /\ trie_delete Debug ex_only (K 4 0x1234) = Panic /\
  two_families ex_fam [1; 2] [1; 2; 3; 4] /\ (exists t', trie_delete Debug ex_fam (K 4 0x1234) = Ok (t', Some [2]) /\ map fst (entries t') = [[1; 2; 5; 6]; [1; 2; 5; 7]]) /\
  trie_delete Debug ex_fam (K 4 0x1256) <> Panic.
Proof.
  split; [split; [|split]|split; [|split; [split|split]]].
  - vm_compute; discriminate.
  - exists 3, [4]. reflexivity.
  - intros j Sj (x & r & ->). apply stored_list in Sj. vm_compute in Sj.
    repeat (destruct Sj as [Sj|Sj]; [first [exact (eq_sym Sj)|discriminate Sj]|]). destruct Sj.
  - reflexivity.
  - vm_compute; discriminate.
  - exists 3, 5. split; [discriminate|]. split; [exists [4]; reflexivity|]. split; [exists [1; 2; 5; 6]; split; [vm_compute; discriminate|exists [6]; reflexivity]|].
    intros j Sj (x & r & ->). apply stored_list in Sj. vm_compute in Sj.
    repeat (destruct Sj as [Sj|Sj]; [first [left; exact (eq_sym Sj)|discriminate Sj|right; exists [6]; exact (eq_sym Sj)|right; exists [7]; exact (eq_sym Sj)]|]). destruct Sj.
  - eexists. split; vm_compute; reflexivity.
  - vm_compute. discriminate.
Qed.

(** * C33: every panic of [delete] *)
Lemma hash_unlike_val t : forall L p r h, wf L t -> lk t p = Some (HashV h) -> r <> [] -> lk t (p ++ r) = None.
Proof.
  induction t as [|h0|ch w IH|n c IH|n w] using node_ind'; intros L p r h W E Nr.
  - discriminate.
  - destruct p; [|discriminate]. destruct r; [congruence|reflexivity].
  - destruct p as [|d p]; [cbn in E; destruct w; discriminate|]. cbn [app]. rewrite lk_branch in *.
    destruct (child_in ch d) as [E0|I0]; [rewrite E0 in E; discriminate|].
    inversion W as [| |L0 ? ? Hl F| |]; subst. rewrite Forall_forall in IH, F. eapply IH; eauto.
  - inversion W as [| | |L0 q c0 Hq Wc|]; subst.
    destruct (stored_ext_inv q c p Hq ltac:(unfold stored; congruence)) as (p' & -> & _).
    rewrite <- app_assoc. rewrite lk_in_ext in * by exact Hq. eapply IH; eauto.
  - cbn [lk] in E. destruct (key_eqb _ _); discriminate.
Qed.

Lemma meets_hash_path t k : wf 64 t -> canon t -> kwf k -> (hash_on_path t (eff t (nseq k)) <-> meets_hash t (nseq k)).
Proof.
  intros W C Hk. rewrite <- (C33_insert_value_panics_iff Debug t k [0] W C Hk ltac:(discriminate)).
  destruct (tinsert Debug t k (Val [0]) W (canon_shape _ C) Hk ltac:(discriminate)) as [(t1 & E & _ & NB)|[E B]].
  - split; [|congruence]. intros HP. exfalso. apply NB. left. exact HP.
  - split; [intros _; exact E|]. intros _. destruct B as [B|[[] _]]. exact B.
Qed.

(** For every key of a canonical trie: [delete] panics exactly if its path meets a hash, or the key is stored and is the only
    key stored below a stored key. *)
Theorem C33_delete_panics_iff : forall pr t k,
  wf 64 t -> canon t -> kwf k ->
  (trie_delete pr t k = Panic <-> meets_hash t (nseq k) \/ stored t (nseq k) /\ exists p, only_child t p (nseq k)).
Proof.
  intros pr t k W C Hk. pose proof (tdelete pr t k W (canon_shape _ C) Hk) as G.
  pose proof (meets_hash_path t k W C Hk) as M.
  destruct (lk t (nseq k)) as [[v|h]|] eqn:E.
  - rewrite (C14_panics_iff pr t k v W C Hk E). split.
    + intros H. right. split; [unfold stored; congruence|exact H].
    + intros [(p & h & Ep & [P|[P U]])|[_ H]]; [| |exact H]; exfalso.
      * destruct P as [r Er]. destruct r as [|x r]; [rewrite app_nil_r in Er; congruence|].
        rewrite Er, (hash_unlike_val t 64 p (x :: r) h W Ep) in E by discriminate. discriminate.
      * assert (Q : nseq k = p) by (apply U; [unfold stored; congruence|apply prefix_refl]).
        destruct P as (x & r & P). rewrite Q in P. rewrite <- (app_nil_r p) in P at 1. apply app_inv_head in P. discriminate.
  - assert (H : meets_hash t (nseq k)) by (exists (nseq k), h; split; [exact E|left; apply prefix_refl]).
    split; [intros _; left; exact H|]. intros _. apply M in H.
    destruct (trie_delete pr t k) as [[t' [w|]]|]; cbn [tdel_post] in G; [tauto|tauto|reflexivity].
  - pose proof (safe_absent t 64 _ W E) as S. split.
    + intros P. rewrite P in G. cbn [tdel_post] in G. left. apply M. tauto.
    + intros [H|[H _]]; [|unfold stored in H; congruence]. apply M in H.
      destruct (trie_delete pr t k) as [[t' [w|]]|]; cbn [tdel_post] in G; [tauto|tauto|reflexivity].
Qed.
Print Assumptions C33_delete_panics_iff.
Example C33_delete_panics_example : meets_hash ex_hash (nseq (K 1 3)) /\ trie_delete Debug ex_hash (K 1 3) = Panic /\
  trie_delete Release ex_hash (K 3 0x315) = Panic /\ trie_delete Debug ex_hash (K 2 0x32) <> Panic.
Proof.
  repeat match goal with |- _ /\ _ => split end; [|vm_compute; reflexivity|vm_compute; reflexivity|vm_compute; discriminate].
  exists [3; 1], (repeat 7 32). split; [reflexivity|]. right. split; [exists 1, []; reflexivity|].
  intros j Sj Pj. apply stored_list in Sj. vm_compute in Sj. destruct Pj as [r ->].
  repeat (destruct Sj as [Sj|Sj]; [first [exact (eq_sym Sj)|discriminate Sj]|]). destruct Sj.
Qed.

(** * C15: absent keys *)
(** Deleting a key that is not stored panics if its path meets a hash; otherwise, if at least two stored keys extend it, it
    deletes and returns the value of the longest common prefix of those keys, or, if that prefix has no value, returns the
    empty value and leaves the trie as it is; otherwise it does nothing and returns nothing. *)
Theorem C15_three_ways : forall pr t k,
  wf 64 t -> canon t -> kwf k -> lk t (nseq k) = None ->
  meets_hash t (nseq k) /\ trie_delete pr t k = Panic \/
  ~ meets_hash t (nseq k) /\
  ((forall i j, stored t i -> stored t j -> is_prefix (nseq k) i -> is_prefix (nseq k) j -> i = j) /\ trie_delete pr t k = Ok (t, None) \/
   (exists i j, i <> j /\ stored t i /\ stored t j /\ is_prefix (nseq k) i /\ is_prefix (nseq k) j) /\
   exists m, is_prefix (nseq k) m /\ lcp_above t (nseq k) m /\
     ((exists v t', lk t m = Some (Val v) /\ trie_delete pr t k = Ok (t', Some v) /\ updated t t' m None) \/
      lk t m = None /\ trie_delete pr t k = Ok (t, Some []))).
Proof.
  intros pr t k W C Hk E. pose proof (canon_shape _ C) as Sh.
  pose proof (tdelete pr t k W Sh Hk) as G. pose proof (meets_hash_path t k W C Hk) as M. pose proof (safe_absent t 64 _ W E) as S.
  destruct (trie_delete pr t k) as [[t' [w|]]|] eqn:Ed; cbn [tdel_post] in G.
  - right. destruct G as (G1 & G2 & _ & _ & _ & G6 & G7 & _). split; [tauto|right]. set (m := eff t (nseq k)) in *.
    assert (Pm : is_prefix (nseq k) m) by apply eff_prefix.
    assert (Up : forall j, stored t j -> is_prefix (nseq k) j -> is_prefix m j).
    { intros j Sj Pj. destruct (key_eqb_spec m (nseq k)) as [Em|Nm]; [rewrite Em; exact Pj|].
      destruct (eff_inside t 64 (nseq k) W Sh Nm) as (_ & _ & _ & I4 & _). apply I4; assumption. }
    destruct w as [|b w].
    + destruct (kwf_ex k Hk) as (l & El & Es & Hl & Ll). rewrite El in Ed. unfold trie_delete in Ed.
      destruct (delete_intern pr t (enc l)) as [[[t1 u]|]|] eqn:Ei; cbn [bind] in Ed; [|discriminate|discriminate].
      assert (u = []) by (destruct (try_collapse_if_extension pr t1); cbn [bind] in Ed; congruence). subst u.
      destruct (del_empty_same pr t 64 l t1 W (le_n _) C Hl ltac:(lia) Ei) as (-> & T). rewrite <- Es in T. fold m in T.
      rewrite try_collapse_canon in Ed by exact C. cbn [bind] in Ed. assert (t' = t) by congruence. subst t'.
      destruct T as (x & y & r & s & D & Sx & Sy). split.
      * exists (m ++ x :: r), (m ++ y :: s). split; [intros Q; apply app_inv_head in Q; congruence|]. split; [exact Sx|]. split; [exact Sy|].
        destruct Pm as [a ->]. rewrite <- !app_assoc. split; eexists; reflexivity.
      * exists m. split; [exact Pm|]. split; [|right; split; [exact G2|reflexivity]]. split; [exact Up|].
        intros q Q. pose proof (Q _ Sx ltac:(destruct Pm as [a ->]; rewrite <- app_assoc; eexists; reflexivity)) as Qx.
        pose proof (Q _ Sy ltac:(destruct Pm as [a ->]; rewrite <- app_assoc; eexists; reflexivity)) as Qy.
        clear - Qx Qy D. destruct (compare_keys q m) as [->|z u ->|z u ->|c z u z' u' -> -> D']; [exists []; rewrite app_nil_r; reflexivity|eexists; reflexivity| |].
        -- exfalso. destruct Qx as [a Qa], Qy as [b Qb]. rewrite <- app_assoc in Qa, Qb. apply app_inv_head in Qa. apply app_inv_head in Qb. cbn in *. congruence.
        -- exfalso. destruct Qx as [a Qa]. rewrite <- !app_assoc in Qa. apply app_inv_head in Qa. cbn in Qa. congruence.
    + cbn [val_opt] in G2. assert (Nm : m <> nseq k) by (intros Q; rewrite Q in G2; congruence).
      destruct (eff_inside t 64 (nseq k) W Sh Nm) as (_ & _ & _ & _ & I5). fold m in I5.
      destruct (I5 C) as [(h & Q)|(j1 & j2 & N12 & S1 & S2 & P1 & P2)]; [congruence|]. split.
      * exists j1, j2. destruct Pm as [a ->]. split; [exact N12|]. split; [exact S1|]. split; [exact S2|]. destruct P1 as [b1 ->], P2 as [b2 ->]. rewrite <- !app_assoc. split; eexists; reflexivity.
      * exists m. split; [exact Pm|]. split; [split; [exact Up|intros q Q; apply Q; [unfold stored; congruence|exact Pm]]|].
        left. exists (b :: w), t'. split; [exact G2|]. split; [reflexivity|]. intros j.
        destruct (key_eqb_spec m j) as [<-|N]; [exact G6|]. apply G7; [exact S|congruence].
  - right. destruct G as (-> & G2 & G3 & _). split; [tauto|]. left. split; [|reflexivity].
    destruct (proj1 (C15_exact_partial pr t k W C Hk E) Ed) as [_ [U|(k1 & v & _ & _ & U)]].
    + intros i j Si Sj [[|x r] Ei] Pj; [rewrite app_nil_r in Ei; subst i; unfold stored in Si; congruence|].
      exfalso. apply (U i Si). exists x, r. exact Ei.
    + intros i j Si Sj Pi Pj. rewrite (U i Si Pi), (U j Sj Pj). reflexivity.
  - left. split; [|reflexivity]. apply M. tauto.
Qed.
Print Assumptions C15_three_ways.
Example C15_ways_example : lk ex_fam [1] = None /\ lcp_above ex_fam [1] [1; 2] /\
  (exists t', trie_delete Debug ex_fam (K 1 1) = Ok (t', Some [1]) /\ map fst (entries t') = [[1; 2; 3; 4]; [1; 2; 5; 6]; [1; 2; 5; 7]]) /\
  trie_delete Debug ex_fam (K 3 0x125) = Ok (ex_fam, Some []).
Proof.
  split; [reflexivity|]. split; [|split; [eexists; split; vm_compute; reflexivity|vm_compute; reflexivity]]. split.
  - intros j Sj Pj. apply stored_list in Sj. vm_compute in Sj. repeat (destruct Sj as [<-|Sj]; [match goal with |- is_prefix _ ?l => exists (skipn 2 l); reflexivity end|]). destruct Sj.
  - intros q Q. apply (Q [1; 2]); [vm_compute; discriminate|exists [2]; reflexivity].
Qed.
