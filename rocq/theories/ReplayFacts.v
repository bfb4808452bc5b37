(** Replaying operations on partial tries. *)
From Verif Require Import Base Nibbles NibblesSpec NibblesFacts NibblesFacts2 NibblesFacts3 Trie TrieSpec TrieHistSpec TrieFacts TrieInsert TrieGet TrieDelete TrieUnique TrieHist TrieObs InsertWf YellowPaper HashSpec HideSpec HashFacts HideFacts HideDelete Subset SubsetSpec SubsetFacts SubsetFacts2 P_Trie P_Hash ReplaySpec.
Open Scope N_scope.

Lemma below_hash t : forall L p h s, wf L t -> lk t p = Some (HashV h) -> s <> [] -> lk t (p ++ s) = None.
Proof.
  induction t as [|h0|ch w IH|n c IH|n w] using node_ind'; intros L p h s W E N.
  - reflexivity.
  - destruct p; [|discriminate]. destruct s; [congruence|reflexivity].
  - destruct p as [|d p]; [cbn in E; destruct w; discriminate|]. cbn [app]. rewrite lk_branch in *.
    destruct (child_in ch d) as [E0|I0]; [rewrite E0; reflexivity|].
    inversion W as [| |L0 ? ? Hl F| |]; subst. rewrite Forall_forall in IH, F. eapply IH; eauto.
  - inversion W as [| | |L0 q c0 Hq Wc|]; subst.
    destruct (stored_ext_inv q c p Hq ltac:(unfold stored; congruence)) as (p' & -> & _).
    rewrite <- app_assoc. rewrite lk_in_ext in * by exact Hq. eapply IH; eauto.
  - cbn [lk] in E. destruct (key_eqb _ _); discriminate.
Qed.

Lemma hop_no_val t L k v : wf L t -> hash_on_path t k -> lk t k <> Some (Val v).
Proof.
  intros W (p & h & E & r & ->) Q. destruct r as [|x r]; [rewrite app_nil_r in Q; congruence|].
  rewrite (below_hash t L p h (x :: r) W E) in Q by discriminate. discriminate.
Qed.

Section Fixed.
Variable n : nat.

Lemma fixed_stored t k : fixed_trie n t -> stored t k -> (length k <= n)%nat.
Proof.
  intros (_ & _ & A & B) S. unfold stored in S. destruct (lk t k) as [[v|h]|] eqn:E; [rewrite (A _ _ E); lia|eauto|congruence].
Qed.

Lemma strict_length (a b : list N) : strict_prefix a b -> (length a < length b)%nat.
Proof. intros (x & r & ->). rewrite app_length. cbn [length]. lia. Qed.

Lemma fixed_eff t k : fixed_trie n t -> length k = n -> eff t k = k.
Proof.
  intros Fx L. pose proof Fx as (W & C & _). apply (eff_self_aux t 64 k W (canon_shape _ C)). right. left.
  intros j Sj P. apply strict_length in P. apply (fixed_stored _ _ Fx) in Sj. lia.
Qed.

Lemma fixed_get pr t k : fixed_trie n t -> kwf k -> length (nseq k) = n ->
  trie_get pr t k = Ok (match lk t (nseq k) with Some (Val v) => Some v | _ => None end).
Proof.
  intros Fx Hk Ln. pose proof Fx as (W & C & A & B). destruct (kwf_ex k Hk) as (l & El & Es & Hl & Ll). rewrite Es in *. rewrite El.
  apply (get_long pr t 64 l W (canon_shape _ C) Hl ltac:(lia) ltac:(lia)).
  - intros j Sj. rewrite Ln. apply (fixed_stored _ _ Fx Sj).
  - intros j v E P. apply strict_length in P. apply A in E. lia.
Qed.

Lemma fixed_insert pr t k v : fixed_trie n t -> kwf k -> length (nseq k) = n -> v <> [] ->
  (hash_on_path t (nseq k) /\ trie_insert pr t k (Val v) = Panic) \/
  (~ hash_on_path t (nseq k) /\ exists t', trie_insert pr t k (Val v) = Ok t' /\ updated t t' (nseq k) (Some (Val v)) /\ fixed_trie n t').
Proof.
  intros Fx Hk Ln Hv. pose proof Fx as (W & C & A & B). pose proof (fixed_eff t _ Fx Ln) as Ee.
  destruct (tinsert pr t k (Val v) W (canon_shape _ C) Hk Hv) as [(t' & E & (P1 & P2 & _ & P4 & P5) & NB)|[E [Bl|[[] _]]]].
  - right. rewrite Ee in P5. split; [intros HP; apply NB; left; rewrite Ee; exact HP|].
    exists t'. split; [exact E|]. split; [exact P5|]. split; [exact P1|]. split; [exact (P4 C)|]. split; intros j w Q; rewrite P5 in Q.
    + destruct (key_eqb_spec (nseq k) j) as [<-|]; [exact Ln|eauto].
    + destruct (key_eqb_spec (nseq k) j) as [<-|]; [discriminate|eauto].
  - left. rewrite Ee in Bl. split; assumption.
Qed.

Lemma fixed_delete pr t k : fixed_trie n t -> kwf k -> length (nseq k) = n ->
  (hash_on_path t (nseq k) /\ trie_delete pr t k = Panic) \/
  (~ hash_on_path t (nseq k) /\ exists t', trie_delete pr t k = Ok (t', match lk t (nseq k) with Some (Val v) => Some v | _ => None end) /\
     updated t t' (nseq k) None /\ fixed_trie n t').
Proof.
  intros Fx Hk Ln. pose proof Fx as (W & C & A & B). pose proof (fixed_eff t _ Fx Ln) as Ee. pose proof (canon_shape _ C) as Sh.
  assert (NoExt : forall j, stored t j -> ~ strict_prefix (nseq k) j).
  { intros j Sj P. apply strict_length in P. apply (fixed_stored _ _ Fx) in Sj. lia. }
  assert (SF : ~ hash_on_path t (nseq k) -> safe_delete t (nseq k)).
  { intros NH. destruct (lk t (nseq k)) as [[v|h]|] eqn:E.
    - apply (safe_delete_obs t 64 _ v W C E). intros p d s Ep Sp. exfalso. unfold stored in Sp. destruct (lk t p) as [[u|h]|] eqn:Eu; [|apply NH; exists p, h; split; [exact Eu|exists (d :: s); exact Ep]|congruence].
      apply A in Eu. rewrite Ep, app_length in Ln. cbn [length] in Ln. lia.
    - exfalso. apply NH. exists (nseq k), h. split; [exact E|exists []; rewrite app_nil_r; reflexivity].
    - apply (safe_absent t 64 _ W E). }
  pose proof (tdelete pr t k W Sh Hk) as G. destruct (trie_delete pr t k) as [[t' [w|]]|] eqn:Ed; cbn [tdel_post] in G; rewrite ?Ee in G.
  - destruct G as (G1 & G2 & G3 & G4 & G5 & G6 & G7 & G8). right. split; [exact G1|].
    destruct w as [|b w].
    { exfalso. destruct (tdelete_empty_val pr t k t' W Sh Hk Ed) as (j & Sj & Pj). exact (NoExt j Sj Pj). }
    cbn [val_opt] in G2. rewrite G2. exists t'. split; [reflexivity|].
    assert (U : updated t t' (nseq k) None).
    { intros j. destruct (key_eqb_spec (nseq k) j) as [<-|N]; [exact G6|]. apply G7; [exact (SF G1)|congruence]. }
    split; [exact U|]. split; [exact G3|]. split; [|split; intros j x Q; rewrite (U j) in Q; destruct (key_eqb _ _); [discriminate|eauto|discriminate|eauto]].
    apply G8; [exact C|exact (SF G1)|]. apply (keeps_canon_obs t 64 _ W Sh); [unfold stored; congruence|left; exact NoExt].
  - destruct G as (-> & G1 & _ & G2). right. split; [exact G1|]. exists t. rewrite G2. split; [reflexivity|]. split; [|exact Fx].
    intros j. destruct (key_eqb_spec (nseq k) j) as [<-|]; [exact G2|reflexivity].
  - destruct G as [G|G]; [left; split; [exact G|reflexivity]|].
    left. split; [|reflexivity]. assert (D : hash_on_path t (nseq k) \/ ~ hash_on_path t (nseq k)).
    { destruct (fixed_insert pr t k [1] Fx Hk Ln ltac:(discriminate)) as [[D _]|[D _]]; [left|right]; exact D. }
    destruct D as [D|D]; [exact D|]. exfalso. exact (G (SF D)).
Qed.

(** ** Two tries that look the same along the keys [ks] *)
Definition alike (t s : node) (k : list N) : Prop :=
  (hash_on_path t k <-> hash_on_path s k) /\ (~ hash_on_path t k -> lk t k = lk s k).

Lemma alike_sym t s k : alike t s k -> alike s t k.
Proof. intros [A B]. split; [tauto|]. intros N. symmetry. apply B. tauto. Qed.

Lemma updated_hop t t' k e j : updated t t' k e -> ~ hash_on_path t k -> (forall h, e <> Some (HashV h)) -> (hash_on_path t' j <-> hash_on_path t j).
Proof.
  intros U N He. split; intros (p & h & E & P); exists p, h; (split; [|exact P]).
  - rewrite (U p) in E. destruct (key_eqb k p); [destruct (He h E)|exact E].
  - rewrite (U p). destruct (key_eqb_spec k p) as [->|]; [|exact E]. exfalso. apply N. exists p, h. split; [exact E|exists []; rewrite app_nil_r; reflexivity].
Qed.

Lemma alike_updated t s t' s' k e j : alike t s k -> alike t s j -> updated t t' k e -> updated s s' k e -> ~ hash_on_path t k ->
  (forall h, e <> Some (HashV h)) -> alike t' s' j.
Proof.
  intros [K1 K2] [J1 J2] U V N He. assert (N' : ~ hash_on_path s k) by tauto.
  pose proof (updated_hop t t' k e j U N He) as A. pose proof (updated_hop s s' k e j V N' He) as B. split; [tauto|].
  intros Nj. rewrite (U j), (V j). destruct (key_eqb k j); [reflexivity|]. apply J2. tauto.
Qed.

Definition value_of (t : node) (k : list N) : option (list N) := match lk t k with Some (Val v) => Some v | _ => None end.

Lemma hop_dec t k : fixed_trie n t -> kwf k -> length (nseq k) = n -> hash_on_path t (nseq k) \/ ~ hash_on_path t (nseq k).
Proof. intros Fx Hk Ln. destruct (fixed_insert Debug t k [1] Fx Hk Ln ltac:(discriminate)) as [[D _]|[D _]]; [left|right]; exact D. Qed.

Lemma hop_value t k : wf 64 t -> hash_on_path t k -> value_of t k = None.
Proof. intros W H. unfold value_of. destruct (lk t k) as [[v|h]|] eqn:E; try reflexivity. destruct (hop_no_val t 64 k v W H E). Qed.

Lemma alike_value t s k : fixed_trie n t -> wf 64 s -> kwf k -> length (nseq k) = n -> alike t s (nseq k) -> value_of t (nseq k) = value_of s (nseq k).
Proof.
  intros Fx W Hk Ln [A B]. destruct (hop_dec t k Fx Hk Ln) as [D|D].
  - rewrite !hop_value; [reflexivity|exact W|tauto|apply Fx|exact D].
  - unfold value_of. rewrite (B D). reflexivity.
Qed.

Variable ks : list nibbles.
Hypothesis Kw : Forall kwf ks.
Hypothesis Kn : forall k, In k ks -> length (nseq k) = n.

Definition like (t s : node) : Prop := fixed_trie n t /\ fixed_trie n s /\ forall k, In k ks -> alike t s (nseq k).

Lemma like_sym t s : like t s -> like s t.
Proof. intros (A & B & H). split; [exact B|]. split; [exact A|]. intros k I. apply alike_sym, H, I. Qed.

Lemma kw k : In k ks -> kwf k.
Proof. rewrite Forall_forall in Kw. auto. Qed.

Lemma like_insert pr t s k v t' : like t s -> In k ks -> v <> [] -> trie_insert pr t k (Val v) = Ok t' ->
  exists s', trie_insert pr s k (Val v) = Ok s' /\ like t' s'.
Proof.
  intros (Ft & Fs & A) I Hv E.
  destruct (fixed_insert pr t k v Ft (kw k I) (Kn k I) Hv) as [[_ Q]|(N & t1 & Q & U & F1)]; [congruence|]. assert (t1 = t') by congruence. subst t1.
  destruct (fixed_insert pr s k v Fs (kw k I) (Kn k I) Hv) as [[D _]|(N' & s1 & Q' & U' & F1')]; [exfalso; apply N, (A k I), D|].
  exists s1. split; [exact Q'|]. split; [exact F1|]. split; [exact F1'|]. intros j J.
  apply (alike_updated t s t' s1 (nseq k) (Some (Val v)) (nseq j)); auto. discriminate.
Qed.

Lemma like_extend pr l : forall t s t', like t s -> Forall (fun e => In (fst e) ks /\ value_ok (snd e)) l ->
  trie_extend pr t (map (fun e => (fst e, Val (snd e))) l) = Ok t' ->
  exists s', trie_extend pr s (map (fun e => (fst e, Val (snd e))) l) = Ok s' /\ like t' s'.
Proof.
  induction l as [|[k v] l IH]; intros t s t' H F E; cbn [map trie_extend fst snd] in *.
  - injection E as <-. eauto.
  - inversion F as [|? ? (I & Hv & _) F']; subst. cbn [fst snd] in *.
    destruct (trie_insert pr t k (Val v)) as [t1|] eqn:E1; [|discriminate]. cbn [bind] in E.
    destruct (like_insert pr t s k v t1 H I Hv E1) as (s1 & -> & H1). cbn [bind]. eauto.
Qed.

Lemma like_op pr t s o t' x : like t s -> op_on ks o -> trie_op pr t o = Ok (t', x) ->
  exists s', trie_op pr s o = Ok (s', x) /\ like t' s'.
Proof.
  intros H O E. pose proof H as (Ft & Fs & A). destruct o as [k v|l|k|k]; cbn [op_on trie_op] in *.
  - destruct O as (I & Hv & _). destruct (trie_insert pr t k (Val v)) as [t1|] eqn:E1; [|discriminate]. cbn [bind] in E. injection E as <- <-.
    destruct (like_insert pr t s k v t1 H I Hv E1) as (s1 & -> & H1). cbn [bind]. eauto.
  - destruct (trie_extend pr t _) as [t1|] eqn:E1; [|discriminate]. cbn [bind] in E. injection E as <- <-.
    destruct (like_extend pr l t s t1 H O E1) as (s1 & -> & H1). cbn [bind]. eauto.
  - destruct (fixed_delete pr t k Ft (kw k O) (Kn k O)) as [[_ Q]|(N & t1 & Q & U & F1)]; rewrite Q in E; [discriminate|]. cbn [bind] in E. injection E as <- <-.
    destruct (fixed_delete pr s k Fs (kw k O) (Kn k O)) as [[D _]|(N' & s1 & Q' & U' & F1')]; [exfalso; apply N, (A k O), D|]. rewrite Q'. cbn [bind].
    exists s1. split; [do 3 f_equal; symmetry; exact (alike_value t s k Ft (proj1 Fs) (kw k O) (Kn k O) (A k O))|]. split; [exact F1|]. split; [exact F1'|]. intros j J.
    apply (alike_updated t s t1 s1 (nseq k) None (nseq j)); auto. discriminate.
  - rewrite (fixed_get pr t k Ft (kw k O) (Kn k O)) in E. cbn [bind] in E. injection E as <- <-.
    rewrite (fixed_get pr s k Fs (kw k O) (Kn k O)). cbn [bind]. exists s. split; [|exact H].
    do 3 f_equal. symmetry. exact (alike_value t s k Ft (proj1 Fs) (kw k O) (Kn k O) (A k O)).
Qed.

Lemma like_ops pr l : forall t s t' xs, like t s -> Forall (op_on ks) l -> trie_ops pr t l = Ok (t', xs) ->
  exists s', trie_ops pr s l = Ok (s', xs) /\ like t' s'.
Proof.
  induction l as [|o l IH]; intros t s t' xs H F E; cbn [trie_ops] in *.
  - injection E as <- <-. eauto.
  - inversion F as [|? ? Fo Fl]; subst. destruct (trie_op pr t o) as [[t1 x]|] eqn:E1; [|discriminate]. cbn [bind] in E.
    destruct (trie_ops pr t1 l) as [[t2 ys]|] eqn:E2; [|discriminate]. cbn [bind] in E. injection E as <- <-.
    destruct (like_op pr t s o t1 x H Fo E1) as (s1 & -> & H1). cbn [bind].
    destruct (IH t1 s1 t2 ys H1 Fl E2) as (s2 & -> & H2). cbn [bind]. eauto.
Qed.
End Fixed.

(** ** Subsets *)
Section Sub.
Variable keccak : list N -> list N.
Hypothesis K32 : hash32 keccak.

Lemma hides_hop t s k : hides keccak t s -> hash_on_path t k -> hash_on_path s k.
Proof.
  intros H (p & h & E & P). destruct (hides_lk keccak t s p H) as [Q|(p' & h' & Q & P')].
  - exists p, h. split; [congruence|exact P].
  - exists p', h'. split; [exact Q|]. destruct P as [a ->], P' as [b ->]. exists (b ++ a). rewrite app_assoc. reflexivity.
Qed.

Lemma nth_map_children {B} (f : N -> node -> B) l : forall i j c, nth_error l j = Some c -> nth_error (map_children f l i) j = Some (f (i + N.of_nat j) c).
Proof.
  induction l as [|a l IH]; intros i [|j] c E; try discriminate; cbn [nth_error map_children] in *.
  - injection E as ->. rewrite N.add_0_r. reflexivity.
  - rewrite (IH (i + 1) j c E). do 2 f_equal. lia.
Qed.

Lemma prune_hop t : forall L ks k p h, wf L t -> In k ks -> hexl k -> lk (prune keccak ks t) p = Some (HashV h) -> is_prefix p k -> lk t p = Some (HashV h).
Proof.
  induction t as [|h0|ch w IH|n c IH|n w] using node_ind'; intros L ks k p h W I Hk E P; (destruct ks as [|k0 ks]; [destruct I|]).
  - exact E.
  - exact E.
  - set (KS := k0 :: ks) in *.
    replace (prune keccak KS (Branch ch w)) with (Branch (map_children (fun d c => prune keccak (keys_under d KS) c) ch 0) w) in E by reflexivity.
    destruct p as [|d p]; [exact E|]. rewrite lk_branch in *. destruct P as [r ->]. cbn [app] in *.
    inversion W as [| |L0 ? ? Hl F| |]; subst.
    destruct (nth_error ch (N.to_nat d)) as [c|] eqn:En.
    + assert (Ec : child ch d = c) by (unfold child; apply nth_error_nth; exact En).
      assert (Ec' : child (map_children (fun d c => prune keccak (keys_under d KS) c) ch 0) d = prune keccak (keys_under d KS) c).
      { unfold child. apply nth_error_nth. rewrite (nth_map_children _ ch 0 _ c En). do 2 f_equal. f_equal. lia. }
      rewrite Ec' in E. rewrite Ec. rewrite Forall_forall in IH, F. pose proof (nth_error_In _ _ En) as Inc. inversion Hk; subst.
      apply (IH _ Inc L0 (keys_under d KS) (p ++ r) p h (F _ Inc)); auto; [apply keys_under_iff; exact I|exists r; reflexivity].
    + exfalso. assert (Ec : child (map_children (fun d c => prune keccak (keys_under d KS) c) ch 0) d = Empty).
      { unfold child. apply nth_overflow. rewrite map_children_length. apply nth_error_None. exact En. }
      rewrite Ec in E. discriminate.
  - set (KS := k0 :: ks) in *.
    replace (prune keccak KS (Extension n c)) with (Extension n (prune keccak (keys_below (nseq n) KS) c)) in E by reflexivity.
    inversion W as [| | |L0 q c0 Hq Wc|]; subst. rewrite nseq_enc in E by exact Hq.
    destruct (stored_ext_inv q _ p Hq ltac:(unfold stored; rewrite E; discriminate)) as (p' & -> & _). rewrite lk_in_ext in * by exact Hq.
    destruct P as [r ->]. rewrite <- app_assoc in I, Hk. apply Forall_app in Hk. destruct Hk as [_ Hk].
    apply (IH L0 (keys_below q KS) (p' ++ r) p' h Wc); auto; [apply keys_below_iff; exact I|exists r; reflexivity].
  - exact E.
Qed.

(** A hash node of a partial trie stands for a non-empty part of the full trie. *)
Lemma hides_pos t : forall s p h, shape t -> hides keccak t s -> lk s p = Some (HashV h) -> exists r, stored t (p ++ r).
Proof.
  assert (Root : forall t1 p h h', shape t1 -> t1 <> Empty -> lk (Hash h') p = Some (HashV h) -> exists r, stored t1 (p ++ r)).
  { intros t1 p h h' Sh NE E. destruct p; [|discriminate]. exact (shape_stored t1 Sh NE). }
  induction t as [|h0|ch w IH|n c IH|n w] using node_ind'; intros s p h Sh H E; inversion H as [| |? ch' ? F|? ? c' F| |t0 N G]; subst;
    try (exists []; rewrite app_nil_r; unfold stored; rewrite E; discriminate); try (eapply Root; eauto; discriminate).
  - destruct p as [|d p]; [cbn in E; destruct w; discriminate|]. rewrite lk_branch in E. pose proof (hides_child _ _ _ d F) as Hd.
    destruct (child_in ch d) as [E0|I0].
    + rewrite E0 in Hd. apply hides_empty_iff in Hd. rewrite (proj1 Hd eq_refl) in E. discriminate.
    + inversion Sh as [| |? ? FS X| |]; subst. rewrite Forall_forall in IH, FS. destruct (IH _ I0 _ p h (FS _ I0) Hd E) as [r R].
      exists r. cbn [app]. apply stored_branch. exact R.
  - inversion Sh as [| | |? ? Hn B Cc|]; subst. cbn [lk] in E. destruct (strip (nseq n) p) as [p'|] eqn:S; [|discriminate]. apply strip_some in S. subst p.
    destruct (IH c' p' h ltac:(assumption) F E) as [r R]. exists r. unfold stored in *. cbn [lk]. rewrite <- app_assoc, strip_app. exact R.
Qed.

Lemma fixed_not_short t : forall n k, shape t -> wf n t -> too_short t k -> exists j, stored t j /\ (length k < length j)%nat.
Proof.
  induction t as [|h|ch v IH|n c IH|n v] using node_ind'; intros L k Sh W S; try destruct S.
  - inversion W as [| |L0 ? ? Hlen Fw| |]; subst. inversion Sh as [| |? ? FS X| |]; subst. destruct k as [|d k]; [destruct S|]. apply too_short_branch in S.
    destruct (child_in ch d) as [E|I0]; [rewrite E in S; destruct S|]. rewrite Forall_forall in IH, FS, Fw. destruct (IH _ I0 L0 k (FS _ I0) (Fw _ I0) S) as (j & Sj & Lj).
    exists (d :: j). split; [apply stored_branch; exact Sj|cbn [length]; lia].
  - inversion W as [| | |L0 q c1 Hq Wc|]; subst. rewrite nseq_enc in H by exact Hq. inversion Sh as [| | |? ? Hn B Cc|]; subst.
    destruct (shape_stored c ltac:(assumption)) as [j Sj]; [destruct c; try discriminate; destruct B|]. exists (q ++ j). split; [apply stored_ext; assumption|rewrite app_length; lia].
  - inversion W as [| | |L0 q c1 Hq Wc|]; subst. rewrite nseq_enc in H by exact Hq. inversion Sh as [| | |? ? Hn B Cc|]; subst.
    destruct (strip q k) as [k'|] eqn:S; [|destruct H]. apply strip_some in S. subst k.
    destruct (IH L0 k' ltac:(assumption) Wc H) as (j & Sj & Lj). exists (q ++ j). split; [apply stored_ext; assumption|rewrite !app_length; lia].
Qed.

Lemma fixed_hides n t s : fixed_trie n t -> hides keccak t s -> fixed_trie n s.
Proof.
  intros Fx H. pose proof Fx as (W & C & A & B). split; [exact (hides_wf keccak t 64 s H W)|]. split; [exact (hides_canon keccak t s H C)|]. split.
  - intros k v E. exact (A k v (hides_lk_val keccak t s k v H E)).
  - intros k h E. destruct (hides_pos t s k h (canon_shape _ C) H E) as [r R]. apply (fixed_stored n t _ Fx) in R. rewrite app_length in R. lia.
Qed.

Lemma like_hides n ks t s : fixed_trie n t -> hides keccak t s -> (forall k, In k ks -> hash_on_path s (nseq k) -> hash_on_path t (nseq k)) -> like n ks t s.
Proof.
  intros Fx H V. split; [exact Fx|]. split; [exact (fixed_hides n t s Fx H)|]. intros k I. split; [split; [apply hides_hop, H|apply (V k I)]|].
  intros N. destruct (hides_lk keccak t s (nseq k) H) as [E|(p & h & E & P)]; [symmetry; exact E|]. exfalso. apply N, (V k I). exists p, h. split; assumption.
Qed.
End Sub.
