(** Which keys a subset accepts, and the exact subset. *)
From Verif Require Import Base Nibbles NibblesSpec NibblesFacts NibblesFacts2 NibblesFacts3 Trie TrieSpec TrieFacts TrieInsert TrieGet TrieDelete TrieHist TrieObs Rlp YellowPaper Hashing HashSpec HideSpec HashFacts HideFacts HideBind Subset SubsetSpec SubsetFacts.
Open Scope N_scope.

(** ** Equations of [mark] *)
Lemma mark_branch_cons pr l u b d k : hexl (d :: k) -> (length (d :: k) <= 127)%nat ->
  mark pr (TBranch l u b) (enc (d :: k)) =
  (r <- with_tracked (fun c => mark pr c (enc k)) l (N.to_nat d) ;; Ok (match r with ROk l' => ROk (TBranch l' u true) | RErr e => RErr e end)).
Proof. intros H L. cbn [mark]. rewrite is_empty_enc. rewrite pop_front_enc by assumption. reflexivity. Qed.

Lemma mark_ext_long pr p k c c0 b : hexl (p ++ k) -> (length (p ++ k) <= 127)%nat ->
  mark pr (TExtension c (Extension (enc p) c0) b) (enc (p ++ k)) =
  (r <- mark pr c (enc k) ;; Ok (match r with ROk c' => ROk (TExtension c' (Extension (enc p) c0) true) | RErr e => RErr e end)).
Proof.
  intros H L. pose proof H as H'. apply hexl_app in H'. pose proof L as L'. rewrite app_length in L'.
  cbn [mark get_nibbles_expected bind]. rewrite count_enc, pop_nibbles_front_enc by (assumption || rewrite ?app_length; lia). cbn [bind].
  rewrite firstn_exact, skipn_exact.
  pose proof (identical_long pr p []) as I. rewrite app_nil_r in I. rewrite I by (tauto || lia). reflexivity.
Qed.

Lemma mark_ext_div pr p k c c0 b : hexl p -> hexl k -> (length p <= length k)%nat -> (length k <= 127)%nat -> strip p k = None ->
  mark pr (TExtension c (Extension (enc p) c0) b) (enc k) = Ok (ROk (TExtension c (Extension (enc p) c0) true)).
Proof.
  intros H1 H2 L1 L2 S. cbn [mark get_nibbles_expected bind].
  rewrite count_enc, pop_nibbles_front_enc by (assumption || lia). cbn [bind].
  rewrite identical_enc; [|apply hexl_firstn; assumption|assumption|rewrite firstn_length; lia|lia]. cbn [bind].
  destruct (Nat.leb _ _) eqn:E; [|reflexivity]. exfalso. apply identical_prefix in E. apply strip_none in S. apply S.
  assert (EL : length (firstn (length p) k) = length p) by (rewrite firstn_length; lia).
  rewrite <- (firstn_skipn (length p) k). exists (skipn (length p) k). f_equal.
  destruct E as [[q E]|[q E]]; pose proof (f_equal (@length N) E) as E2; rewrite app_length in E2; (destruct q; [|cbn [length] in E2; lia]); rewrite app_nil_r in E; congruence.
Qed.

Lemma mark_ext_short_debug p k c c0 b : (length k < length p)%nat ->
  mark Debug (TExtension c (Extension (enc p) c0) b) (enc k) = Panic.
Proof. intros L. cbn [mark get_nibbles_expected bind]. rewrite count_enc, pop_nibbles_front_short_debug by exact L. reflexivity. Qed.

Lemma mark_ext_short_release p k c c0 b : hexl p -> hexl k -> (length k < length p)%nat -> (length p <= 127)%nat ->
  mark Release (TExtension c (Extension (enc p) c0) b) (enc k) = Ok (ROk (TExtension c (Extension (enc p) c0) true)) \/
  mark Release (TExtension c (Extension (enc p) c0) b) (enc k) =
  (r <- mark Release c (enc []) ;; Ok (match r with ROk c' => ROk (TExtension c' (Extension (enc p) c0) true) | RErr e => RErr e end)).
Proof.
  intros H1 H2 L1 L2. cbn [mark get_nibbles_expected bind]. rewrite count_enc, pop_nibbles_front_short_release by assumption. cbn [bind].
  rewrite <- enc_zeros. rewrite identical_enc; [|apply hexl_zeros|assumption|rewrite repeat_length; lia|lia]. cbn [bind].
  destruct (Nat.leb _ _); auto.
Qed.

(** ** Keys that lead into a hash node *)
Lemma into_hash_empty k : ~ into_hash Empty k.
Proof. intros (p & h & E & _). discriminate. Qed.
Lemma into_hash_leaf n v k : ~ into_hash (Leaf n v) k.
Proof. intros (p & h & E & _). cbn [lk] in E. destruct (key_eqb _ _); discriminate. Qed.
Lemma into_hash_hash h k : into_hash (Hash h) k <-> k <> [].
Proof.
  split.
  - intros (p & h' & _ & x & c & ->). destruct p; discriminate.
  - destruct k as [|x c]; [congruence|]. intros _. exists [], h. split; [reflexivity|]. exists x, c. reflexivity.
Qed.
Lemma into_hash_branch_nil ch v : ~ into_hash (Branch ch v) [].
Proof. intros (p & h & _ & x & c & E). destruct p; discriminate. Qed.
Lemma into_hash_branch ch v d k : into_hash (Branch ch v) (d :: k) <-> into_hash (child ch d) k.
Proof.
  split.
  - intros (p & h & E & x & c & EQ). destruct p as [|y p]; [cbn [lk] in E; destruct v; discriminate|]. cbn [app] in EQ. injection EQ as <- ->.
    rewrite lk_branch in E. exists p, h. split; [exact E|]. exists x, c. reflexivity.
  - intros (p & h & E & x & c & ->). exists (d :: p), h. rewrite lk_branch. split; [exact E|]. exists x, c. reflexivity.
Qed.
Lemma into_hash_ext p c k : hexl p -> into_hash (Extension (enc p) c) k <-> exists k', k = p ++ k' /\ into_hash c k'.
Proof.
  intros H. split.
  - intros (q & h & E & x & r & ->). cbn [lk] in E. rewrite nseq_enc in E by exact H. destruct (strip p q) as [q'|] eqn:S; [|discriminate].
    apply strip_some in S. subst q. exists (q' ++ x :: r). rewrite <- app_assoc. split; [reflexivity|]. exists q', h. split; [exact E|]. exists x, r. reflexivity.
  - intros (k' & -> & q & h & E & x & r & ->). exists (p ++ q), h. cbn [lk]. rewrite nseq_enc by exact H. rewrite strip_app. split; [exact E|].
    exists x, r. rewrite app_assoc. reflexivity.
Qed.
Lemma too_short_branch ch v d k : too_short (Branch ch v) (d :: k) <-> too_short (child ch d) k.
Proof.
  cbn [too_short]. rewrite at_child_nth. unfold child. destruct (nth_error ch (N.to_nat d)) as [c|] eqn:E.
  - rewrite (nth_error_nth _ _ Empty E). tauto.
  - rewrite nth_overflow by (apply nth_error_None, E). cbn. tauto.
Qed.
Lemma too_short_ext p c k : hexl p -> too_short (Extension (enc p) c) k <-> (length k < length p)%nat \/ exists k', k = p ++ k' /\ too_short c k'.
Proof.
  intros H. cbn [too_short]. rewrite nseq_enc by exact H. destruct (strip p k) as [k'|] eqn:S.
  - apply strip_some in S. subst k. split; (intros [A|B]; [auto|right]).
    + eauto.
    + destruct B as (k2 & E & B). apply app_inv_head in E. subst. exact B.
  - split; [tauto|]. intros [A|(k' & -> & B)]; [auto|]. rewrite strip_app in S. discriminate.
Qed.

Lemma with_tracked_case {E} (f : tracked -> res (result tracked E)) l : forall i c, nth_error l i = Some c ->
  match f c with
  | Panic => with_tracked f l i = Panic
  | Ok (RErr e) => with_tracked f l i = Ok (RErr e)
  | Ok (ROk c') => exists l', with_tracked f l i = Ok (ROk l')
  end.
Proof.
  induction l as [|x l IH]; intros [|i] c E0; cbn [nth_error] in E0; try discriminate; cbn [with_tracked].
  - injection E0 as ->. destruct (f c) as [[c'|e]|]; cbn [bind]; eauto.
  - specialize (IH i c E0). destruct (f c) as [[c'|e]|]; [destruct IH as [l' ->]; cbn [bind]; eauto|rewrite IH; reflexivity..].
Qed.

Lemma tracks_nth l ch i c : Forall2 tracks l ch -> nth_error ch i = Some c -> exists x, nth_error l i = Some x /\ tracks x c.
Proof. intros F E. exact (Forall2_nth _ _ _ F i c E). Qed.

Lemma nth_error_child16 ch d : length ch = 16%nat -> d < 16 -> nth_error ch (N.to_nat d) = Some (child ch d).
Proof. intros L H. unfold child. apply nth_error_nth'. lia. Qed.

(** Every key has exactly one of the outcomes: into a hash node, too short, or fine. *)
Lemma mark_into_hash pr t : forall L tr k, wf L t -> hexl k -> (length k <= 64)%nat -> tracks tr t -> into_hash t k ->
  exists q h, mark pr tr (enc k) = Ok (RErr (UnexpectedKey (enc q) (Hash h))) /\ q <> [] /\ exists p, k = p ++ q /\ lk t p = Some (HashV h).
Proof.
  induction t as [|h|ch v IH|n c IH|n v] using node_ind'; intros L tr k W Hk Lk T I;
    inversion T as [|h0 b0|l ch0 v0 b0 FT|tc n0 c0 b0 TC|n0 v0 b0]; subst; try (destruct (into_hash_empty _ I)); try (destruct (into_hash_leaf _ _ _ I)).
  - apply into_hash_hash in I. exists k, h. cbn [mark]. rewrite is_empty_enc. destruct k as [|x k]; [congruence|]. split; [reflexivity|]. split; [congruence|].
    exists []. split; reflexivity.
  - inversion W as [| |L0 ? ? Hlen Fw| |]; subst. destruct k as [|d k]; [destruct (into_hash_branch_nil _ _ I)|].
    apply into_hash_branch in I. inversion Hk; subst. cbn [length] in Lk.
    pose proof (nth_error_child16 ch d Hlen ltac:(assumption)) as Ec. destruct (tracks_nth _ _ _ _ FT Ec) as (x & Ex & Tx).
    pose proof (nth_error_In _ _ Ec) as Inc. rewrite Forall_forall in IH, Fw.
    destruct (IH _ Inc L0 x k (Fw _ Inc) ltac:(assumption) ltac:(lia) Tx I) as (q & h & Em & Q & p & -> & El).
    rewrite mark_branch_cons by (assumption || cbn [length]; lia).
    pose proof (with_tracked_case (fun c => mark pr c (enc (p ++ q))) l _ _ Ex) as Ew. cbn beta in Ew. rewrite Em in Ew. rewrite Ew. cbn [bind].
    exists q, h. split; [reflexivity|]. split; [exact Q|]. exists (d :: p). rewrite lk_branch. auto.
  - inversion W as [| | |L0 q c1 Hq Wc|]; subst. apply (into_hash_ext _ _ _ Hq) in I. destruct I as (k' & -> & I). pose proof Hk as Hk2. apply hexl_app in Hk2. pose proof Lk as Lk2. rewrite app_length in Lk2.
    destruct (IH L0 tc k' Wc ltac:(tauto) ltac:(lia) TC I) as (q' & h & Em & Q & p & -> & El).
    rewrite mark_ext_long by (assumption || lia). rewrite Em. cbn [bind]. exists q', h. split; [reflexivity|]. split; [exact Q|].
    exists (q ++ p). rewrite app_assoc. split; [reflexivity|]. cbn [lk]. rewrite nseq_enc by exact Hq. rewrite strip_app. exact El.
Qed.

Lemma mark_short_debug t : forall L tr k, wf L t -> hexl k -> (length k <= 64)%nat -> tracks tr t -> too_short t k ->
  mark Debug tr (enc k) = Panic.
Proof.
  induction t as [|h|ch v IH|n c IH|n v] using node_ind'; intros L tr k W Hk Lk T I;
    inversion T as [|h0 b0|l ch0 v0 b0 FT|tc n0 c0 b0 TC|n0 v0 b0]; subst; try destruct I.
  - inversion W as [| |L0 ? ? Hlen Fw| |]; subst. destruct k as [|d k]; [destruct I|].
    apply too_short_branch in I. inversion Hk; subst. cbn [length] in Lk.
    pose proof (nth_error_child16 ch d Hlen ltac:(assumption)) as Ec. destruct (tracks_nth _ _ _ _ FT Ec) as (x & Ex & Tx).
    pose proof (nth_error_In _ _ Ec) as Inc. rewrite Forall_forall in IH, Fw.
    pose proof (IH _ Inc L0 x k (Fw _ Inc) ltac:(assumption) ltac:(lia) Tx I) as Em.
    rewrite mark_branch_cons by (assumption || cbn [length]; lia).
    pose proof (with_tracked_case (fun c => mark Debug c (enc k)) l _ _ Ex) as Ew. cbn beta in Ew. rewrite Em in Ew. rewrite Ew. reflexivity.
  - inversion W as [| | |L0 q c1 Hq Wc|]; subst. rewrite nseq_enc in H by exact Hq. apply mark_ext_short_debug, H.
  - inversion W as [| | |L0 q c1 Hq Wc|]; subst. rewrite nseq_enc in H by exact Hq. destruct (strip q k) as [k'|] eqn:S; [|destruct H]. apply strip_some in S. subst k.
    pose proof Hk as Hk2. apply hexl_app in Hk2. pose proof Lk as Lk2. rewrite app_length in Lk2.
    rewrite mark_ext_long by (assumption || lia). rewrite (IH L0 tc k' Wc ltac:(tauto) ltac:(lia) TC H). reflexivity.
Qed.

Lemma mark_ok pr t : forall L tr k, wf L t -> (L <= 64)%nat -> hexl k -> (length k <= 64)%nat -> tracks tr t -> ~ into_hash t k -> (pr = Release \/ ~ too_short t k) ->
  exists tr', mark pr tr (enc k) = Ok (ROk tr').
Proof.
  induction t as [|h|ch v IH|n c IH|n v] using node_ind'; intros L tr k W HL Hk Lk T I S;
    inversion T as [|h0 b0|l ch0 v0 b0 FT|tc n0 c0 b0 TC|n0 v0 b0]; subst; try (eexists; reflexivity).
  - rewrite into_hash_hash in I. destruct k; [|destruct I; congruence]. eexists. reflexivity.
  - inversion W as [| |L0 ? ? Hlen Fw| |]; subst. destruct k as [|d k]; [eexists; reflexivity|].
    rewrite into_hash_branch in I. rewrite too_short_branch in S. inversion Hk; subst. cbn [length] in Lk.
    pose proof (nth_error_child16 ch d Hlen ltac:(assumption)) as Ec. destruct (tracks_nth _ _ _ _ FT Ec) as (x & Ex & Tx).
    pose proof (nth_error_In _ _ Ec) as Inc. rewrite Forall_forall in IH, Fw.
    destruct (IH _ Inc L0 x k (Fw _ Inc) ltac:(lia) ltac:(assumption) ltac:(lia) Tx I S) as [x' Em].
    rewrite mark_branch_cons by (assumption || cbn [length]; lia).
    pose proof (with_tracked_case (fun c => mark pr c (enc k)) l _ _ Ex) as Ew. cbn beta in Ew. rewrite Em in Ew. destruct Ew as [l' ->]. eexists. reflexivity.
  - inversion W as [| | |L0 q c1 Hq Wc|]; subst. rewrite (into_hash_ext _ _ _ Hq) in I. rewrite (too_short_ext _ _ _ Hq) in S.
    destruct (le_lt_dec (length q) (length k)) as [Le|Lt].
    + destruct (strip q k) as [k'|] eqn:Es.
      * apply strip_some in Es. subst k. pose proof Hk as Hk2. apply hexl_app in Hk2. pose proof Lk as Lk2. rewrite app_length in Lk2.
        rewrite mark_ext_long by (assumption || lia).
        destruct (IH L0 tc k' Wc ltac:(lia) ltac:(tauto) ltac:(lia) TC) as [c' ->]; [intros B; apply I; eauto| |eexists; reflexivity].
        destruct S as [S|S]; [auto|right]. intros B. apply S. eauto.
      * rewrite mark_ext_div by (assumption || lia). eexists. reflexivity.
    + destruct S as [->|S]; [|tauto]. destruct (mark_ext_short_release q k tc c b0 Hq Hk Lt ltac:(lia)) as [->| ->]; [eexists; reflexivity|].
      destruct (IH L0 tc [] Wc ltac:(lia) ltac:(constructor) ltac:(cbn; lia) TC) as [c' ->]; [|auto|eexists; reflexivity].
      intros (p & h & _ & x & r & E). destruct p; discriminate.
Qed.

Lemma into_hash_not_short t : forall L k, wf L t -> into_hash t k -> ~ too_short t k.
Proof.
  induction t as [|h|ch v IH|n c IH|n v] using node_ind'; intros L k W I S; try destruct S.
  - inversion W as [| |L0 ? ? Hlen Fw| |]; subst. destruct k as [|d k]; [destruct S|]. apply into_hash_branch in I. apply too_short_branch in S.
    destruct (child_in ch d) as [E|Inc]; [rewrite E in I; exact (into_hash_empty _ I)|]. rewrite Forall_forall in IH, Fw. exact (IH _ Inc L0 k (Fw _ Inc) I S).
  - inversion W as [| | |L0 q c1 Hq Wc|]; subst. rewrite nseq_enc in H by exact Hq. apply (into_hash_ext _ _ _ Hq) in I. destruct I as (k' & -> & I). rewrite app_length in H. lia.
  - inversion W as [| | |L0 q c1 Hq Wc|]; subst. rewrite nseq_enc in H by exact Hq. apply (into_hash_ext _ _ _ Hq) in I. destruct I as (k' & -> & I).
    rewrite strip_app in H. exact (IH L0 k' Wc I H).
Qed.

Lemma into_hash_dec t : forall L k, wf L t -> into_hash t k \/ ~ into_hash t k.
Proof.
  induction t as [|h|ch v IH|n c IH|n v] using node_ind'; intros L k W.
  - right. apply into_hash_empty.
  - rewrite into_hash_hash. destruct k; [right; congruence|left; congruence].
  - inversion W as [| |L0 ? ? Hlen Fw| |]; subst. destruct k as [|d k]; [right; apply into_hash_branch_nil|]. rewrite into_hash_branch.
    destruct (child_in ch d) as [E|Inc]; [rewrite E; right; apply into_hash_empty|]. rewrite Forall_forall in IH, Fw. exact (IH _ Inc L0 k (Fw _ Inc)).
  - inversion W as [| | |L0 q c1 Hq Wc|]; subst. destruct (strip q k) as [k'|] eqn:S.
    + apply strip_some in S. subst k. destruct (IH L0 k' Wc) as [A|A]; [left; apply into_hash_ext; eauto|right]. rewrite (into_hash_ext _ _ _ Hq). intros (k2 & E & B).
      apply app_inv_head in E. subst. auto.
    + right. rewrite (into_hash_ext _ _ _ Hq). intros (k2 & -> & B). rewrite strip_app in S. discriminate.
  - right. apply into_hash_leaf.
Qed.

Lemma too_short_dec t : forall L k, wf L t -> too_short t k \/ ~ too_short t k.
Proof.
  induction t as [|h|ch v IH|n c IH|n v] using node_ind'; intros L k W; try (right; exact (fun x => x)).
  - inversion W as [| |L0 ? ? Hlen Fw| |]; subst. destruct k as [|d k]; [right; exact (fun x => x)|]. rewrite too_short_branch.
    destruct (child_in ch d) as [E|Inc]; [rewrite E; right; exact (fun x => x)|]. rewrite Forall_forall in IH, Fw. exact (IH _ Inc L0 k (Fw _ Inc)).
  - inversion W as [| | |L0 q c1 Hq Wc|]; subst. cbn [too_short]. rewrite nseq_enc by exact Hq. destruct (le_lt_dec (length q) (length k)); [|auto].
    destruct (strip q k) as [k'|]; [|right; lia]. destruct (IH L0 k' Wc); [auto|right]. intros [A|A]; [lia|auto].
Qed.

(** Keys at least as long as every path are never too short. *)
Lemma long_not_short t : forall L k, wf L t -> (L <= length k)%nat -> ~ too_short t k.
Proof.
  induction t as [|h|ch v IH|n c IH|n v] using node_ind'; intros L k W HL S; try destruct S.
  - inversion W as [| |L0 ? ? Hlen Fw| |]; subst. destruct k as [|d k]; [destruct S|]. apply too_short_branch in S. cbn [length] in HL.
    destruct (child_in ch d) as [E|Inc]; [rewrite E in S; exact S|]. rewrite Forall_forall in IH, Fw. exact (IH _ Inc L0 k (Fw _ Inc) ltac:(lia) S).
  - inversion W as [| | |L0 q c1 Hq Wc|]; subst. rewrite nseq_enc in H by exact Hq. lia.
  - inversion W as [| | |L0 q c1 Hq Wc|]; subst. rewrite nseq_enc in H by exact Hq. destruct (strip q k) as [k'|] eqn:S; [|destruct H]. apply strip_some in S. subst k.
    rewrite app_length in HL. exact (IH L0 k' Wc ltac:(lia) H).
Qed.

(** ** Marking all keys *)
Lemma mark_all_ok pr t ks : forall tr, wf 64 t -> tracks tr t -> Forall kwf ks ->
  (forall k, In k ks -> ~ into_hash t (nseq k)) -> (pr = Release \/ forall k, In k ks -> ~ too_short t (nseq k)) ->
  exists tr', mark_all pr tr ks = Ok (ROk tr') /\ tracks tr' t.
Proof.
  induction ks as [|k ks IH]; intros tr W T K I S; cbn [mark_all]; [eauto|]. inversion K; subst.
  destruct (kwf_ex k ltac:(assumption)) as (l & -> & El & Hl & Ll).
  destruct (mark_ok pr t 64 tr l W ltac:(lia) Hl Ll T) as [tr1 E].
  - rewrite <- El. apply I. left. reflexivity.
  - destruct S as [S|S]; [auto|right]. rewrite <- El. apply S. left. reflexivity.
  - rewrite E. cbn [bind]. pose proof (fle_tracks _ _ _ (mark_fle _ _ _ _ E) T) as T1. apply IH; auto; [intros; apply I; right; assumption|].
    destruct S as [S|S]; [auto|right; intros; apply S; right; assumption].
Qed.

Lemma mark_all_err pr t ks : forall tr, wf 64 t -> tracks tr t -> Forall kwf ks ->
  (exists k, In k ks /\ into_hash t (nseq k)) -> (pr = Release \/ forall k, In k ks -> ~ too_short t (nseq k)) ->
  exists e, mark_all pr tr ks = Ok (RErr e).
Proof.
  induction ks as [|k ks IH]; intros tr W T K (k0 & In0 & I0) S; cbn [mark_all]; [destruct In0|]. inversion K; subst.
  destruct (kwf_ex k ltac:(assumption)) as (l & -> & El & Hl & Ll).
  destruct (into_hash_dec t 64 l W) as [A|A].
  - destruct (mark_into_hash pr t 64 tr l W Hl Ll T A) as (q & h & -> & _). cbn [bind]. eauto.
  - destruct (mark_ok pr t 64 tr l W ltac:(lia) Hl Ll T A) as [tr1 E]; [destruct S as [S|S]; [auto|right]; rewrite <- El; apply S; left; reflexivity|].
    rewrite E. cbn [bind]. pose proof (fle_tracks _ _ _ (mark_fle _ _ _ _ E) T) as T1. apply IH; auto.
    + destruct In0 as [<-|In0]; [rewrite El in I0; tauto|eauto].
    + destruct S as [S|S]; [auto|right; intros; apply S; right; assumption].
Qed.

(** The first key that is not fine decides. *)
Lemma mark_all_first t ks1 k ks2 tr : wf 64 t -> tracks tr t -> Forall kwf (ks1 ++ k :: ks2) ->
  (forall k, In k ks1 -> ~ into_hash t (nseq k) /\ ~ too_short t (nseq k)) ->
  (into_hash t (nseq k) -> exists e, mark_all Debug tr (ks1 ++ k :: ks2) = Ok (RErr e)) /\
  (too_short t (nseq k) -> mark_all Debug tr (ks1 ++ k :: ks2) = Panic).
Proof.
  intros W. revert tr. induction ks1 as [|k1 ks1 IH]; intros tr T K F; cbn [mark_all app] in *; inversion K; subst.
  - destruct (kwf_ex k ltac:(assumption)) as (l & -> & El & Hl & Ll). rewrite El. split; intros A.
    + destruct (mark_into_hash Debug t 64 tr l W Hl Ll T A) as (q & h & -> & _). cbn [bind]. eauto.
    + rewrite (mark_short_debug t 64 tr l W Hl Ll T A). reflexivity.
  - destruct (kwf_ex k1 ltac:(assumption)) as (l & -> & El & Hl & Ll). destruct (F (enc l) ltac:(left; reflexivity)) as [A B]. rewrite El in A, B.
    destruct (mark_ok Debug t 64 tr l W ltac:(lia) Hl Ll T A ltac:(auto)) as [tr1 E]. rewrite E. cbn [bind].
    apply IH; [exact (fle_tracks _ _ _ (mark_fle _ _ _ _ E) T)|assumption|]. intros k0 I0. apply F. right. exact I0.
Qed.

(** An error is about the first key that leads into a hash node. *)
Lemma mark_all_names pr t ks : forall tr e, wf 64 t -> tracks tr t -> Forall kwf ks -> mark_all pr tr ks = Ok (RErr e) ->
  exists ks1 k ks2 p q h, ks = ks1 ++ k :: ks2 /\ (forall x, In x ks1 -> ~ into_hash t (nseq x)) /\
    nseq k = p ++ q /\ q <> [] /\ lk t p = Some (HashV h) /\ e = UnexpectedKey (enc q) (Hash h).
Proof.
  induction ks as [|k ks IH]; intros tr e W T K E; cbn [mark_all] in E; [discriminate|]. inversion K; subst.
  destruct (kwf_ex k ltac:(assumption)) as (l & -> & El & Hl & Ll).
  destruct (into_hash_dec t 64 l W) as [A|A].
  - destruct (mark_into_hash pr t 64 tr l W Hl Ll T A) as (q & h & Em & Q & p & Ep & L). rewrite Em in E. cbn [bind] in E. injection E as <-.
    exists [], (enc l), ks, p, q, h. split; [reflexivity|]. split; [intros x []|]. rewrite El. auto.
  - destruct (mark pr tr (enc l)) as [[tr1|e1]|] eqn:Em; cbn [bind] in E; [| |discriminate].
    + destruct (IH tr1 e W (fle_tracks _ _ _ (mark_fle _ _ _ _ Em) T) ltac:(assumption) E) as (ks1 & k & ks2 & p & q & h & -> & F & R).
      exists (enc l :: ks1), k, ks2, p, q, h. split; [reflexivity|]. split; [|exact R]. intros x [<-|I]; [rewrite El; exact A|auto].
    + exfalso. destruct pr.
      * destruct (too_short_dec t 64 l W) as [B|B]; [rewrite (mark_short_debug t 64 tr l W Hl Ll T B) in Em; discriminate|].
        destruct (mark_ok Debug t 64 tr l W ltac:(lia) Hl Ll T A ltac:(auto)) as [x Ex]. congruence.
      * destruct (mark_ok Release t 64 tr l W ltac:(lia) Hl Ll T A ltac:(auto)) as [x Ex]. congruence.
Qed.

(** ** The exact subset *)
Definition some_key (ks : list (list N)) : bool := match ks with [] => false | _ => true end.

Fixpoint flag (ks : list (list N)) (t : node) {struct t} : tracked :=
  match t with
  | Empty => TEmpty t (some_key ks)
  | Hash _ => THash t (some_key ks)
  | Branch ch _ => TBranch (map_children (fun d c => flag (keys_under d ks) c) ch 0) t (some_key ks)
  | Extension n c => TExtension (flag (keys_below (nseq n) ks) c) t (some_key ks)
  | Leaf _ _ => TLeaf t (some_key ks)
  end.

Lemma map_children_ext {B} (f g : N -> node -> B) l : forall i, (forall j c, In c l -> f j c = g j c) -> map_children f l i = map_children g l i.
Proof.
  induction l as [|c l IH]; intros i H; cbn [map_children]; [reflexivity|]. rewrite H by (left; reflexivity). f_equal. apply IH. intros. apply H. right. assumption.
Qed.

Lemma map_children_map {B} (f : node -> B) l : forall i, map_children (fun _ c => f c) l i = map f l.
Proof. induction l as [|c l IH]; intros i; cbn [map_children map]; [reflexivity|]. f_equal. apply IH. Qed.

Lemma track_flag t : track t = flag [] t.
Proof.
  induction t as [|h|ch v IH|n c IH|n v] using node_ind'; cbn [track flag some_key]; try reflexivity.
  - f_equal. rewrite <- (map_children_map track ch 0). apply map_children_ext. intros j c I. rewrite Forall_forall in IH. apply IH, I.
  - f_equal. exact IH.
Qed.

Lemma flag_tracks t : forall ks, tracks (flag ks t) t.
Proof.
  induction t as [|h|ch v IH|n c IH|n v] using node_ind'; intros ks; cbn [flag]; constructor; auto.
  generalize 0 at 1. induction IH as [|c ch Hc _ IHl]; intros i; cbn [map_children]; constructor; auto.
Qed.

Lemma map_children_length {B} (f : N -> node -> B) l : forall i, length (map_children f l i) = length l.
Proof. induction l; intros i; cbn [map_children length]; auto. Qed.

Lemma with_tracked_map {E} (f : tracked -> res (result tracked E)) (g g' : N -> node -> tracked) l : forall i0 n c,
  nth_error l n = Some c -> f (g (i0 + N.of_nat n) c) = Ok (ROk (g' (i0 + N.of_nat n) c)) ->
  (forall j c, j <> i0 + N.of_nat n -> g' j c = g j c) ->
  with_tracked f (map_children g l i0) n = Ok (ROk (map_children g' l i0)).
Proof.
  induction l as [|x l IH]; intros i0 n c En Ef O; [destruct n; discriminate|]. destruct n as [|n]; cbn [nth_error] in En; cbn [map_children with_tracked].
  - injection En as ->. rewrite N.add_0_r in *. rewrite Ef. cbn [bind]. f_equal. f_equal. f_equal.
    clear - O. assert (H : i0 < i0 + 1) by lia. revert H. generalize (i0 + 1). induction l as [|x l IH]; intros m H; cbn [map_children]; [reflexivity|].
    rewrite O by lia. f_equal. apply IH. lia.
  - assert (EQ : i0 + N.of_nat (S n) = i0 + 1 + N.of_nat n) by lia. rewrite EQ in *.
    rewrite (IH (i0 + 1) n c En Ef O). cbn [bind]. rewrite (O i0) by lia. reflexivity.
Qed.

Lemma mark_flag pr t : forall L ks k, wf L t -> (L <= 64)%nat -> hexl k -> (length k <= 64)%nat -> ~ into_hash t k -> ~ too_short t k ->
  mark pr (flag ks t) (enc k) = Ok (ROk (flag (k :: ks) t)).
Proof.
  induction t as [|h|ch v IH|n c IH|n v] using node_ind'; intros L ks k W HL Hk Lk I S; cbn [flag some_key].
  - reflexivity.
  - rewrite into_hash_hash in I. destruct k; [|destruct I; congruence]. reflexivity.
  - inversion W as [| |L0 ? ? Hlen Fw| |]; subst. destruct k as [|d k].
    + reflexivity.
    + rewrite into_hash_branch in I. rewrite too_short_branch in S. inversion Hk; subst. cbn [length] in Lk.
      pose proof (nth_error_child16 ch d Hlen ltac:(assumption)) as Ec. pose proof (nth_error_In _ _ Ec) as Inc. rewrite Forall_forall in IH, Fw.
      rewrite mark_branch_cons by (assumption || cbn [length]; lia).
      rewrite (with_tracked_map _ (fun d c => flag (keys_under d ks) c) (fun d' c => flag (keys_under d' ((d :: k) :: ks)) c) ch 0 (N.to_nat d) (child ch d) Ec); [reflexivity|..].
      * rewrite N2Nat.id, N.add_0_l. rewrite (IH _ Inc L0 _ k (Fw _ Inc) ltac:(lia) ltac:(assumption) ltac:(lia) I S).
        unfold keys_under. cbn [flat_map]. rewrite N.eqb_refl. reflexivity.
      * intros j c Hj. unfold keys_under. cbn [flat_map]. rewrite N2Nat.id in Hj. rewrite (proj2 (N.eqb_neq d j)) by lia. reflexivity.
  - inversion W as [| | |L0 q c1 Hq Wc|]; subst. rewrite (into_hash_ext _ _ _ Hq) in I. rewrite (too_short_ext _ _ _ Hq) in S.
    rewrite nseq_enc by exact Hq. destruct (strip q k) as [k'|] eqn:Es.
    + unfold keys_below at 2. cbn [flat_map]. rewrite Es. pose proof Es as Es'. apply strip_some in Es'. subst k. pose proof Hk as Hk2. apply hexl_app in Hk2. pose proof Lk as Lk2. rewrite app_length in Lk2.
      rewrite mark_ext_long by (assumption || lia). rewrite (IH L0 _ k' Wc ltac:(lia) ltac:(tauto) ltac:(lia)); [reflexivity|..]; intros B; [apply I|apply S]; eauto.
    + unfold keys_below at 2. cbn [flat_map]. rewrite Es. apply mark_ext_div; try assumption; try lia.
  - reflexivity.
Qed.

Lemma keys_under_iff d ks k : In k (keys_under d ks) <-> In (d :: k) ks.
Proof.
  unfold keys_under. rewrite in_flat_map. split.
  - intros (x & I & J). destruct x as [|y x]; [destruct J|]. destruct (N.eqb_spec y d); [|destruct J]. subst. destruct J as [<-|[]]. exact I.
  - intros I. exists (d :: k). split; [exact I|]. rewrite N.eqb_refl. left. reflexivity.
Qed.
Lemma keys_below_iff p ks k : In k (keys_below p ks) <-> In (p ++ k) ks.
Proof.
  unfold keys_below. rewrite in_flat_map. split.
  - intros (x & I & J). destruct (strip p x) eqn:E; [|destruct J]. apply strip_some in E. subst. destruct J as [<-|[]]. exact I.
  - intros I. exists (p ++ k). split; [exact I|]. rewrite strip_app. left. reflexivity.
Qed.
Lemma some_key_equiv a b : (forall k : list N, In k a <-> In k b) -> some_key a = some_key b.
Proof.
  intros H. destruct a as [|x a], b as [|y b]; try reflexivity; exfalso; [destruct (proj2 (H y)); left; reflexivity|destruct (proj1 (H x)); left; reflexivity].
Qed.

(** Only the set of keys matters. *)
Lemma flag_equiv t : forall a b, (forall k, In k a <-> In k b) -> flag a t = flag b t.
Proof.
  induction t as [|h|ch v IH|n c IH|n v] using node_ind'; intros a b H; cbn [flag]; rewrite (some_key_equiv a b H); try reflexivity.
  - f_equal. apply map_children_ext. intros j c I. rewrite Forall_forall in IH. apply IH; [exact I|]. intros k. rewrite !keys_under_iff. apply H.
  - f_equal. apply IH. intros k. rewrite !keys_below_iff. apply H.
Qed.

Lemma mark_all_flag pr t ks : forall ks0, wf 64 t -> Forall kwf ks ->
  (forall k, In k ks -> ~ into_hash t (nseq k)) -> (forall k, In k ks -> ~ too_short t (nseq k)) ->
  mark_all pr (flag ks0 t) ks = Ok (ROk (flag (map nseq ks ++ ks0) t)).
Proof.
  induction ks as [|k ks IH]; intros ks0 W K I S; cbn [mark_all map app]; [reflexivity|]. inversion K; subst.
  destruct (kwf_ex k ltac:(assumption)) as (l & -> & El & Hl & Ll).
  rewrite (mark_flag pr t 64 ks0 l W ltac:(lia) Hl Ll) by (rewrite <- El; (apply I || apply S); left; reflexivity). cbn [bind].
  rewrite IH by (auto; intros; (apply I || apply S); right; assumption). f_equal. f_equal. apply flag_equiv. intros k. rewrite El. cbn [In]. rewrite !in_app_iff. cbn [In]. tauto.
Qed.

Section H.
Variable keccak : list N -> list N.
Hypothesis K32 : hash32 keccak.
Notation hides := (hides keccak).
Notation item := (item keccak).

Lemma enode_eq t : enode keccak t = match t with Hash h => Hashed h | _ => if 32 <=? len (RLP (item t)) then Hashed (keccak (RLP (item t))) else Raw (RLP (item t)) end.
Proof. unfold enode, hash_bytes_if_large_enough. change (@lenN N) with (@len N). reflexivity. Qed.

Definition prune_keep (ks : list (list N)) (t : node) : node :=
  match t with
  | Branch ch v => Branch (map_children (fun d c => prune keccak (keys_under d ks) c) ch 0) v
  | Extension n c => Extension n (prune keccak (keys_below (nseq n) ks) c)
  | _ => t
  end.

Lemma prune_eq ks t : prune keccak ks t = if some_key ks then prune_keep ks t else match enode keccak t with Hashed h => Hash h | Raw _ => prune_keep ks t end.
Proof. rewrite enode_eq. destruct ks, t; cbn [prune some_key]; try reflexivity; destruct (32 <=? _); reflexivity. Qed.

Lemma flag_touched ks t : touched (flag ks t) = some_key ks.
Proof. destruct t; reflexivity. Qed.

Lemma create_flag pr t : forall L ks, wf L t -> (L <= 64)%nat -> fits t ->
  create_from_tracked keccak pr (flag ks t) = Ok (prune keccak ks t).
Proof.
  induction t as [|h|ch v IH|n c IH|n v] using node_ind'; intros L ks W HL F;
    rewrite (create_eq keccak K32 pr _ _ L (flag_tracks _ ks) W HL F), flag_touched, prune_eq;
    match goal with |- context [keep_of keccak pr ?x] => assert (HK : keep_of keccak pr x = Ok (prune_keep ks (underlying x))); [|
      cbn [flag underlying] in HK |- *; rewrite HK; destruct (some_key ks); [reflexivity|]; destruct (enode keccak _); reflexivity] end;
    cbn [flag keep_of underlying prune_keep]; try reflexivity.
  - inversion W as [| |L0 ? ? Hlen Fw| |]; subst. apply fits_branch in F. destruct F as (_ & _ & Fc).
    assert (G : forall i, create_all keccak pr (map_children (fun d c => flag (keys_under d ks) c) ch i) = Ok (map_children (fun d c => prune keccak (keys_under d ks) c) ch i)).
    { clear - IH Fw Fc HL. induction ch as [|c ch IHc]; intros i; [reflexivity|]. inversion IH; inversion Fw; inversion Fc; subst. cbn [map_children create_all]. fold (create_all keccak pr).
      match goal with H : forall L ks, _ |- _ => rewrite (H L0 (keys_under i ks)) by (assumption || lia) end. cbn [bind].
      change (create_all keccak pr ((fix go (l : list node) (i : N) {struct l} := _) ch (i + 1))) with (create_all keccak pr (map_children (fun d c => flag (keys_under d ks) c) ch (i + 1))).
      rewrite IHc by assumption. reflexivity. }
    rewrite G. reflexivity.
  - inversion W as [| | |L0 q c1 Hq Wc|]; subst. cbn [fits] in F. cbn [get_nibbles_expected bind]. rewrite (IH L0) by (assumption || lia). reflexivity.
Qed.

(** ** Small nodes contain no node that can be hidden *)
Lemma RLP_list_len l x : In x l -> len (RLP x) < len (RLP (RList l)).
Proof.
  intros I. cbn [RLP]. unfold Rl.
  assert (G : len (RLP x) <= len (concat (map RLP l))).
  { induction l as [|y l IH]; [destruct I|]. cbn [map concat]. rewrite len_app. destruct I as [->|I]; [lia|]. specialize (IH I). lia. }
  destruct (_ <? 56); rewrite ?len_cons, ?len_app; lia.
Qed.

Lemma hides_small t : forall t', fits t -> hides t t' -> len (RLP (item t)) < 32 -> t' = t.
Proof.
  assert (Child : forall c c', fits c -> hides c c' -> len (RLP (ref keccak c)) < 32 -> not_hash c -> len (RLP (item c)) < 32).
  { intros c c' F H S N. destruct (N.ltb_spec (len (RLP (item c))) 32) as [A|A]; [exact A|].
    rewrite ref_out in S by assumption. cbn [RLP] in S. destruct (K32 (RLP (item c))) as [_ E]. rewrite Rb_32 in S by exact E. lia. }
  induction t as [|h|ch v IH|n c IH|n v] using node_ind'; intros t' F H S; inversion H as [| |? ch' ? FF|? ? c' HC| |t0 N G]; subst; try reflexivity; try lia.
  - f_equal. rewrite item_branch in S. apply fits_branch in F. destruct F as (_ & _ & Fc).
    assert (B : Forall (fun c => len (RLP (ref keccak c)) < 32) ch).
    { apply Forall_forall. intros c I. eapply N.lt_trans; [apply RLP_list_len|exact S]. apply in_or_app. left. apply in_map, I. }
    clear - IH FF B Fc Child. induction FF as [|c c' ch ch' HC FF IHF]; [reflexivity|]. inversion IH; inversion B; inversion Fc; subst. f_equal; [|auto].
    destruct (not_hash_dec c) as [NH|[h ->]]; [|inversion HC; subst; [reflexivity|]; match goal with A : not_hash (Hash _) |- _ => destruct A end]. eauto.
  - f_equal. rewrite item_ext in S. cbn [fits] in F.
    assert (B : len (RLP (ref keccak c)) < 32) by (eapply N.lt_trans; [apply RLP_list_len|exact S]; right; left; reflexivity).
    destruct (not_hash_dec c) as [NH|[h ->]]; [|inversion HC; subst; [reflexivity|]; match goal with A : not_hash (Hash _) |- _ => destruct A end]. eauto.
Qed.

Lemma create_small pr tr t L r : tracks tr t -> wf L t -> (L <= 64)%nat -> fits t -> enode keccak t = Raw r -> create_from_tracked keccak pr tr = Ok t.
Proof.
  intros T W HL F E. destruct (create_hides keccak K32 pr tr t L T W HL F) as (t' & -> & H). f_equal. apply hides_small; auto.
  rewrite enode_eq in E. destruct t; try discriminate; (destruct (32 <=? _) eqn:E32; [discriminate|apply N.leb_gt in E32; exact E32]).
Qed.

Lemma create_untouched pr tr t L : tracks tr t -> touched tr = false -> wf L t -> (L <= 64)%nat -> fits t -> create_from_tracked keccak pr tr = Ok (prune keccak [] t).
Proof.
  intros T Tc W HL F. destruct (enode keccak t) as [r|h] eqn:E.
  - rewrite (create_small pr tr t L r T W HL F E). rewrite <- (create_flag pr t L [] W HL F).
    symmetry. apply (create_small pr (flag [] t) t L r); auto. apply flag_tracks.
  - rewrite (create_eq keccak K32 pr tr t L T W HL F), Tc, E. rewrite prune_eq, E. reflexivity.
Qed.

(** ** Batches *)
Definition set_touched (b : bool) (t : tracked) : tracked :=
  match t with
  | TEmpty u _ => TEmpty u b
  | THash u _ => THash u b
  | TBranch l u _ => TBranch l u b
  | TExtension c u _ => TExtension c u b
  | TLeaf u _ => TLeaf u b
  end.

Lemma mark_set pr b tr k : mark pr (set_touched b tr) k = mark pr tr k.
Proof. destruct tr; reflexivity. Qed.
Lemma reset_set b tr : reset_info (set_touched b tr) = set_touched false tr.
Proof. destruct tr; reflexivity. Qed.
Lemma set_flag ks t : set_touched (some_key ks) (flag ks t) = flag ks t.
Proof. destruct t; reflexivity. Qed.
Lemma set_tracks b tr t : tracks tr t -> tracks (set_touched b tr) t.
Proof. destruct 1; cbn; constructor; auto. Qed.

Definition bflag (E K : list (list N)) (t : node) : tracked :=
  match t with
  | Branch ch _ =>
      TBranch (map_children (fun d c => set_touched (some_key (keys_under d K)) (flag (keys_under d (K ++ E)) c)) ch 0) t (some_key (K ++ E))
  | Extension n c =>
      TExtension (set_touched (some_key (keys_below (nseq n) K)) (flag (keys_below (nseq n) (K ++ E)) c)) t (some_key (K ++ E))
  | _ => flag K t
  end.

Lemma bflag_tracks E K t : tracks (bflag E K t) t.
Proof.
  destruct t as [|h|ch v|n c|n v]; cbn [bflag]; try apply flag_tracks; constructor; auto using set_tracks, flag_tracks.
  generalize 0 at 1. induction ch as [|c ch IHl]; intros i; cbn [map_children]; constructor; auto using set_tracks, flag_tracks. 
Qed.

Lemma bflag_track t : track t = bflag [] [] t.
Proof.
  rewrite track_flag. destruct t as [|h|ch v|n c|n v]; cbn [bflag flag app some_key]; try reflexivity.
  - f_equal. apply map_children_ext. intros. rewrite set_flag. reflexivity.
  - f_equal. rewrite set_flag. reflexivity.
Qed.

Lemma bflag_reset E K t : reset_tracked (bflag E K t) = bflag (K ++ E) [] t.
Proof.
  destruct t as [|h|ch v|n c|n v]; cbn [bflag flag app some_key reset_tracked reset_info]; try reflexivity.
  - f_equal. generalize 0 at 1 2. induction ch as [|c ch IH]; intros i; cbn [map_children map]; [reflexivity|]. rewrite reset_set. f_equal. apply IH.
  - f_equal. rewrite reset_set. reflexivity.
Qed.

Lemma mark_bflag pr t : forall E K k, wf 64 t -> hexl k -> (length k <= 64)%nat -> ~ into_hash t k -> ~ too_short t k ->
  mark pr (bflag E K t) (enc k) = Ok (ROk (bflag E (k :: K) t)).
Proof.
  intros E K k W Hk Lk I S. destruct t as [|h|ch v|n c|n v]; cbn [bflag]; try (apply (mark_flag pr _ 64); auto; lia).
  - inversion W as [| |L0 ? ? Hlen Fw| |]; subst. cbn [some_key app]. destruct k as [|d k].
    + reflexivity.
    + rewrite into_hash_branch in I. rewrite too_short_branch in S. inversion Hk; subst. cbn [length] in Lk.
      pose proof (nth_error_child16 ch d Hlen ltac:(assumption)) as Ec. pose proof (nth_error_In _ _ Ec) as Inc. rewrite Forall_forall in Fw.
      rewrite mark_branch_cons by (assumption || cbn [length]; lia).
      rewrite (with_tracked_map _ _ (fun d' c => set_touched (some_key (keys_under d' ((d :: k) :: K))) (flag (keys_under d' ((d :: k) :: K ++ E)) c)) ch 0 (N.to_nat d) (child ch d) Ec); [reflexivity|..].
      * rewrite N2Nat.id, N.add_0_l, mark_set. rewrite (mark_flag pr _ 63 _ k (Fw _ Inc) ltac:(lia) ltac:(assumption) ltac:(lia) I S).
        unfold keys_under. cbn [flat_map]. rewrite N.eqb_refl. cbn [app some_key]. change true with (some_key (k :: keys_under d (K ++ E))). rewrite set_flag. reflexivity.
      * intros j c Hj. unfold keys_under. cbn [flat_map]. rewrite N2Nat.id in Hj. rewrite (proj2 (N.eqb_neq d j)) by lia. reflexivity.
  - inversion W as [| | |L0 q c1 Hq Wc|]; subst. rewrite (into_hash_ext _ _ _ Hq) in I. rewrite (too_short_ext _ _ _ Hq) in S. cbn [some_key app].
    rewrite nseq_enc by exact Hq. destruct (strip q k) as [k'|] eqn:Es.
    + assert (EB : forall X, keys_below q (k :: X) = k' :: keys_below q X) by (intros X; unfold keys_below; cbn [flat_map]; rewrite Es; reflexivity). rewrite !EB.
      apply strip_some in Es. subst k. pose proof Hk as Hk2. apply hexl_app in Hk2. pose proof Lk as Lk2. rewrite app_length in Lk2.
      rewrite mark_ext_long by (assumption || lia). rewrite mark_set. rewrite (mark_flag pr c L0 _ k' Wc ltac:(lia) ltac:(tauto) ltac:(lia)); [|intros B; apply I; eauto|intros B; apply S; eauto].
      cbn [bind some_key]. change true with (some_key (k' :: keys_below q (K ++ E))) at 2. rewrite set_flag. reflexivity.
    + assert (EB : forall X, keys_below q (k :: X) = keys_below q X) by (intros X; unfold keys_below; cbn [flat_map]; rewrite Es; reflexivity). rewrite !EB.
      apply mark_ext_div; try assumption; try lia.
Qed.

Lemma bflag_equiv E K E' K' t : (forall k, In k K <-> In k K') -> (forall k, In k (K ++ E) <-> In k (K' ++ E')) -> bflag E K t = bflag E' K' t.
Proof.
  intros H1 H2. destruct t as [|h|ch v|n c|n v]; cbn [bflag]; try (apply flag_equiv, H1); rewrite (some_key_equiv _ _ H2); f_equal.
  - apply map_children_ext. intros j c I. rewrite (some_key_equiv (keys_under j K) (keys_under j K')) by (intros k; rewrite !keys_under_iff; apply H1).
    f_equal. apply flag_equiv. intros k. rewrite !keys_under_iff. apply H2.
  - rewrite (some_key_equiv (keys_below (nseq n) K) (keys_below (nseq n) K')) by (intros k; rewrite !keys_below_iff; apply H1).
    f_equal. apply flag_equiv. intros k. rewrite !keys_below_iff. apply H2.
Qed.

Lemma mark_all_bflag pr t ks : forall E K, wf 64 t -> Forall kwf ks ->
  (forall k, In k ks -> ~ into_hash t (nseq k)) -> (forall k, In k ks -> ~ too_short t (nseq k)) ->
  mark_all pr (bflag E K t) ks = Ok (ROk (bflag E (map nseq ks ++ K) t)).
Proof.
  induction ks as [|k ks IH]; intros E K W Kw I S; cbn [mark_all map app]; [reflexivity|]. inversion Kw; subst.
  destruct (kwf_ex k ltac:(assumption)) as (l & -> & El & Hl & Ll).
  rewrite (mark_bflag pr t E K l W Hl Ll) by (rewrite <- El; (apply I || apply S); left; reflexivity). cbn [bind].
  rewrite IH by (auto; intros; (apply I || apply S); right; assumption). f_equal. f_equal. rewrite El. apply bflag_equiv; intros k; cbn [In app]; rewrite !in_app_iff; cbn [In]; rewrite ?in_app_iff; cbn [In]; tauto.
Qed.

Lemma create_set pr t L X Y : wf L t -> (L <= 64)%nat -> fits t -> (some_key X = true -> some_key Y = true) ->
  create_from_tracked keccak pr (set_touched (some_key X) (flag Y t)) = Ok (prune keccak (match X with [] => [] | _ => Y end) t).
Proof.
  intros W HL F I. destruct X as [|x X]; cbn [some_key] in *.
  - apply (create_untouched pr _ t L); auto using set_tracks, flag_tracks. destruct t; reflexivity.
  - rewrite <- (I eq_refl), set_flag. apply (create_flag pr t L); auto.
Qed.

Lemma create_bflag pr t E K : wf 64 t -> fits t -> create_from_tracked keccak pr (bflag E K t) = Ok (prune_after keccak E K t).
Proof.
  intros W F. destruct (some_key (K ++ E)) eqn:Es.
  2:{ assert (K ++ E = []) as EQ by (destruct (K ++ E); [reflexivity|discriminate]). apply app_eq_nil in EQ. destruct EQ as [-> ->].
      rewrite <- bflag_track, track_flag. unfold prune_after. cbn [app]. apply (create_flag pr t 64); auto. }
  assert (U : forall d, some_key (keys_under d K) = true -> some_key (keys_under d (K ++ E)) = true).
  { intros d. unfold keys_under. rewrite flat_map_app. destruct (flat_map _ K); [discriminate|reflexivity]. }
  assert (B : forall d, some_key (keys_below d K) = true -> some_key (keys_below d (K ++ E)) = true).
  { intros d. unfold keys_below. rewrite flat_map_app. destruct (flat_map _ K); [discriminate|reflexivity]. }
  unfold prune_after. destruct t as [|h|ch v|n c|n v]; try (cbn [bflag]; rewrite (create_flag pr _ 64 K W ltac:(lia) F); destruct (K ++ E); reflexivity);
    rewrite (create_eq keccak K32 pr _ _ 64 (bflag_tracks E K _) W ltac:(lia) F); cbn [touched bflag]; rewrite Es; cbn [keep_of].
  - inversion W as [| |L0 ? ? Hlen Fw| |]; subst. apply fits_branch in F. destruct F as (_ & _ & Fc).
    assert (G : forall i, create_all keccak pr (map_children (fun d c => set_touched (some_key (keys_under d K)) (flag (keys_under d (K ++ E)) c)) ch i) =
                          Ok (map_children (fun d c => prune keccak (match keys_under d K with [] => [] | _ => keys_under d (K ++ E) end) c) ch i)).
    { clear - Fw Fc U K32. induction ch as [|c ch IHc]; intros i; [reflexivity|]. inversion Fw; inversion Fc; subst. cbn [map_children create_all]. fold (create_all keccak pr).
      rewrite (create_set pr c 63) by (auto; lia). cbn [bind].
      change (create_all keccak pr ((fix go (l : list node) (i : N) {struct l} := _) ch (i + 1))) with (create_all keccak pr (map_children (fun d c => set_touched (some_key (keys_under d K)) (flag (keys_under d (K ++ E)) c)) ch (i + 1))).
      rewrite IHc by assumption. reflexivity. }
    rewrite G. destruct (K ++ E); [discriminate|reflexivity].
  - inversion W as [| | |L0 q c1 Hq Wc|]; subst. cbn [fits] in F. cbn [get_nibbles_expected bind]. rewrite (create_set pr c L0) by (auto; lia).
    destruct (K ++ E); [discriminate|reflexivity].
Qed.

Lemma subsets_exact pr t kss : forall E, wf 64 t -> fits t -> Forall (Forall kwf) kss ->
  (forall ks k, In ks kss -> In k ks -> ~ into_hash t (nseq k) /\ ~ too_short t (nseq k)) ->
  create_subsets_from keccak pr (bflag E [] t) kss = Ok (ROk (prune_each keccak E (map (map nseq) kss) t)).
Proof.
  induction kss as [|ks kss IH]; intros E W F K H; cbn [create_subsets_from map prune_each]; [reflexivity|]. inversion K; subst.
  unfold create_trie_subset_intern. rewrite mark_all_bflag; auto; [|intros k I; apply (H ks k); [left; reflexivity|exact I]..].
  cbn [bind]. rewrite app_nil_r, create_bflag by assumption. cbn [bind]. rewrite bflag_reset.
  rewrite IH; auto. intros ks' k I1 I2. apply (H ks' k); [right; exact I1|exact I2].
Qed.
End H.

(** ** Marking does not depend on the flags *)
Lemma mark_mono pr a : forall b k, fle a b ->
  match mark pr a k with
  | Ok (ROk a') => exists b', mark pr b k = Ok (ROk b') /\ fle a' b'
  | Ok (RErr e) => mark pr b k = Ok (RErr e)
  | Panic => mark pr b k = Panic
  end.
Proof.
  induction a as [u b|u b|l u b IH|c u b IH|u b] using tracked_ind'; intros y k FL;
    inversion FL as [? ? ? TM|? ? ? TM|? l2 ? ? ? TM FF|? c2 ? ? ? TM FF|? ? ? TM]; subst; cbn [mark].
  - eexists. split; [reflexivity|constructor; auto].
  - destruct (is_empty k); [|reflexivity]. eexists. split; [reflexivity|constructor; auto].
  - destruct (is_empty k); [eexists; split; [reflexivity|constructor; auto]|].
    destruct (pop_next_nibble_front pr k) as [[nib k']|]; [|reflexivity]. cbn [bind].
    assert (G : match with_tracked (fun c => mark pr c k') l (N.to_nat nib) with
                | Ok (ROk l') => exists l2', with_tracked (fun c => mark pr c k') l2 (N.to_nat nib) = Ok (ROk l2') /\ Forall2 fle l' l2'
                | Ok (RErr e) => with_tracked (fun c => mark pr c k') l2 (N.to_nat nib) = Ok (RErr e)
                | Panic => with_tracked (fun c => mark pr c k') l2 (N.to_nat nib) = Panic
                end).
    { clear - IH FF. revert l2 FF. generalize (N.to_nat nib). induction l as [|x l IHl]; intros i l2 FF; inversion FF as [|? x2 ? r2 FX FR]; subst; [destruct i; reflexivity|].
      inversion IH as [|? ? IHx IHr]; subst. destruct i as [|i]; cbn [with_tracked].
      - specialize (IHx x2 k' FX). destruct (mark pr x k') as [[x'|e]|]; [destruct IHx as (x2' & -> & F); cbn [bind]; eexists; split; [reflexivity|constructor; assumption]|rewrite IHx; reflexivity..].
      - specialize (IHl IHr i r2 FR). destruct (with_tracked _ l i) as [[l'|e]|]; [destruct IHl as (l2' & -> & F); cbn [bind]; eexists; split; [reflexivity|constructor; assumption]|rewrite IHl; reflexivity..]. }
    destruct (with_tracked _ l _) as [[l'|e]|]; [destruct G as (l2' & -> & F); cbn [bind]; eexists; split; [reflexivity|constructor; auto]|rewrite G; reflexivity..].
  - destruct (get_nibbles_expected u) as [n|]; [|reflexivity]. cbn [bind]. destruct (pop_nibbles_front pr k (count n)) as [[r k']|]; [|reflexivity]. cbn [bind].
    destruct (identical_up_to_smallest pr r n) as [[]|]; [| |reflexivity]; cbn [bind].
    + specialize (IH c2 k' FF). destruct (mark pr c k') as [[c'|e]|]; [destruct IH as (c2' & -> & F); cbn [bind]; eexists; split; [reflexivity|constructor; auto]|rewrite IH; reflexivity..].
    + eexists. split; [reflexivity|constructor; auto].
  - eexists. split; [reflexivity|constructor; auto].
Qed.

Lemma mark_all_mono pr ks : forall a b, fle a b ->
  match mark_all pr a ks with
  | Ok (ROk a') => exists b', mark_all pr b ks = Ok (ROk b') /\ fle a' b'
  | Ok (RErr e) => mark_all pr b ks = Ok (RErr e)
  | Panic => mark_all pr b ks = Panic
  end.
Proof.
  induction ks as [|k ks IH]; intros a b FL; cbn [mark_all]; [eauto|].
  pose proof (mark_mono pr a b k FL) as M. destruct (mark pr a k) as [[a'|e]|]; [destruct M as (b' & -> & F); cbn [bind]; apply IH, F|rewrite M; reflexivity..].
Qed.

Lemma track_least t : forall tr, tracks tr t -> fle (track t) tr.
Proof.
  induction t as [|h|ch v IH|n c IH|n v] using node_ind'; intros tr T; inversion T as [|h0 b0|l ch0 v0 b0 FT|tc n0 c0 b0 TC|n0 v0 b0]; subst; cbn [track]; constructor; auto; try discriminate.
  clear - IH FT. revert l FT. induction ch as [|c ch IHc]; intros l FT; inversion FT; subst; cbn [map]; constructor; inversion IH; subst; auto.
Qed.
