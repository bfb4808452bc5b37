(** Histories of [HashedPartialTrie] handles. *)
From Verif Require Import Base Nibbles Trie TrieFacts Rlp Hashing Query Diff Serde DiffCache Subset SubsetFacts Cache CacheSpec CacheFacts FailFacts ReloadFacts DiffCacheFacts.
Open Scope N_scope.

Section Subsets.
Variable keccak : list N -> list N.
Variable pr : profile.
Notation rh := (right_hash keccak pr).
Notation rh_ex := (right_hash_ex keccak pr).
Notation hashed_of := (hashed_of keccak pr).

Definition hcreate_all : list hnode -> list tracked -> prog (list hnode) :=
  fix go (l : list hnode) (trs : list tracked) {struct l} : prog (list hnode) :=
    match l, trs with
    | [], _ => Ret []
    | c :: l', x :: trs' => n <~ hcreate_from_tracked keccak pr c x ;; ns <~ go l' trs' ;; Ret (n :: ns)
    | _ :: _, [] => Fail
    end.
Definition hkeep_of (t : hnode) (tr : tracked) : prog hnode :=
  match t, tr with
  | HEmpty _, _ => hempty
  | HHash _ h, _ => hhash h
  | HBranch _ children v, TBranch trs _ _ => ch <~ hcreate_all children trs ;; hbranch ch v
  | HExtension _ n child, TExtension x _ _ => c <~ hcreate_from_tracked keccak pr child x ;; hextension n c
  | HLeaf _ n v, _ => hleaf n v
  | _, _ => Fail
  end.
Lemma hcreate_eq t tr : hcreate_from_tracked keccak pr t tr =
  if touched tr then hkeep_of t tr
  else e <~ hash_intern keccak pr t ;; match e with Hashed h => hhash h | Raw _ => hkeep_of t tr end.
Proof. destruct t, tr; reflexivity. Qed.
Lemma create_eq' tr : create_from_tracked keccak pr tr =
  if touched tr then keep_of keccak pr tr
  else e <- rlp_encode_and_hash_node keccak pr (underlying tr) ;; match e with Hashed h => Ok (Hash h) | Raw _ => keep_of keccak pr tr end.
Proof. destruct tr; reflexivity. Qed.

Lemma gpost_ext g Q b V b' V' x : ext b V b' V' -> gpost rh Q b V g x -> gpost rh Q b' V' g x.
Proof. intros E H t b'' V'' E' K B G R. apply H; auto; [eapply ext_trans; eauto|destruct E; lia]. Qed.

Definition create_wp (t : hnode) : Prop := forall g tr x b V Q,
  tracks tr (erase t) -> kids rh b V t -> (touched tr = false -> good keccak pr b V t) ->
  create_from_tracked keccak pr tr = Ok x -> gpost rh Q b V g x -> wp (hcreate_from_tracked keccak pr t tr) b V Q.

Lemma create_wp_coh t tr x b V (Q : hnode -> N -> ghost -> Prop) : create_wp t -> tracks tr (erase t) -> coh rh b V t ->
  create_from_tracked keccak pr tr = Ok x -> post rh Q b V x -> wp (hcreate_from_tracked keccak pr t tr) b V Q.
Proof.
  intros CW T C E H. destruct (gpost_post rh rh_ex _ _ _ _ H) as [g G].
  eapply (CW g); [exact T|apply coh_kids, C|intros _; apply coh_good, C|exact E|exact G].
Qed.

Lemma wp_hcreate t : create_wp t.
Proof.
  induction t as [c|c h|c ch val IH|c n t IH|c n val] using hnode_ind'; intros g tr x b V Q T K Gd E H;
    rewrite hcreate_eq; rewrite create_eq' in E;
    match goal with |- wp (if _ then hkeep_of ?t _ else _) _ _ _ =>
      assert (KP : forall b' V', ext b V b' V' -> keep_of keccak pr tr = Ok x -> wp (hkeep_of t tr) b' V' Q)
    end;
    try match goal with |- wp (if _ then _ else _) _ _ _ =>
      destruct (touched tr) eqn:Tc; [apply KP; [apply ext_refl|exact E]|];
      rewrite (tracks_underlying _ _ T) in E; okbind E;
      apply wp_bind; refine (proj2 (wp_hash keccak pr _ _ b V _ E0) (Gd eq_refl) K _);
      match goal with a : encoded_node |- _ => destruct a as [r|h'] end;
      [apply KP; [apply ext_refl|exact E]|injection E as <-; eapply wpg_hhash; exact H]
    end;
    intros b' V' X E'; clear E Gd; apply (gpost_ext _ _ _ _ _ _ _ X) in H; apply (kids_ext _ _ _ _ _ _ X) in K;
    clear X b V; rename b' into b, V' into V;
    inversion T; subst; cbn [keep_of hkeep_of] in *.
  - injection E' as <-. eapply wpg_hempty, H.
  - injection E' as <-. eapply wpg_hhash, H.
  - apply kids_branch in K. okbind E'. cbn [get_branch_value_expected bind] in E'. injection E' as <-.
    assert (S : forall chs trs ns b V (Q' : list hnode -> N -> ghost -> Prop), Forall (coh rh b V) chs -> Forall create_wp chs ->
                Forall2 tracks trs (map erase chs) -> create_all keccak pr trs = Ok ns ->
                (forall l b' V', ext b V b' V' -> Forall (coh rh b' V') l -> map erase l = ns -> Q' l b' V') ->
                wp (hcreate_all chs trs) b V Q').
    { clear. intros chs. induction chs as [|t chs IHc]; intros trs ns b V Q' FC FW F2 E H; cbn [hcreate_all map] in *.
      - inversion F2; subst. injection E as <-. apply H; [apply ext_refl|constructor|reflexivity].
      - inversion F2 as [|tr ? trs' ? T F2']; subst. inversion FC; subst. inversion FW; subst. cbn [create_all] in E.
        okbind E. okbind E. injection E as <-. apply wp_bind. eapply create_wp_coh; eauto.
        intros u b1 V1 X1 C1 R1. apply wp_bind. eapply IHc; eauto; [eapply cohs_ext; eauto|].
        intros l b2 V2 X2 C2 R2. cbn [wp]. apply H; [eapply ext_trans; eauto| |cbn [map]; rewrite R1, R2; reflexivity].
        constructor; [eapply coh_ext; eauto|exact C2]. }
    apply wp_bind. eapply S; eauto. intros l0 b1 V1 X1 C1 R1. eapply wpg_hbranch; [exact C1|]. rewrite R1.
    eapply gpost_ext; eauto.
  - apply kids_extension in K. cbn [get_nibbles_expected bind] in E'. okbind E'. injection E' as <-.
    apply wp_bind. eapply create_wp_coh; eauto. intros u b1 V1 X1 C1 R1. eapply wpg_hextension; [exact C1|]. rewrite R1.
    eapply gpost_ext; eauto.
  - cbn in E'. injection E' as <-. eapply wpg_hleaf, H.
Qed.

Lemma mark_all_touched ks : forall tr tr', mark_all pr tr ks = Ok (ROk tr') -> ks <> [] -> touched tr' = true.
Proof.
  assert (M : forall tr k tr', mark pr tr k = Ok (ROk tr') -> touched tr' = true).
  { intros tr k tr' E. destruct tr; cbn [mark] in E.
    - injection E as <-. reflexivity.
    - destruct (is_empty k); [|discriminate]. injection E as <-. reflexivity.
    - destruct (is_empty k); [injection E as <-; reflexivity|]. okbind E. destruct a as [nib k']. okbind E.
      destruct a as [l|]; [|discriminate]. injection E as <-. reflexivity.
    - okbind E. okbind E. destruct a0 as [r k']. okbind E. destruct a0.
      + okbind E. destruct a0; [|discriminate]. injection E as <-. reflexivity.
      + injection E as <-. reflexivity.
    - injection E as <-. reflexivity. }
  intros tr tr' E NE. destruct ks as [|k ks]; [contradiction|]. cbn [mark_all] in E. okbind E.
  destruct a as [tr1|]; [|discriminate]. eapply fle_touched; [eapply mark_all_fle; eauto|eauto].
Qed.

Lemma mark_all_tracks ks tr tr' t : mark_all pr tr ks = Ok (ROk tr') -> tracks tr t -> tracks tr' t.
Proof. intros E. apply fle_tracks. eapply mark_all_fle, E. Qed.

(** New handles, with the marks [g] for their cells. *)
Definition new_handles (g : node -> nat -> option (list N) * bool) (n : nat) (b b' : N) (V' : ghost) (l : list hnode) : Prop :=
  NoDup (map cell l) /\ Forall (kids rh b' V') l /\ Forall (fun t => b <= cell t < b') l /\
  forall i t, nth_error l i = Some t -> V' (cell t) = g (erase t) (n + i)%nat.

Lemma wp_hsubset g t ks r b V (Q : result hnode subset_error -> N -> ghost -> Prop) :
  kids rh b V t -> (ks = [] -> good keccak pr b V t) -> create_trie_subset keccak pr (erase t) ks = Ok r ->
  match r with
  | ROk x => gpost rh (fun t => Q (ROk t)) b V g x
  | RErr e => forall b' V', ext b V b' V' -> Q (RErr e) b' V'
  end -> wp (hcreate_trie_subset keccak pr t ks) b V Q.
Proof.
  intros K Gd E H. unfold create_trie_subset, create_trie_subset_intern, hcreate_trie_subset in *.
  okbind E. injection E as E. okbind E0. destruct a0 as [tr|e]; cbn [lift pbind].
  - okbind E0. injection E0 as <-. subst r. apply wp_bind. eapply (wp_hcreate t g); [|exact K| |eassumption|].
    + eapply mark_all_tracks; [eassumption|apply track_tracks].
    + intros F. apply Gd. destruct ks; [reflexivity|]. erewrite mark_all_touched in F; [discriminate|eassumption|discriminate].
    + intros u b1 V1 X1 K1 B1 G1 R1. cbn [wp]. apply H; auto.
  - injection E0 as <-. subst r. apply H, ext_refl.
Qed.

Lemma good_ext b V b' V' t : ext b V b' V' -> good keccak pr b V t -> good keccak pr b' V' t.
Proof. intros [E1 E2] [A B]. split; [lia|]. rewrite E2 by exact A. exact B. Qed.

Lemma new_handles_nil g n b V : new_handles g n b b V [].
Proof. repeat split; try constructor. intros [|i] t E; discriminate. Qed.

Lemma new_handles_cons g n b V b1 V1 b' V' t l :
  ext b V b1 V1 -> kids rh b1 V1 t -> b <= cell t < b1 -> V1 (cell t) = g (erase t) n ->
  ext b1 V1 b' V' -> new_handles g (S n) b1 b' V' l -> new_handles g n b b' V' (t :: l).
Proof.
  intros X K B G X' (ND & FK & FB & FG). destruct X as [X1 X2]. destruct X' as [X1' X2']. repeat split.
  - cbn [map]. constructor; [|exact ND]. intros I. apply in_map_iff in I. destruct I as (u & Eu & Iu).
    rewrite Forall_forall in FB. specialize (FB u Iu). lia.
  - constructor; [eapply kids_ext; [|exact K]; split; auto|exact FK].
  - constructor; [lia|]. rewrite Forall_forall in *. intros u Iu. specialize (FB u Iu). lia.
  - intros [|i] u E; cbn [nth_error] in E.
    + injection E as <-. rewrite X2', G by lia. f_equal. lia.
    + rewrite (FG i u E). f_equal. lia.
Qed.

Lemma wp_hsubsets g t kss : forall n tr r b V (Q : result (list hnode) subset_error -> N -> ghost -> Prop),
  tracks tr (erase t) -> kids rh b V t -> (In [] kss -> good keccak pr b V t) ->
  create_subsets_from keccak pr tr kss = Ok r ->
  match r with
  | ROk xs => forall l b' V', ext b V b' V' -> new_handles g n b b' V' l -> map erase l = xs -> Q (ROk l) b' V'
  | RErr e => forall b' V', ext b V b' V' -> Q (RErr e) b' V'
  end -> wp (hcreate_subsets_from keccak pr t tr kss) b V Q.
Proof.
  induction kss as [|ks kss IH]; intros n tr r b V Q T K Gd E H; cbn [create_subsets_from hcreate_subsets_from] in *.
  - injection E as <-. apply H; [apply ext_refl|apply new_handles_nil|reflexivity].
  - okbind E. unfold create_trie_subset_intern in E0. okbind E0. destruct a0 as [tr'|e].
    + okbind E0. injection E0 as <-. cbn [lift pbind]. okbind E.
      assert (T' : tracks tr' (erase t)) by (eapply mark_all_tracks; eauto).
      apply wp_bind. eapply (wp_hcreate t (g a0 n)); [exact T'|exact K| |eassumption|].
      * intros F. apply Gd. left. destruct ks; [reflexivity|]. erewrite mark_all_touched in F; [discriminate|eassumption|discriminate].
      * intros u b1 V1 X1 K1 B1 G1 R1. apply wp_bind. eapply (IH (S n)); [apply reset_tracks, T'|eapply kids_ext; eauto| |eassumption|].
        { intros I. eapply good_ext; [exact X1|]. apply Gd. right. exact I. }
        destruct a as [xs|e]; injection E as <-; cbn [wp].
        -- intros l b2 V2 X2 N2 R2. apply H; [eapply ext_trans; eauto| |cbn [map]; congruence].
           eapply new_handles_cons; eauto. rewrite R1. exact G1.
        -- intros b2 V2 X2. apply H. eapply ext_trans; eauto.
    + injection E0 as <-. injection E as <-. cbn [lift pbind]. apply H, ext_refl.
Qed.

(** ** The invariant *)
Definition mark_of (K : nat -> kind) (x : node) (i : nat) : option (list N) * bool :=
  match K i with
  | Plain => (None, true)
  | Single => (hashed_of x, true)
  | View => (hashed_of x, false)
  end.

(** The contents of the handle [ex] may have changed. *)
Definition slot (K : nat -> kind) (ex : option nat) (V : ghost) (t : hnode) (i : nat) : Prop :=
  if (match ex with Some j => Nat.eqb i j | None => false end)
  then exists y, V (cell t) = mark_of K y i else V (cell t) = mark_of K (erase t) i.
Record inv (K : nat -> kind) (ex : option nat) (b : N) (V : ghost) (hs : list hnode) : Prop := Inv {
  inv_slot : forall i t, nth_error hs i = Some t -> kids rh b V t /\ cell t < b /\ slot K ex V t i;
  inv_single : forall i j t u, nth_error hs i = Some t -> nth_error hs j = Some u -> K i = Single -> i <> j -> cell t <> cell u
}.
Definition target (o : op) : option nat :=
  match o with Insert i _ _ | Extend i _ | Delete i _ => Some i | _ => None end.

Lemma the_map hs i x : the (map erase hs) i = Ok x -> exists t, nth_error hs i = Some t /\ the hs i = Ok t /\ erase t = x.
Proof.
  unfold the. rewrite nth_error_map. destruct (nth_error hs i) as [t|]; cbn [option_map]; intros E; [|discriminate].
  injection E as <-. eauto.
Qed.
Lemma pick_map hs is : forall xs, pick (map erase hs) is = Ok xs ->
  exists l, pick hs is = Ok l /\ map erase l = xs /\ Forall (fun t => exists i, In i is /\ nth_error hs i = Some t) l.
Proof.
  induction is as [|i is IH]; cbn [pick]; intros xs E; [injection E as <-; exists []; auto|].
  okbind E. destruct (the_map _ _ _ E0) as (t & Et & -> & <-). okbind E. injection E as <-.
  destruct (IH _ eq_refl) as (l & -> & <- & F). cbn [bind]. exists (t :: l). split; [reflexivity|]. split; [reflexivity|].
  constructor; [exists i; split; [left; reflexivity|exact Et]|].
  eapply Forall_impl; [|exact F]. intros u (j & Ij & Ej). exists j. split; [right; exact Ij|exact Ej].
Qed.
Lemma wp_hmake hv g hs p x b V (Q : hnode -> N -> ghost -> Prop) :
  (forall i t, In i (taken p) -> nth_error hs i = Some t -> coh hv b V t) -> vmake (map erase hs) p = Ok x ->
  gpost hv Q b V g x -> wp (hmake hs p) b V Q.
Proof.
  intros C E0 G. destruct p as [|h|k v|k i|is v]; cbn [vmake hmake taken] in *.
  - injection E0 as <-. eapply wpg_hempty, G.
  - injection E0 as <-. eapply wpg_hhash, G.
  - injection E0 as <-. eapply wpg_hleaf, G.
  - okbind E0. destruct (the_map _ _ _ E) as (t & Et & -> & <-). injection E0 as <-. cbn [lift pbind].
    eapply wpg_hextension; [|exact G]. apply (C i t); [left; reflexivity|exact Et].
  - destruct (Nat.eqb (length is) 16); [|discriminate]. okbind E0. destruct (pick_map _ _ _ E) as (l & -> & <- & F).
    injection E0 as <-. cbn [lift pbind]. eapply wpg_hbranch; [|exact G].
    eapply Forall_impl; [|exact F]. intros t (i & Ii & Et). eapply C; eauto.
Qed.
Lemma map_replace {A B} (f : A -> B) l : forall i x, map f (replace l i x) = replace (map f l) i (f x).
Proof. induction l as [|y l IH]; intros [|i] x; cbn [replace map]; [reflexivity..|]. rewrite IH. reflexivity. Qed.
Lemma nth_replace {A} (l : list A) : forall i j x y, nth_error (replace l i x) j = Some y ->
  (i = j /\ y = x) \/ (i <> j /\ nth_error l j = Some y).
Proof.
  induction l as [|z l IH]; intros i j x y E; [destruct i, j; discriminate|].
  destruct i as [|i], j as [|j]; cbn [replace nth_error] in *.
  - injection E as <-. auto.
  - right. split; [lia|exact E].
  - right. split; [lia|exact E].
  - destruct (IH _ _ _ _ E) as [[-> ->]|[N E']]; [auto|right; split; [lia|exact E']].
Qed.

Lemma inv_ext K ex b V b' V' hs : ext b V b' V' -> inv K ex b V hs -> inv K ex b' V' hs.
Proof.
  intros X [I1 I2]. split; [|exact I2]. intros i t E. destruct (I1 i t E) as (A & B & C). destruct X as [X1 X2].
  repeat split; [eapply kids_ext; [split; eauto|exact A]|lia|]. unfold slot in *. rewrite X2 by exact B. exact C.
Qed.

Lemma inv_replace K b V b' V' hs i t t' :
  inv K None b V hs -> nth_error hs i = Some t -> ext b V b' V' -> kids rh b' V' t' -> cell t' = cell t ->
  inv K (Some i) b' V' (replace hs i t').
Proof.
  intros I E X K' C. pose proof (inv_ext _ _ _ _ _ _ _ X I) as [J1 J2]. split.
  - intros j u Eu. destruct (nth_replace _ _ _ _ _ Eu) as [[<- ->]|[Ne Eu']].
    + destruct (J1 i t E) as (A & B & S). rewrite C. repeat split; auto. unfold slot in *. rewrite Nat.eqb_refl, C. eauto.
    + destruct (J1 j u Eu') as (A & B & S). repeat split; auto. unfold slot in *.
      destruct (Nat.eqb_spec j i); [congruence|exact S].
  - assert (G : forall j u, nth_error (replace hs i t') j = Some u -> exists u', nth_error hs j = Some u' /\ cell u = cell u').
    { intros j u Eu. destruct (nth_replace _ _ _ _ _ Eu) as [[<- ->]|[Ne Eu']]; eauto. }
    intros j1 j2 u1 u2 E1 E2 Kj Ne. destruct (G _ _ E1) as (u1' & E1' & ->). destruct (G _ _ E2) as (u2' & E2' & ->). eauto.
Qed.

Lemma inv_app K b V b' V' hs l :
  inv K None b V hs -> ext b V b' V' -> new_handles (mark_of K) (length hs) b b' V' l -> inv K None b' V' (hs ++ l).
Proof.
  intros I X (ND & FK & FB & FG). pose proof (inv_ext _ _ _ _ _ _ _ X I) as [J1 J2].
  assert (G : forall i t, nth_error (hs ++ l) i = Some t -> nth_error hs i = Some t /\ cell t < b \/
              (length hs <= i)%nat /\ nth_error l (i - length hs) = Some t /\ b <= cell t).
  { intros i t E. destruct (Nat.lt_ge_cases i (length hs)).
    - rewrite nth_error_app1 in E by assumption. left. split; [exact E|]. apply (inv_slot _ _ _ _ _ I i t E).
    - rewrite nth_error_app2 in E by assumption. right. repeat split; [assumption|exact E|].
      rewrite Forall_forall in FB. apply nth_error_In in E. apply FB in E. lia. }
  split.
  - intros i t E. destruct (G i t E) as [[E' _]|(Hi & E' & _)]; [apply J1, E'|].
    pose proof (nth_error_In _ _ E') as In'. rewrite Forall_forall in FK, FB. specialize (FB t In').
    repeat split; [apply FK, In'|lia|]. unfold slot. rewrite (FG _ _ E'). f_equal. lia.
  - intros i j t u Ei Ej Ki Ne. destruct (G i t Ei) as [[Ei' Bi]|(Hi & Ei' & Bi)], (G j u Ej) as [[Ej' Bj]|(Hj & Ej' & Bj)];
      [eauto|lia|lia|].
    intros C. assert (i - length hs = j - length hs)%nat; [|lia].
    apply (proj1 (NoDup_nth_error (map cell l)) ND).
    + rewrite map_length. apply nth_error_Some. rewrite Ei'. discriminate.
    + rewrite !nth_error_map, Ei', Ej'. cbn. rewrite C. reflexivity.
Qed.

Lemma new_handles_one g n b b' V' t : kids rh b' V' t -> b <= cell t < b' -> V' (cell t) = g (erase t) n -> new_handles g n b b' V' [t].
Proof.
  intros K B G. repeat split.
  - cbn [map]. constructor; [intros []|constructor].
  - auto.
  - constructor; auto.
  - intros [|[|i]] u E; cbn [nth_error] in E; try discriminate. injection E as <-. rewrite Nat.add_0_r. exact G.
Qed.

Lemma hsubtrie_erase path : forall t x, subtrie (erase t) path = Ok x -> exists s, hsubtrie t path = Ok s /\ erase s = x.
Proof.
  induction path as [|d path IH]; intros t x E; [injection E as <-; exists t; auto|].
  destruct t as [c|c h|c ch v|c n t|c n v]; cbn [subtrie erase hsubtrie] in *; try discriminate.
  - okbind E. destruct (the_map _ _ _ E0) as (u & _ & -> & <-). cbn [bind]. auto.
  - auto.
Qed.
Lemma hsubtrie_coh path : forall b V t s, coh rh b V t -> hsubtrie t path = Ok s -> coh rh b V s.
Proof.
  induction path as [|d path IH]; intros b V t s C E; [injection E as <-; exact C|].
  apply coh_kids in C. destruct t as [c|c h|c ch v|c n t|c n v]; cbn [hsubtrie] in *; try discriminate.
  - unfold the in E. destruct (nth_error ch d) as [u|] eqn:En; [|discriminate]. cbn [bind] in E. apply kids_branch in C.
    rewrite Forall_forall in C. eapply IH; [apply C; eapply nth_error_In, En|exact E].
  - apply kids_extension in C. eauto.
Qed.
Lemma hsubtrie_kids path b V t s : path <> [] -> kids rh b V t -> hsubtrie t path = Ok s -> coh rh b V s.
Proof.
  intros NE C E. destruct path as [|d path]; [contradiction|].
  destruct t as [c|c h|c ch v|c n t|c n v]; cbn [hsubtrie] in *; try discriminate.
  - unfold the in E. destruct (nth_error ch d) as [u|] eqn:En; [|discriminate]. cbn [bind] in E. apply kids_branch in C.
    rewrite Forall_forall in C. eapply hsubtrie_coh; [apply C; eapply nth_error_In, En|exact E].
  - apply kids_extension in C. eapply hsubtrie_coh; eauto.
Qed.

Lemma bytes_eqb_spec a : forall b, reflect (a = b) (bytes_eqb a b).
Proof.
  induction a as [|x a IH]; intros [|y b]; cbn [bytes_eqb]; try (constructor; congruence).
  destruct (N.eqb_spec x y); cbn [andb]; [|constructor; congruence]. destruct (IH b); constructor; congruence.
Qed.
Lemma nib_eqb_spec a b : reflect (a = b) (nib_eqb a b).
Proof.
  unfold nib_eqb. destruct a as [ca pa], b as [cb pb]. cbn [count packed].
  destruct (N.eqb_spec ca cb), (N.eqb_spec pa pb); constructor; congruence.
Qed.
Lemma node_eqb_spec a : forall b, node_eqb a b = true <-> a = b.
Proof.
  induction a as [|h|ch v IH|n c IH|n v] using node_ind'; intros [|h'|ch' v'|n' c'|n' v']; cbn [node_eqb];
    try (split; intro; congruence).
  - destruct (bytes_eqb_spec h h'); split; intro; congruence.
  - destruct (bytes_eqb_spec v v'); cbn [andb]; [|split; intro; congruence].
    match goal with |- ?f ch ch' = true <-> _ => assert (G : f ch ch' = true <-> ch = ch') end.
    { clear e v v'. revert ch'. induction IH as [|c ch Hc F IHF]; intros [|c' ch']; try (split; intro; congruence).
      rewrite andb_true_iff, Hc, IHF. split; [intros [-> ->]; reflexivity|intros H; injection H; auto]. }
    rewrite G. split; intro; congruence.
  - destruct (nib_eqb_spec n n'); cbn [andb]; [|split; intro; congruence]. rewrite IH. split; intro; congruence.
  - destruct (nib_eqb_spec n n'); cbn [andb]; [|split; intro; congruence]. destruct (bytes_eqb_spec v v'); split; intro; congruence.
Qed.
Lemma heqb_erase a : forall b, heqb a b = node_eqb (erase a) (erase b).
Proof.
  induction a as [c|c h|c ch v IH|c n t IH|c n v] using hnode_ind'; intros [c'|c' h'|c' ch' v'|c' n' t'|c' n' v'];
    cbn [heqb erase node_eqb]; try reflexivity.
  - f_equal. revert ch'. induction IH as [|t ch Ht F IHF]; intros [|t' ch']; cbn [map]; try reflexivity.
    rewrite Ht, IHF. reflexivity.
  - rewrite IH. reflexivity.
Qed.

(** ** Steps *)
Definition spost (K : nat -> kind) (o : op) cells ts' x (r : list hnode * obs) (b' : N) (V' : ghost) : Prop :=
  map erase (fst r) = ts' /\ snd r = x /\ inv K (target o) b' V' (fst r) /\ (target o <> None -> map cell (fst r) = cells).

Lemma slot_ex K V t i : slot K (Some i) V t i -> exists y, V (cell t) = mark_of K y i.
Proof. unfold slot. rewrite Nat.eqb_refl. exact (fun H => H). Qed.
Lemma slot_mark K V t i : slot K None V t i -> V (cell t) = mark_of K (erase t) i.
Proof. exact (fun H => H). Qed.

Lemma inv_weaken K ex b V hs : inv K None b V hs -> inv K ex b V hs.
Proof.
  intros [I1 I2]. split; [|exact I2]. intros i t E. destruct (I1 i t E) as (A & B & C). repeat split; auto.
  unfold slot in *. destruct ex as [j|]; [|exact C]. destruct (Nat.eqb i j); eauto.
Qed.

Lemma wp_hfrom_iter g l x b V Q : from_iter pr l = Ok x -> gpost rh Q b V g x -> wp (hfrom_iter pr l) b V Q.
Proof.
  intros E H. unfold hfrom_iter. apply wp_bind. eapply (wpg_hempty rh g). intros t b1 V1 X1 K1 B1 G1 R1.
  eapply (wp_hextend pr rh rh_ex); [exact K1|lia|rewrite R1; exact E|].
  intros u b2 V2 X2 K2 C2 R2. apply H; auto.
  - eapply ext_trans; eauto.
  - rewrite C2. destruct X2. lia.
  - rewrite C2. destruct X2 as [_ X2]. rewrite X2 by lia. exact G1.
Qed.

Lemma good_root K b V hs i t : inv K None b V hs -> nth_error hs i = Some t -> K i <> Plain -> good keccak pr b V t.
Proof.
  intros I E Ki. destruct (inv_slot _ _ _ _ _ I i t E) as (_ & B & S). apply slot_mark in S. split; [exact B|]. rewrite S.
  unfold mark_of. destruct (K i); [contradiction|reflexivity|reflexivity].
Qed.

Lemma inv_handle K b V hs i t : inv K None b V hs -> nth_error hs i = Some t -> handle_ok keccak pr b V t.
Proof.
  intros I E. destruct (inv_slot _ _ _ _ _ I i t E) as (A & B & S). apply slot_mark in S. split; [exact A|]. split; [exact B|].
  rewrite S. unfold mark_of. destruct (K i); cbn [fst]; [discriminate|auto|auto].
Qed.

Lemma replace_same {A} (l : list A) : forall i x, nth_error l i = Some x -> replace l i x = l.
Proof. induction l as [|y l IH]; intros [|i] x E; cbn [replace nth_error] in *; try discriminate; [congruence|]. rewrite IH by exact E. reflexivity. Qed.

Lemma wp_hstep K hs o ts' x b V :
  inv K None b V hs -> legal K (length hs) o -> vstep keccak pr (map erase hs) o = Ok (ts', x) ->
  wp (hstep keccak pr hs o) b V (spost K o (map cell hs) ts' x).
Proof.
  intros I L E.
  assert (NT : forall P : Prop, @None nat <> None -> P) by (intros P H; destruct (H eq_refl)).
  assert (AP : forall l b' V', ext b V b' V' -> new_handles (mark_of K) (length hs) b b' V' l ->
          map erase (hs ++ l) = map erase hs ++ map erase l /\ inv K None b' V' (hs ++ l)).
  { intros l b' V' X NH. split; [apply map_app|eapply inv_app; eauto]. }
  destruct o as [l|i k v|i l|i k|i k|i|i j|i|i path|i j|i ks|i kss|i|i j|p]; cbn [vstep hstep legal] in *; unfold spost; cbn [target].
  - (* New *) okbind E. injection E as <- <-. apply wp_bind. eapply wp_hfrom_iter; [eassumption|].
    intros t b1 V1 X1 K1 B1 G1 R1. cbn [wp fst snd]. destruct (AP [t] b1 V1 X1) as [A1 A2].
    { apply new_handles_one; [exact K1|exact B1|]. rewrite R1. exact G1. }
    rewrite A1. cbn [map]. rewrite R1. (split; [reflexivity|]; split; [reflexivity|]; split; [assumption|apply NT]).
  - (* Insert *) okbind E. destruct (the_map _ _ _ E0) as (t & Et & -> & <-). okbind E. injection E as <- <-. cbn [lift pbind].
    destruct (inv_slot _ _ _ _ _ I i t Et) as (Kt & Bt & _).
    apply wp_bind. eapply (wp_hinsert pr rh rh_ex); [exact Kt|exact Bt|eassumption|].
    intros u b1 V1 X1 K1 C1 R1. cbn [wp fst snd]. rewrite map_replace, R1. split; [reflexivity|]. split; [reflexivity|].
    split; [eapply inv_replace; eauto|]. intros _. rewrite map_replace, C1. apply replace_same. rewrite nth_error_map, Et. reflexivity.
  - (* Extend *) okbind E. destruct (the_map _ _ _ E0) as (t & Et & -> & <-). okbind E. injection E as <- <-. cbn [lift pbind].
    destruct (inv_slot _ _ _ _ _ I i t Et) as (Kt & Bt & _).
    apply wp_bind. eapply (wp_hextend pr rh rh_ex); [exact Kt|exact Bt|eassumption|].
    intros u b1 V1 X1 K1 C1 R1. cbn [wp fst snd]. rewrite map_replace, R1. split; [reflexivity|]. split; [reflexivity|].
    split; [eapply inv_replace; eauto|]. intros _. rewrite map_replace, C1. apply replace_same. rewrite nth_error_map, Et. reflexivity.
  - (* Delete *) okbind E. destruct (the_map _ _ _ E0) as (t & Et & -> & <-). okbind E. destruct a as [x' d]. injection E as <- <-.
    cbn [lift pbind]. destruct (inv_slot _ _ _ _ _ I i t Et) as (Kt & Bt & _).
    apply wp_bind. eapply (wp_hdelete pr rh rh_ex); [exact Kt|exact Bt|eassumption|].
    intros u b1 V1 X1 K1 C1 R1. cbn [wp fst snd]. rewrite map_replace, R1. split; [reflexivity|]. split; [reflexivity|].
    split; [eapply inv_replace; eauto|]. intros _. rewrite map_replace, C1. apply replace_same. rewrite nth_error_map, Et. reflexivity.
  - (* Get *) okbind E. destruct (the_map _ _ _ E0) as (t & Et & -> & <-). okbind E. injection E as <- <-. cbn [lift pbind].
    unfold hget. rewrite E1. cbn [lift pbind wp fst snd]. (split; [reflexivity|]; split; [reflexivity|]; split; [assumption|apply NT]).
  - (* HashOf *) okbind E. destruct (the_map _ _ _ E0) as (t & Et & -> & <-). okbind E. injection E as <- <-. cbn [lift pbind].
    destruct (inv_slot _ _ _ _ _ I i t Et) as (Kt & Bt & S). apply slot_mark in S.
    apply wp_bind. eapply wp_hhash_of; [exact Kt|exact Bt| |eassumption|cbn [wp fst snd]; (split; [reflexivity|]; split; [reflexivity|]; split; [assumption|apply NT])].
    rewrite S. unfold mark_of. intros h'. destruct (K i); cbn [fst]; [discriminate|auto|auto].
  - (* Equal *) okbind E. destruct (the_map _ _ _ E0) as (t & Et & -> & <-). okbind E.
    destruct (the_map _ _ _ E1) as (u & Eu & -> & <-). injection E as <- <-. cbn [lift pbind wp fst snd].
    rewrite heqb_erase. (split; [reflexivity|]; split; [reflexivity|]; split; [assumption|apply NT]).
  - (* Clone *) okbind E. destruct (the_map _ _ _ E0) as (t & Et & -> & <-). injection E as <- <-. cbn [lift pbind wp fst snd].
    rewrite map_app. cbn [map]. split; [reflexivity|]. split; [reflexivity|]. split; [|apply NT]. split.
    + intros j u Ej. destruct (Nat.lt_ge_cases j (length hs)).
      * rewrite nth_error_app1 in Ej by assumption. apply (inv_slot _ _ _ _ _ I j u Ej).
      * rewrite nth_error_app2 in Ej by assumption. destruct (j - length hs)%nat as [|[|m]] eqn:Ed; cbn [nth_error] in Ej; try discriminate.
        injection Ej as <-. replace j with (length hs) by lia. destruct (inv_slot _ _ _ _ _ I i t Et) as (A & B & S).
        repeat split; auto. unfold slot, mark_of in *. destruct L as [_ L]. rewrite L. exact S.
    + assert (G : forall j u, nth_error (hs ++ [t]) j = Some u -> K j = Single -> nth_error hs j = Some u).
      { intros j u Ej Kj. destruct (Nat.lt_ge_cases j (length hs)).
        - rewrite nth_error_app1 in Ej by assumption. exact Ej.
        - exfalso. rewrite nth_error_app2 in Ej by assumption. destruct (j - length hs)%nat as [|[|m]] eqn:Ed; cbn [nth_error] in Ej; try discriminate.
          assert (j = length hs) by lia. subst j. destruct L as [L1 L2]. congruence. }
      intros j1 j2 u1 u2 E1 E2 Kj Ne. pose proof (G _ _ E1 Kj) as E1'.
      destruct (Nat.lt_ge_cases j2 (length hs)).
      * rewrite nth_error_app1 in E2 by assumption. eapply (inv_single _ _ _ _ _ I j1 j2); eauto.
      * rewrite nth_error_app2 in E2 by assumption. destruct (j2 - length hs)%nat as [|[|m]] eqn:Ed; cbn [nth_error] in E2; try discriminate.
        injection E2 as <-. eapply (inv_single _ _ _ _ _ I j1 i); eauto. intros ->. destruct L as [L1 _]. contradiction.
  - (* SubTrie *) okbind E. destruct (the_map _ _ _ E0) as (t & Et & -> & <-). okbind E. injection E as <- <-.
    destruct (hsubtrie_erase _ _ _ E1) as (u & Eu & <-). rewrite Eu. cbn [lift pbind wp fst snd].
    destruct (inv_slot _ _ _ _ _ I i t Et) as (Kt & Bt & _). destruct L as [Lp L].
    pose proof (hsubtrie_kids _ _ _ _ _ Lp Kt Eu) as C. apply coh_iff in C. destruct C as [[Bu Vu] Ku]. unfold right_hash in Vu.
    rewrite map_app. cbn [map]. split; [reflexivity|]. split; [reflexivity|]. split; [|apply NT]. split.
    + intros j w Ej. destruct (Nat.lt_ge_cases j (length hs)).
      * rewrite nth_error_app1 in Ej by assumption. apply (inv_slot _ _ _ _ _ I j w Ej).
      * rewrite nth_error_app2 in Ej by assumption. destruct (j - length hs)%nat as [|[|m]] eqn:Ed; cbn [nth_error] in Ej; try discriminate.
        injection Ej as <-. replace j with (length hs) by lia. repeat split; auto. unfold slot, mark_of. rewrite L. exact Vu.
    + intros j1 j2 u1 u2 E1' E2 Kj Ne.
      destruct (Nat.lt_ge_cases j1 (length hs)).
      * rewrite nth_error_app1 in E1' by assumption. destruct (Nat.lt_ge_cases j2 (length hs)).
        -- rewrite nth_error_app1 in E2 by assumption. eapply (inv_single _ _ _ _ _ I j1 j2); eauto.
        -- rewrite nth_error_app2 in E2 by assumption. destruct (j2 - length hs)%nat as [|[|m]] eqn:Ed; cbn [nth_error] in E2; try discriminate.
           injection E2 as <-. destruct (inv_slot _ _ _ _ _ I j1 u1 E1') as (_ & _ & S). apply slot_mark in S.
           intros C. rewrite C in S. rewrite Vu in S. unfold mark_of in S. rewrite Kj in S. discriminate.
      * rewrite nth_error_app2 in E1' by assumption. destruct (j1 - length hs)%nat as [|[|m]] eqn:Ed; cbn [nth_error] in E1'; try discriminate.
        assert (j1 = length hs) by lia. subst j1. congruence.
  - (* Assign *) okbind E. destruct (the_map _ _ _ E0) as (t & Et & -> & <-). okbind E.
    destruct (the_map _ _ _ E1) as (u & Eu & -> & <-). injection E as <- <-. cbn [lift pbind wp fst snd].
    rewrite map_replace, erase_with_cell. split; [reflexivity|]. split; [reflexivity|]. split; [|apply NT]. split.
    + destruct (inv_slot _ _ _ _ _ I j u Eu) as (Ku & _ & _).
      pose proof (inv_replace K b V b V hs i t (with_cell (cell t) u) I Et (ext_refl _ _)
                   (proj2 (kids_with_cell _ _ _ _ _) Ku) (cell_with_cell _ _)) as [J1 J2].
      intros m w Em. destruct (J1 m w Em) as (A & B & S). repeat split; auto. unfold slot, mark_of in *.
      destruct (Nat.eqb_spec m i) as [->|]; [|exact S]. destruct S as [y S]. rewrite L in *. exact S.
    + destruct (inv_slot _ _ _ _ _ I j u Eu) as (Ku & _ & _).
      apply (inv_replace K b V b V hs i t (with_cell (cell t) u) I Et (ext_refl _ _)
                   (proj2 (kids_with_cell _ _ _ _ _) Ku) (cell_with_cell _ _)).
  - (* Subset *) okbind E. destruct (the_map _ _ _ E0) as (t & Et & -> & <-). okbind E. injection E as E. cbn [lift pbind].
    destruct (inv_slot _ _ _ _ _ I i t Et) as (Kt & Bt & _). apply wp_bind.
    destruct a as [y|e]; injection E as <- <-.
    + eapply (wp_hsubset (mark_of K y (length hs))); [exact Kt| |eassumption|].
      * intros Eks. apply (good_root K b V hs i t I Et). tauto.
      * intros u b1 V1 X1 K1 B1 G1 R1. cbn [wp fst snd]. destruct (AP [u] b1 V1 X1) as [A1 A2].
        { apply new_handles_one; [exact K1|exact B1|]. rewrite R1. exact G1. }
        rewrite A1. cbn [map]. rewrite R1. (split; [reflexivity|]; split; [reflexivity|]; split; [assumption|apply NT]).
    + eapply (wp_hsubset (None, true)); [exact Kt| |eassumption|].
      * intros Eks. apply (good_root K b V hs i t I Et). tauto.
      * intros b1 V1 X1. cbn [wp fst snd]. split; [reflexivity|]. split; [reflexivity|]. split; [|apply NT]. eapply inv_ext; eauto.
  - (* Subsets *) okbind E. destruct (the_map _ _ _ E0) as (t & Et & -> & <-). okbind E. injection E as E. cbn [lift pbind].
    destruct (inv_slot _ _ _ _ _ I i t Et) as (Kt & Bt & _). apply wp_bind.
    eapply (wp_hsubsets (mark_of K) t kss (length hs)); [apply track_tracks|exact Kt| |eassumption|].
    { intros Ik. apply (good_root K b V hs i t I Et). tauto. }
    destruct a as [ys|e]; injection E as <- <-.
    + intros l b1 V1 X1 NH R1. cbn [wp fst snd]. destruct (AP l b1 V1 X1 NH) as [A1 A2]. rewrite A1, R1. (split; [reflexivity|]; split; [reflexivity|]; split; [assumption|apply NT]).
    + intros b1 V1 X1. cbn [wp fst snd]. split; [reflexivity|]. split; [reflexivity|]. split; [|apply NT]. eapply inv_ext; eauto.
  - (* Reload *) okbind E. destruct (the_map _ _ _ E0) as (t & Et & -> & <-). okbind E. injection E as <- <-. cbn [lift pbind].
    destruct (inv_slot _ _ _ _ _ I i t Et) as (Kt & Bt & S). apply slot_mark in S. apply wp_bind.
    assert (Ex : a = erase t) by (rewrite reload_eq in E1; destruct (full (erase t)); congruence).
    eapply (wp_hreload rh t (mark_of K a (length hs))); [exact Kt|exact Bt| |exact E1|].
    + subst a. unfold allowed. rewrite S. unfold mark_of. intros o [->|A]; [auto|].
      destruct (K (length hs)); [rewrite L in A by reflexivity; auto|destruct (K i); cbn [fst] in *; auto..].
    + intros u b1 V1 X1 K1 B1 G1 R1. cbn [wp fst snd]. destruct (AP [u] b1 V1 X1) as [A1 A2].
      { apply new_handles_one; [exact K1|exact B1|]. rewrite R1. exact G1. }
      rewrite A1. cbn [map]. rewrite R1. (split; [reflexivity|]; split; [reflexivity|]; split; [assumption|apply NT]).
  - (* Differ *) okbind E. destruct (the_map _ _ _ E0) as (t & Et & -> & <-). okbind E.
    destruct (the_map _ _ _ E1) as (u & Eu & -> & <-). okbind E. injection E as <- <-. cbn [lift pbind]. apply wp_bind.
    eapply does_wp; [apply does_diff; [eapply inv_handle; [exact I|exact Et]|eapply inv_handle; [exact I|exact Eu]]|exact E2|].
    cbn [wp fst snd]. (split; [reflexivity|]; split; [reflexivity|]; split; [assumption|apply NT]).
  - (* Make *) okbind E. injection E as <- <-.
    assert (C : forall i t, In i (taken p) -> nth_error hs i = Some t -> coh rh b V t).
    { intros i t Ii Et. destruct (inv_slot _ _ _ _ _ I i t Et) as (Kt & Bt & S). apply slot_mark in S.
      apply coh_iff. split; [|exact Kt]. split; [exact Bt|]. unfold right_hash. rewrite S. unfold mark_of. rewrite (L i Ii). reflexivity. }
    apply wp_bind. eapply (wp_hmake rh (mark_of K a (length hs))); [exact C|exact E0|].
    intros t b1 V1 X1 K1 B1 G1 R1. cbn [wp fst snd]. destruct (AP [t] b1 V1 X1) as [A1 A2].
    { apply new_handles_one; [exact K1|exact B1|]. rewrite R1. exact G1. }
    rewrite A1. cbn [map]. rewrite R1. (split; [reflexivity|]; split; [reflexivity|]; split; [assumption|apply NT]).
Qed.
End Subsets.
