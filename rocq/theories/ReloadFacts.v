(** Saving and loading tries. *)
From Verif Require Import Base Nibbles Trie TrieFacts Rlp Hashing Cache CacheFacts FailFacts Serde.
Open Scope N_scope.

(** ** The parts *)
Lemma de_ser_bytes v : de_bytes (ser_bytes v) = Some v.
Proof. unfold de_bytes, ser_bytes. induction v as [|x v IH]; cbn [map de_u8s]; [reflexivity|]. rewrite IH. reflexivity. Qed.
Lemma de_ser_nibbles n : de_nibbles (ser_nibbles n) = Some n.
Proof. destruct n; reflexivity. Qed.
Lemma de_ser_cached o : de_cached (ser_cached o) = Some o.
Proof. destruct o; reflexivity. Qed.

(** ** Without caches *)
(** Every branch has 16 children. *)
Fixpoint full (t : node) : bool :=
  match t with
  | Branch ch _ => sixteen ch && forallb full ch
  | Extension _ c => full c
  | _ => true
  end.

Lemma deserialize_serialize t : deserialize (serialize t) = if full t then Some t else None.
Proof.
  induction t as [|h|ch v IH|n c IH|n v] using node_ind'; cbn [serialize deserialize full]; try reflexivity.
  - unfold sixteen. rewrite map_length. destruct (Nat.eqb (length ch) 16); cbn [andb]; [|reflexivity].
    match goal with |- match ?f (map serialize ch) with _ => _ end = _ =>
      assert (G : f (map serialize ch) = if forallb full ch then Some ch else None)
    end.
    { induction IH as [|t ch Ht F IHF]; cbn [map forallb]; [reflexivity|]. rewrite Ht. destruct (full t); cbn [andb]; [|reflexivity].
      rewrite IHF. destruct (forallb full ch); reflexivity. }
    rewrite G, de_ser_bytes. destruct (forallb full ch); reflexivity.
  - rewrite de_ser_nibbles, IH. destruct (full c); reflexivity.
  - rewrite de_ser_nibbles, de_ser_bytes. reflexivity.
Qed.
Lemma reload_eq t : reload t = if full t then Ok t else Panic.
Proof. unfold reload. rewrite deserialize_serialize. destruct (full t); reflexivity. Qed.

Lemma full_map_erase ch : forallb full (map erase ch) = forallb (fun t => full (erase t)) ch.
Proof. induction ch as [|t ch IH]; cbn [map forallb]; [reflexivity|]. rewrite IH. reflexivity. Qed.

(** ** With caches *)
(** The data [d] is from the node [t], with hashes that its cells may have held. *)
Fixpoint rep (V : ghost) (t : hnode) (d : data) {struct t} : Prop :=
  exists dn o, d = DStruct [(f_node, dn); (f_hash, ser_cached o)] /\ allowed V (cell t) o /\
  match t with
  | HEmpty _ => dn = DUnitVariant v_Empty
  | HHash _ h => dn = DNewtypeVariant v_Hash (DH256 h)
  | HBranch _ ch v => exists ds, dn = DStructVariant v_Branch [(f_children, DTuple ds); (f_value, ser_bytes v)] /\
      (fix go (l : list hnode) (ds : list data) {struct l} : Prop :=
         match l, ds with [], [] => True | c :: l', d :: ds' => rep V c d /\ go l' ds' | _, _ => False end) ch ds
  | HExtension _ n c => exists d, dn = DStructVariant v_Extension [(f_nibbles, ser_nibbles n); (f_child, d)] /\ rep V c d
  | HLeaf _ n v => dn = DStructVariant v_Leaf [(f_nibbles, ser_nibbles n); (f_value, ser_bytes v)]
  end.
Definition reps (V : ghost) (l : list hnode) (ds : list data) : Prop := Forall2 (rep V) l ds.
Lemma reps_eq V l : forall ds,
  (fix go (l : list hnode) (ds : list data) {struct l} : Prop :=
     match l, ds with [], [] => True | c :: l', d :: ds' => rep V c d /\ go l' ds' | _, _ => False end) l ds <-> reps V l ds.
Proof.
  induction l as [|t l IH]; intros [|d ds]; split; intros H; try (inversion H; fail); try constructor; try (destruct H as [A B]; [..]);
    try assumption.
  - apply IH, B.
  - inversion H; assumption.
  - inversion H; subst. apply IH. assumption.
Qed.

Lemma reps_length V l ds : reps V l ds -> length l = length ds.
Proof. induction 1; cbn [length]; congruence. Qed.

Section Reload.
Variable hv : node -> option (list N) * bool -> Prop.
Notation coh := (coh hv).
Notation kids := (kids hv).

Lemma rep_ext b V b' V' t : ext b V b' V' -> forall d, cell t < b -> kids b V t -> rep V t d -> rep V' t d.
Proof.
  intros X. assert (AX : forall c o, c < b -> allowed V c o -> allowed V' c o).
  { intros c o B. unfold allowed. destruct X as [_ X]. rewrite X by exact B. exact (fun H => H). }
  induction t as [c|c h|c ch val IH|c n t IH|c n val] using hnode_ind'; intros d B K (dn & o & E & A & H);
    exists dn, o; (split; [exact E|]); (split; [apply AX; assumption|]); try exact H.
  - destruct H as (ds & E' & R). exists ds. split; [exact E'|]. apply reps_eq. apply reps_eq in R. apply kids_branch in K.
    clear E E'. revert K IH. induction R as [|t d' l ds' Hd R IHR]; intros K IH; constructor.
    + apply Forall_cons_iff in IH, K. destruct IH as [IH _], K as [C _]. apply IH; [|apply coh_kids, C|exact Hd]. apply coh_iff in C. apply C.
    + apply Forall_cons_iff in IH, K. apply IHR; tauto.
  - destruct H as (d' & E' & R). exists d'. split; [exact E'|]. apply kids_extension in K.
    apply IH; [|apply coh_kids, K|exact R]. apply coh_iff in K. apply K.
Qed.

Lemma wp_hserialize t : forall b V (Q : data -> N -> ghost -> Prop), cell t < b -> kids b V t ->
  (forall d, rep V t d -> Q d b V) -> wp (hserialize t) b V Q.
Proof.
  induction t as [c|c h|c ch val IH|c n t IH|c n val] using hnode_ind'; intros b V Q B K H; cbn [hserialize].
  - cbn [pbind wp]. split; [exact B|]. intros o A. apply H. exists (DUnitVariant v_Empty), o. auto.
  - cbn [pbind wp]. split; [exact B|]. intros o A. apply H. eexists _, o. split; [reflexivity|]. auto.
  - apply kids_branch in K. apply wp_bind, wp_bind.
    match goal with |- wp (?f ch) b V _ =>
      assert (G : forall l (Q' : list data -> N -> ghost -> Prop), Forall (coh b V) l ->
        Forall (fun t => forall b V (Q : data -> N -> ghost -> Prop), cell t < b -> kids b V t ->
                  (forall d, rep V t d -> Q d b V) -> wp (hserialize t) b V Q) l ->
        (forall ds, reps V l ds -> Q' ds b V) -> wp (f l) b V Q')
    end.
    { clear. intros l. induction l as [|t l IHl]; intros Q' K IH H.
      - cbn [wp]. apply H. constructor.
      - apply Forall_cons_iff in IH, K. destruct IH as [It IH], K as [C K]. apply coh_iff in C. destruct C as [[C1 C2] C3].
        apply wp_bind, It; [exact C1|exact C3|]. intros d Rd.
        apply wp_bind, IHl; [assumption..|]. intros ds Rds. cbn [wp]. apply H. constructor; assumption. }
    apply G; [exact K|exact IH|]. intros ds Rds. cbn [wp]. split; [exact B|]. intros o A. apply H.
    eexists _, o. split; [reflexivity|]. split; [exact A|]. exists ds. split; [reflexivity|]. apply reps_eq, Rds.
  - apply kids_extension in K. apply wp_bind, wp_bind. pose proof K as C. apply coh_iff in C. destruct C as [[C1 C2] C3].
    apply IH; [exact C1|exact C3|]. intros d Rd. cbn [wp]. split; [exact B|]. intros o A. apply H.
    eexists _, o. split; [reflexivity|]. split; [exact A|]. exists d. auto.
  - cbn [pbind wp]. split; [exact B|]. intros o A. apply H. eexists _, o. split; [reflexivity|]. auto.
Qed.

Lemma wp_new_cell mk o g x b V (Q : option hnode -> N -> ghost -> Prop) :
  (forall c, cell (mk c) = c) -> (forall c, erase (mk c) = x) -> (forall c, below (mk c) = below (mk 0)) ->
  kids b V (mk 0) -> (o = None \/ o = fst g) -> gpost hv (fun u => Q (Some u)) b V g x -> wp (new_cell mk o) b V Q.
Proof.
  intros C E B K A H. unfold new_cell. cbn [wp]. intros b' V' X. exists g. split; [lia|]. split.
  { unfold allowed. rewrite gset_same. exact A. }
  assert (X' : ext b V (b' + 1) (gset V' b' g)) by (eapply ext_trans; [exact X|apply ext_alloc]).
  apply H; [exact X'| | | |].
  - unfold CacheFacts.kids. rewrite B. eapply (kids_ext hv _ _ _ _ (mk 0)); [exact X'|exact K].
  - rewrite C. destruct X. lia.
  - rewrite C. apply gset_same.
  - apply E.
Qed.

Definition loads (t : hnode) (Q : option hnode -> N -> ghost -> Prop) b V g : Prop :=
  if full (erase t) then gpost hv (fun u => Q (Some u)) b V g (erase t) else forall b' V', ext b V b' V' -> Q None b' V'.

Lemma wp_hdeserialize t : forall d g b V (Q : option hnode -> N -> ghost -> Prop),
  kids b V t -> cell t < b -> rep V t d -> (forall o, allowed V (cell t) o -> o = None \/ o = fst g) -> loads t Q b V g ->
  wp (hdeserialize d) b V Q.
Proof.
  induction t as [c|c h|c ch val IH|c n t IH|c n val] using hnode_ind'; intros d g b V Q K B (dn & o & -> & A & R) G H.
  - subst dn. cbn [hdeserialize pbind]. rewrite de_ser_cached.
    apply (wp_new_cell HEmpty o g Empty); try reflexivity; [apply kids_empty|apply G, A|exact H].
  - subst dn. cbn [hdeserialize pbind]. rewrite de_ser_cached.
    apply (wp_new_cell (fun c => HHash c h) o g (Hash h)); try reflexivity; [apply kids_hash|apply G, A|exact H].
  - destruct R as (ds & -> & R). apply reps_eq in R. cbn [hdeserialize].
    unfold loads in H. cbn [erase full] in H. rewrite full_map_erase in H. unfold sixteen in *. rewrite map_length in H.
    rewrite <- (reps_length _ _ _ R). destruct (Nat.eqb (length ch) 16); cbn [andb] in H; [|apply H, ext_refl].
    apply kids_branch in K. apply wp_bind, wp_bind.
    match goal with |- wp (?f ds) b V _ =>
      assert (S : forall l ds b V (Q' : option (list hnode) -> N -> ghost -> Prop), Forall (coh b V) l ->
        Forall (fun t => forall d g b V (Q : option hnode -> N -> ghost -> Prop), kids b V t -> cell t < b -> rep V t d ->
                  (forall o, allowed V (cell t) o -> o = None \/ o = fst g) -> loads t Q b V g -> wp (hdeserialize d) b V Q) l ->
        reps V l ds ->
        (if forallb (fun t => full (erase t)) l then
           forall us b' V', ext b V b' V' -> Forall (coh b' V') us -> map erase us = map erase l -> Q' (Some us) b' V'
         else forall b' V', ext b V b' V' -> Q' None b' V') ->
        wp (f ds) b V Q')
    end.
    { clear. intros l. induction l as [|t l IHl]; intros ds b V Q' K IH R H; inversion R; subst.
      - cbn [wp]. cbn [forallb] in H. apply H; [apply ext_refl|constructor|reflexivity].
      - apply Forall_cons_iff in IH, K. destruct IH as [It IH], K as [C K]. apply coh_iff in C. destruct C as [[C1 C2] C3].
        match goal with Hd : rep V t ?d, HR : Forall2 (rep V) l ?l' |- _ => rename d into d0, l' into ds0, Hd into Rd, HR into Rds end.
        apply wp_bind. apply It with (g := V (cell t)); [exact C3|exact C1|exact Rd| |].
        { intros o A. exact A. }
        cbn [forallb] in H. unfold loads. destruct (full (erase t)); cbn [andb] in H; [|intros b1 V1 X1; cbn [wp]; apply H, X1].
        intros u b1 V1 X1 K1 B1 G1 R1.
        assert (Rds1 : reps V1 l ds0).
        { clear - Rds X1 K. induction Rds as [|t d l ds Hd R IHR]; constructor; apply Forall_cons_iff in K; destruct K as [C K].
          - apply coh_iff in C. destruct C as [[C1 C2] C3]. eapply rep_ext; [exact X1|exact C1|exact C3|exact Hd].
          - apply IHR; assumption. }
        apply wp_bind. eapply IHl; [eapply cohs_ext; [exact X1|assumption]|assumption|exact Rds1|].
        destruct (forallb (fun t => full (erase t)) l).
        + intros us b2 V2 X2 C2' R2. cbn [wp]. apply H; [eapply ext_trans; eauto| |cbn [map]; congruence].
          constructor; [|exact C2']. eapply coh_ext; [exact X2|]. apply coh_iff. split; [|exact K1]. split; [lia|]. rewrite G1, R1. exact C2.
        + intros b2 V2 X2. cbn [wp]. apply H. eapply ext_trans; eauto. }
    apply (S ch); [exact K|exact IH|exact R|]. destruct (forallb (fun t => full (erase t)) ch).
    + intros us b1 V1 X1 C1 R1. cbn [wp]. rewrite de_ser_bytes, de_ser_cached. cbn [wp].
      apply (wp_new_cell (fun c => HBranch c us val) o g (Branch (map erase us) val)); try reflexivity; [apply kids_branch, C1|apply G, A|].
      rewrite R1. intros u b2 V2 X2 K2 B2 G2 E2. apply H; auto; [eapply ext_trans; eauto|]. destruct X1. lia.
    + intros b1 V1 X1. cbn [wp]. apply H, X1.
  - destruct R as (d & -> & R). cbn [hdeserialize]. rewrite de_ser_nibbles. unfold loads in H. cbn [erase full] in H.
    apply kids_extension in K. apply coh_iff in K. destruct K as [[C1 C2] C3]. apply wp_bind, wp_bind.
    apply (IH d (V (cell t))); [exact C3|exact C1|exact R|intros o' A'; exact A'|]. unfold loads.
    destruct (full (erase t)).
    + intros u b1 V1 X1 K1 B1 G1 R1. cbn [wp]. rewrite de_ser_cached. 
      apply (wp_new_cell (fun c => HExtension c n u) o g (Extension n (erase u))); try reflexivity; [|apply G, A|].
      * apply kids_extension, coh_iff. split; [|exact K1]. split; [lia|]. rewrite G1, R1. exact C2.
      * rewrite R1. intros u' b2 V2 X2 K2 B2 G2 E2. apply H; auto; [eapply ext_trans; eauto|]. destruct X1. lia.
    + intros b1 V1 X1. cbn [wp]. apply H, X1.
  - subst dn. cbn [hdeserialize pbind]. rewrite de_ser_nibbles, de_ser_bytes, de_ser_cached.
    apply (wp_new_cell (fun c => HLeaf c n val) o g (Leaf n val)); try reflexivity; [apply kids_leaf|apply G, A|exact H].
Qed.

Lemma wp_hreload t g x b V (Q : hnode -> N -> ghost -> Prop) : kids b V t -> cell t < b ->
  (forall o, allowed V (cell t) o -> o = None \/ o = fst g) -> reload (erase t) = Ok x -> gpost hv Q b V g x -> wp (hreload t) b V Q.
Proof.
  intros K B G E H. rewrite reload_eq in E. destruct (full (erase t)) eqn:F; [|discriminate]. injection E as <-.
  unfold hreload. apply wp_bind, wp_hserialize; [exact B|exact K|]. intros d R. apply wp_bind.
  apply (wp_hdeserialize t d g); [exact K|exact B|exact R|exact G|]. unfold loads. rewrite F.
  intros u b1 V1 X1 K1 B1 G1 R1. cbn [wp]. apply H; assumption.
Qed.
Lemma fails_hreload t b V : kids b V t -> cell t < b -> reload (erase t) = Panic -> fails (hreload t) b V.
Proof.
  intros K B E. rewrite reload_eq in E. destruct (full (erase t)) eqn:F; [discriminate|].
  unfold hreload. eapply fails_r; [apply (wp_hserialize t b V (fun d b' V' => rep V' t d /\ kids b' V' t /\ cell t < b')); auto|].
  intros d b1 V1 _ (R & K1 & B1). eapply fails_r; [apply (wp_hdeserialize t d (V1 (cell t)) b1 V1 (fun r _ _ => r = None)); auto|].
  { unfold loads. rewrite F. auto. }
  intros r b2 V2 _ ->. apply fails_fail.
Qed.
End Reload.
