(** Proofs about the cost of [hash()]: saving and loading. *)
From Verif Require Import Base Nibbles Trie Rlp Cache CacheFacts CostSpec CostFacts CostFacts2 Serde ReloadFacts.
Open Scope N_scope.

(** ** What is saved *)
Fixpoint dat (s : store) (t : hnode) {struct t} : data :=
  DStruct [(f_node, match t with
                    | HEmpty _ => DUnitVariant v_Empty
                    | HHash _ h => DNewtypeVariant v_Hash (DH256 h)
                    | HBranch _ ch v => DStructVariant v_Branch [(f_children, DTuple (map (dat s) ch)); (f_value, ser_bytes v)]
                    | HExtension _ n c => DStructVariant v_Extension [(f_nibbles, ser_nibbles n); (f_child, dat s c)]
                    | HLeaf _ n v => DStructVariant v_Leaf [(f_nibbles, ser_nibbles n); (f_value, ser_bytes v)]
                    end); (f_hash, ser_cached (s (cell t)))].
Lemma save_exec s n t : exec (hserialize t) s n = Ok (dat s t, s, n).
Proof.
  induction t as [c|c h|c ch v IH|c k t IH|c k v] using hnode_ind'; cbn [hserialize]; try reflexivity.
  - rewrite exec_pbind, exec_pbind.
    match goal with |- context [exec (?f ch) s n] => assert (E : exec (f ch) s n = Ok (map (dat s) ch, s, n)) end.
    { induction IH as [|t ch Ht F IHF]; [reflexivity|]. rewrite exec_pbind, Ht, exec_pbind, IHF. reflexivity. }
    rewrite E. reflexivity.
  - rewrite exec_pbind, exec_pbind, IH. reflexivity.
Qed.

(** ** What is loaded *)
Inductive good (s : store) (t : hnode) : Prop :=
| Good : okn t -> (cached s (cell t) = true -> kidsum s t <= 496) -> Forall (good s) (kids_of t) -> good s t.
Lemma known_good G s n t : glob G s n -> known G t -> good s t.
Proof.
  intros Gl. induction t as [c|c h|c ch v IH|c k t IH|c k v] using hnode_ind'; intros Kn; destruct (Gl _ _ Kn) as (_ & _ & F & O & C);
    (split; [exact O|exact C|]); cbn [kids_of] in *; try constructor.
  - rewrite Forall_forall in *. intros x I. apply IH; [exact I|]. apply F, I.
  - inversion F; subst. apply IH. assumption.
  - constructor.
Qed.

Definition sort_of (t : hnode) : N := match t with HEmpty _ => 0 | HHash _ _ => 1 | HBranch _ _ _ => 2 | HExtension _ _ _ => 3 | HLeaf _ _ _ => 4 end.
(** [u] is a loaded copy of [t]: nothing points to it yet. *)
Definition copy (s0 : store) (t : hnode) (b : N) (G : registry) (s : store) (n : N) (u : hnode) : Prop :=
  b <= cell u < n /\ G (cell u) = None /\ cached s (cell u) = cached s0 (cell t) /\ Forall (known G) (kids_of u) /\ okn u /\
  sort_of u = sort_of t /\ kidsum s u <= kidsum s0 t.

Lemma runs_cell b G s n (mk : N -> hnode) o (Q : registry -> store -> N -> option hnode -> Prop) : glob G s n -> b <= n -> (forall c, cell (mk c) = c) ->
  (forall c, kids_of (mk c) = kids_of (mk n)) -> Forall (known G) (kids_of (mk n)) ->
  (forall s', grow b G s n G s' (n + 1) -> cached s' n = (match o with Some _ => true | None => false end) -> kidsum s' (mk n) = kidsum s (mk n) ->
     G n = None -> Q G s' (n + 1) (Some (mk n))) ->
  runs b G s n (new_cell mk o) Q.
Proof.
  intros Gl L C Kd F H. unfold runs, new_cell. cbn [exec]. set (s' := update (update s n None) n o).
  assert (NN : forall c u, G c = Some u -> c <> n) by (intros c u E; destruct (Gl _ _ E); lia).
  assert (CC : forall c, c <> n -> cached s' c = cached s c).
  { intros c NE. unfold s', cached, update. destruct (N.eqb_spec c n); [contradiction|reflexivity]. }
  assert (Gn : G n = None) by (destruct (G n) eqn:E; [destruct (NN _ _ E eq_refl)|reflexivity]).
  assert (V : forall u, known G u -> vis s' u = vis s u).
  { intros u Kn. pose proof (known_in _ _ _ _ Gl Kn) as I. apply N.le_antisymm; eapply vis_anti_in; try exact I; intros c Hc; cbn in Hc;
      (rewrite CC; [auto|intros ->; congruence]). }
  assert (VS : forall l, Forall (known G) l -> map (vis s') l = map (vis s) l).
  { intros l Fl. apply map_ext_in. intros v I. apply V. rewrite Forall_forall in Fl. auto. }
  assert (Gl1 : glob G s' (n + 1)).
  { intros c u E. destruct (Gl _ _ E) as (Y1 & Y2 & Y3 & Y4 & Y5). split; [lia|]. split; [exact Y2|]. split; [exact Y3|]. split; [exact Y4|].
    rewrite CC by (eapply NN, E). unfold kidsum. rewrite VS by exact Y3. exact Y5. }
  assert (A : grow b G s n G s' (n + 1)).
  { split; auto; [lia| |].
    - intros c NE X. rewrite CC; [exact X|congruence].
    - intros c Lc _. apply CC. lia. }
  exists G. split; [exact A|]. apply H; [exact A| | |exact Gn].
  - unfold s', cached, update. rewrite N.eqb_refl. reflexivity.
  - unfold kidsum. rewrite VS by exact F. reflexivity.
Qed.

Lemma copy_vis s0 t b G s n u : copy s0 t b G s n u -> vis s u <= vis s0 t.
Proof. intros (_ & _ & C & _ & _ & _ & K). rewrite !vis_eq, C. destruct (cached s0 (cell t)); lia. Qed.

(** A loaded node becomes a child of something. *)
Lemma runs_reg_copy {T} b G s n s0 t x (p : prog T) Q : glob G s n -> good s0 t -> copy s0 t b G s n x ->
  (forall G', grow b G s n G' s n -> known G' x -> runs b G' s n p Q) -> runs b G s n p Q.
Proof.
  intros Gl Gd ((C1 & C2) & C3 & C4 & C5 & C6 & C7 & C8) H. set (G' := fun c => if c =? cell x then Some x else G c).
  assert (OL : forall c u, G c = Some u -> G' c = Some u).
  { intros c u E. unfold G'. destruct (N.eqb_spec c (cell x)) as [->|]; [congruence|exact E]. }
  assert (A : grow b G s n G' s n).
  { split; auto; [lia| |].
    - intros c Lc. unfold G'. destruct (N.eqb_spec c (cell x)); [lia|reflexivity].
    - intros c u E. unfold G' in E. destruct (N.eqb_spec c (cell x)) as [->|NE].
      + injection E as <-. repeat split; auto; [eapply Forall_impl; [|exact C5]; intros v Kv; apply OL, Kv|].
        rewrite C4. intros C. destruct Gd as [_ Gd _]. specialize (Gd C). lia.
      + destruct (Gl _ _ E) as (Y1 & Y2 & Y3 & Y4 & Y5). repeat split; auto. eapply Forall_impl; [|exact Y3]. intros v Kv. apply OL, Kv. }
  assert (Kn : known G' x) by (unfold known, G'; rewrite N.eqb_refl; reflexivity). specialize (H G' A Kn).
  unfold runs in *. destruct (exec p s n) as [[[y s1] n1]|]; [|auto]. destruct H as (G2 & A2 & H). exists G2. split; [eapply grow_trans; eauto|exact H].
Qed.

Lemma load_runs s0 t : forall b G s n, glob G s n -> b <= n -> good s0 t ->
  runs b G s n (hdeserialize (dat s0 t)) (fun G' s' n' r => match r with Some u => copy s0 t b G' s' n' u | None => True end).
Proof.
  induction t as [c|c h|c ch v IH|c k t IH|c k v] using hnode_ind'; intros b G s n Gl L Gd; cbn [dat hdeserialize]; pose proof Gd as [O C F].
  - cbn [pbind]. rewrite de_ser_cached. apply (runs_cell b G s n HEmpty); auto; [constructor|]. intros s1 A1 C1 K1 Gn. split; [cbn; lia|]. split; [exact Gn|]. split; [exact C1|].
    split; [constructor|]. split; [exact I|]. split; [reflexivity|]. rewrite K1. cbn; lia.
  - cbn [pbind]. rewrite de_ser_cached. apply (runs_cell b G s n (fun c => HHash c h)); auto; [constructor|]. intros s1 A1 C1 K1 Gn. split; [cbn; lia|]. split; [exact Gn|]. split; [exact C1|].
    split; [constructor|]. split; [exact I|]. split; [reflexivity|]. rewrite K1. cbn; lia.
  - unfold sixteen. rewrite map_length. destruct (Nat.eqb_spec (length ch) 16) as [L16|]; [|cbn [pbind]; apply runs_ret; auto].
    apply runs_bind, runs_bind. cbn [kids_of] in F.
    match goal with |- runs b G s n (?f (map (dat s0) ch)) _ =>
      assert (S : forall l b G s n, glob G s n -> b <= n -> Forall (good s0) l ->
        Forall (fun t => forall b G s n, glob G s n -> b <= n -> good s0 t ->
           runs b G s n (hdeserialize (dat s0 t)) (fun G' s' n' r => match r with Some u => copy s0 t b G' s' n' u | None => True end)) l ->
        runs b G s n (f (map (dat s0) l)) (fun G' s' n' r => match r with
          | Some us => Forall (known G') us /\ length us = length l /\ sumN (map (vis s') us) <= sumN (map (vis s0) l) | None => True end))
    end.
    { clear. intros l. induction l as [|t l IHl]; intros b G s n Gl L F IH; cbn [map].
      - apply runs_ret; auto. split; [constructor|]. split; [reflexivity|cbn; lia].
      - inversion F as [|? ? Gt F']; subst. inversion IH as [|? ? It IH']; subst. apply runs_bind. eapply runs_mono; [apply It; auto|].
        intros G1 s1 n1 [u|] A1 H1; [|apply runs_ret; [apply (g_glob _ _ _ _ _ _ _ A1)|exact I]]. pose proof (g_glob _ _ _ _ _ _ _ A1) as Gl1.
        eapply runs_reg_copy; [exact Gl1|exact Gt|exact H1|]. intros G2 A2 K2. pose proof (g_glob _ _ _ _ _ _ _ A2) as Gl2.
        apply runs_bind. eapply runs_mono; [apply (IHl b G2 s1 n1); auto; pose proof (g_n _ _ _ _ _ _ _ A1); lia|].
        intros G3 s3 n3 [us|] A3 H3; (apply runs_ret; [apply (g_glob _ _ _ _ _ _ _ A3)|]); [|exact I]. destruct H3 as (F3 & L3 & S3).
        split; [constructor; [eapply grow_known; eauto|exact F3]|]. split; [cbn [length]; congruence|]. cbn [map sumN fold_right].
        pose proof (grow_vis _ _ _ _ _ _ _ _ Gl2 A3 K2). pose proof (copy_vis _ _ _ _ _ _ _ H1). unfold sumN in *. lia. }
    eapply runs_mono; [apply S; auto|]. intros G1 s1 n1 r A1 H1. pose proof (g_glob _ _ _ _ _ _ _ A1) as Gl1. pose proof (g_n _ _ _ _ _ _ _ A1) as N1. rewrite de_ser_bytes, de_ser_cached.
    destruct r as [us|]; (apply runs_ret; [exact Gl1|]); [|apply runs_ret; auto]. destruct H1 as (F1 & L1 & S1).
    apply (runs_cell b G1 s1 n1 (fun c => HBranch c us v)); auto; [lia|]. intros s2 A2 C2 K2 Gn.
    split; [cbn; lia|]. split; [exact Gn|]. split; [exact C2|]. split; [eapply grow_knowns; eauto|]. split; [cbn; unfold lenN; rewrite L1, L16; lia|]. split; [reflexivity|].
    rewrite K2. exact S1.
  - rewrite de_ser_nibbles. apply runs_bind, runs_bind. cbn [kids_of] in F. inversion F as [|? ? Gt _]; subst. eapply runs_mono; [apply IH; auto|].
    intros G1 s1 n1 r A1 H1. pose proof (g_glob _ _ _ _ _ _ _ A1) as Gl1. pose proof (g_n _ _ _ _ _ _ _ A1) as N1. rewrite de_ser_cached.
    destruct r as [u|]; [|apply runs_ret; auto; apply runs_ret; auto].
    eapply runs_reg_copy; [exact Gl1|exact Gt|exact H1|]. intros G2 A2 K2. pose proof (g_glob _ _ _ _ _ _ _ A2) as Gl2. apply runs_ret; [exact Gl2|].
    apply (runs_cell b G2 s1 n1 (fun c => HExtension c k u)); auto; [lia|repeat constructor; exact K2|]. intros s3 A3 C3 K3 Gn.
    split; [cbn; lia|]. split; [exact Gn|]. split; [exact C3|]. split; [repeat constructor; eapply grow_known; eauto|].
    split.
    { cbn in O |- *. split; [apply O|]. destruct H1 as (_ & _ & _ & _ & _ & So & _). destruct u, t; cbn in So; try discriminate So; try exact I; apply O. }
    split; [reflexivity|]. rewrite K3. unfold kidsum. cbn [kids_of map sumN fold_right]. pose proof (copy_vis _ _ _ _ _ _ _ H1). lia.
  - cbn [pbind]. rewrite de_ser_nibbles, de_ser_bytes, de_ser_cached. apply (runs_cell b G s n (fun c => HLeaf c k v)); auto; [constructor|]. intros s1 A1 C1 K1 Gn. split; [cbn; lia|]. split; [exact Gn|]. split; [exact C1|].
    split; [constructor|]. split; [exact O|]. split; [reflexivity|]. rewrite K1. cbn; lia.
Qed.

Lemma reload_runs G s n t (Q : registry -> store -> N -> hnode -> Prop) : glob G s n -> loose G s n t -> okn t ->
  (forall G' s' n' u, grow n G s n G' s' n' -> loose G' s' n' u -> okn u -> kidsum s' u <= kidsum s t -> Q G' s' n' u) ->
  runs n G s n (hreload t) Q.
Proof.
  intros Gl (L1 & L2 & L3 & L4 & L5) O H. unfold hreload.
  assert (Gd : good s t).
  { split; [exact O|congruence|]. eapply Forall_impl; [|exact L4]. intros u. eapply known_good, Gl. }
  pose proof (load_runs s t n G s n Gl (N.le_refl n) Gd) as R. unfold runs in *. rewrite exec_pbind, save_exec, exec_pbind.
  destruct (exec (hdeserialize (dat s t)) s n) as [[[[u|] s1] n1]|]; cbn [exec]; auto. destruct R as (G1 & A1 & (C1 & C2 & C3 & C4 & C5 & _ & C6)).
  exists G1. split; [exact A1|]. apply H; auto. split; [lia|]. split; [exact C2|]. split; [congruence|]. split; [exact C4|]. apply okn_okw, C5.
Qed.
