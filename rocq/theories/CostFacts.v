(** Proofs about the cost of [hash()]. *)
From Verif Require Import Base Nibbles Trie Rlp Hashing Subset SubsetFacts Cache CacheSpec CacheFacts CacheFacts2 CostSpec.
Open Scope N_scope.

Lemma exec_pbind {A B} (p : prog A) (f : A -> prog B) s n :
  exec (pbind p f) s n = match exec p s n with Ok (x, s', n') => exec (f x) s' n' | Panic => Panic end.
Proof. revert s n. induction p as [x| |c k IH|c o p IH|k IH]; intros s n; cbn [pbind exec]; auto. Qed.
Lemma reads_pbind {A B} (p : prog A) (f : A -> prog B) s n :
  reads (pbind p f) s n = reads p s n + match exec p s n with Ok (x, s', n') => reads (f x) s' n' | Panic => 0 end.
Proof.
  revert s n. induction p as [x| |c k IH|c o p IH|k IH]; intros s n; cbn [pbind exec reads]; auto; try lia. rewrite IH. lia.
Qed.
Lemma reads_lift {A} (r : res A) s n : reads (lift r) s n = 0.
Proof. destruct r; reflexivity. Qed.
Lemma exec_lift {A} (r : res A) s n : exec (lift r) s n = match r with Ok x => Ok (x, s, n) | Panic => Panic end.
Proof. destruct r; reflexivity. Qed.

(** ** The cost, from the cells *)
Definition cached (s : store) (c : N) : bool := match s c with Some _ => true | None => false end.
Definition sumN (l : list N) : N := fold_right N.add 0 l.
Definition kids_of (t : hnode) : list hnode := match t with HBranch _ ch _ => ch | HExtension _ _ c => [c] | _ => [] end.
Fixpoint vis (s : store) (t : hnode) {struct t} : N :=
  if cached s (cell t) then 1
  else 1 + match t with HBranch _ ch _ => sumN (map (vis s) ch) | HExtension _ _ c => vis s c | _ => 0 end.
Definition kidsum (s : store) (t : hnode) : N := sumN (map (vis s) (kids_of t)).
Lemma vis_eq s t : vis s t = if cached s (cell t) then 1 else 1 + kidsum s t.
Proof. destruct t; cbn [vis kidsum kids_of map sumN fold_right]; unfold kidsum; cbn [kids_of map sumN fold_right]; rewrite ?N.add_0_r; reflexivity. Qed.
Lemma vis_pos s t : 1 <= vis s t <= 1 + kidsum s t.
Proof. rewrite vis_eq. destruct (cached s (cell t)); lia. Qed.
Definition le (s s' : store) : Prop := forall c, cached s c = true -> cached s' c = true.
Lemma le_refl s : le s s. Proof. intros c H. exact H. Qed.
Lemma le_trans s s1 s2 : le s s1 -> le s1 s2 -> le s s2. Proof. intros A B c H. auto. Qed.
Lemma le_update s c h : le s (update s c (Some h)).
Proof. intros x H. unfold cached, update in *. destruct (x =? c); [reflexivity|exact H]. Qed.

Lemma sum_le (f g : hnode -> N) l : Forall (fun t => f t <= g t) l -> sumN (map f l) <= sumN (map g l).
Proof. induction 1; cbn [map sumN fold_right] in *; unfold sumN in *; lia. Qed.
Lemma sum_bound (f : hnode -> N) m l : Forall (fun t => f t <= m) l -> sumN (map f l) <= m * lenN l.
Proof. unfold lenN. induction 1; cbn [map sumN fold_right length] in *; unfold sumN in *; lia. Qed.
Lemma sum_in (f : hnode -> N) l t : In t l -> f t <= sumN (map f l).
Proof. induction l as [|x l IH]; [intros []|]. cbn [map sumN fold_right]. intros [->|I]; [lia|]. specialize (IH I). unfold sumN in *. lia. Qed.

(** Only the cells of the nodes matter. *)
Inductive inside (P : N -> Prop) (t : hnode) : Prop :=
  Inside : P (cell t) -> Forall (inside P) (kids_of t) -> inside P t.
Lemma inside_eq P t : inside P t <-> P (cell t) /\ Forall (inside P) (kids_of t).
Proof. split; [intros [A B]; auto|intros [A B]; constructor; auto]. Qed.
Lemma vis_anti_in (P : N -> Prop) s s' : (forall c, P c -> cached s c = true -> cached s' c = true) -> forall t, inside P t -> vis s' t <= vis s t.
Proof.
  intros L. induction t as [c|c h|c ch v IH|c k t IH|c k v] using hnode_ind'; intros I; apply inside_eq in I; destruct I as [Pc I];
    rewrite !vis_eq; cbn [cell] in *; specialize (L c Pc); destruct (cached s c); try (rewrite L by reflexivity; lia);
    (assert (KS : forall u, Forall (fun t => vis s' t <= vis s t) (kids_of u) -> kidsum s' u <= kidsum s u) by (intros u F; apply sum_le, F));
    match goal with |- context [kidsum s' ?u] => assert (kidsum s' u <= kidsum s u) end; try (destruct (cached s' c); lia); apply KS; cbn [kids_of] in *.
  - constructor.
  - constructor.
  - rewrite Forall_forall in *. auto.
  - inversion I; subst. repeat constructor. auto.
  - constructor.
Qed.
Lemma inside_true t : inside (fun _ => True) t.
Proof.
  induction t as [c|c h|c ch v IH|c k t IH|c k v] using hnode_ind'; apply inside_eq; (split; [exact I|]); cbn [kids_of]; auto; constructor; auto.
Qed.
Lemma vis_anti s s' t : le s s' -> vis s' t <= vis s t.
Proof. intros L. apply (vis_anti_in (fun _ => True)); [auto|apply inside_true]. Qed.
Lemma kidsum_anti s s' t : le s s' -> kidsum s' t <= kidsum s t.
Proof. intros L. apply sum_le, Forall_forall. intros u _. apply vis_anti, L. Qed.

(** ** The invariant *)
(** What is known of the nodes inside tries, by their cells. *)
Definition okn (u : hnode) : Prop :=
  match u with
  | HBranch _ ch _ => lenN ch <= 16
  | HExtension _ n t => 1 <= count n <= 64 /\ match t with HBranch _ _ _ | HHash _ _ => True | _ => False end
  | HLeaf _ n _ => count n <= 64
  | _ => True
  end.
Definition registry : Type := N -> option hnode.
Definition known (G : registry) (u : hnode) : Prop := G (cell u) = Some u.
Definition glob (G : registry) (s : store) (n : N) : Prop :=
  forall c u, G c = Some u ->
    c < n /\ cell u = c /\ Forall (known G) (kids_of u) /\ okn u /\ (cached s c = true -> kidsum s u <= 496).
Lemma okn_kids u : okn u -> lenN (kids_of u) <= 16.
Proof. destruct u; cbn; lia. Qed.
Lemma known_inside G s n u : glob G s n -> known G u -> inside (fun c => c < n) u.
Proof.
  intros Gl. induction u as [c|c h|c ch v IH|c k t IH|c k v] using hnode_ind'; intros Kn; destruct (Gl _ _ Kn) as (L & _ & F & _ & _);
    apply inside_eq; (split; [exact L|]); cbn [kids_of] in *; try constructor.
  - rewrite Forall_forall in *. intros x I. apply IH; [exact I|]. apply F, I.
  - apply IH. inversion F; subst. assumption.
  - constructor.
Qed.

Section Hashing.
Variable keccak : list N -> list N.
Variable pr : profile.

Definition bnd (e : encoded_node) : N := match e with Raw b => lenN b | Hashed _ => 1 end.
Definition is_short (e : encoded_node) : Prop := match e with Raw b => lenN b <= 31 | Hashed _ => True end.
Lemma bnd31 e : is_short e -> bnd e <= 31.
Proof. destruct e; cbn; lia. Qed.
Lemma lenN_app {A} (a b : list A) : lenN (a ++ b) = lenN a + lenN b.
Proof. unfold lenN. rewrite app_length. lia. Qed.
Lemma lenN_cons {A} (x : A) l : lenN (x :: l) = 1 + lenN l.
Proof. unfold lenN. cbn [length]. lia. Qed.
Lemma encode_value_pos b : 1 <= lenN (encode_value b).
Proof.
  unfold encode_value. destruct (lenN b =? 0); [cbv; discriminate|]. destruct (lenN b <=? 55); [|rewrite lenN_cons; lia].
  destruct b as [|x [|y b]]; [rewrite lenN_cons; lia| |rewrite lenN_cons; lia]. destruct (x <? 128); rewrite lenN_cons; lia.
Qed.
Lemma list_payload_len p : 1 + lenN p <= lenN (list_payload p).
Proof. unfold list_payload. destruct (lenN p <=? 55); rewrite lenN_cons; [lia|]. rewrite lenN_app. lia. Qed.
Lemma append_to_stream_len st e : lenN (payload st) + bnd e <= lenN (payload (append_to_stream st e)).
Proof.
  destruct e as [b|h]; cbn [append_to_stream append append_raw payload bnd]; rewrite lenN_app; [lia|]. pose proof (encode_value_pos h). lia.
Qed.
Lemma large_short b : is_short (hash_bytes_if_large_enough keccak b) /\ (hash_bytes_if_large_enough keccak b = Raw b \/ exists h, hash_bytes_if_large_enough keccak b = Hashed h).
Proof. unfold hash_bytes_if_large_enough. destruct (N.leb_spec 32 (lenN b)); cbn [is_short]; split; eauto. lia. Qed.

(** What hashing a node costs and leaves behind. *)
Definition upd (G : registry) (s s' : store) : Prop := le s s' /\ forall c, G c = None -> s' c = s c.
Lemma upd_refl G s : upd G s s. Proof. split; [apply le_refl|reflexivity]. Qed.
Lemma upd_trans G s s1 s2 : upd G s s1 -> upd G s1 s2 -> upd G s s2.
Proof. intros [A B] [C D]. split; [eapply le_trans; eauto|]. intros c E. rewrite D, B by exact E. reflexivity. Qed.
Lemma upd_update G s u h : known G u -> upd G s (update s (cell u) (Some h)).
Proof. intros Kn. split; [apply le_update|]. intros c E. unfold update. destruct (N.eqb_spec c (cell u)) as [->|]; [|reflexivity]. unfold known in Kn. congruence. Qed.
Definition costs (G : registry) (t : hnode) : Prop := forall s n, glob G s n ->
  reads (hash_intern keccak pr t) s n <= vis s t /\
  match exec (hash_intern keccak pr t) s n with
  | Ok (e, s', n') => n' = n /\ upd G s s' /\ glob G s' n /\ vis s' t <= bnd e /\ is_short e
  | Panic => True
  end.

Lemma children_cost G l : Forall (costs G) l -> forall st s n, glob G s n ->
  reads (hash_children keccak pr l st) s n <= sumN (map (vis s) l) /\
  match exec (hash_children keccak pr l st) s n with
  | Ok (st', s', n') => n' = n /\ upd G s s' /\ glob G s' n /\ lenN (payload st) + sumN (map (vis s') l) <= lenN (payload st') /\
                        Forall (fun t => vis s' t <= 31) l
  | Panic => True
  end.
Proof.
  induction 1 as [|t l Ht F IH]; intros st s n Gl; cbn [hash_children map].
  - cbn [reads exec sumN fold_right]. split; [lia|]. split; [reflexivity|]. split; [apply upd_refl|]. split; [exact Gl|]. split; [lia|constructor].
  - rewrite reads_pbind, exec_pbind. destruct (Ht s n Gl) as [R E]. cbn [sumN fold_right].
    destruct (exec (hash_intern keccak pr t) s n) as [[[e s1] n1]|]; [|split; [unfold sumN in *; lia|exact I]].
    destruct E as (-> & L1 & Gl1 & V1 & S1). specialize (IH (append_to_stream st e) s1 n Gl1). destruct IH as [R2 E2].
    assert (SL : sumN (map (vis s1) l) <= sumN (map (vis s) l)) by (apply sum_le, Forall_forall; intros; apply vis_anti, (proj1 L1)).
    change ((fix go (l0 : list hnode) (s0 : stream) {struct l0} : prog stream := match l0 with [] => Ret s0 | c :: l' => e <~ hash_intern keccak pr c ;; go l' (append_to_stream s0 e) end) l (append_to_stream st e))
      with (hash_children keccak pr l (append_to_stream st e)) in *.
    split; [unfold sumN in *; lia|].
    destruct (exec (hash_children keccak pr l (append_to_stream st e)) s1 n) as [[[st' s2] n2]|]; [|exact I].
    destruct E2 as (-> & L2 & Gl2 & P2 & F2). split; [reflexivity|]. split; [eapply upd_trans; eauto|]. split; [exact Gl2|].
    pose proof (vis_anti s1 s2 t (proj1 L2)). pose proof (append_to_stream_len st e). pose proof (bnd31 e S1). split; [unfold sumN in *; lia|]. constructor; [lia|exact F2].
Qed.

Lemma encode_cost G t s n : Forall (costs G) (kids_of t) -> okn t -> glob G s n ->
  reads (encode_node keccak pr t) s n <= kidsum s t /\
  match exec (encode_node keccak pr t) s n with
  | Ok (e, s', n') => n' = n /\ upd G s s' /\ glob G s' n /\ is_short e /\ kidsum s' t <= 496 /\ (match e with Raw b => 1 + kidsum s' t <= lenN b | Hashed _ => True end)
  | Panic => True
  end.
Proof.
  intros F O Gl. unfold kidsum. destruct t as [c|c h|c ch v|c k t|c k v]; cbn [encode_node kids_of] in *.
  - cbn. split; [lia|]. split; [reflexivity|]. split; [apply upd_refl|]. split; [exact Gl|]. repeat split; lia.
  - cbn. split; [lia|]. split; [reflexivity|]. split; [apply upd_refl|]. split; [exact Gl|]. repeat split; lia.
  - rewrite reads_pbind, exec_pbind. destruct (children_cost G ch F new_list s n Gl) as [R E].
    destruct (exec (hash_children keccak pr ch new_list) s n) as [[[st s1] n1]|]; [|split; [lia|exact I]].
    destruct E as (-> & L1 & Gl1 & P1 & F1). rewrite reads_pbind, exec_pbind, reads_lift, exec_lift.
    set (st' := match v with [] => append_empty_data st | _ => append st v end).
    assert (PL : lenN (payload st) + 1 <= lenN (payload st')).
    { unfold st'. destruct v; cbn [append_empty_data append append_raw payload]; rewrite lenN_app; [cbn; lia|].
      pose proof (encode_value_pos (n0 :: v)). lia. }
    unfold stream_out. destruct (items st' =? 17); [|split; [lia|exact I]]. cbn [reads exec]. split; [lia|].
    split; [reflexivity|]. split; [exact L1|]. split; [exact Gl1|]. destruct (large_short (list_payload (payload st'))) as [S D]. split; [exact S|].
    pose proof (sum_bound _ _ _ F1). cbn [okn] in O. split; [nia|]. cbn [new_list payload] in P1. change (lenN []) with 0 in P1. pose proof (list_payload_len (payload st')).
    destruct D as [->|[h ->]]; [lia|exact I].
  - rewrite reads_pbind, exec_pbind, reads_lift, exec_lift. cbn [map sumN fold_right]. destruct (to_hex_prefix_encoding pr k false) as [hp|]; [|split; [lia|exact I]].
    rewrite reads_pbind, exec_pbind. inversion F as [|? ? Ht _]; subst. destruct (Ht s n Gl) as [R E].
    destruct (exec (hash_intern keccak pr t) s n) as [[[e s1] n1]|]; [|split; [lia|exact I]].
    destruct E as (-> & L1 & Gl1 & V1 & S1). rewrite reads_pbind, exec_pbind, reads_lift, exec_lift. unfold stream_out.
    destruct (items _ =? 2); [|split; [lia|exact I]]. cbn [reads exec]. split; [lia|].
    split; [reflexivity|]. split; [exact L1|]. split; [exact Gl1|].
    destruct (large_short (list_payload (payload (append_to_stream (append new_list hp) e)))) as [S D]. split; [exact S|].
    pose proof (bnd31 e S1). split; [lia|]. pose proof (list_payload_len (payload (append_to_stream (append new_list hp) e))). pose proof (append_to_stream_len (append new_list hp) e).
    destruct D as [->|[h ->]]; [lia|exact I].
  - rewrite reads_pbind, exec_pbind, reads_lift, exec_lift. destruct (to_hex_prefix_encoding pr k true) as [hp|]; [|split; [cbn; lia|exact I]].
    rewrite reads_pbind, exec_pbind, reads_lift, exec_lift. unfold stream_out. destruct (items _ =? 2); [|split; [cbn; lia|exact I]]. cbn [reads exec map sumN fold_right].
    split; [lia|]. split; [reflexivity|]. split; [apply upd_refl|]. split; [exact Gl|]. destruct (large_short (list_payload (payload (append (append new_list hp) v)))) as [S D].
    split; [exact S|]. split; [lia|]. pose proof (list_payload_len (payload (append (append new_list hp) v))). destruct D as [->|[h ->]]; [lia|exact I].
Qed.

Lemma hash_intern_eq t : hash_intern keccak pr t = Read (cell t) (fun o =>
    match o with
    | Some h => Ret (Hashed h)
    | None => r <~ encode_node keccak pr t ;; match r with Hashed h => Write (cell t) (Some h) (Ret r) | Raw _ => Ret r end
    end).
Proof. destruct t; reflexivity. Qed.

Lemma known_costs G t : known G t -> costs G t.
Proof.
  induction t as [c|c h|c ch v IH|c k t IH|c k v] using hnode_ind'; intros Kn s n Gl; pose proof Gl as Gl0; destruct (Gl0 _ _ Kn) as (L & _ & F & O & B);
    rewrite hash_intern_eq; cbn [reads exec]; rewrite vis_eq; unfold cached in *;
    match goal with |- context [s (cell ?u)] => set (t0 := u) in *; destruct (s (cell t0)) as [h0|] eqn:Es end;
    try (cbn [reads exec]; split; [lia|]; split; [reflexivity|]; split; [apply upd_refl|]; split; [exact Gl|]; rewrite vis_eq; unfold cached; rewrite Es; cbn; lia);
    (assert (FC : Forall (costs G) (kids_of t0)) by
      (cbn [t0 kids_of] in *; try constructor;
       [..]; try (rewrite Forall_forall in *; intros x I; apply IH; [exact I|]; apply F, I); try (inversion F; subst; apply IH; assumption); try constructor));
    destruct (encode_cost G t0 s n FC O Gl) as [R E]; rewrite reads_pbind, exec_pbind;
    (destruct (exec (encode_node keccak pr t0) s n) as [[[e s1] n1]|]; [|split; [lia|exact I]]);
    destruct E as (-> & L1 & Gl1 & S1 & K1 & P1);
    (destruct e as [b|h1]; cbn [reads exec]; (split; [lia|]); (split; [reflexivity|]);
     [split; [exact L1|]; split; [exact Gl1|]; split; [|exact S1]; rewrite vis_eq; cbn [bnd]; destruct (cached s1 (cell t0)); lia|]);
    (split; [eapply upd_trans; [exact L1|apply upd_update, Kn]|]);
    (split;
     [intros c0 u0 E0; destruct (Gl1 _ _ E0) as (Y1 & Y2 & Y3 & Y4 & Y5); repeat split; auto; intros C0;
      pose proof (kidsum_anti s1 (update s1 (cell t0) (Some h1)) u0 (le_update _ _ _)) as A;
      destruct (N.eqb_spec c0 (cell t0)) as [->|NE];
      [unfold known in Kn; rewrite Kn in E0; injection E0 as <-; lia
      |unfold cached, update in C0; destruct (N.eqb_spec c0 (cell t0)); [contradiction|]; specialize (Y5 C0); lia]
     |split; [|exact S1]; rewrite vis_eq; unfold cached, update; rewrite N.eqb_refl; cbn [bnd]; lia]).
Qed.
End Hashing.
