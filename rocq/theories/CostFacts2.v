(** Proofs about the cost of [hash()]: what the operations do to the nodes and the cells. *)
From Verif Require Import Base Nibbles Trie Rlp Hashing Subset SubsetFacts Cache CacheSpec CacheFacts CacheFacts2 CostSpec CostFacts.
Open Scope N_scope.

Definition okw (u : hnode) : Prop :=
  match u with
  | HBranch _ ch _ => lenN ch <= 16
  | HExtension _ n t => 1 <= count n <= 64
  | HLeaf _ n _ => count n <= 64
  | _ => True
  end.
Lemma okn_okw u : okn u -> okw u.
Proof. destruct u; cbn; tauto. Qed.

(** From [G, s, n] to [G', s', n']: nodes are only added, and cells below [b] that belong to no inner node are as before. *)
Record grow (b : N) (G : registry) (s : store) (n : N) (G' : registry) (s' : store) (n' : N) : Prop := Grow {
  g_n : n <= n';
  g_old : forall c u, G c = Some u -> G' c = Some u;
  g_base : forall c, c < b -> G' c = G c;
  g_cached : forall c, G c <> None -> cached s c = true -> cached s' c = true;
  g_free : forall c, c < b -> G c = None -> cached s' c = cached s c;
  g_glob : glob G' s' n' }.
Lemma grow_refl b G s n : glob G s n -> grow b G s n G s n.
Proof. intros Gl. split; auto. lia. Qed.
Lemma grow_trans b G s n G1 s1 n1 G2 s2 n2 : grow b G s n G1 s1 n1 -> grow b G1 s1 n1 G2 s2 n2 -> grow b G s n G2 s2 n2.
Proof.
  intros A B. split.
  - pose proof (g_n _ _ _ _ _ _ _ A). pose proof (g_n _ _ _ _ _ _ _ B). lia.
  - intros c u E. apply (g_old _ _ _ _ _ _ _ B), (g_old _ _ _ _ _ _ _ A), E.
  - intros c L. rewrite (g_base _ _ _ _ _ _ _ B), (g_base _ _ _ _ _ _ _ A); auto.
  - intros c N C. apply (g_cached _ _ _ _ _ _ _ B); [|apply (g_cached _ _ _ _ _ _ _ A); auto].
    destruct (G c) as [u|] eqn:E; [|congruence]. rewrite (g_old _ _ _ _ _ _ _ A _ _ E). discriminate.
  - intros c L E. rewrite (g_free _ _ _ _ _ _ _ B), (g_free _ _ _ _ _ _ _ A); auto. rewrite (g_base _ _ _ _ _ _ _ A); auto.
  - apply (g_glob _ _ _ _ _ _ _ B).
Qed.
Lemma grow_less b b' G s n G' s' n' : b' <= b -> grow b G s n G' s' n' -> grow b' G s n G' s' n'.
Proof. intros L [A1 A2 A3 A4 A5 A6]. split; auto; intros; [apply A3|apply A5]; auto; lia. Qed.
Lemma grow_known b G s n G' s' n' u : grow b G s n G' s' n' -> known G u -> known G' u.
Proof. intros A. apply (g_old _ _ _ _ _ _ _ A). Qed.
Lemma grow_knowns b G s n G' s' n' l : grow b G s n G' s' n' -> Forall (known G) l -> Forall (known G') l.
Proof. intros A. apply Forall_impl. intros u. eapply grow_known, A. Qed.
Lemma known_in G s n u : glob G s n -> known G u -> inside (fun c => G c <> None) u.
Proof.
  intros Gl. induction u as [c|c h|c ch v IH|c k t IH|c k v] using hnode_ind'; intros Kn; destruct (Gl _ _ Kn) as (L & _ & F & _ & _);
    apply inside_eq; (split; [unfold known in Kn; rewrite Kn; discriminate|]); cbn [kids_of] in *; try constructor.
  - rewrite Forall_forall in *. intros x I. apply IH; [exact I|]. apply F, I.
  - apply IH. inversion F; subst. assumption.
  - constructor.
Qed.
Lemma grow_vis b G s n G' s' n' u : glob G s n -> grow b G s n G' s' n' -> known G u -> vis s' u <= vis s u.
Proof. intros Gl A Kn. eapply vis_anti_in; [apply (g_cached _ _ _ _ _ _ _ A)|]. eapply known_in; eauto. Qed.
Lemma grow_sum b G s n G' s' n' l : glob G s n -> grow b G s n G' s' n' -> Forall (known G) l -> sumN (map (vis s') l) <= sumN (map (vis s) l).
Proof. intros Gl A Kn. apply sum_le. eapply Forall_impl; [|exact Kn]. intros u. eapply grow_vis; eauto. Qed.

(** A node that is not a child of anything. *)
Definition loose (G : registry) (s : store) (n : N) (x : hnode) : Prop :=
  cell x < n /\ G (cell x) = None /\ cached s (cell x) = false /\ Forall (known G) (kids_of x) /\ okw x.

Definition runs {A} (b : N) (G : registry) (s : store) (n : N) (p : prog A) (Q : registry -> store -> N -> A -> Prop) : Prop :=
  match exec p s n with
  | Ok (x, s', n') => exists G', grow b G s n G' s' n' /\ Q G' s' n' x
  | Panic => True
  end.
Lemma runs_ret {A} b G s n (x : A) (Q : registry -> store -> N -> A -> Prop) : glob G s n -> Q G s n x -> runs b G s n (Ret x) Q.
Proof. intros Gl H. exists G. split; [apply grow_refl, Gl|exact H]. Qed.
Lemma runs_fail {A} b G s n (Q : registry -> store -> N -> A -> Prop) : runs b G s n Fail Q.
Proof. exact I. Qed.
Lemma runs_bind {A B} b G s n (p : prog A) (f : A -> prog B) Q :
  runs b G s n p (fun G' s' n' x => runs b G' s' n' (f x) Q) -> runs b G s n (pbind p f) Q.
Proof.
  unfold runs. rewrite exec_pbind. destruct (exec p s n) as [[[x s1] n1]|]; [|auto]. intros (G1 & A1 & H).
  destruct (exec (f x) s1 n1) as [[[y s2] n2]|]; [|auto]. destruct H as (G2 & A2 & H). exists G2. split; [eapply grow_trans; eauto|exact H].
Qed.
Lemma runs_mono {A} b G s n (p : prog A) (Q Q' : registry -> store -> N -> A -> Prop) :
  runs b G s n p Q -> (forall G' s' n' x, grow b G s n G' s' n' -> Q G' s' n' x -> Q' G' s' n' x) -> runs b G s n p Q'.
Proof. unfold runs. destruct (exec p s n) as [[[x s1] n1]|]; [|auto]. intros (G1 & A1 & H) M. eauto. Qed.
Lemma runs_lift {A B} b G s n (r : res A) (f : A -> prog B) Q :
  (forall x, r = Ok x -> runs b G s n (f x) Q) -> runs b G s n (pbind (lift r) f) Q.
Proof. intros H. destruct r as [x|]; [apply H; reflexivity|exact I]. Qed.

Lemma glob_update G s n : glob G s n -> glob G (update s n None) (n + 1) /\ (forall u, known G u -> vis (update s n None) u = vis s u).
Proof.
  intros Gl. assert (NN : forall c u, G c = Some u -> c <> n) by (intros c u E; destruct (Gl _ _ E); lia).
  assert (CC : forall c, c <> n -> cached (update s n None) c = cached s c).
  { intros c NE. unfold cached, update. destruct (N.eqb_spec c n); [contradiction|reflexivity]. }
  assert (V : forall u, known G u -> vis (update s n None) u = vis s u).
  { intros u Kn. pose proof (known_in _ _ _ _ Gl Kn) as I. apply N.le_antisymm; eapply vis_anti_in; try exact I; intros c Hc; cbn in Hc;
      (rewrite CC; [auto|intros ->; destruct (G n) eqn:E; [apply (NN _ _ E); reflexivity|congruence]]). }
  split; [|exact V]. intros c u E. destruct (Gl _ _ E) as (Y1 & Y2 & Y3 & Y4 & Y5). split; [lia|]. split; [exact Y2|]. split; [exact Y3|]. split; [exact Y4|].
  rewrite CC by (eapply NN, E). intros C. specialize (Y5 C). unfold kidsum in *.
  replace (map (vis (update s n None)) (kids_of u)) with (map (vis s) (kids_of u)); [exact Y5|]. apply map_ext_in. intros v I. symmetry. apply V. rewrite Forall_forall in Y3. auto.
Qed.

Lemma runs_alloc b G s n (mk : N -> hnode) (Q : registry -> store -> N -> hnode -> Prop) : glob G s n -> b <= n -> (forall c, cell (mk c) = c) ->
  Forall (known G) (kids_of (mk n)) -> okw (mk n) ->
  (forall s', grow b G s n G s' (n + 1) -> loose G s' (n + 1) (mk n) -> Q G s' (n + 1) (mk n)) ->
  runs b G s n (Alloc (fun c => Ret (mk c))) Q.
Proof.
  intros Gl L C F O H. destruct (glob_update _ _ _ Gl) as [Gl1 V1]. unfold runs. cbn [exec]. exists G.
  assert (NN : forall c u, G c = Some u -> c <> n) by (intros c u E; destruct (Gl _ _ E); lia).
  assert (A : grow b G s n G (update s n None) (n + 1)).
  { split; auto; [lia| |].
    - intros c NE X. unfold cached, update in *. destruct (N.eqb_spec c n) as [->|]; [|exact X]. destruct (G n) eqn:E; [|congruence]. destruct (NN _ _ E eq_refl).
    - intros c Lc _. unfold cached, update. destruct (N.eqb_spec c n); [lia|reflexivity]. }
  split; [exact A|]. apply H; [exact A|]. unfold loose. rewrite C. split; [lia|]. split; [destruct (G n) eqn:E; [destruct (NN _ _ E eq_refl)|reflexivity]|].
  split; [unfold cached, update; rewrite N.eqb_refl; reflexivity|]. auto.
Qed.

(** The node becomes a child of something. *)
Lemma runs_reg {T} b G s n x (p : prog T) Q : glob G s n -> b <= cell x -> loose G s n x -> okn x ->
  (forall G', grow b G s n G' s n -> known G' x -> runs b G' s n p Q) -> runs b G s n p Q.
Proof.
  intros Gl L (C1 & C2 & C3 & C4 & _) O H. set (G' := fun c => if c =? cell x then Some x else G c).
  assert (OL : forall c u, G c = Some u -> G' c = Some u).
  { intros c u E. unfold G'. destruct (N.eqb_spec c (cell x)) as [->|]; [congruence|exact E]. }
  assert (A : grow b G s n G' s n).
  { split; auto; [lia| |].
    - intros c Lc. unfold G'. destruct (N.eqb_spec c (cell x)); [lia|reflexivity].
    - intros c u E. unfold G' in E. destruct (N.eqb_spec c (cell x)) as [->|NE].
      + injection E as <-. repeat split; auto; [eapply Forall_impl; [|exact C4]; intros v Kv; apply OL, Kv|congruence].
      + destruct (Gl _ _ E) as (Y1 & Y2 & Y3 & Y4 & Y5). repeat split; auto. eapply Forall_impl; [|exact Y3]. intros v Kv. apply OL, Kv. }
  assert (Kn : known G' x) by (unfold known, G'; rewrite N.eqb_refl; reflexivity). specialize (H G' A Kn).
  unfold runs in *. destruct (exec p s n) as [[[y s1] n1]|]; [|auto]. destruct H as (G2 & A2 & H). exists G2. split; [eapply grow_trans; eauto|exact H].
Qed.

(** ** Lists *)
Lemma runs_hchild {A} b G s n (f : hnode -> prog A) Q l : forall i,
  (forall c, nth_error l i = Some c -> runs b G s n (f c) Q) -> runs b G s n (with_hchild f l i) Q.
Proof. induction l as [|x l IH]; intros [|i] H; cbn [with_hchild]; try exact I; [apply H; reflexivity|apply IH, H]. Qed.
Lemma set_hchild_len l : forall i c, lenN (set_hchild l i c) = lenN l.
Proof. induction l as [|x l IH]; intros [|i] c; cbn [set_hchild]; rewrite ?lenN_cons, ?IH; reflexivity. Qed.
Lemma set_hchild_all (P : hnode -> Prop) l : forall i c, Forall P l -> P c -> Forall P (set_hchild l i c).
Proof. induction l as [|x l IH]; intros [|i] c F Pc; cbn [set_hchild]; inversion F; subst; constructor; auto. Qed.
Lemma set_hchild_sum (f : hnode -> N) l : forall i c, sumN (map f (set_hchild l i c)) <= sumN (map f l) + f c.
Proof. induction l as [|x l IH]; intros [|i] c; cbn [set_hchild map sumN fold_right]; [lia..|]. specialize (IH i c). unfold sumN in *. lia. Qed.
Lemma set_hchild_sum_eq (f : hnode -> N) l : forall i c o, nth_error l i = Some o -> sumN (map f (set_hchild l i c)) + f o = sumN (map f l) + f c.
Proof.
  induction l as [|x l IH]; intros [|i] c o E; cbn [nth_error] in E; try discriminate; cbn [set_hchild map sumN fold_right].
  - injection E as ->. unfold sumN. lia.
  - specialize (IH i c o E). unfold sumN in *. lia.
Qed.

(** ** Key lengths *)
Lemma truncate_count pr k j k' : truncate_n_nibbles_front pr k j = Ok k' -> count k' = count k - j.
Proof.
  unfold truncate_n_nibbles_front, min_truncate. destruct (N.leb_spec j (count k)); repeat (match goal with |- context [bind ?m _] => destruct m; [|discriminate]; cbn [bind] end);
    intros E; injection E as <-; cbn [count]; lia.
Qed.
Lemma pop_count pr k x k' : pop_next_nibble_front pr k = Ok (x, k') -> count k' = count k - 1.
Proof.
  unfold pop_next_nibble_front. destruct (get_nibble pr k 0); [|discriminate]. cbn [bind]. destruct (truncate_n_nibbles_front pr k 1) as [k1|] eqn:E; [|discriminate].
  cbn [bind]. intros X. injection X as _ <-. eapply truncate_count, E.
Qed.
Lemma find_diff_loop_le iters : forall i m a b j, find_diff_loop iters i m a b = Some j -> j < i + N.of_nat iters.
Proof.
  induction iters as [|m IH]; intros i mk a b j E; cbn [find_diff_loop] in E; [discriminate|]. destruct (_ =? _); [apply IH in E; lia|injection E as <-; lia].
Qed.
Lemma get_range_count pr k m k' : get_nibble_range pr k 0 m = Ok k' -> count k' = m.
Proof.
  unfold get_nibble_range, usub at 1. destruct (N.leb_spec 0 m); [|lia]. cbn [bind].
  repeat (match goal with |- context [bind ?r _] => destruct r; [|discriminate]; cbn [bind] end). intros E; injection E as <-. cbn [count]. lia.
Qed.
Lemma find_diff_le pr a b i : find_diff pr a b = Ok i -> i <= count a.
Proof.
  unfold find_diff. destruct (get_nibble_range pr a 0 _) as [a'|] eqn:Ea; [|discriminate]. cbn [bind]. destruct (get_nibble_range pr b 0 _) as [b'|] eqn:Eb; [|discriminate]. cbn [bind].
  apply get_range_count in Ea. apply get_range_count in Eb. unfold find_diff_equal. rewrite Ea, Eb, N.eqb_refl. cbn [assert bind]. destruct (_ =? 0); [intros E; injection E as <-; lia|].
  destruct (umul pr _ 4); [|discriminate]. cbn [bind]. destruct (find_diff_loop _ _ _ _ _) as [j|] eqn:El; intros E; injection E as <-; [|lia].
  apply find_diff_loop_le in El. lia.
Qed.
Lemma pre_post_count pr a b info : get_pre_and_postfixes pr a b = Ok info -> count (common_prefix info) <= count a /\ count (existing_postfix info) <= count a.
Proof.
  unfold get_pre_and_postfixes. destruct (find_diff pr a b) as [i|] eqn:E; [|discriminate]. apply find_diff_le in E. cbn [bind].
  unfold split_at_idx, usub at 1. destruct (N.leb_spec i (count a)); [|lia]. cbn [bind].
  destruct (umul pr (count a - i) 4) as [pc|]; [|discriminate]. cbn [bind]. destruct (create_mask_of_1s pc) as [pm|]; [|discriminate]. cbn [bind].
  destruct (split_at_idx_postfix pr b i); [|discriminate]. cbn [bind]. intros X. injection X as <-. cbn [common_prefix existing_postfix count]. lia.
Qed.
Lemma merge_count pr a b m : merge_nibbles pr a b = Ok m -> count a <= 64 -> count b <= 64 -> count a <= count m <= 64.
Proof.
  unfold merge_nibbles. intros E A B. unfold uadd in E. destruct (N.ltb_spec (count a + count b) usize_range) as [L|L].
  - cbn [bind] in E. unfold assert in E. destruct (N.leb_spec (count a + count b) 64); [|discriminate]. cbn [bind] in E. destruct (umul pr _ 4); [|discriminate]. cbn [bind] in E.
    injection E as <-. cbn [count]. lia.
  - unfold usize_range in L. lia.
Qed.

(** ** Insert *)
Section Ops.
Variable pr : profile.

Lemma vis_fresh s x : cached s (cell x) = false -> vis s x = 1 + kidsum s x.
Proof. intros E. rewrite vis_eq, E. reflexivity. Qed.
Lemma vis_leaflike s x : kids_of x = [] -> vis s x = 1.
Proof. intros E. rewrite vis_eq. unfold kidsum. rewrite E. cbn. destruct (cached s (cell x)); reflexivity. Qed.

Lemma runs_create b G s n k v (Q : registry -> store -> N -> hnode -> Prop) : glob G s n -> b <= n -> count k <= 64 ->
  (forall s' n' x G', grow b G s n G' s' n' -> b <= cell x -> loose G' s' n' x -> okn x -> kidsum s' x <= 1 -> n < n' <= n + 2 -> Q G' s' n' x) ->
  runs b G s n (hcreate_node_from_insert_val k v) Q.
Proof.
  intros Gl L S H. destruct v as [v|h]; cbn [hcreate_node_from_insert_val].
  - apply (runs_alloc b G s n (fun c => HLeaf c k v)); auto; [constructor|]. intros s1 A1 L1. apply H; auto; [cbn; lia|lia].
  - unfold is_empty. destruct (N.eqb_spec (count k) 0) as [Z|NZ].
    + apply (runs_alloc b G s n (fun c => HHash c h)); auto; [constructor|exact I|]. intros s1 A1 L1. apply H; auto; [exact I|cbn; lia|lia].
    + apply runs_bind. apply (runs_alloc b G s n (fun c => HHash c h)); auto; [constructor|exact I|]. intros s1 A1 L1.
      pose proof (g_glob _ _ _ _ _ _ _ A1) as Gl1. eapply (runs_reg b G s1 (n + 1) (HHash n h)); auto; [exact I|]. intros G2 A2 K2.
      pose proof (g_glob _ _ _ _ _ _ _ A2) as Gl2. apply (runs_alloc b G2 s1 (n + 1) (fun c => HExtension c k (HHash n h))); auto; [lia|repeat constructor; exact K2|cbn; lia|].
      intros s3 A3 L3. apply H; auto; [eapply grow_trans; [exact A1|eapply grow_trans; eauto]|cbn; lia|cbn; lia| |lia].
      unfold kidsum. cbn [kids_of map sumN fold_right]. rewrite vis_leaflike by reflexivity. lia.
Qed.

Lemma runs_empties b m : forall G s n (Q : registry -> store -> N -> list hnode -> Prop), glob G s n -> b <= n ->
  (forall s' n' l G', grow b G s n G' s' n' -> n' = n + N.of_nat m -> length l = m -> Forall (known G') l -> (forall s0, sumN (map (vis s0) l) = N.of_nat m) -> Q G' s' n' l) ->
  runs b G s n (hempties m) Q.
Proof.
  induction m as [|m IH]; intros G s n Q Gl L H; cbn [hempties].
  - apply runs_ret; [exact Gl|]. apply H; auto; [apply grow_refl, Gl|cbn; lia].
  - apply runs_bind. apply (runs_alloc b G s n HEmpty); auto; [constructor|exact I|]. intros s1 A1 L1. pose proof (g_glob _ _ _ _ _ _ _ A1) as Gl1.
    apply runs_bind. eapply (runs_reg b G s1 (n + 1) (HEmpty n)); auto; [exact I|]. intros G2 A2 K2. pose proof (g_glob _ _ _ _ _ _ _ A2) as Gl2.
    apply IH; [exact Gl2|lia|]. intros s3 n3 l G3 A3 N3 E3 F3 S3. pose proof (g_glob _ _ _ _ _ _ _ A3) as Gl3. apply runs_ret; [exact Gl3|].
    apply H; [eapply grow_trans; [exact A1|eapply grow_trans; eauto]|lia|cbn [length]; lia|constructor; [eapply grow_known; eauto|exact F3]|].
    intros s0. cbn [map sumN fold_right]. specialize (S3 s0). rewrite vis_leaflike by reflexivity. unfold sumN in *. lia.
Qed.

Lemma runs_entry b G s n info k v (Q : registry -> store -> N -> N * hnode -> Prop) : glob G s n -> b <= n -> count k <= 64 ->
  (forall s' n' nib x G', grow b G s n G' s' n' -> known G' x -> vis s' x <= 2 -> n < n' <= n + 2 -> Q G' s' n' (nib, x)) ->
  runs b G s n (hins_entry_into_leaf_and_nibble pr info k v) Q.
Proof.
  intros Gl L S H. unfold hins_entry_into_leaf_and_nibble. apply runs_lift. intros first _. apply runs_lift. intros n1 _. apply runs_lift. intros k' Ek. apply truncate_count in Ek.
  apply runs_bind. apply runs_create; auto; [lia|]. intros s1 m1 x G1 A1 B1 L1 O1 K1 N1. pose proof (g_glob _ _ _ _ _ _ _ A1) as Gl1.
  eapply (runs_reg b G1 s1 m1 x); auto. intros G2 A2 K2. pose proof (g_glob _ _ _ _ _ _ _ A2) as Gl2. apply runs_ret; [exact Gl2|].
  apply H; auto; [eapply grow_trans; eauto|]. destruct L1 as (_ & _ & C & _). rewrite vis_fresh by exact C. lia.
Qed.

Lemma runs_placement b G s n info ex k v (Q : registry -> store -> N -> hplacement -> Prop) : glob G s n -> b <= n -> count k <= 64 -> known G ex ->
  (forall s' n' p G', grow b G s n G' s' n' -> n <= n' <= n + 2 ->
     match p with
     | HBranchValue _ (_, x) => known G' x /\ vis s' x <= vis s ex + 2
     | HBothBranchChildren (_, x) (_, y) => known G' x /\ known G' y /\ vis s' x + vis s' y <= vis s ex + 2
     end -> Q G' s' n' p) ->
  runs b G s n (hcheck_placement pr info ex k v) Q.
Proof.
  intros Gl L S Kn H. unfold hcheck_placement.
  assert (O : runs b G s n (if count (new_postfix info) =? 0
     then bv <~ lift (expect_val v);; e0 <~ lift (get_nibble pr (existing_postfix info) 0);; Ret (HBranchValue bv (e0, ex))
     else e0 <~ lift (get_nibble pr (existing_postfix info) 0);; c2 <~ hins_entry_into_leaf_and_nibble pr info k v;; Ret (HBothBranchChildren (e0, ex) c2)) Q).
  { destruct (count (new_postfix info) =? 0).
    - apply runs_lift. intros bv _. apply runs_lift. intros e0 _. apply runs_ret; [exact Gl|]. apply H; [apply grow_refl, Gl|lia|]. split; [exact Kn|lia].
    - apply runs_lift. intros e0 _. apply runs_bind. apply runs_entry; auto. intros s1 n1 nib x G1 A1 K1 V1 N1. apply runs_ret; [apply (g_glob _ _ _ _ _ _ _ A1)|].
      apply H; [exact A1|lia|]. split; [eapply grow_known; eauto|]. split; [exact K1|]. pose proof (grow_vis _ _ _ _ _ _ _ _ Gl A1 Kn). lia. }
  destruct (count (existing_postfix info) =? 0); [|exact O]. destruct ex; try exact O. clear O.
  apply runs_bind. apply runs_entry; auto. intros s1 n1 nib x G1 A1 K1 V1 N1. apply runs_ret; [apply (g_glob _ _ _ _ _ _ _ A1)|].
  apply H; [exact A1|lia|]. split; [exact K1|]. lia.
Qed.

Lemma runs_place b G s n info ex k v (Q : registry -> store -> N -> hnode -> Prop) : glob G s n -> b <= n -> count k <= 64 -> count (common_prefix info) <= 64 -> known G ex ->
  (forall s' n' x G', grow b G s n G' s' n' -> b <= cell x -> loose G' s' n' x -> okn x -> kidsum s' x <= vis s ex + 40 -> n + 1 <= n' <= n + 20 -> Q G' s' n' x) ->
  runs b G s n (hplace_branch pr info ex k v) Q.
Proof.
  intros Gl L S P Kn H. unfold hplace_branch, hnew_branch_child_arr. apply runs_bind. apply runs_empties; auto. intros s1 n1 ch G1 A1 N1 E1 F1 S1. pose proof (g_glob _ _ _ _ _ _ _ A1) as Gl1.
  change (N.of_nat 16) with 16 in *. apply runs_bind. apply runs_placement; auto; [lia|eapply grow_known; eauto|]. intros s2 n2 p G2 A2 N2 R2. pose proof (g_glob _ _ _ _ _ _ _ A2) as Gl2.
  pose proof (grow_vis _ _ _ _ _ _ _ _ Gl A1 Kn) as V1. pose proof (grow_knowns _ _ _ _ _ _ _ _ A2 F1) as F2.
  assert (X : exists ch2 bv, Forall (known G2) ch2 /\ lenN ch2 = 16 /\ sumN (map (vis s2) ch2) <= vis s ex + 18 /\
    match p with HBranchValue bv (nib, n0) => hbranch (set_hchild ch (N.to_nat nib) n0) bv
               | HBothBranchChildren (n3, c1) (n4, c2) => hbranch (set_hchild (set_hchild ch (N.to_nat n3) c1) (N.to_nat n4) c2) [] end = hbranch ch2 bv).
  { assert (L16 : lenN ch = 16) by (unfold lenN; rewrite E1; reflexivity).
    destruct p as [bv [nib x]|[n3 x] [n4 y]].
    - destruct R2 as [K2 V2]. exists (set_hchild ch (N.to_nat nib) x), bv. split; [apply set_hchild_all; auto|]. split; [rewrite set_hchild_len; exact L16|]. split; [|reflexivity].
      pose proof (set_hchild_sum (vis s2) ch (N.to_nat nib) x). specialize (S1 s2). lia.
    - destruct R2 as (K2 & K3 & V2). exists (set_hchild (set_hchild ch (N.to_nat n3) x) (N.to_nat n4) y), []. split; [apply set_hchild_all; [apply set_hchild_all; auto|auto]|].
      split; [rewrite !set_hchild_len; exact L16|]. split; [|reflexivity].
      pose proof (set_hchild_sum (vis s2) ch (N.to_nat n3) x). pose proof (set_hchild_sum (vis s2) (set_hchild ch (N.to_nat n3) x) (N.to_nat n4) y). specialize (S1 s2). lia. }
  destruct X as (ch2 & bv & F3 & L3 & S3 & ->). apply runs_bind. apply (runs_alloc b G2 s2 n2 (fun c => HBranch c ch2 bv)); auto; [lia|cbn; lia|]. intros s3 A3 Lo3.
  pose proof (g_glob _ _ _ _ _ _ _ A3) as Gl3. pose proof (grow_sum _ _ _ _ _ _ _ _ Gl2 A3 F3) as V3.
  destruct (N.eqb_spec (count (common_prefix info)) 0) as [Z|NZ].
  - apply runs_ret; [exact Gl3|]. apply H; auto; [eapply grow_trans; [exact A1|eapply grow_trans; eauto]|cbn; lia|cbn; lia|unfold kidsum; cbn [kids_of]; lia|lia].
  - eapply (runs_reg b G2 s3 (n2 + 1) (HBranch n2 ch2 bv)); auto; [cbn; lia|cbn; lia|]. intros G4 A4 K4. pose proof (g_glob _ _ _ _ _ _ _ A4) as Gl4.
    apply (runs_alloc b G4 s3 (n2 + 1) (fun c => HExtension c (common_prefix info) (HBranch n2 ch2 bv))); auto; [lia|repeat constructor; exact K4|cbn; lia|]. intros s5 A5 Lo5.
    apply H; auto; [eapply grow_trans; [exact A1|eapply grow_trans; [exact A2|eapply grow_trans; [exact A3|eapply grow_trans; eauto]]]|cbn; lia|cbn; split; [lia|exact I]| |lia].
    unfold kidsum. cbn [kids_of map sumN fold_right]. pose proof (grow_vis _ _ _ _ _ _ _ _ Gl4 A5 K4). pose proof (vis_pos s3 (HBranch n2 ch2 bv)). unfold kidsum in *. cbn [kids_of] in *. lia.
Qed.

Definition below (t : hnode) : Prop := match t with HBranch _ _ _ | HHash _ _ => True | _ => False end.

Lemma known_kidsum G s n c : glob G s n -> known G c -> kidsum s c <= vis s c + 495.
Proof.
  intros Gl Kn. destruct (Gl _ _ Kn) as (_ & _ & _ & _ & B). rewrite vis_eq. destruct (cached s (cell c)); [specialize (B eq_refl); lia|lia].
Qed.

Lemma insert_runs t : forall b G s n k v, glob G s n -> b <= n -> count k <= 64 -> okn t -> Forall (known G) (kids_of t) ->
  runs b G s n (hinsert_rec pr t k v) (fun G' s' n' x =>
    b <= cell x /\ loose G' s' n' x /\ okn x /\ (below t -> below x) /\
    kidsum s' x + 497 * n <= kidsum s t + 497 * n' /\ n' <= n + count k + 22 /\ (count k = 0 -> below t -> n' <= n + 1)).
Proof.
  induction t as [c|c h|c ch v0 IH|c m t IH|c m v0] using hnode_ind'; intros b G s n k v Gl L S O F; cbn [hinsert_rec kids_of] in *.
  - apply runs_create; auto. intros s1 n1 x G1 A1 B1 L1 O1 K1 N1. split; [exact B1|]. split; [exact L1|]. split; [exact O1|]. split; [intros []|]. split; [lia|]. split; [lia|]. intros _ [].
  - exact I.
  - destruct (N.eqb_spec (count k) 0) as [Z|NZ].
    + destruct v as [v|]; [|exact I]. cbn [hcreate_node_if_ins_val_not_hash]. apply (runs_alloc b G s n (fun c => HBranch c ch v)); auto. intros s1 A1 L1.
      pose proof (grow_sum _ _ _ _ _ _ _ _ Gl A1 F) as V1. split; [cbn; lia|]. split; [exact L1|]. split; [exact O|]. split; [intros _; exact I|]. unfold kidsum. cbn [kids_of]. repeat split; lia.
    + apply runs_lift. intros [nib k'] Ep. apply pop_count in Ep. apply runs_bind. apply runs_hchild. intros c0 Ec.
      pose proof (nth_error_In _ _ Ec) as Ic. assert (K0 : known G c0) by (rewrite Forall_forall in F; auto). destruct (Gl _ _ K0) as (_ & _ & F0 & O0 & _).
      rewrite Forall_forall in IH. eapply runs_mono; [apply (IH c0 Ic b G s n k' v); auto; lia|]. intros G1 s1 n1 x A1 (B1 & L1 & O1 & _ & K1 & N1 & _).
      pose proof (g_glob _ _ _ _ _ _ _ A1) as Gl1. eapply (runs_reg b G1 s1 n1 x); auto. intros G2 A2 K2. pose proof (g_glob _ _ _ _ _ _ _ A2) as Gl2.
      pose proof (g_n _ _ _ _ _ _ _ A1) as NN.
      apply (runs_alloc b G2 s1 n1 (fun c => HBranch c (set_hchild ch (N.to_nat nib) x) v0)); auto; [lia| |cbn; rewrite set_hchild_len; exact O|].
      { cbn [kids_of]. apply set_hchild_all; [|exact K2]. eapply grow_knowns; [exact A2|]. eapply grow_knowns; eauto. }
      intros s3 A3 L3. split; [cbn; lia|]. split; [exact L3|]. split; [cbn; rewrite set_hchild_len; exact O|]. split; [intros _; exact I|].
      pose proof (grow_sum _ _ _ _ _ _ _ _ Gl A1 F) as V1. assert (F2 : Forall (known G2) (set_hchild ch (N.to_nat nib) x)).
      { apply set_hchild_all; [|exact K2]. eapply grow_knowns; [exact A2|]. eapply grow_knowns; eauto. }
      pose proof (grow_sum _ _ _ _ _ _ _ _ Gl2 A3 F2) as V2. pose proof (set_hchild_sum_eq (vis s1) ch _ x _ Ec) as SE.
      destruct L1 as (_ & _ & C1 & _). pose proof (vis_fresh s1 x C1) as VX. pose proof (known_kidsum _ _ _ _ Gl K0) as KK.
      unfold kidsum in V1 |- *. cbn [kids_of] in *.
      assert (SC : sumN (map (vis s1) ch) + vis s c0 <= sumN (map (vis s) ch) + vis s1 c0).
      { assert (FV : Forall (fun u => vis s1 u <= vis s u) ch) by (eapply Forall_impl; [|exact F]; intros u; eapply grow_vis; eauto).
        clear - FV Ec. revert Ec. generalize (N.to_nat nib). induction FV as [|u l Hu FV IHl]; intros [|i] Ec; cbn [nth_error] in Ec; try discriminate; cbn [map sumN fold_right].
        - injection Ec as ->. pose proof (sum_le _ _ _ FV). unfold sumN in *. lia.
        - specialize (IHl i Ec). unfold sumN in *. lia. }
      repeat split; try lia.
  - destruct O as [Om Ot]. apply runs_lift. intros info Ei. apply pre_post_count in Ei. inversion F as [|? ? Kt _]; subst. destruct (Gl _ _ Kt) as (_ & _ & F0 & O0 & _).
    apply runs_lift. intros [] _.
    + apply runs_lift. intros k' Ek. apply truncate_count in Ek. apply runs_bind. eapply runs_mono; [apply (IH b G s n k' v); auto; lia|].
      intros G1 s1 n1 x A1 (B1 & L1 & O1 & I1 & K1 & N1 & N2). pose proof (g_glob _ _ _ _ _ _ _ A1) as Gl1. eapply (runs_reg b G1 s1 n1 x); auto. intros G2 A2 K2.
      pose proof (g_glob _ _ _ _ _ _ _ A2) as Gl2. pose proof (g_n _ _ _ _ _ _ _ A1) as NN.
      apply (runs_alloc b G2 s1 n1 (fun c => HExtension c m x)); auto; [lia|repeat constructor; exact K2|]. intros s3 A3 L3.
      split; [cbn; lia|]. split; [exact L3|]. split; [split; auto; apply I1, Ot|]. split; [intros []|]. pose proof (known_kidsum _ _ _ _ Gl Kt) as KK.
      destruct L1 as (_ & _ & C1 & _). pose proof (vis_fresh s1 x C1) as VX. pose proof (grow_vis _ _ _ _ _ _ _ _ Gl2 A3 K2) as V3.
      unfold kidsum at 1 2. cbn [kids_of map sumN fold_right]. assert (count k = 0 -> n1 <= n + 1) by (intros; apply N2; [lia|exact Ot]). split; [lia|]. split; [lia|]. intros _ [].
    + apply runs_lift. intros adj Ea. apply truncate_count in Ea. apply runs_bind.
      assert (PL : forall G1 s1 n1 ex, grow b G s n G1 s1 n1 -> n1 <= n + 1 -> known G1 ex -> vis s1 ex <= 1 + vis s t ->
        runs b G1 s1 n1 (hplace_branch pr info ex k v) (fun G' s' n' x => b <= cell x /\ loose G' s' n' x /\ okn x /\ (False -> below x) /\
          kidsum s' x + 497 * n <= kidsum s (HExtension c m t) + 497 * n' /\ n' <= n + count k + 22 /\ (count k = 0 -> False -> n' <= n + 1))).
      { intros G1 s1 n1 ex A1 N1 K1 V1. pose proof (g_glob _ _ _ _ _ _ _ A1) as Gl1. pose proof (g_n _ _ _ _ _ _ _ A1) as NN.
        apply runs_place; auto; [lia|lia|]. intros s2 n2 x G2 A2 B2 L2 O2 S2 N2. split; [exact B2|]. split; [exact L2|]. split; [exact O2|]. split; [intros []|].
        unfold kidsum at 2. cbn [kids_of map sumN fold_right]. split; [lia|]. split; [lia|]. intros _ []. }
      destruct (N.eqb_spec (count adj) 0) as [Z|NZ].
      * apply runs_ret; [exact Gl|]. apply PL; auto; [apply grow_refl, Gl|lia|lia].
      * apply (runs_alloc b G s n (fun c => HExtension c adj t)); auto; [cbn; lia|]. intros s1 A1 L1. pose proof (g_glob _ _ _ _ _ _ _ A1) as Gl1.
        eapply (runs_reg b G s1 (n + 1) (HExtension n adj t)); auto; [cbn; split; [lia|exact Ot]|]. intros G2 A2 K2.
        apply PL; [eapply grow_trans; eauto|lia|exact K2|]. pose proof (grow_vis _ _ _ _ _ _ _ _ Gl A1 Kt). pose proof (vis_pos s1 (HExtension n adj t)).
        unfold kidsum in *. cbn [kids_of map sumN fold_right] in *. lia.
  - destruct (nib_eqb m k).
    + destruct v as [v|]; [|exact I]. cbn [hcreate_node_if_ins_val_not_hash]. apply (runs_alloc b G s n (fun c => HLeaf c m v)); auto. intros s1 A1 L1.
      split; [cbn; lia|]. split; [exact L1|]. split; [exact O|]. split; [intros []|]. unfold kidsum. cbn [kids_of map sumN fold_right]. split; [lia|]. split; [lia|]. intros _ [].
    + apply runs_lift. intros info Ei. apply pre_post_count in Ei. apply runs_lift. intros n1 _. apply runs_lift. intros l' El. apply truncate_count in El. cbn [okn] in O.
      apply runs_bind. apply (runs_alloc b G s n (fun c => HLeaf c l' v0)); auto; [cbn; lia|]. intros s1 A1 L1. pose proof (g_glob _ _ _ _ _ _ _ A1) as Gl1.
      eapply (runs_reg b G s1 (n + 1) (HLeaf n l' v0)); auto; [cbn; lia|]. intros G2 A2 K2. pose proof (g_glob _ _ _ _ _ _ _ A2) as Gl2.
      apply runs_place; auto; [lia|lia|]. intros s2 n2 x G3 A3 B2 L2 O2 S2 N2. split; [exact B2|]. split; [exact L2|]. split; [exact O2|]. split; [intros []|].
      rewrite (vis_leaflike s1) in S2 by reflexivity. split; [lia|]. split; [lia|]. intros _ [].
Qed.
End Ops.
