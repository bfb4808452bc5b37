(** Results of the operations are values of the Rust types: subsets, hashes, histories of tries without cells, programs over cells. *)
From Verif Require Import Base Nibbles NibblesFacts Trie TrieSpec TrieFacts HashSpec Rlp Hashing Query Diff DiffCache Subset SubsetSpec SubsetFacts Cache CacheSpec CacheFacts CacheFacts2 CacheFacts3 Serde Json JsonSpec TypeSpec ReloadFacts FullFacts TypeFacts.
From Verif Require Import Trie TrieSpec.
Open Scope N_scope.

Section Types.
Variable keccak : list N -> list N.
Variable pr : profile.
Hypothesis K32 : hash32 keccak.

Lemma keccak_type b : h256 (keccak b).
Proof.
  destruct (K32 b) as [B L]. split; [|exact B].
  unfold YellowPaper.len in L. lia.
Qed.
Definition enc_type (e : encoded_node) : Prop := match e with Hashed h => h256 h | Raw _ => True end.
Lemma large_type b : enc_type (hash_bytes_if_large_enough keccak b).
Proof. unfold hash_bytes_if_large_enough. destruct (_ <=? _); [apply keccak_type|exact I]. Qed.
Lemma encode_type t e : node_type t -> rlp_encode_and_hash_node keccak pr t = Ok e -> enc_type e.
Proof.
  intros T E. destruct t; cbn [rlp_encode_and_hash_node] in E.
  - injection E as <-. exact I.
  - injection E as <-. inversion T; subst. assumption.
  - okb E. okb E. injection E as <-. apply large_type.
  - okb E. okb E. okb E. injection E as <-. apply large_type.
  - okb E. okb E. injection E as <-. apply large_type.
Qed.
Lemma tracked_type t : forall tr x, tracks tr t -> node_type t -> create_from_tracked keccak pr tr = Ok x -> node_type x.
Proof.
  induction t as [|h|ch w IH|n c IH|n w] using node_ind'; intros tr x T F E; rewrite (create_eq' keccak pr) in E;
    assert (KP : forall x, keep_of keccak pr tr = Ok x -> node_type x);
    try (destruct (touched tr); [apply KP, E|]; okb E; match goal with a : encoded_node |- _ => destruct a end; [apply KP, E|injection E as <-; constructor;
      match goal with H : rlp_encode_and_hash_node _ _ ?u = Ok (Hashed _) |- _ => apply (encode_type u _) in H; [exact H|]; inversion T; subst; exact F end]);
    clear x E; intros x E; inversion T; subst; cbn [keep_of get_branch_value_expected get_nibbles_expected] in E.
  - injection E as <-. constructor.
  - injection E as <-. exact F.
  - okb E. injection E as <-. apply branch_type_inv in F as [[L F] V]. apply branch_type; [|exact V].
    match goal with H : Forall2 tracks ?l ch |- _ => rename H into F2; rename l into trs end.
    assert (S : forall trs ch ns, Forall2 tracks trs ch -> Forall node_type ch ->
       Forall (fun t => forall tr x, tracks tr t -> node_type t -> create_from_tracked keccak pr tr = Ok x -> node_type x) ch ->
       create_all keccak pr trs = Ok ns -> length ns = length ch /\ Forall node_type ns).
    { clear. intros trs ch ns F2. revert ns. induction F2 as [|tr t trs ch T F2 IHF]; intros ns F IH E; cbn [create_all] in E.
      - injection E as <-. split; [reflexivity|constructor].
      - okb E. okb E. injection E as <-. inversion F; subst. inversion IH; subst. destruct (IHF a0) as [A B]; auto.
        split; [cbn [length]; congruence|]. constructor; [eauto|exact B]. }
    destruct (S trs ch a F2 F IH E0) as [A B]. split; [congruence|exact B].
  - cbn [bind] in E. okb E. injection E as <-. inversion F; subst. constructor; [assumption|]. eapply IH; eauto.
  - cbn in E. injection E as <-. exact F.
Qed.
Lemma subset_type t tr ks x tr' : tracks tr t -> node_type t -> create_trie_subset_intern keccak pr tr ks = Ok (ROk (x, tr')) ->
  node_type x /\ tracks tr' t.
Proof.
  intros T F E. unfold create_trie_subset_intern in E. okb E. destruct a as [tr1|e]; [|discriminate]. okb E. injection E as <- <-.
  assert (T' : tracks tr1 t) by (eapply mark_all_tracks; eassumption). split; [|exact T']. eapply tracked_type; eassumption.
Qed.
Lemma subsets_type t kss : forall tr xs, tracks tr t -> node_type t -> create_subsets_from keccak pr tr kss = Ok (ROk xs) -> Forall node_type xs.
Proof.
  induction kss as [|ks kss IH]; intros tr xs T F E; cbn [create_subsets_from] in E; [injection E as <-; constructor|].
  okb E. destruct a as [[x tr']|e]; [|discriminate]. okb E. destruct a as [ys|e]; [|discriminate]. injection E as <-.
  destruct (subset_type t tr ks x tr' T F E0) as [Fx T']. constructor; [exact Fx|]. eapply IH; [apply reset_tracks, T'|exact F|eassumption].
Qed.
Lemma subtrie_type path : forall t x, node_type t -> subtrie t path = Ok x -> node_type x.
Proof.
  induction path as [|d path IH]; intros t x F E; [injection E as <-; exact F|]. destruct t; cbn [subtrie] in E; try discriminate.
  - okb E. apply branch_type_inv in F as [[_ F] _]. unfold the in E0. destruct (nth_error children d) as [c|] eqn:Ec; [|discriminate].
    injection E0 as <-. rewrite Forall_forall in F. eapply IH; [|exact E]. apply F. eapply nth_error_In, Ec.
  - inversion F; subst. eapply IH; [|exact E]. assumption.
Qed.

Lemma vstep_type ts o ts' x : op_type o -> Forall node_type ts -> vstep keccak pr ts o = Ok (ts', x) -> Forall node_type ts'.
Proof.
  intros O F E. assert (G : forall i t, the ts i = Ok t -> node_type t).
  { intros i t Et. unfold the in Et. destruct (nth_error ts i) eqn:En; [|discriminate]. injection Et as <-. rewrite Forall_forall in F.
    eapply F, nth_error_In, En. }
  assert (RP : forall i t, node_type t -> Forall node_type (replace ts i t)).
  { intros i t Ft. clear - F Ft. revert i. induction F as [|u ts Hu F IH]; intros [|i]; cbn [replace]; auto. }
  assert (AP : forall t, node_type t -> Forall node_type (ts ++ [t])).
  { intros t Ft. apply Forall_app. auto. }
  destruct o as [l|i k v|i l|i k|i k|i|i j|i|i path|i j|i ks|i kss|i|i j|p]; cbn [vstep op_type] in E, O.
  - okb E. injection E as <- <-. apply AP. eapply extend_type; [|exact O|eassumption]. constructor.
  - okb E. okb E. injection E as <- <-. apply RP. eapply insert_type; [|apply O|apply O|eassumption]. eauto.
  - okb E. okb E. injection E as <- <-. apply RP. eapply extend_type; [|exact O|eassumption]. eauto.
  - okb E. okb E. destruct a0 as [y d]. injection E as <- <-. apply RP. eapply trie_delete_type; [|exact O|eassumption]. eauto.
  - okb E. okb E. injection E as <- <-. exact F.
  - okb E. okb E. injection E as <- <-. exact F.
  - okb E. okb E. injection E as <- <-. exact F.
  - okb E. injection E as <- <-. eauto.
  - okb E. okb E. injection E as <- <-. apply AP. eapply subtrie_type; [|eassumption]. eauto.
  - okb E. okb E. injection E as <- <-. eauto.
  - okb E. okb E. destruct a0 as [y|e]; injection E as <- <-; [|exact F]. apply AP.
    unfold create_trie_subset in E1. okb E1. destruct a0 as [[y' tr']|e]; [|discriminate]. injection E1 as <-.
    eapply (subset_type a (track a)); [apply track_tracks|eauto|eassumption].
  - okb E. okb E. destruct a0 as [ys|e]; injection E as <- <-; [|exact F]. apply Forall_app. split; [exact F|].
    eapply (subsets_type a); [apply track_tracks|eauto|eassumption].
  - okb E. okb E. injection E as <- <-. apply AP. rewrite reload_eq in E1. destruct (full a) eqn:Fa; [|discriminate]. injection E1 as <-. eauto.
  - okb E. okb E. okb E. injection E as <- <-. exact F.
  - okb E. injection E as <- <-. apply AP. destruct p as [|h|k v|k i|is v]; cbn [vmake piece_type] in E0, O; try (injection E0 as <-; constructor; apply O || exact O).
    + okb E0. injection E0 as <-. constructor; eauto.
    + destruct (Nat.eqb_spec (length is) 16) as [Li|]; [|discriminate]. okb E0. injection E0 as <-. apply branch_type; [|exact O]. unfold children_type. rewrite <- Li.
      clear - G E. revert a0 E. induction is as [|i is IH]; intros l E; cbn [pick] in E; [injection E as <-; auto|].
      okb E. okb E. injection E as <-. destruct (IH _ eq_refl). cbn [length]. split; [congruence|]. constructor; eauto.
Qed.
Lemma vrun_type os : forall ts ts' xs, Forall op_type os -> Forall node_type ts -> vrun keccak pr ts os = Ok (ts', xs) -> Forall node_type ts'.
Proof.
  induction os as [|o os IH]; intros ts ts' xs O F E; cbn [vrun] in E; [injection E as <- <-; exact F|]. inversion O; subst.
  okb E. destruct a as [ts1 x]. okb E. destruct a as [ts2 ys]. injection E as <- <-. eapply IH; [assumption| |eassumption]. eapply vstep_type; eassumption.
Qed.

(** ** Programs over cells *)
Definition cached_type (o : option (list N)) : Prop := match o with Some h => h256 h | None => True end.
Fixpoint safe {A} (p : prog A) (Q : A -> Prop) : Prop :=
  match p with
  | Ret a => Q a
  | Fail => True
  | Read _ k => forall o, cached_type o -> safe (k o) Q
  | Write _ o p' => cached_type o /\ safe p' Q
  | Alloc k => forall c, safe (k c) Q
  end.
Lemma safe_exec {A} (p : prog A) (Q : A -> Prop) : forall s n a s' n', (forall c, cached_type (s c)) -> safe p Q -> exec p s n = Ok (a, s', n') ->
  Q a /\ forall c, cached_type (s' c).
Proof.
  assert (U : forall s c o, (forall c, cached_type (s c)) -> cached_type o -> forall c', cached_type (update s c o c')).
  { intros s c o S O c'. unfold update. destruct (c' =? c); [exact O|apply S]. }
  induction p as [x| |c k IH|c o p IH|k IH]; intros s n a s' n' S P E; cbn [exec safe] in *; try discriminate.
  - injection E as <- <- <-. auto.
  - eapply IH; [exact S| |exact E]. apply P, S.
  - eapply IH; [|apply P|exact E]. apply U; [exact S|apply P].
  - eapply IH; [|apply P|exact E]. apply U; [exact S|exact I].
Qed.
Lemma safe_bind {A B} (p : prog A) (f : A -> prog B) Q R : safe p Q -> (forall a, Q a -> safe (f a) R) -> safe (pbind p f) R.
Proof. induction p as [x| |c k IH|c o p IH|k IH]; intros P F; cbn [pbind safe] in *; try exact I; auto. destruct P. auto. Qed.
Lemma safe_lift {A B} (r : res A) (f : A -> prog B) R : (forall a, r = Ok a -> safe (f a) R) -> safe (pbind (lift r) f) R.
Proof. intros F. destruct r; cbn [lift pbind]; [auto|exact I]. Qed.
Lemma safe_mono {A} (p : prog A) (Q R : A -> Prop) : safe p Q -> (forall a, Q a -> R a) -> safe p R.
Proof. induction p as [x| |c k IH|c o p IH|k IH]; intros P F; cbn [safe] in *; auto. destruct P. auto. Qed.
Lemma safe_catch {A} (p : prog A) Q : safe p Q -> safe (catch p) (fun o => match o with Some a => Q a | None => True end).
Proof. induction p as [x| |c k IH|c o p IH|k IH]; intros P; cbn [catch safe] in *; auto. destruct P. auto. Qed.

Definition htype (t : hnode) : Prop := node_type (erase t).
Definition htypes (l : list hnode) : Prop := children_type (map erase l).
Lemma hbranch_type ch v : htypes ch -> u8s v -> safe (hbranch ch v) htype.
Proof. intros C V c. apply branch_type; assumption. Qed.
Lemma hextension_type n t : key_type n -> htype t -> safe (hextension n t) htype.
Proof. intros K T c. constructor; assumption. Qed.
Lemma hleaf_type n v : key_type n -> u8s v -> safe (hleaf n v) htype.
Proof. intros K T c. constructor; assumption. Qed.
Lemma hhash_type h : h256 h -> safe (hhash h) htype.
Proof. intros H c. constructor; assumption. Qed.
Lemma hempties_type n : safe (hempties n) (fun l => length l = n /\ Forall node_type (map erase l)).
Proof.
  induction n as [|n IH]; cbn [hempties]; [split; [reflexivity|constructor]|]. cbn [hempty pbind safe]. intros c. eapply safe_bind; [exact IH|].
  intros l [L F]. cbn [safe map length]. split; [congruence|]. constructor; [constructor|exact F].
Qed.
Lemma map_set l : forall i c, map erase (set_hchild l i c) = set_child (map erase l) i (erase c).
Proof. induction l as [|x l IH]; intros [|i] c; cbn [set_hchild map set_child]; try reflexivity. f_equal. apply IH. Qed.
Lemma hset_type l i c : htypes l -> htype c -> htypes (set_hchild l i c).
Proof. intros L C. unfold htypes. rewrite map_set. apply set_type; assumption. Qed.
Lemma hwith_type {A} (f : hnode -> prog A) Q l : (forall c, In c l -> safe (f c) Q) -> forall i, safe (with_hchild f l i) Q.
Proof.
  induction l as [|c l IH]; intros H i; cbn [with_hchild]; [exact I|]. destruct i; [apply H; left; reflexivity|]. apply IH. intros x J. apply H. right. exact J.
Qed.
Lemma htypes_in l c : htypes l -> In c l -> htype c.
Proof. intros [_ F] J. rewrite Forall_forall in F. apply F, in_map, J. Qed.

Lemma hcreate_type k v : key_type k -> val_type v -> safe (hcreate_node_from_insert_val k v) htype.
Proof.
  intros K V. destruct v as [b|h]; cbn [hcreate_node_from_insert_val val_type] in *; [apply hleaf_type; assumption|]. destruct (is_empty k); [apply hhash_type, V|].
  eapply safe_bind; [apply hhash_type, V|]. intros c C. apply hextension_type; assumption.
Qed.
Lemma hentry_type i k v : key_type k -> val_type v -> safe (hins_entry_into_leaf_and_nibble pr i k v) (fun r => htype (snd r)).
Proof.
  intros K V. unfold hins_entry_into_leaf_and_nibble. apply safe_lift. intros x _. apply safe_lift. intros n1 _. apply safe_lift. intros k' E.
  eapply safe_bind; [apply hcreate_type; [eapply trunc_type; [|eassumption]; assumption|exact V]|]. intros c C. exact C.
Qed.
Definition place_ok (p : hplacement) : Prop :=
  match p with HBranchValue v c => u8s v /\ htype (snd c) | HBothBranchChildren c1 c2 => htype (snd c1) /\ htype (snd c2) end.
Lemma hplacement_type i e k v : htype e -> key_type k -> val_type v -> safe (hcheck_placement pr i e k v) place_ok.
Proof.
  intros T K V. unfold hcheck_placement.
  assert (O : safe (if count (new_postfix i) =? 0 then bv <~ lift (expect_val v) ;; e0 <~ lift (get_nibble pr (existing_postfix i) 0) ;; Ret (HBranchValue bv (e0, e))
      else e0 <~ lift (get_nibble pr (existing_postfix i) 0) ;; c2 <~ hins_entry_into_leaf_and_nibble pr i k v ;; Ret (HBothBranchChildren (e0, e) c2)) place_ok).
  { destruct (_ =? _).
    - apply safe_lift. intros bv Eb. apply safe_lift. intros e0 _. split; [|exact T]. destruct v; [|discriminate]. injection Eb as <-. exact V.
    - apply safe_lift. intros e0 _. eapply safe_bind; [apply hentry_type; assumption|]. intros c2 C. split; [exact T|exact C]. }
  destruct (count (existing_postfix i) =? 0); [|exact O]. destruct e as [?|? ?|? ? ?|? ? ?|c0 n0 value]; try exact O.
  eapply safe_bind; [apply hentry_type; assumption|]. intros c C. split; [|exact C]. inversion T; subst. assumption.
Qed.
Lemma hplace_type i e k v : key_type (common_prefix i) -> htype e -> key_type k -> val_type v -> safe (hplace_branch pr i e k v) htype.
Proof.
  intros P T K V. unfold hplace_branch. eapply safe_bind; [apply hempties_type|]. intros ch [L C0]. assert (C : htypes ch) by (split; [rewrite map_length; exact L|exact C0]). eapply safe_bind; [apply hplacement_type; assumption|].
  intros p O. apply (safe_bind _ _ htype).
  - destruct p as [bv [nib n]|[n1 c1] [n2 c2]]; destruct O as [O1 O2]; apply hbranch_type; try assumption; try apply u8s_nil; repeat apply hset_type; assumption.
  - intros b B. destruct (_ =? _); [exact B|]. apply hextension_type; assumption.
Qed.
Lemma hinsert_type t : forall k v, htype t -> key_type k -> val_type v -> safe (hinsert_rec pr t k v) htype.
Proof.
  induction t as [c|c h|c ch w IH|c n t IH|c n w] using hnode_ind'; intros k v T K V; cbn [hinsert_rec]; unfold htype in T; cbn [erase] in T.
  - apply hcreate_type; assumption.
  - exact I.
  - apply branch_type_inv in T as [Tc Tw]. destruct (_ =? _).
    + destruct v; [|exact I]. apply hbranch_type; assumption.
    + apply safe_lift. intros [x k'] E. pose proof (pop_type _ _ _ _ K E) as K'. eapply (safe_bind _ _ htype).
      * apply hwith_type. intros c' J. rewrite Forall_forall in IH. apply IH; try assumption. eapply htypes_in; eassumption.
      * intros c' C. apply hbranch_type; [apply hset_type; assumption|exact Tw].
  - inversion T; subst. apply safe_lift. intros i E. destruct (pre_type pr _ _ _ ltac:(eassumption) K E) as (P1 & P2 & P3). apply safe_lift. intros [|] _.
    + apply safe_lift. intros k' E'. apply (safe_bind _ _ htype); [apply IH; try assumption; eapply trunc_type; [|eassumption]; assumption|].
      intros c' C. apply hextension_type; assumption.
    + apply safe_lift. intros adj E'. apply (safe_bind _ _ htype).
      * destruct (_ =? _); [assumption|]. apply hextension_type; [eapply trunc_type; [|eassumption]; assumption|assumption].
      * intros e Te. apply hplace_type; assumption.
  - inversion T; subst. destruct (nib_eqb n k).
    + destruct v; [|exact I]. apply hleaf_type; assumption.
    + apply safe_lift. intros i E. destruct (pre_type pr _ _ _ ltac:(eassumption) K E) as (P1 & P2 & P3). apply safe_lift. intros n1 _. apply safe_lift. intros l' E'.
      apply (safe_bind _ _ htype); [apply hleaf_type; [eapply trunc_type; [|eassumption]; assumption|assumption]|]. intros e Te. apply hplace_type; assumption.
Qed.
Lemma with_cell_type c t : htype t -> htype (with_cell c t).
Proof. intros T. destruct t; exact T. Qed.
Lemma htrie_insert_type t k v : htype t -> key_type k -> val_type v -> safe (htrie_insert pr t k v) htype.
Proof. intros T K V. unfold htrie_insert. eapply safe_bind; [apply hinsert_type; assumption|]. intros u U. apply with_cell_type, U. Qed.
Lemma hextend_type l : forall t, htype t -> Forall entry_type l -> safe (htrie_extend pr t l) htype.
Proof.
  induction l as [|[k v] l IH]; intros t T F; cbn [htrie_extend]; [exact T|]. inversion F as [|? ? [A B] F']; subst.
  eapply safe_bind; [apply htrie_insert_type; assumption|]. intros u U. apply IH; assumption.
Qed.
Lemma hcollapse_type n t : key_type n -> htype t -> safe (hcollapse_ext_node_if_needed pr n t) htype.
Proof.
  intros K T. destruct t as [c|c h|c ch v|c m t|c m v]; cbn [hcollapse_ext_node_if_needed]; try exact I; try (apply hextension_type; assumption).
  - inversion T; subst. apply safe_lift. intros k E. apply hextension_type; [|assumption]. eapply merge_type; [| |eassumption]; assumption.
  - inversion T; subst. apply safe_lift. intros k E. apply hleaf_type; [|assumption]. eapply merge_type; [| |eassumption]; assumption.
Qed.
Lemma htry_type t : htype t -> safe (htry_collapse_if_extension pr t) htype.
Proof. intros T. destruct t; try exact T. inversion T; subst. apply hcollapse_type; assumption. Qed.
Lemma hother_in l : forall i j r, hget_other_non_empty_child i l j = Some r -> In (snd r) l.
Proof. induction l as [|c l IH]; intros i j r E; cbn in E; [discriminate|]. destruct (_ && _); [injection E as <-; left; reflexivity|]. right. eapply IH, E. Qed.
Definition deleted_ok (r : option (hnode * list N)) : Prop := match r with Some (t, _) => htype t | None => True end.
Lemma hdelete_intern_type t : forall k, htype t -> key_type k -> safe (hdelete_intern pr t k) deleted_ok.
Proof.
  induction t as [c|c h|c ch w IH|c n t IH|c n w] using hnode_ind'; intros k T K; cbn [hdelete_intern]; unfold htype in T; cbn [erase] in T; try exact I.
  - apply branch_type_inv in T as [Tc Tw]. destruct (is_empty k).
    + eapply safe_bind; [apply hbranch_type; [exact Tc|apply u8s_nil]|]. intros b B. exact B.
    + apply safe_lift. intros [x k'] E. pose proof (pop_type _ _ _ _ K E) as K'. apply (safe_bind _ _ deleted_ok).
      * apply hwith_type. intros c' J. rewrite Forall_forall in IH. apply IH; try assumption. eapply htypes_in; eassumption.
      * intros [[c' del]|] D; [|exact I]. destruct (_ && _).
        -- destruct (hget_other_non_empty_child _ _ _) as [[i c2]|] eqn:O; [|exact I]. apply safe_lift. intros m Em.
           eapply safe_bind; [apply hextension_type; [eapply one_type; eassumption|]|intros e Te; exact Te]. eapply htypes_in; [exact Tc|]. apply (hother_in _ _ _ _ O).
        -- eapply safe_bind; [apply htry_type, D|]. intros c2 C2. eapply safe_bind; [apply hbranch_type; [apply hset_type; [exact Tc|exact C2]|exact Tw]|]. intros b B. exact B.
  - inversion T; subst. apply safe_lift. intros [|] _; [|exact I]. apply safe_lift. intros k' E. apply (safe_bind _ _ deleted_ok).
    + apply IH; [assumption|]. eapply trunc_type; [|eassumption]; assumption.
    + intros [[c' del]|] D; [|exact I]. eapply safe_bind; [apply hcollapse_type; [eassumption|exact D]|]. intros u U. exact U.
  - destruct (nib_eqb n k); [|exact I]. intros c0. constructor.
Qed.
Lemma hdelete_type t k : htype t -> key_type k -> safe (htrie_delete pr t k) (fun r => htype (fst r)).
Proof.
  intros T K. unfold htrie_delete. eapply safe_bind; [apply hdelete_intern_type; assumption|]. intros [[u d]|] D; [|exact T].
  eapply safe_bind; [apply htry_type, D|]. intros v V. apply with_cell_type, V.
Qed.

(** Hashes. *)
Lemma hchildren_type l : (forall c, In c l -> safe (hash_intern keccak pr c) enc_type) -> forall s, safe (hash_children keccak pr l s) (fun _ => True).
Proof.
  induction l as [|c l IH]; intros H s; cbn [hash_children]; [exact I|]. eapply safe_bind; [apply H; left; reflexivity|]. intros e _. apply IH. intros x J. apply H. right. exact J.
Qed.
Lemma hintern_from t : safe (encode_node keccak pr t) enc_type -> safe (hash_intern keccak pr t) enc_type.
Proof.
  intros H. rewrite hash_intern_eq. intros [h|] O; [exact O|]. eapply safe_bind; [exact H|]. intros [b|h] E; [exact I|]. split; [exact E|exact E].
Qed.
Lemma hencode_type t : htype t -> safe (encode_node keccak pr t) enc_type.
Proof.
  induction t as [c|c h|c ch w IH|c n t IH|c n w] using hnode_ind'; intros T; unfold htype in T; cbn [erase encode_node] in *.
  - exact I.
  - inversion T; subst. assumption.
  - apply branch_type_inv in T as [Tc Tw]. eapply safe_bind.
    + apply hchildren_type. intros x J. apply hintern_from. rewrite Forall_forall in IH. apply IH; [exact J|]. eapply htypes_in; eassumption.
    + intros s _. apply safe_lift. intros b _. apply large_type.
  - inversion T; subst. apply safe_lift. intros hp _. eapply safe_bind; [apply hintern_from, IH; assumption|]. intros e _. apply safe_lift. intros b _. apply large_type.
  - apply safe_lift. intros hp _. apply safe_lift. intros b _. apply large_type.
Qed.
Lemma hintern_type t : htype t -> safe (hash_intern keccak pr t) enc_type.
Proof. intros T. apply hintern_from, hencode_type, T. Qed.
Lemma hhash_of_type t : htype t -> safe (hhash_of keccak pr t) h256.
Proof.
  intros T. unfold hhash_of. intros [h|] O; [exact O|]. eapply safe_bind; [apply hencode_type, T|]. intros [b|h] E; [apply keccak_type|exact E].
Qed.

(** Subsets. *)
Lemma htracked_type t : forall tr, htype t -> safe (hcreate_from_tracked keccak pr t tr) htype.
Proof.
  induction t as [c|c h|c ch w IH|c n t IH|c n w] using hnode_ind'; intros tr T; cbn [hcreate_from_tracked];
    match goal with |- safe (if _ then ?k else _) _ => assert (KP : safe k htype); [|destruct (touched tr); [exact KP|];
      eapply safe_bind; [apply hintern_type, T|]; intros [b|h0] E; [exact KP|apply hhash_type, E]] end;
    unfold htype in T; cbn [erase] in T.
  - intros c0. constructor.
  - inversion T; subst. apply hhash_type. assumption.
  - apply branch_type_inv in T as [[L F] Tw]. rewrite map_length in L. destruct tr; try exact I.
    apply (safe_bind _ _ (fun l => length l = length ch /\ Forall node_type (map erase l))).
    + clear L. revert children. induction IH as [|t ch Ht _ IHF]; intros trs; [split; [reflexivity|constructor]|]. destruct trs as [|x trs]; [exact I|].
      inversion F; subst. eapply safe_bind; [apply Ht; assumption|]. intros y Y. eapply safe_bind; [apply IHF; assumption|].
      intros l [A B]. split; [cbn [length]; congruence|]. constructor; assumption.
    + intros l [A B]. apply hbranch_type; [|exact Tw]. split; [rewrite map_length; congruence|exact B].
  - inversion T; subst. destruct tr; try exact I. eapply safe_bind; [apply IH; assumption|]. intros y Y. apply hextension_type; assumption.
  - inversion T; subst. apply hleaf_type; assumption.
Qed.
Lemma hsubset_type t ks : htype t -> safe (hcreate_trie_subset keccak pr t ks) (fun r => match r with ROk u => htype u | RErr _ => True end).
Proof.
  intros T. unfold hcreate_trie_subset. apply safe_lift. intros [tr|e] _; [|exact I]. eapply safe_bind; [apply htracked_type, T|]. intros u U. exact U.
Qed.
Lemma hsubsets_type t kss : htype t -> forall tr, safe (hcreate_subsets_from keccak pr t tr kss) (fun r => match r with ROk l => Forall htype l | RErr _ => True end).
Proof.
  intros T. induction kss as [|ks kss IH]; intros tr; cbn [hcreate_subsets_from]; [constructor|]. apply safe_lift. intros [tr'|e] _; [|exact I].
  eapply safe_bind; [apply htracked_type, T|]. intros u U. eapply safe_bind; [apply IH|]. intros [l|e] R; [constructor; assumption|exact I].
Qed.

(** Differences. *)
Definition any {A} : A -> Prop := fun _ => True.
Lemma hlongest_type f a b st : htype a -> htype b -> safe (hreplace_longest keccak pr f a b st) any.
Proof.
  intros A B. unfold hreplace_longest. destruct (match f with Some _ => _ | None => _ end); [|exact I]. apply (safe_bind _ _ any); [|intros x _; exact I].
  unfold hdiff_point_new. apply safe_lift. intros ak _. apply safe_lift. intros bk _.
  apply (safe_bind _ _ any); [unfold hnode_info_new; eapply safe_bind; [apply hhash_of_type, A|intros x _; exact I]|]. intros ai _.
  apply (safe_bind _ _ any); [unfold hnode_info_new; eapply safe_bind; [apply hhash_of_type, B|intros x _; exact I]|]. intros bi _. exact I.
Qed.
Lemma hhashes_type ha hb a b st ds : htype a -> htype b -> safe (hfrom_hashes keccak pr ha hb a b st ds) any.
Proof.
  intros A B. unfold hfrom_hashes. destruct (bytes_eqb ha hb); [exact I|]. apply (safe_bind _ _ any); [|intros x _; exact I]. unfold hupdate_hash.
  apply (safe_bind _ _ any); [apply hlongest_type; assumption|]. intros x _. exact I.
Qed.
Lemma hgen_type a b st ds : htype a -> htype b -> safe (hfrom_gen_hashes keccak pr a b st ds) any.
Proof.
  intros A B. unfold hfrom_gen_hashes. eapply safe_bind; [apply hhash_of_type, A|]. intros x _. eapply safe_bind; [apply hhash_of_type, B|]. intros y _. apply hhashes_type; assumption.
Qed.
Lemma hfind_type a : forall b st ds, htype a -> htype b -> safe (hfind_latest_rec keccak pr a b st ds) any.
Proof.
  induction a as [c|c h|c ach av IH|c an ac IH|c an av] using hnode_ind'; intros b st ds A B; cbn [hfind_latest_rec];
    (eapply safe_bind; [apply hhash_of_type, A|]; intros ha _; eapply safe_bind; [apply hhash_of_type, B|]; intros hb _;
     destruct (bytes_eqb ha hb); [exact I|]; destruct (_ && _);
     [apply (safe_bind _ _ any); [unfold hupdate_node; apply (safe_bind _ _ any); [apply hlongest_type; assumption|intros x _; exact I]|intros x _; exact I]|]).
  all: destruct b as [c1|c1 h1|c1 bch bv|c1 bn bc|c1 bn bv]; try exact I.
  - apply safe_lift. intros st1 _. apply hhashes_type; assumption.
  - apply (safe_bind _ _ any).
    + generalize (erase (HBranch c ach av)) as whole. intros whole. generalize NoDiffDetected as fd. generalize 0 as i.
      assert (FA : Forall htype ach) by (apply Forall_forall; intros x J; unfold htype in A; cbn [erase] in A; apply branch_type_inv in A as [A _]; eapply htypes_in; [exact A|exact J]).
      assert (FB : Forall htype bch) by (apply Forall_forall; intros x J; unfold htype in B; cbn [erase] in B; apply branch_type_inv in B as [B _]; eapply htypes_in; [exact B|exact J]).
      clear A B. revert bch FB ds. induction IH as [|t ach Ht F IHF]; intros bch FB ds i fd; [exact I|]. destruct bch as [|u bch]; [exact I|].
      inversion FA; inversion FB; subst.
      apply safe_lift. intros n0 _. apply safe_lift. intros st1 _. eapply safe_bind; [apply Ht; assumption|]. intros [r d] _. apply IHF; assumption.
    + intros [[] d] _; try exact I; apply hgen_type; assumption.
  - apply safe_lift. intros st1 _. inversion A; inversion B; subst. apply IH; assumption.
  - apply hgen_type; assumption.
Qed.
Lemma hdiffer_type a b : htype a -> htype b -> safe (hcreate_diff keccak pr a b) any.
Proof. intros A B. unfold hcreate_diff. eapply safe_bind; [apply hfind_type; assumption|]. intros [r ds] _. exact I. Qed.

(** Saving and loading. *)
Definition loads (d : data) : Prop := safe (hdeserialize d) (fun r => match r with Some u => htype u | None => True end).
Definition loads_node (dn : data) : Prop :=
  forall o, cached_type o -> loads (DStruct [(f_node, dn); (f_hash, ser_cached o)]).
Lemma de_nibbles_ser n : de_nibbles (ser_nibbles n) = Some n.
Proof. destruct n. reflexivity. Qed.
Lemma de_bytes_ser b : de_bytes (ser_bytes b) = Some b.
Proof. unfold ser_bytes, de_bytes. induction b as [|x b IH]; [reflexivity|]. cbn [map de_u8s]. rewrite IH. reflexivity. Qed.
Lemma new_cell_type mk o : cached_type o -> (forall c, htype (mk c)) -> safe (new_cell mk o) (fun r => match r with Some u => htype u | None => True end).
Proof. intros O M c. split; [exact O|apply M]. Qed.
Lemma de_ser_cached o : de_cached (ser_cached o) = Some o.
Proof. destruct o; reflexivity. Qed.
Lemma hserialize_type t : htype t -> safe (hserialize t) loads.
Proof.
  induction t as [c|c h|c ch w IH|c n t IH|c n w] using hnode_ind'; intros T; cbn [hserialize]; unfold htype in T; cbn [erase] in T;
    apply (safe_bind _ _ loads_node); try (intros dn D o O; apply D, O).
  - intros o O. unfold loads. cbn [hdeserialize pbind]. rewrite de_ser_cached. apply new_cell_type; [exact O|]. intros. constructor.
  - intros o O. unfold loads. cbn [hdeserialize pbind]. rewrite de_ser_cached. apply new_cell_type; [exact O|]. intros. exact T.
  - apply branch_type_inv in T as [Tc Tw]. apply (safe_bind _ _ (fun ds => Forall loads ds)).
    + destruct Tc as [_ F]. induction IH as [|t ch Ht _ IHF]; [constructor|]. inversion F; subst. eapply safe_bind; [apply Ht; assumption|]. intros d D.
      eapply safe_bind; [apply IHF; assumption|]. intros ds Ds. constructor; assumption.
    + intros ds F o O. unfold loads. cbn [hdeserialize]. destruct (sixteen ds) eqn:S16; [|exact I].
      apply (safe_bind _ _ (fun r => match r with Some mk => forall c0, htype (mk c0) | None => True end)).
      * apply (safe_bind _ _ (fun r => match r with Some l => length l = length ds /\ Forall node_type (map erase l) | None => True end)).
        -- clear S16. induction F as [|d ds D F IHF]; [split; [reflexivity|constructor]|]. eapply safe_bind; [exact D|]. intros [u|] U; [|exact I].
           eapply safe_bind; [exact IHF|]. intros [l|] R; [|exact I]. destruct R as [R1 R2]. split; [cbn [length]; congruence|]. constructor; assumption.
        -- intros [l|] R; [|exact I]. rewrite de_bytes_ser. destruct R as [R1 R2]. intros c0. apply branch_type; [|exact Tw].
           split; [rewrite map_length, R1; apply Nat.eqb_eq, S16|exact R2].
      * intros [mk|] M; [|exact I]. rewrite de_ser_cached. apply new_cell_type; assumption.
  - inversion T; subst. eapply safe_bind; [apply IH; assumption|]. intros d D o O. unfold loads. cbn [hdeserialize]. rewrite de_nibbles_ser.
    apply (safe_bind _ _ (fun r => match r with Some mk => forall c0, htype (mk c0) | None => True end)).
    + eapply safe_bind; [exact D|]. intros [u|] U; [|exact I]. intros c0. constructor; assumption.
    + intros [mk|] M; [|exact I]. rewrite de_ser_cached. apply new_cell_type; assumption.
  - intros o O. unfold loads. cbn [hdeserialize pbind]. rewrite de_nibbles_ser, de_bytes_ser, de_ser_cached. apply new_cell_type; [exact O|]. intros. exact T.
Qed.
Lemma hreload_type t : htype t -> safe (hreload t) htype.
Proof.
  intros T. unfold hreload. eapply safe_bind; [apply hserialize_type, T|]. intros d D. eapply safe_bind; [exact D|]. intros [u|] U; [exact U|exact I].
Qed.

(** Steps of programs. *)
Lemma hsubtrie_type path : forall t x, htype t -> hsubtrie t path = Ok x -> htype x.
Proof.
  induction path as [|d path IH]; intros t x T E; [injection E as <-; exact T|]. destruct t as [c|c h|c ch w|c n t|c n w]; cbn [hsubtrie] in E; try discriminate.
  - okb E. unfold htype in T; cbn [erase] in T. apply branch_type_inv in T as [Tc _]. unfold the in E0. destruct (nth_error ch d) as [u|] eqn:Ec; [|discriminate].
    injection E0 as <-. eapply IH; [|exact E]. eapply htypes_in; [exact Tc|eapply nth_error_In, Ec].
  - inversion T; subst. eapply IH; [|exact E]. assumption.
Qed.
Lemma hstep_type hs o : op_type o -> Forall htype hs -> safe (hstep keccak pr hs o) (fun r => Forall htype (fst r)).
Proof.
  intros O F. assert (G : forall i t, the hs i = Ok t -> htype t).
  { intros i t Et. unfold the in Et. destruct (nth_error hs i) eqn:En; [|discriminate]. injection Et as <-. rewrite Forall_forall in F.
    eapply F, nth_error_In, En. }
  assert (RP : forall i t, htype t -> Forall htype (replace hs i t)).
  { intros i t Ft. clear - F Ft. revert i. induction F as [|u ts Hu F IH]; intros [|i]; cbn [replace]; auto. }
  assert (AP : forall t, htype t -> Forall htype (hs ++ [t])).
  { intros t Ft. apply Forall_app. auto. }
  destruct o as [l|i k v|i l|i k|i k|i|i j|i|i path|i j|i ks|i kss|i|i j|p]; cbn [hstep op_type] in *.
  - apply (safe_bind _ _ htype); [|intros t T; apply AP, T]. unfold hfrom_iter. apply (safe_bind _ _ htype); [intros c; constructor|]. intros e Te.
    unfold hextend. eapply safe_bind; [apply hextend_type; [exact Te|exact O]|]. intros t T. split; [exact I|exact T].
  - apply safe_lift. intros t T. apply (safe_bind _ _ htype); [|intros u U; apply RP, U]. unfold hinsert. destruct O. eapply safe_bind; [apply htrie_insert_type; eauto|]. intros u U. split; [exact I|exact U].
  - apply safe_lift. intros t T. apply (safe_bind _ _ htype); [|intros u U; apply RP, U]. unfold hextend. eapply safe_bind; [apply hextend_type; eauto|]. intros u U. split; [exact I|exact U].
  - apply safe_lift. intros t T. apply (safe_bind _ _ (fun r => htype (fst r))); [|intros [u d] U; apply RP, U]. unfold hdelete. eapply safe_bind; [apply hdelete_type; eauto|]. intros u U. split; [exact I|exact U].
  - apply safe_lift. intros t T. apply safe_lift. intros r _. exact F.
  - apply safe_lift. intros t T. eapply safe_bind; [apply hhash_of_type; eauto|]. intros h _. exact F.
  - apply safe_lift. intros a A. apply safe_lift. intros b B. exact F.
  - apply safe_lift. intros t T. apply AP. eauto.
  - apply safe_lift. intros t T. apply safe_lift. intros u U. apply AP. eapply hsubtrie_type; eauto.
  - apply safe_lift. intros a A. apply safe_lift. intros b B. apply RP, with_cell_type. eauto.
  - apply safe_lift. intros t T. eapply safe_bind; [apply hsubset_type; eauto|]. intros [u|e] U; [apply AP, U|exact F].
  - apply safe_lift. intros t T. eapply safe_bind; [unfold hcreate_trie_subsets; apply hsubsets_type; eauto|]. intros [l|e] U; [apply Forall_app; auto|exact F].
  - apply safe_lift. intros t T. eapply safe_bind; [apply hreload_type; eauto|]. intros u U. apply AP, U.
  - apply safe_lift. intros a A. apply safe_lift. intros b B. eapply safe_bind; [apply hdiffer_type; eauto|]. intros d _. exact F.
  - apply (safe_bind _ _ htype); [|intros t T; apply AP, T]. destruct p as [|h|k v|k i|is v]; cbn [hmake piece_type] in *.
    + intros c. constructor.
    + apply hhash_type, O.
    + apply hleaf_type; apply O.
    + apply safe_lift. intros t T. apply hextension_type; eauto.
    + destruct (Nat.eqb_spec (length is) 16) as [Li|]; [|exact I]. apply safe_lift. intros ch E. apply hbranch_type; [|exact O]. unfold htypes, children_type. rewrite <- Li.
      clear - G E. revert ch E. induction is as [|i is IH]; intros l E; cbn [pick] in E; [injection E as <-; split; [reflexivity|constructor]|].
      okb E. okb E. injection E as <-. destruct (IH _ eq_refl). cbn [length map]. split; [congruence|]. constructor; [eapply G; eassumption|assumption].
Qed.
Lemma hrun_type os : forall hs, Forall op_type os -> Forall htype hs -> safe (hrun keccak pr hs os) (fun r => Forall htype (fst r)).
Proof.
  induction os as [|o os IH]; intros hs O F; cbn [hrun]; [exact F|]. inversion O; subst. eapply safe_bind; [apply hstep_type; assumption|].
  intros [ts x] T. eapply safe_bind; [apply IH; assumption|]. intros [us xs] U. exact U.
Qed.
End Types.
