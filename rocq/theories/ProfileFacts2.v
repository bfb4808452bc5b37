(** Build profiles and handles with caches: the programs of the two builds make the same accesses to the cells, until the checked one panics. *)
From Coq Require Import String.
From Verif Require Import Base Nibbles Query Diff Stats Values Rlp Hashing Subset.
From Verif Require Import Trie TrieFacts HideFacts Cache CacheFacts Serde DiffCache CacheSpec UserSpec ProfileSpec ProfileFacts.
From Verif Require Import Trie.
Open Scope N_scope.
Open Scope list_scope.

Inductive psame {A} : prog A -> prog A -> Prop :=
| ps_ret a : psame (Ret a) (Ret a)
| ps_fail p : psame Fail p
| ps_read c k k' : (forall o, psame (k o) (k' o)) -> psame (Read c k) (Read c k')
| ps_write c o p p' : psame p p' -> psame (Write c o p) (Write c o p')
| ps_alloc k k' : (forall c, psame (k c) (k' c)) -> psame (Alloc k) (Alloc k').

Lemma p_refl {A} (p : prog A) : psame p p.
Proof. induction p; constructor; auto. Qed.
Lemma p_bind {A B} (m m' : prog A) (f g : A -> prog B) : psame m m' -> (forall a, psame (f a) (g a)) -> psame (pbind m f) (pbind m' g).
Proof. intros H F. induction H; cbn [pbind]; [apply F|constructor..]; auto. Qed.
Lemma p_lift {A} (r r' : res A) : same r r' -> psame (lift r) (lift r').
Proof. intros [->| ->]; [constructor|apply p_refl]. Qed.
Lemma p_hchild {A} (f g : hnode -> prog A) : forall l i, (forall c, In c l -> psame (f c) (g c)) -> psame (with_hchild f l i) (with_hchild g l i).
Proof.
  induction l as [|c l IH]; intros i H; [constructor|]. destruct i as [|i]; cbn [with_hchild]; [apply H; left; reflexivity|].
  apply IH. intros x I. apply H. right. exact I.
Qed.
Lemma p_exec {A} (p p' : prog A) : psame p p' -> forall s n, same (exec p s n) (exec p' s n).
Proof. intros H. induction H; intros s m; cbn [exec]; auto; [apply s_refl|apply s_panic]. Qed.

Create HintDb psame.
Ltac pm1 :=
  match goal with
  | |- psame ?x ?x => apply p_refl
  | |- psame Fail _ => constructor
  | |- psame (pbind _ _) (pbind _ _) => apply p_bind; [|intros ?]
  | |- psame (lift _) (lift _) => apply p_lift
  | |- psame (Read _ _) (Read _ _) => constructor; intros ?
  | |- psame (Write _ _ _) (Write _ _ _) => constructor
  | |- psame (match ?x with _ => _ end) (match ?x with _ => _ end) => destruct x
  | |- psame (with_hchild _ _ _) (with_hchild _ _ _) => apply p_hchild; intros ? ?
  | |- _ => solve [eauto 3 with psame]
  | |- same _ _ => sm1
  end.
Ltac pm := repeat pm1.

Section Facts.
Variable pr : profile.
Hint Resolve s_usub s_uadd s_umul s_get_nibble s_truncate_front s_pop_next_front s_merge_nibbles s_identical s_pre_post s_to_hex_prefix s_get s_mark_all s_parent : same.
Lemma p_ins_entry i k v : psame (hins_entry_into_leaf_and_nibble Debug i k v) (hins_entry_into_leaf_and_nibble pr i k v).
Proof. unfold hins_entry_into_leaf_and_nibble. pm. Qed.
Hint Resolve p_ins_entry : psame.
Lemma p_placement i e k v : psame (hcheck_placement Debug i e k v) (hcheck_placement pr i e k v).
Proof. unfold hcheck_placement. cbv zeta. pm. Qed.
Hint Resolve p_placement : psame.
Lemma p_place_branch i e k v : psame (hplace_branch Debug i e k v) (hplace_branch pr i e k v).
Proof. unfold hplace_branch. pm. Qed.
Hint Resolve p_place_branch : psame.
Lemma p_insert_rec : forall t k v, psame (hinsert_rec Debug t k v) (hinsert_rec pr t k v).
Proof.
  induction t as [c|c h|c ch val IH|c n t IH|c n val] using hnode_ind'; intros k v; cbn [hinsert_rec]; pm.
  rewrite Forall_forall in IH. apply IH. assumption.
Qed.
Hint Resolve p_insert_rec : psame.
Lemma p_tinsert t k v : psame (htrie_insert Debug t k v) (htrie_insert pr t k v).
Proof. unfold htrie_insert. pm. Qed.
Hint Resolve p_tinsert : psame.
Lemma p_textend : forall l t, psame (htrie_extend Debug t l) (htrie_extend pr t l).
Proof. induction l as [|[k v] l IH]; intros t; cbn [htrie_extend]; pm. Qed.
Hint Resolve p_textend : psame.
Lemma p_insert t k v : psame (hinsert Debug t k v) (hinsert pr t k v).
Proof. unfold hinsert. pm. Qed.
Lemma p_extend t l : psame (hextend Debug t l) (hextend pr t l).
Proof. unfold hextend. pm. Qed.
Hint Resolve p_insert p_extend : psame.
Lemma p_from_iter l : psame (hfrom_iter Debug l) (hfrom_iter pr l).
Proof. unfold hfrom_iter. pm. Qed.
Lemma p_collapse e c : psame (hcollapse_ext_node_if_needed Debug e c) (hcollapse_ext_node_if_needed pr e c).
Proof. unfold hcollapse_ext_node_if_needed. pm. Qed.
Hint Resolve p_from_iter p_collapse : psame.
Lemma p_try_collapse c : psame (htry_collapse_if_extension Debug c) (htry_collapse_if_extension pr c).
Proof. unfold htry_collapse_if_extension. pm. Qed.
Hint Resolve p_try_collapse : psame.
Lemma p_delete_intern : forall t k, psame (hdelete_intern Debug t k) (hdelete_intern pr t k).
Proof.
  induction t as [c|c h|c ch val IH|c n t IH|c n val] using hnode_ind'; intros k; cbn [hdelete_intern]; pm.
  rewrite Forall_forall in IH. apply IH. assumption.
Qed.
Hint Resolve p_delete_intern : psame.
Lemma p_delete t k : psame (hdelete Debug t k) (hdelete pr t k).
Proof. unfold hdelete, htrie_delete. pm. Qed.
Lemma p_get t k : same (hget Debug t k) (hget pr t k).
Proof. apply s_get. Qed.
Hint Resolve p_delete : psame.
Hint Resolve p_get : same.

Variable keccak : list N -> list N.
Lemma p_hash_intern : forall t, psame (hash_intern keccak Debug t) (hash_intern keccak pr t).
Proof.
  induction t as [c|c h|c ch val IH|c n t IH|c n val] using hnode_ind'; cbn [hash_intern cell]; pm.
  generalize new_list. induction ch as [|x ch IHc]; intros s; [apply p_refl|]. inversion IH; subst. pm.
Qed.
Hint Resolve p_hash_intern : psame.
Lemma p_hash_children : forall l s, psame (hash_children keccak Debug l s) (hash_children keccak pr l s).
Proof. induction l as [|c l IH]; intros s; cbn [hash_children]; pm. Qed.
Hint Resolve p_hash_children : psame.
Lemma p_encode t : psame (encode_node keccak Debug t) (encode_node keccak pr t).
Proof. destruct t; cbn [encode_node]; pm. Qed.
Hint Resolve p_encode : psame.
Lemma p_hash_of t : psame (hhash_of keccak Debug t) (hhash_of keccak pr t).
Proof. unfold hhash_of. pm. Qed.
Hint Resolve p_hash_of : psame.
Lemma p_create : forall t tr, psame (hcreate_from_tracked keccak Debug t tr) (hcreate_from_tracked keccak pr t tr).
Proof.
  induction t as [c|c h|c ch val IH|c n t IH|c n val] using hnode_ind'; intros tr; cbn [hcreate_from_tracked]; pm.
  all: revert children; induction ch as [|x ch IHc]; intros [|y l]; try apply p_refl; inversion IH; subst; pm.
Qed.
Hint Resolve p_create : psame.
Lemma p_subset t ks : psame (hcreate_trie_subset keccak Debug t ks) (hcreate_trie_subset keccak pr t ks).
Proof. unfold hcreate_trie_subset. pm. Qed.
Lemma p_subsets_from t : forall kss tr, psame (hcreate_subsets_from keccak Debug t tr kss) (hcreate_subsets_from keccak pr t tr kss).
Proof. induction kss as [|ks kss IH]; intros tr; cbn [hcreate_subsets_from]; pm. Qed.
Lemma p_subsets t kss : psame (hcreate_trie_subsets keccak Debug t kss) (hcreate_trie_subsets keccak pr t kss).
Proof. apply p_subsets_from. Qed.
Hint Resolve p_subset p_subsets : psame.

Lemma p_point a b k p : psame (hdiff_point_new keccak Debug a b k p) (hdiff_point_new keccak pr a b k p).
Proof. unfold hdiff_point_new, hnode_info_new. pm. Qed.
Hint Resolve p_point : psame.
Lemma p_replace f a b st : psame (hreplace_longest keccak Debug f a b st) (hreplace_longest keccak pr f a b st).
Proof. unfold hreplace_longest. pm. Qed.
Hint Resolve p_replace : psame.
Lemma p_update_hash ds a b st : psame (hupdate_hash keccak Debug ds a b st) (hupdate_hash keccak pr ds a b st).
Proof. unfold hupdate_hash. pm. Qed.
Lemma p_update_node ds a b st : psame (hupdate_node keccak Debug ds a b st) (hupdate_node keccak pr ds a b st).
Proof. unfold hupdate_node. pm. Qed.
Hint Resolve p_update_hash p_update_node : psame.
Lemma p_from_hashes ha hb a b st ds : psame (hfrom_hashes keccak Debug ha hb a b st ds) (hfrom_hashes keccak pr ha hb a b st ds).
Proof. unfold hfrom_hashes. pm. Qed.
Hint Resolve p_from_hashes : psame.
Lemma p_gen a b st ds : psame (hfrom_gen_hashes keccak Debug a b st ds) (hfrom_gen_hashes keccak pr a b st ds).
Proof. unfold hfrom_gen_hashes. pm. Qed.
Hint Resolve p_gen : psame.
Lemma p_find : forall a b st ds, psame (hfind_latest_rec keccak Debug a b st ds) (hfind_latest_rec keccak pr a b st ds).
Proof.
  induction a as [c0|c0 h|c0 ch val IH|c0 n c IH|c0 n val] using hnode_ind'; intros b st ds; cbn [hfind_latest_rec].
  all: try (destruct b as [?|? h'|? bch bv|? n' c'|? n' v']; pm; fail).
  destruct b as [c1|c1 h'|c1 bch bv|c1 n' c'|c1 n' v']; try (pm; fail).
  apply p_bind; [apply p_hash_of|]. intros ah. apply p_bind; [apply p_hash_of|]. intros bh. destruct (bytes_eqb ah bh); [apply p_refl|]. destruct (_ && _); [pm|].
  apply p_bind; [|intros [f ds']; pm]. remember (HBranch c0 ch val) as p eqn:Hp. clear Hp. generalize NoDiffDetected, ds, bch. generalize 0.
  induction ch as [|c ch IHc]; intros i f ds' l; [apply p_refl|]. destruct l as [|b l]; [apply p_refl|]. inversion IH as [|? ? Hc Hch]; subst.
  apply p_bind; [apply p_refl|]. intros nn. apply p_bind; [apply p_lift, s_parent|]. intros st'. apply p_bind; [apply Hc|]. intros [r ds'']. apply IHc, Hch.
Qed.
Hint Resolve p_find : psame.
Lemma p_diff a b : psame (hcreate_diff keccak Debug a b) (hcreate_diff keccak pr a b).
Proof. unfold hcreate_diff. pm. Qed.
Hint Resolve p_diff : psame.

Lemma p_hstep ts o : psame (hstep keccak Debug ts o) (hstep keccak pr ts o).
Proof. destruct o; cbn [hstep]; pm. Qed.
Lemma p_hrun : forall os ts, psame (hrun keccak Debug ts os) (hrun keccak pr ts os).
Proof. induction os as [|o os IH]; intros ts; cbn [hrun]; [apply p_refl|]. apply p_bind; [apply p_hstep|]. intros [ts' x]. apply p_bind; [apply IH|]. intros a. apply p_refl. Qed.
Lemma p_hplay {A} : forall (u : user A) ts, psame (hplay keccak Debug ts u) (hplay keccak pr ts u).
Proof. induction u as [a|o k IH]; intros ts; cbn [hplay]; [apply p_refl|]. apply p_bind; [apply p_hstep|]. intros [ts' x]. apply IH. Qed.
Lemma s_vrun : forall os ts, same (vrun keccak Debug ts os) (vrun keccak pr ts os).
Proof. induction os as [|o os IH]; intros ts; cbn [vrun]; [apply s_refl|]. apply s_bind; [apply s_vstep|]. intros [ts' x]. apply s_bind; [apply IH|]. intros a. apply s_refl. Qed.
Lemma s_vplay {A} : forall (u : user A) ts, same (vplay keccak Debug ts u) (vplay keccak pr ts u).
Proof. induction u as [a|o k IH]; intros ts; cbn [vplay]; [apply s_refl|]. apply s_bind; [apply s_vstep|]. intros [ts' x]. apply IH. Qed.
Lemma s_play {A} (u : user A) : same (play keccak Debug u) (play keccak pr u).
Proof. unfold play. apply s_rmap, p_exec, p_hplay. Qed.
End Facts.

(** ** Threads *)
Definition pools_same {A} (w w' : pool A) : Prop := Forall2 psame (threads w) (threads w') /\ cells w = cells w' /\ next_cell w = next_cell w'.
Lemma tstep_fail {A} (ps : list (prog A)) s n js : In Fail ps -> In Fail (threads (sched_run (Pool ps s n) js)).
Proof.
  revert ps s n. induction js as [|j js IH]; intros ps s n I; [exact I|]. unfold sched_run. cbn [fold_left]. unfold sched_step at 2. cbn [threads cells next_cell].
  destruct (nth_error ps j) as [p|] eqn:E; [|apply IH, I]. destruct (tstep p s n) as [[p' s'] n'] eqn:T. apply IH.
  apply In_nth_error in I as [i I]. destruct (Nat.eq_dec i j) as [<-|D].
  - assert (p = Fail) by congruence. subst p. cbn [tstep] in T. injection T as <- _ _. apply nth_error_In with i. revert i I E. induction ps as [|q ps IHp]; intros [|i] I E; try discriminate I; [reflexivity|].
    cbn [replace nth_error] in *. apply (IHp i I E).
  - apply nth_error_In with i. rewrite <- I. clear -D. revert i j D. induction ps as [|q ps IHp]; intros [|i] [|j] D; cbn [replace nth_error]; try reflexivity; [contradiction D; reflexivity|].
    apply IHp. congruence.
Qed.
Lemma replace_F2 {A B} (R : A -> B -> Prop) : forall l l' i a b, Forall2 R l l' -> R a b -> Forall2 R (replace l i a) (replace l' i b).
Proof. intros l l' i a b F H. revert i. induction F; intros [|i]; cbn [replace]; constructor; auto. Qed.
Lemma nth_F2 {A B} (R : A -> B -> Prop) : forall l l' i, Forall2 R l l' -> match nth_error l i, nth_error l' i with Some a, Some b => R a b | None, None => True | _, _ => False end.
Proof. intros l l' i F. revert i. induction F; intros [|i]; cbn [nth_error]; auto. apply IHF. Qed.
Lemma sched_same {A} : forall js (w w' : pool A), pools_same w w' -> ~ In Fail (threads (sched_run w js)) -> pools_same (sched_run w js) (sched_run w' js).
Proof.
  induction js as [|j js IH]; intros [ps s n] [ps' s' n'] (F & C & M) H; [exact (conj F (conj C M))|].
  cbn [threads cells next_cell] in F, C, M. subst s' n'. unfold sched_run in *. cbn [fold_left] in *. apply IH; [|exact H].
  unfold sched_step in *. cbn [threads cells next_cell] in *. pose proof (nth_F2 psame ps ps' j F) as R.
  destruct (nth_error ps j) as [p|] eqn:E, (nth_error ps' j) as [p'|] eqn:E'; try contradiction R; [|exact (conj F (conj eq_refl eq_refl))].
  destruct R as [a|p'|c k k' R|c o p p' R|k k' R]; cbn [tstep] in *; try (split; [apply replace_F2; [exact F|]|split; reflexivity]; auto; apply p_refl).
  contradiction H. apply tstep_fail. apply nth_error_In with j. clear -E. revert j E. induction ps as [|q ps IHp]; intros [|j] E; try discriminate E; cbn [replace nth_error] in *; [reflexivity|]. apply IHp, E.
Qed.
