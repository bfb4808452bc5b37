(** Differences between tries with cached hashes. *)
From Verif Require Import Base Nibbles Trie Rlp Hashing Query Cache CacheFacts FailFacts Diff DiffCache.
Open Scope N_scope.

Section DiffCacheFacts.
Variable keccak : list N -> list N.
Variable pr : profile.
Notation handle_ok := (handle_ok keccak pr).

Lemma does_info b V t k v : handle_ok b V t -> does (hnode_info_new keccak pr t k v) (node_info_new keccak pr (erase t) k v) b V.
Proof. intros H. apply does_bind; [apply does_hhash_of, H|]. intros h. apply does_ret. Qed.

Lemma does_point b V t u k path : handle_ok b V t -> handle_ok b V u ->
  does (hdiff_point_new keccak pr t u k path) (diff_point_new keccak pr (erase t) (erase u) k path) b V.
Proof.
  intros H H'. unfold hdiff_point_new, diff_point_new. apply does_bind; [apply does_lift|]. intros k1. apply does_bind; [apply does_lift|].
  intros k2. apply does_bind; [apply does_info, H|]. intros i1. apply does_bind; [apply does_info, H'|]. intros i2. apply does_ret.
Qed.

Lemma does_replace b V f t u st : handle_ok b V t -> handle_ok b V u ->
  does (hreplace_longest keccak pr f t u st) (replace_longest keccak pr f (erase t) (erase u) st) b V.
Proof.
  intros H H'. unfold hreplace_longest, replace_longest. destruct (match f with None => _ | Some _ => _ end); [|apply does_ret].
  unfold rmap. apply does_bind; [apply does_point; assumption|]. intros p. apply does_ret.
Qed.
Lemma does_update_hash b V ds t u st : handle_ok b V t -> handle_ok b V u ->
  does (hupdate_hash keccak pr ds t u st) (update_hash keccak pr ds (erase t) (erase u) st) b V.
Proof. intros H H'. apply does_bind; [apply does_replace; assumption|]. intros f. apply does_ret. Qed.
Lemma does_update_node b V ds t u st : handle_ok b V t -> handle_ok b V u ->
  does (hupdate_node keccak pr ds t u st) (update_node keccak pr ds (erase t) (erase u) st) b V.
Proof. intros H H'. apply does_bind; [apply does_replace; assumption|]. intros f. apply does_ret. Qed.
Lemma does_from_hashes b V h h' t u st ds : handle_ok b V t -> handle_ok b V u ->
  does (hfrom_hashes keccak pr h h' t u st ds) (from_hashes keccak pr h h' (erase t) (erase u) st ds) b V.
Proof.
  intros H H'. unfold hfrom_hashes, from_hashes. destruct (bytes_eqb h h'); [apply does_ret|].
  apply does_bind; [apply does_update_hash; assumption|]. intros d. apply does_ret.
Qed.
Lemma does_from_gen_hashes b V t u st ds : handle_ok b V t -> handle_ok b V u ->
  does (hfrom_gen_hashes keccak pr t u st ds) (from_gen_hashes keccak pr (erase t) (erase u) st ds) b V.
Proof.
  intros H H'. apply does_bind; [apply does_hhash_of, H|]. intros h. apply does_bind; [apply does_hhash_of, H'|]. intros h'.
  apply does_from_hashes; assumption.
Qed.

Lemma does_find b V t : forall u st ds, handle_ok b V t -> handle_ok b V u ->
  does (hfind_latest_rec keccak pr t u st ds) (find_latest_rec keccak pr (erase t) (erase u) st ds) b V.
Proof.
  induction t as [c|c h|c ch val IH|c n t IH|c n val] using hnode_ind'; intros u st ds H H';
    cbn [hfind_latest_rec erase find_latest_rec];
    (apply does_bind; [apply (does_hhash_of keccak pr b V _ H)|]; intros ah;
     apply does_bind; [apply (does_hhash_of keccak pr b V _ H')|]; intros bh;
     destruct (bytes_eqb ah bh); [apply does_ret|];
     match goal with |- does (if ?x then _ else _) _ _ _ => destruct x end;
     [apply does_bind; [apply does_update_node; assumption|]; intros d; apply does_ret|]);
    destruct u as [c'|c' h'|c' ch' val'|c' n' u|c' n' val']; cbn [erase]; try exact (does_fail b V); try exact (does_ret _ b V).
  - apply does_bind; [apply does_lift|]. intros st'. apply does_from_hashes; assumption.
  - apply does_bind.
    + destruct H as [K _], H' as [K' _]. apply kids_branch in K, K'.
      generalize NoDiffDetected as fd. generalize 0 as i. revert ch' K' ds. induction IH as [|t ch Ht F IHF]; intros [|u ch'] K' ds i fd; cbn [map]; try exact (does_ret _ b V).
      inversion K; subst. inversion K'; subst.
      apply does_bind; [apply does_lift|]. intros m. apply does_bind; [apply does_lift|]. intros st'.
      apply does_bind; [apply Ht; apply handle_ok_coh; assumption|]. intros [r ds']. apply IHF; assumption.
    + intros [fd ds']. destruct fd; [apply does_from_gen_hashes; assumption|apply does_from_gen_hashes; assumption|apply does_ret].
  - apply does_bind; [apply does_lift|]. intros st'. destruct H as [K _], H' as [K' _]. apply kids_extension in K, K'.
    apply IH; apply handle_ok_coh; assumption.
  - apply does_from_gen_hashes; assumption.
Qed.

Lemma does_diff b V t u : handle_ok b V t -> handle_ok b V u ->
  does (hcreate_diff keccak pr t u) (create_diff keccak pr (erase t) (erase u)) b V.
Proof. intros H H'. apply does_bind; [apply does_find; assumption|]. intros [d ds]. apply does_ret. Qed.
End DiffCacheFacts.
