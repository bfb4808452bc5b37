(** Insertion keeps well-formedness, without assumptions on the shape of the trie or the entry. *)
From Verif Require Import Base Nibbles NibblesSpec NibblesFacts NibblesFacts2 NibblesFacts3 Trie TrieSpec TrieFacts TrieInsert TrieGet TrieHist.
Open Scope N_scope.

Lemma insert_wf pr t : forall L k v r, wf L t -> (L <= 64)%nat -> hexl k -> (length k <= L)%nat ->
  insert_rec pr t (enc k) v = Ok r -> wf L r.
Proof.
  induction t as [|h|ch w IH|n c IH|n w] using node_ind'; intros L k v r W HL Hk Lk E.
  - cbn [insert_rec] in E. injection E as <-. apply wf_mk; assumption.
  - discriminate.
  - inversion W as [| |L0 ? ? Hlen Fw| |]; subst. destruct k as [|d k].
    + rewrite insert_branch_nil in E. destruct v; [|discriminate]. injection E as <-. constructor; assumption.
    + cbn [length] in Lk. rewrite insert_branch_cons in E by (assumption || cbn [length]; lia).
      destruct (insert_rec pr (child ch d) (enc k) v) as [c1|] eqn:E1; [|discriminate]. cbn [bind] in E. injection E as <-.
      constructor; [rewrite set_child_length; exact Hlen|]. apply Forall_set_child; [exact Fw|].
      assert (Hk' : hexl k) by (inversion Hk; assumption). destruct (child_in ch d) as [E0|Hin].
      * rewrite E0 in E1. cbn [insert_rec] in E1. injection E1 as <-. apply wf_mk; [assumption|lia].
      * rewrite Forall_forall in IH, Fw. apply (IH _ Hin L0 k v c1 (Fw _ Hin)); [lia|assumption|lia|exact E1].
  - inversion W as [| | |L0 q c0 Hq Wc|]; subst. destruct (compare_keys q k) as [->|y s ->|x s ->|p x a y b -> -> D].
    + pose proof (insert_ext_long pr k [] c v) as IE. rewrite app_nil_r in IE. rewrite IE in E by (assumption || lia).
      destruct (insert_rec pr c (enc []) v) as [c1|] eqn:E1; [|discriminate]. cbn [bind] in E. injection E as <-. constructor; [exact Hq|].
      apply (IH L0 [] v c1 Wc); [lia|constructor|cbn; lia|exact E1].
    + rewrite insert_ext_long in E by (assumption || lia).
      destruct (insert_rec pr c (enc (y :: s)) v) as [c1|] eqn:E1; [|discriminate]. cbn [bind] in E. injection E as <-. constructor; [exact Hq|].
      rewrite app_length in Lk. apply (IH L0 (y :: s) v c1 Wc); [lia|apply Forall_app in Hk; apply Hk|lia|exact E1].
    + rewrite insert_ext_short in E by (assumption || lia).
      destruct (insert_rec pr c (enc []) v) as [c1|] eqn:E1; [|discriminate]. cbn [bind] in E. injection E as <-. constructor; [exact Hq|].
      apply (IH L0 [] v c1 Wc); [lia|constructor|cbn; lia|exact E1].
    + rewrite insert_ext_div in E by (assumption || lia). injection E as <-.
      apply Forall_app in Hq. destruct Hq as [Hp Ha]. apply Forall_app in Hk. destruct Hk as [_ Hb]. inversion Ha; inversion Hb; subst.
      rewrite !app_length in *. cbn [length] in *. replace (length p + S (length a) + L0)%nat with (length p + S (length a + L0))%nat by lia.
      apply wf_ext'; [assumption|]. apply wf_br2; [apply wf_ext'; assumption|apply wf_mk; [assumption|lia]].
  - inversion W as [| | | |L0 l v0 Hl Ll]; subst. destruct (compare_keys l k) as [->|y s ->|x s ->|p x a y b -> -> D].
    + rewrite insert_leaf_eq in E by assumption. destruct v; [|discriminate]. injection E as <-. constructor; assumption.
    + rewrite insert_leaf_long in E by (assumption || lia). injection E as <-. rewrite app_length in *. cbn [length] in *.
      apply Forall_app in Hk. destruct Hk as [Hp Hs]. inversion Hs; subst.
      replace L with (length l + S (L - length l - 1))%nat by lia. apply wf_ext'; [assumption|]. apply wf_br1. apply wf_mk; [assumption|lia].
    + rewrite insert_leaf_short in E by (assumption || lia). destruct v; [|discriminate]. injection E as <-. rewrite app_length in *. cbn [length] in *.
      apply Forall_app in Hl. destruct Hl as [Hp Hs]. inversion Hs; subst.
      replace L with (length k + S (L - length k - 1))%nat by lia. apply wf_ext'; [assumption|]. apply wf_br1. constructor; [assumption|lia].
    + rewrite insert_leaf_div in E by (assumption || lia). injection E as <-. rewrite !app_length in *. cbn [length] in *.
      apply Forall_app in Hl. destruct Hl as [Hp Ha]. apply Forall_app in Hk. destruct Hk as [_ Hb]. inversion Ha; inversion Hb; subst.
      replace L with (length p + S (L - length p - 1))%nat by lia. apply wf_ext'; [assumption|].
      apply wf_br2; [constructor; [assumption|lia]|apply wf_mk; [assumption|lia]].
Qed.

Lemma tinsert_wf pr t k v r : wf 64 t -> kwf k -> trie_insert pr t k v = Ok r -> wf 64 r.
Proof.
  intros W Hk E. destruct (kwf_ex k Hk) as (q & -> & _ & Hq & Lq). apply (insert_wf pr t 64 q v r W); auto.
Qed.

Lemma textend_wf pr l : forall t r, wf 64 t -> Forall (fun e => kwf (fst e)) l -> trie_extend pr t l = Ok r -> wf 64 r.
Proof.
  induction l as [|[k v] l IH]; intros t r W F E; cbn [trie_extend] in E; [injection E as <-; exact W|].
  inversion F; subst. destruct (trie_insert pr t k v) as [t1|] eqn:E1; [|discriminate]. cbn [bind] in E.
  apply (IH t1 r); auto. eapply tinsert_wf; eauto.
Qed.
