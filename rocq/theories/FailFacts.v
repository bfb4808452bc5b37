(** Programs that panic. *)
From Verif Require Import Base Nibbles Trie Rlp Hashing Cache CacheFacts.
Open Scope N_scope.

(** ** Programs that fail *)
(** Whatever others do meanwhile, the program panics, and writes only allowed hashes before that. *)
Definition fails {A} (p : prog A) (b : N) (V : ghost) : Prop := wp (catch p) b V (fun o _ _ => o = None).

Lemma wp_catch_bind {A B} (p : prog A) (f : A -> prog B) : forall b V R,
  wp (catch p) b V (fun o b' V' => match o with Some a => wp (catch (f a)) b' V' R | None => R None b' V' end) ->
  wp (catch (pbind p f)) b V R.
Proof.
  induction p as [a| |c k IH|c o p IH|k IH]; intros b V Q W; cbn [wp pbind catch] in *; auto.
  - destruct W as [B' W]. split; auto.
  - destruct W as (B' & Ha & W). auto.
  - intros b' V' E. destruct (W b' V' E) as [x W']. exists x. auto.
Qed.
Lemma wp_catch {A} (p : prog A) : forall b V Q, wp p b V Q ->
  wp (catch p) b V (fun o b' V' => match o with Some a => Q a b' V' | None => False end).
Proof.
  induction p as [a| |c k IH|c o p IH|k IH]; intros b V Q W; cbn [wp catch] in *; auto.
  - destruct W as [B' W]. split; auto.
  - destruct W as (B' & Ha & W). auto.
  - intros b' V' E. destruct (W b' V' E) as [x W']. exists x. auto.
Qed.

Lemma fails_lift {A} (r : res A) b V : r = Panic -> fails (lift r) b V.
Proof. intros ->. reflexivity. Qed.
Lemma fails_fail {A} b V : fails (@Fail A) b V.
Proof. reflexivity. Qed.
Lemma fails_l {A B} (p : prog A) (f : A -> prog B) b V : fails p b V -> fails (pbind p f) b V.
Proof. intros F. apply wp_catch_bind. eapply wp_conseq; [exact F|]. intros o b' V' _ ->. reflexivity. Qed.
Lemma fails_r {A B} (p : prog A) (f : A -> prog B) b V Q :
  wp p b V Q -> (forall a b' V', ext b V b' V' -> Q a b' V' -> fails (f a) b' V') -> fails (pbind p f) b V.
Proof.
  intros W H. apply wp_catch_bind. eapply wp_conseq; [apply wp_catch, W|]. intros [a|] b' V' X HQ; [|destruct HQ].
  apply H; assumption.
Qed.

(** [E : bind m f = Panic]: either [m] panics, or the rest does. *)
Ltac pbindE E :=
  match type of E with
  | bind ?m _ = Panic =>
      let a := fresh "a" in let Ea := fresh "Ea" in
      destruct m as [a|] eqn:Ea; cbn [bind] in E; cbn [lift pbind]; [|try (apply fails_fail)]
  end.

Section FailsHash.
Variable keccak : list N -> list N.
Variable pr : profile.
Notation hashed_of := (hashed_of keccak pr).
Notation rh := (right_hash keccak pr).
Notation rh_ex := (right_hash_ex keccak pr).

Lemma fails_children l : forall s b V, Forall (coh rh b V) l ->
  Forall (fun t => forall b V, rlp_encode_and_hash_node keccak pr (erase t) = Panic ->
    good keccak pr b V t -> kids rh b V t -> fails (hash_intern keccak pr t) b V) l ->
  (fix go (l : list node) (s : stream) {struct l} : res stream :=
     match l with [] => Ok s | c :: l' => e <- rlp_encode_and_hash_node keccak pr c ;; go l' (append_to_stream s e) end)
    (map erase l) s = Panic ->
  fails (hash_children keccak pr l s) b V.
Proof.
  induction l as [|t l IHl]; intros s b V F FI E; cbn [map] in E; cbn [hash_children]; [discriminate|].
  inversion F; subst. inversion FI; subst. pbindE E.
  - eapply fails_r; [eapply (proj2 (wp_hash keccak pr t _ b V (fun e b' V' => e = a /\ b' = b /\ V' = V) Ea));
      [apply coh_good; assumption..|auto]|].
    intros e b1 V1 _ (-> & -> & ->). apply IHl; assumption.
  - apply fails_l. match goal with H : forall b V, _ = Panic -> _ |- _ => apply H end; [reflexivity|apply coh_good; assumption..].
Qed.

Lemma fails_hash t : forall b V, rlp_encode_and_hash_node keccak pr (erase t) = Panic ->
  (kids rh b V t -> fails (encode_node keccak pr t) b V) /\
  (good keccak pr b V t -> kids rh b V t -> fails (hash_intern keccak pr t) b V).
Proof.
  induction t as [c|c h|c ch val IH|c n t IH|c n val] using hnode_ind'; intros b V E;
    match goal with |- _ /\ (good _ _ _ _ ?t -> _) =>
      assert (G : kids rh b V t -> fails (encode_node keccak pr t) b V)
    end;
    try match goal with |- _ /\ _ =>
      split; [exact G|]; intros O K; rewrite hash_intern_eq; unfold fails; cbn [catch wp]; split; [apply O|]; intros [h'|] A;
      [pose proof (allowed_hashed _ _ _ _ _ _ O A) as A'; rewrite E in A'; discriminate|];
      apply fails_l, G, K
    end; intros K; cbn [encode_node erase rlp_encode_and_hash_node] in *.
  - discriminate.
  - discriminate.
  - apply kids_branch in K. pbindE E.
    + pbindE E; [discriminate|].
      assert (S : forall l s s', Forall (coh rh b V) l ->
        (fix go (l : list node) (s : stream) {struct l} : res stream :=
           match l with [] => Ok s | c :: l' => e <- rlp_encode_and_hash_node keccak pr c ;; go l' (append_to_stream s e) end)
          (map erase l) s = Ok s' ->
        wp (hash_children keccak pr l s) b V (fun x _ _ => x = s')).
      { clear. intros l. induction l as [|t l IHl]; intros s s' F E; cbn [map] in E; cbn [hash_children].
        - injection E as <-. reflexivity.
        - inversion F; subst. okbind E. apply wp_bind. apply (proj2 (wp_hash keccak pr t _ b V _ E0)); [apply coh_good; assumption..|].
          apply IHl; assumption. }
      eapply fails_r; [apply S with (s' := a); [exact K|exact Ea]|]. intros s' b1 V1 _ ->. cbn zeta. rewrite Ea0. apply fails_fail.
    + apply fails_l, fails_children; [exact K| |exact Ea]. eapply Forall_impl; [|exact IH]. cbn beta. intros u H b' V' Eu. apply (H b' V' Eu).
  - apply kids_extension in K. pbindE E. pbindE E.
    + pbindE E; [discriminate|].
      eapply fails_r; [eapply (proj2 (wp_hash keccak pr t _ b V (fun e b' V' => e = a0) Ea0));
        [apply coh_good; assumption..|auto]|].
      intros e b1 V1 _ ->. rewrite Ea1. apply fails_fail.
    + apply fails_l. apply (IH b V eq_refl); apply coh_good, K.
  - pbindE E. pbindE E. discriminate.
Qed.

Lemma fails_hhash_of t b V :
  kids rh b V t -> cell t < b -> (forall h', fst (V (cell t)) = Some h' -> hashed_of (erase t) = Some h') ->
  hash_trie keccak pr (erase t) = Panic -> fails (hhash_of keccak pr t) b V.
Proof.
  intros K B R E. unfold hash_trie in E.
  destruct (rlp_encode_and_hash_node keccak pr (erase t)) as [e|] eqn:E0; cbn [bind] in E; [discriminate|].
  unfold hhash_of, fails. cbn [catch wp]. split; [exact B|]. intros [h'|] A.
  - destruct A as [A|A]; [discriminate|]. specialize (R h' (eq_sym A)). unfold CacheFacts.hashed_of in R. rewrite E0 in R. discriminate.
  - apply fails_l. apply (fails_hash t b V E0). exact K.
Qed.
End FailsHash.

(** ** Programs that read, compute what a function computes and leave the cells as they may be *)
Definition does {A} (p : prog A) (r : res A) (b : N) (V : ghost) : Prop :=
  match r with Ok a => forall Q : A -> N -> ghost -> Prop, Q a b V -> wp p b V Q | Panic => fails p b V end.
Lemma does_ret {A} (a : A) b V : does (Ret a) (Ok a) b V.
Proof. intros Q H. exact H. Qed.
Lemma does_fail {A} b V : does (@Fail A) Panic b V.
Proof. apply fails_fail. Qed.
Lemma does_lift {A} (r : res A) b V : does (lift r) r b V.
Proof. destruct r; [intros Q H; exact H|apply fails_fail]. Qed.
Lemma does_bind {A B} (p : prog A) (f : A -> prog B) r g b V :
  does p r b V -> (forall a, does (f a) (g a) b V) -> does (pbind p f) (bind r g) b V.
Proof.
  intros D H. destruct r as [a|]; cbn [bind does] in *; [|apply fails_l, D]. specialize (H a). destruct (g a) as [x|]; cbn [does] in *.
  - intros Q HQ. apply wp_bind, D, H, HQ.
  - eapply fails_r; [apply (D (fun a' b' V' => a' = a /\ b' = b /\ V' = V)); auto|]. intros a' b' V' _ (-> & -> & ->). exact H.
Qed.
Lemma does_wp {A} (p : prog A) r a b V (Q : A -> N -> ghost -> Prop) : does p r b V -> r = Ok a -> Q a b V -> wp p b V Q.
Proof. intros D ->. apply D. Qed.
Lemma does_fails {A} (p : prog A) r b V : does p r b V -> r = Panic -> fails p b V.
Proof. intros D ->. exact D. Qed.

(** A handle whose hash is right. *)
Section Handle.
Variable keccak : list N -> list N.
Variable pr : profile.
Notation rh := (right_hash keccak pr).
Definition handle_ok (b : N) (V : ghost) (t : hnode) : Prop :=
  kids rh b V t /\ cell t < b /\ forall h, fst (V (cell t)) = Some h -> hashed_of keccak pr (erase t) = Some h.

Lemma handle_ok_ext b V b' V' t : ext b V b' V' -> handle_ok b V t -> handle_ok b' V' t.
Proof.
  intros X (A & B & C). split; [eapply kids_ext; eauto|]. destruct X as [X1 X2]. split; [lia|]. rewrite X2 by exact B. exact C.
Qed.
Lemma handle_ok_coh b V t : coh rh b V t -> handle_ok b V t.
Proof.
  intros C. apply coh_iff in C. destruct C as [[B R] C]. split; [exact C|]. split; [exact B|]. unfold right_hash in R. rewrite R. auto.
Qed.
Lemma does_hhash_of b V t : handle_ok b V t -> does (hhash_of keccak pr t) (hash_trie keccak pr (erase t)) b V.
Proof.
  intros (A & B & C). destruct (hash_trie keccak pr (erase t)) as [h|] eqn:E; cbn [does].
  - intros Q HQ. eapply wp_hhash_of; eassumption.
  - apply fails_hhash_of; assumption.
Qed.
End Handle.
