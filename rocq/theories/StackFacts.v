(** With enough room on the stack the functions of Stack.v are those of the model; with less they are too, or the stack is exhausted. *)
From Coq Require Import String.
From Verif Require Import Base Nibbles Trie TrieFacts Query Diff Stats Rlp Hashing Subset Cache HideFacts Stack StackSpec.
Open Scope N_scope.
Open Scope list_scope.

Definition ok {A} (P : Prop) (m : lim A) (r : res A) : Prop := m = Some r \/ (m = None /\ ~ P).
Lemma ok_flat {A} P (r : res A) : ok P (Some r) r.
Proof. left. reflexivity. Qed.
Lemma ok_ret {A} P (a : A) : ok P (lret a) (Ok a).
Proof. left. reflexivity. Qed.
Lemma ok_bind {A B} P (m : lim A) r (f : A -> lim B) g : ok P m r -> (forall a, r = Ok a -> ok P (f a) (g a)) -> ok P (lbind m f) (bind r g).
Proof.
  intros [->|[-> N1]] H; [|right; auto]. destruct r as [a|]; cbn [lbind bind]; [apply H; reflexivity|left; reflexivity].
Qed.
Lemma ok_weak {A} (P Q : Prop) (m : lim A) r : (P -> Q) -> ok Q m r -> ok P m r.
Proof. intros H [E|[E N1]]; [left; exact E|right; auto]. Qed.
Lemma ok_none {A} (P : Prop) (r : res A) : ~ P -> ok P None r.
Proof. right. auto. Qed.
Lemma ok_child {A} P (f : node -> lim A) g ch i : (forall c, In c ch -> ok P (f c) (g c)) -> ok P (lwith_child f ch i) (with_child g ch i).
Proof.
  intros H. unfold lwith_child. rewrite with_child_nth. destruct (nth_error ch i) as [c|] eqn:E; [|left; reflexivity]. apply H. eapply nth_error_In, E.
Qed.
Lemma levels_in ch c : In c ch -> (levels c <= fold_right Nat.max 0%nat (map levels ch))%nat.
Proof. induction ch as [|x ch IH]; intros H; [contradiction|]. cbn [map fold_right]. destruct H as [->|H]; [lia|]. specialize (IH H). lia. Qed.
Lemma levels_pos t : (1 <= levels t)%nat.
Proof. destruct t; cbn [levels]; lia. Qed.

Ltac stp :=
  match goal with
  | |- ok _ (lbind _ _) (bind _ _) => apply ok_bind
  | |- ok _ (lret _) (Ok _) => apply ok_ret
  | |- ok _ (flat _) _ => apply ok_flat
  | |- ok _ (Some _) _ => apply ok_flat
  | |- forall x : _ * _, _ = Ok x -> _ => let x := fresh "x" in intros [? ?] _
  | |- forall x : option (_ * _), _ = Ok x -> _ => let x := fresh "x" in intros [[? ?]|] _
  | |- forall x, _ = Ok x -> _ => let x := fresh "x" in intros x _
  | |- ok _ (lwith_child _ _ _) (with_child _ _ _) => apply ok_child; intros ? ?
  | |- context [if ?b then _ else _] => destruct b
  end.

Lemma get_ok pr : forall d t k, ok (levels t <= d)%nat (get_lim d pr t k) (trie_get pr t k).
Proof.
  induction d as [|d IH]; intros t k; [apply ok_none; pose proof (levels_pos t); lia|].
  destruct t as [|h|ch v|n c|n v]; cbn [get_lim trie_get levels]; repeat stp.
  - eapply ok_weak; [|apply IH]. pose proof (levels_in ch c H). lia.
  - eapply ok_weak; [|apply IH]. lia.
Qed.
Lemma insert_ok pr v : forall d t k, ok (levels t <= d)%nat (insert_lim d pr t k v) (insert_rec pr t k v).
Proof.
  induction d as [|d IH]; intros t k; [apply ok_none; pose proof (levels_pos t); lia|].
  destruct t as [|h|ch w|n c|n w]; cbn [insert_lim insert_rec levels]; repeat stp.
  - eapply ok_weak; [|apply IH]. pose proof (levels_in ch c H). lia.
  - eapply ok_weak; [|apply IH]. lia.
Qed.
Lemma delete_intern_ok pr : forall d t k, ok (levels t <= d)%nat (delete_intern_lim d pr t k) (delete_intern pr t k).
Proof.
  induction d as [|d IH]; intros t k; [apply ok_none; pose proof (levels_pos t); lia|].
  destruct t as [|h|ch w|n c|n w]; cbn [delete_intern_lim delete_intern levels]; repeat stp.
  - eapply ok_weak; [|apply IH]. pose proof (levels_in ch c H). lia.
  - destruct (get_other_non_empty_child 0 ch _) as [[i c]|]; repeat stp.
  - eapply ok_weak; [|apply IH]. lia.
Qed.
Lemma delete_ok pr d t k : ok (levels t <= d)%nat (delete_lim d pr t k) (trie_delete pr t k).
Proof. unfold delete_lim, trie_delete. apply ok_bind; [apply delete_intern_ok|]. repeat stp. Qed.
Lemma advance_ok pr : forall d t k st, ok (levels t <= d)%nat (advance_lim d pr t k st) (advance pr t k st).
Proof.
  induction d as [|d IH]; intros t k st; [apply ok_none; pose proof (levels_pos t); lia|].
  destruct t as [|h|ch w|n c|n w]; cbn [advance_lim advance levels]; cbn zeta; repeat stp.
  - eapply ok_weak; [|apply IH]. pose proof (levels_in ch c H). lia.
  - eapply ok_weak; [|apply IH]. lia.
Qed.
(** What the iterator remembers is no deeper than the trie. *)
Definition held (m : nat) (e : stack_entry) : Prop :=
  match e with SRoot t => (levels t <= m)%nat | Trie.SExtension _ => True | Trie.SBranch ch _ _ => Forall (fun c => (levels c < m)%nat) ch end.
Lemma next_step_ok pr m st : forall d, Forall (held m) (trie_stack st) -> ok (m <= d)%nat (next_step_lim d pr st) (next_step pr st).
Proof.
  intros d F. unfold next_step_lim, next_step. destruct (trie_stack st) as [|e rest]; [apply ok_ret|]. apply Forall_inv in F.
  destruct e as [t|n|ch v i]; cbn [held] in F; cbn zeta; repeat stp.
  - eapply ok_weak; [|apply advance_ok]. lia.
  - rewrite Forall_forall in F. eapply ok_weak; [|apply advance_ok]. specialize (F c H). lia.
Qed.
Lemma advance_held pr m : forall t k st st' it, Forall (held m) (trie_stack st) -> (levels t <= m)%nat -> advance pr t k st = Ok (st', it) -> Forall (held m) (trie_stack st').
Proof.
  induction t as [|h|ch w IH|n c IH|n w] using node_ind'; intros k st st' it F L E; cbn [advance] in E; cbn [levels] in L.
  - injection E as <- <-. exact F.
  - injection E as <- <-. exact F.
  - destruct (push_nibble_back k 0) as [k'|]; [|discriminate]. cbn [bind] in E. rewrite with_child_nth in E. destruct (nth_error ch 0) as [c|] eqn:En; [|discriminate].
    apply nth_error_In in En. rewrite Forall_forall in IH. apply (IH c En) in E; [exact E| |].
    + cbn [trie_stack]. constructor; [|exact F]. cbn [held]. apply Forall_forall. intros x I. pose proof (levels_in ch x I). lia.
    + pose proof (levels_in ch c En). lia.
  - destruct (merge_nibbles pr k n) as [k'|]; [|discriminate]. cbn [bind] in E. apply IH in E; [exact E| |lia].
    destruct c; try exact F; cbn [trie_stack]; (constructor; [exact Logic.I|exact F]).
  - destruct (merge_nibbles pr k n) as [k'|]; [|discriminate]. cbn [bind] in E. injection E as <- <-. exact F.
Qed.
Lemma next_step_held pr m st st' it : Forall (held m) (trie_stack st) -> next_step pr st = Ok (Some (st', it)) -> Forall (held m) (trie_stack st').
Proof.
  unfold next_step. destruct (trie_stack st) as [|e rest] eqn:Es; intros F E; [discriminate|]. inversion F as [|? ? H F']; subst. destruct e as [t|n|ch v i]; cbn [held] in H; cbn zeta in E.
  - destruct (advance pr t _ _) as [[s o]|] eqn:A; [|discriminate]. injection E as <- <-. eapply advance_held; [|exact H|exact A]. exact F'.
  - destruct (truncate_n_nibbles_back pr _ n); [|discriminate]. injection E as <- <-. exact F'.
  - destruct (_ && _).
    + destruct (merge_nibble _ i) as [k'|]; [|discriminate]. cbn [bind] in E. rewrite with_child_nth in E. destruct (nth_error ch (N.to_nat i)) as [c|] eqn:En; [|discriminate].
      destruct (advance pr c _ _) as [[s o]|] eqn:A; [|discriminate]. injection E as <- <-. apply nth_error_In in En. eapply advance_held; [| |exact A].
      * cbn [trie_stack]. constructor; [exact H|exact F'].
      * rewrite Forall_forall in H. specialize (H c En). lia.
    + destruct (i =? 16); [|discriminate]. destruct (is_empty _); cbn [bind] in E; [injection E as <- <-; exact F'|].
      destruct (truncate_n_nibbles_back pr _ 1); [|discriminate]. injection E as <- <-. exact F'.
Qed.
