(** The executable Keccak-256 gives 32 bytes: the hypothesis [hash32] of the hashing theorems is met. *)
From Verif Require Import Base NibblesSpec NibblesFacts2 YellowPaper HashSpec Keccak.
Open Scope N_scope.

Lemma keccak_f_length s : length s = 25%nat -> length (keccak_f s) = 25%nat.
Proof.
  unfold keccak_f. generalize round_constants as l. intros l. revert s. induction l as [|rc l IH]; intros s H; [exact H|].
  cbn [fold_left]. apply IH. unfold iota, chi. rewrite <- H. destruct s; [discriminate|]. rewrite H. reflexivity.
Qed.

Lemma absorb_length s b : length (absorb s b) = 25%nat.
Proof. unfold absorb. apply keccak_f_length. rewrite map_length. reflexivity. Qed.

Lemma absorb_all_length n : forall s b, length (absorb_all (S n) s b) = 25%nat.
Proof.
  induction n as [|n IH]; intros s b; [cbn [absorb_all]; apply absorb_length|]. cbn [absorb_all] in *. apply IH.
Qed.

Lemma pad_length b : exists n, (length (pad b) / 136 = S n)%nat.
Proof.
  assert (136 <= length (pad b))%nat.
  { pose proof (Nat.mod_upper_bound (length b) 136 ltac:(lia)). pose proof (Nat.mod_le (length b) 136 ltac:(lia)). unfold pad.
    destruct (135 - length b mod 136)%nat as [|q] eqn:E; rewrite ?app_length, ?repeat_length; cbn [length]; lia. }
  pose proof (Nat.div_le_mono 136 (length (pad b)) 136 ltac:(lia) H) as G. rewrite Nat.div_same in G by lia.
  destruct (length (pad b) / 136)%nat as [|n]; [lia|eauto].
Qed.

Lemma keccak256_32 : hash32 keccak256.
Proof.
  intros b. unfold keccak256. destruct (pad_length b) as [n ->].
  set (s := absorb_all (S n) (repeat 0 25) (pad b)). assert (L : length s = 25%nat) by apply absorb_all_length.
  destruct s as [|a [|b0 [|c [|d s]]]]; try discriminate L. cbn [firstn flat_map]. split.
  - assert (R : forall x, bytesl (rev (be_bytes 8 x))) by (intros x; apply Forall_rev, be_bytes_bytesl).
    apply Forall_app; split; [apply R|]. apply Forall_app; split; [apply R|]. apply Forall_app; split; [apply R|].
    apply Forall_app; split; [apply R|constructor].
  - unfold len. rewrite !app_length, !rev_length, !be_bytes_length. reflexivity.
Qed.
