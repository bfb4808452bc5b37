(** Exactly which keys the generators draw. *)
From Verif Require Import Base Nibbles NibblesSpec NibblesFacts NibblesFacts2 NibblesFacts3 HashFacts RlpFacts RandomTests RandomFacts.
Open Scope N_scope.
(** [v] has [c] hex digits (none for 0). *)
Definition hex_length (v c : N) : Prop := v < 16 ^ c /\ (c = 0 \/ 16 ^ (c - 1) <= v).
Lemma hex_length_unique v c c' : hex_length v c -> hex_length v c' -> c = c'.
Proof.
  assert (G : forall a b, hex_length v a -> hex_length v b -> a <= b).
  { intros a b [_ [->|L]] [U _]; [lia|]. assert (16 ^ (a - 1) < 16 ^ b) as P by lia. apply N.pow_lt_mono_r_iff in P; lia. }
  intros A B. pose proof (G c c' A B). pose proof (G c' c B A). lia.
Qed.
Lemma hex_length_size v : hex_length v ((N.size v + 3) / 4).
Proof.
  destruct (N.eq_dec v 0) as [->|Nz]; [split; [reflexivity|left; reflexivity]|]. rewrite N.size_log2 by exact Nz.
  destruct (N.log2_spec v ltac:(lia)) as [L U]. set (g := N.log2 v) in *. pose proof (N.div_mod (N.succ g + 3) 4 ltac:(lia)) as D. pose proof (N.mod_lt (N.succ g + 3) 4 ltac:(lia)) as M.
  set (c := (N.succ g + 3) / 4) in *. split.
  - change 16 with (2 ^ 4). rewrite <- N.pow_mul_r. eapply N.lt_le_trans; [exact U|]. apply N.pow_le_mono_r; lia.
  - right. change 16 with (2 ^ 4). rewrite <- N.pow_mul_r. eapply N.le_trans; [|exact L]. apply N.pow_le_mono_r; lia.
Qed.
Lemma word_shape v k : v < 2 ^ 256 -> (k = to_nibbles 256 v <-> packed k = v /\ hex_length v (count k)).
Proof.
  intros H. destruct (to_nibbles_spec 256 v H) as [E1 E2]. split.
  - intros ->. rewrite E1, E2. split; [reflexivity|apply hex_length_size].
  - intros [<- X]. pose proof (hex_length_unique _ _ _ X (hex_length_size _)) as Q. destruct k as [c p]. cbn [count packed] in *. destruct (to_nibbles 256 p) as [c' p'] eqn:T. cbn in E1, E2. congruence.
Qed.
Lemma variable_shape k : variable_key k <-> packed k < 2 ^ 256 /\ hex_length (packed k) (count k).
Proof.
  split.
  - intros (bs & Hb & Hl & ->). pose proof (from_le_bound bs Hb) as H.
    assert (256 ^ N.of_nat (length bs) <= 256 ^ 32) by (apply N.pow_le_mono_r; lia). assert (V : from_le bs < 2 ^ 256) by (change (2 ^ 256) with (256 ^ 32); lia).
    destruct (proj1 (word_shape _ (gen_variable_nibbles bs) V) eq_refl) as [-> X]. auto.
  - intros [H X]. exists (rev (be_bytes 32 (packed k))). unfold gen_variable_nibbles, from_le. rewrite rev_involutive.
    assert (L : length (be_bytes 32 (packed k)) = 32%nat) by apply be_bytes_length. rewrite rev_length, L. split; [apply Forall_rev, HashFacts.be_bytes_bytesl|]. split; [lia|].
    rewrite (RlpFacts.from_be_bytes 32) by exact H. apply word_shape; auto.
Qed.
Lemma fixed_shape k : fixed_key k <-> count k = 64 /\ 2 ^ 252 <= packed k < 2 ^ 192 * (2 ^ 64 - 1).
Proof.
  split.
  - intros F. pose proof (fixed_ok k F) as [_ C]. split; [exact C|]. destruct F as (a & b & c & d & Ha & Hb & Hc & Hd & ->). unfold gen_fixed_nibbles.
    destruct (to_nibbles_spec 256 (a + 2 ^ 64 * b + 2 ^ 128 * c + 2 ^ 192 * d)) as [_ E]; [lia|]. rewrite E. lia.
  - intros [C P]. set (v := packed k) in *. exists (v mod 2 ^ 64), (v / 2 ^ 64 mod 2 ^ 64), (v / 2 ^ 128 mod 2 ^ 64), (v / 2 ^ 192).
    assert (M : forall x, x mod 2 ^ 64 < 2 ^ 64) by (intros; apply N.mod_lt; lia). split; [apply M|]. split; [apply M|]. split; [apply M|].
    assert (E : v = v mod 2 ^ 64 + 2 ^ 64 * (v / 2 ^ 64 mod 2 ^ 64) + 2 ^ 128 * (v / 2 ^ 128 mod 2 ^ 64) + 2 ^ 192 * (v / 2 ^ 192)).
    { pose proof (N.div_mod v (2 ^ 64) ltac:(lia)) as D1. pose proof (N.div_mod (v / 2 ^ 64) (2 ^ 64) ltac:(lia)) as D2. pose proof (N.div_mod (v / 2 ^ 128) (2 ^ 64) ltac:(lia)) as D3.
      rewrite N.div_div in D2 by lia. rewrite N.div_div in D3 by lia. change (2 ^ 64 * 2 ^ 64) with (2 ^ 128) in D2. change (2 ^ 128 * 2 ^ 64) with (2 ^ 192) in D3. lia. }
    split.
    + split; [apply N.div_le_lower_bound; lia|]. apply N.div_lt_upper_bound; lia.
    + unfold gen_fixed_nibbles. rewrite <- E. apply word_shape; [lia|]. split; [reflexivity|]. rewrite C. split; [lia|]. right. change (16 ^ (64 - 1)) with (2 ^ 252). lia.
Qed.
Lemma even_pad c : (if N.even c then c else c + 1) = c + c mod 2.
Proof.
  destruct (N.even c) eqn:E.
  - apply N.even_spec in E as [m ->]. rewrite N.mul_comm, N.mod_mul by lia. lia.
  - rewrite <- N.negb_odd in E. apply Bool.negb_false_iff in E. apply N.odd_spec in E as [m ->]. rewrite (N.add_comm (2 * m)), (N.mul_comm 2), N.mod_add by lia. change (1 mod 2) with 1. lia.
Qed.
Lemma padded_shape k : padded_key k <-> packed k < 2 ^ 256 /\ exists c, hex_length (packed k) c /\ count k = c + c mod 2.
Proof.
  split.
  - intros (n & V & ->). apply variable_shape in V as [H X]. assert (P : packed (pad_even n) = packed n) by (unfold pad_even; destruct (N.even (count n)); reflexivity).
    rewrite P. split; [exact H|]. exists (count n). split; [exact X|]. rewrite <- even_pad. unfold pad_even. destruct (N.even (count n)); reflexivity.
  - intros [H (c & X & C)]. exists (Nib c (packed k)). split; [apply variable_shape; auto|]. rewrite <- even_pad in C. unfold pad_even. cbn [count packed]. destruct k as [c' p]. cbn [count packed] in *. destruct (N.even c); congruence.
Qed.
