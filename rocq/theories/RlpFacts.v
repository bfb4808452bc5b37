(** RLP is uniquely readable; the structure of a trie is determined by its encodings (C21). *)
From Verif Require Import Base Nibbles NibblesSpec NibblesFacts NibblesFacts2 NibblesFacts3 Trie TrieSpec TrieFacts Rlp YellowPaper Hashing HashSpec HashFacts.
Open Scope N_scope.

Section Ind.
Variable P : rlp -> Prop.
Hypothesis H1 : forall b, P (RStr b).
Hypothesis H2 : forall l, Forall P l -> P (RList l).
Fixpoint rlp_ind' (x : rlp) : P x :=
  match x with
  | RStr b => H1 b
  | RList l => H2 l ((fix go l := match l return Forall P l with [] => Forall_nil _ | y :: l' => Forall_cons _ (rlp_ind' y) (go l') end) l)
  end.
End Ind.

(** All sizes fit 8 bytes. *)
Definition max_size : N := 18446744073709551616.
Inductive rok : rlp -> Prop :=
| rok_str b : len b < max_size -> rok (RStr b)
| rok_list l : Forall rok l -> len (concat (map RLP l)) < max_size -> rok (RList l).

Lemma from_be_snoc l x : from_be (l ++ [x]) = from_be l * 256 + x.
Proof. unfold from_be. rewrite fold_left_app. reflexivity. Qed.

Lemma from_be_bytes n : forall x, x < 256 ^ N.of_nat n -> from_be (be_bytes n x) = x.
Proof.
  induction n as [|n IH]; intros x H.
  - cbn in *. lia.
  - cbn [be_bytes]. rewrite from_be_snoc, IH.
    + pose proof (N.div_mod x 256 ltac:(lia)). lia.
    + rewrite Nat2N.inj_succ, N.pow_succ_r' in H. apply N.div_lt_upper_bound; lia.
Qed.

Lemma BE_from x : from_be (BE x) = x.
Proof.
  unfold BE. apply from_be_bytes. rewrite N2Nat.id. destruct (N.eq_dec x 0) as [->|Nx]; [cbn; lia|].
  eapply N.lt_le_trans; [apply N.size_gt|]. change 256 with (2 ^ 8). rewrite <- N.pow_mul_r. apply N.pow_le_mono_r; [lia|].
  pose proof (N.div_mod (N.size x + 7) 8 ltac:(lia)). pose proof (N.mod_lt (N.size x + 7) 8 ltac:(lia)). lia.
Qed.

Lemma BE_len8 x : x < max_size -> len (BE x) <= 8.
Proof.
  intros H. unfold BE, len. rewrite be_bytes_length. assert (N.size x <= 64).
  { destruct (N.eq_dec x 0) as [->|N0]; [cbn; lia|]. rewrite N.size_log2 by lia.
    assert (N.log2 x < 64) by (apply N.log2_lt_pow2; [lia|exact H]). lia. }
  assert ((N.size x + 7) / 8 <= (64 + 7) / 8) by (apply N.div_le_mono; lia). change ((64 + 7) / 8) with 8 in *. lia.
Qed.
Lemma BE_len1 x : 0 < x -> 1 <= len (BE x).
Proof.
  intros H. unfold BE, len. rewrite be_bytes_length. assert (1 <= N.size x) by (rewrite N.size_log2; lia).
  assert ((1 + 7) / 8 <= (N.size x + 7) / 8) by (apply N.div_le_mono; lia). change ((1 + 7) / 8) with 1 in *. lia.
Qed.

Definition hdr (base n : N) : list N := if n <? 56 then [base + n] else (base + 55 + len (BE n)) :: BE n.

Lemma app_inj_len {A} (a b c d : list A) : len a = len c -> a ++ b = c ++ d -> a = c /\ b = d.
Proof.
  unfold len. revert c. induction a as [|x a IH]; intros [|y c] L E; cbn [length app] in *; try lia; [auto|].
  injection E as -> E. destruct (IH c ltac:(lia) E) as [-> ->]. auto.
Qed.

Lemma hdr_inj base n m a b : n < max_size -> m < max_size -> hdr base n ++ a = hdr base m ++ b -> n = m /\ a = b.
Proof.
  intros Hn Hm. unfold hdr. pose proof (BE_len8 n Hn). pose proof (BE_len8 m Hm).
  destruct (N.ltb_spec n 56), (N.ltb_spec m 56); cbn [app]; intros E.
  - injection E as E1 E2. split; [lia|exact E2].
  - injection E as E1 E2. pose proof (BE_len1 m ltac:(lia)). lia.
  - injection E as E1 E2. pose proof (BE_len1 n ltac:(lia)). lia.
  - pose proof (f_equal (hd 0) E) as E1. cbn [hd] in E1. apply (f_equal (@tl N)) in E. cbn [tl] in E.
    apply app_inj_len in E; [|lia]. destruct E as [E ->]. split; [|reflexivity]. rewrite <- (BE_from n), <- (BE_from m), E. reflexivity.
Qed.

Lemma Rb_hdr b : Rb b = match b with [x] => if x <? 128 then [x] else hdr 128 1 ++ b | _ => hdr 128 (len b) ++ b end.
Proof.
  unfold Rb, hdr. destruct b as [|x [|y b]]; [reflexivity| |].
  - destruct (x <? 128); reflexivity.
  - destruct (len (x :: y :: b) <? 56); cbn [app]; reflexivity.
Qed.
Lemma Rl_hdr s : Rl s = hdr 192 (len s) ++ s.
Proof. unfold Rl, hdr. destruct (len s <? 56); cbn [app]; reflexivity. Qed.

Lemma hdr_head base n a : n < max_size -> base <= hd 0 (hdr base n ++ a) <= base + 63.
Proof.
  intros H. unfold hdr. pose proof (BE_len8 n H). destruct (N.ltb_spec n 56); cbn [app hd]; lia.
Qed.

Lemma Rb_inj b c r s : len b < max_size -> len c < max_size -> Rb b ++ r = Rb c ++ s -> b = c /\ r = s.
Proof.
  intros Hb Hc. rewrite !Rb_hdr.
  assert (G : forall b c r s, len b < max_size -> len c < max_size -> (hdr 128 (len b) ++ b) ++ r = (hdr 128 (len c) ++ c) ++ s -> b = c /\ r = s).
  { clear. intros b c r s Hb Hc E. rewrite <- !app_assoc in E. apply hdr_inj in E; [|assumption..]. destruct E as [E1 E]. apply app_inj_len in E; assumption. }
  assert (S : forall x c r s, x < 128 -> len c < max_size -> [x] ++ r = (hdr 128 (len c) ++ c) ++ s -> False).
  { clear. intros x c r s Hx Hc E. pose proof (hdr_head 128 (len c) (c ++ s) Hc) as Q. rewrite app_assoc, <- E in Q. cbn [app hd] in Q. lia. }
  assert (M : forall b, len b < max_size ->
     (exists x, b = [x] /\ x < 128 /\ match b with [x] => if x <? 128 then [x] else hdr 128 1 ++ b | _ => hdr 128 (len b) ++ b end = [x]) \/
     (match b with [x] => if x <? 128 then [x] else hdr 128 1 ++ b | _ => hdr 128 (len b) ++ b end = hdr 128 (len b) ++ b /\ forall x, b = [x] -> 128 <= x)).
  { clear. intros [|x [|y b]] _; [right; split; [reflexivity|discriminate]| |right; split; [reflexivity|discriminate]].
    destruct (N.ltb_spec x 128); [left; exists x; auto|right; split; [reflexivity|]]. intros x0 E. injection E as <-. assumption. }
  destruct (M b Hb) as [(x & -> & Hx & ->)|[-> Nb]]; destruct (M c Hc) as [(y & -> & Hy & ->)|[-> Nc]]; intros E.
  - cbn [app] in E. injection E as -> ->. auto.
  - exfalso. exact (S x c r s Hx Hc E).
  - exfalso. symmetry in E. exact (S y b s r Hy Hb E).
  - apply G in E; assumption.
Qed.

Lemma RLP_nonempty x : RLP x <> [].
Proof.
  destruct x; cbn [RLP].
  - unfold Rb. destruct b as [|x [|y b]]; [discriminate|destruct (x <? 128); discriminate|destruct (_ <? _); discriminate].
  - unfold Rl. destruct (_ <? _); discriminate.
Qed.

Lemma RLP_prefix x : forall y r s, rok x -> rok y -> RLP x ++ r = RLP y ++ s -> x = y /\ r = s.
Proof.
  induction x as [b|l IH] using rlp_ind'; intros y r s Hx Hy E.
  - inversion Hx as [? Lb|]; subst. destruct y as [c|m]; cbn [RLP] in E.
    + inversion Hy as [? Lc|]; subst. apply Rb_inj in E; [|assumption..]. destruct E as [-> ->]. auto.
    + exfalso. inversion Hy as [|? F Lm]; subst. rewrite Rl_hdr, <- app_assoc in E. pose proof (hdr_head 192 (len (concat (map RLP m))) (concat (map RLP m) ++ s) Lm) as Q.
      rewrite <- E in Q. rewrite Rb_hdr in Q. destruct b as [|x [|z b]].
      * cbn in Q. lia.
      * destruct (N.ltb_spec x 128); cbn [app hd] in Q; [lia|]. cbn in Q. lia.
      * rewrite <- app_assoc in Q. pose proof (hdr_head 128 (len (x :: z :: b)) ((x :: z :: b) ++ r) Lb). lia.
  - inversion Hx as [|? F Ll]; subst. destruct y as [c|m]; cbn [RLP] in E.
    + exfalso. inversion Hy as [? Lc|]; subst. rewrite Rl_hdr, <- app_assoc in E. pose proof (hdr_head 192 (len (concat (map RLP l))) (concat (map RLP l) ++ r) Ll) as Q.
      rewrite E in Q. rewrite Rb_hdr in Q. destruct c as [|x [|z c]].
      * cbn in Q. lia.
      * destruct (N.ltb_spec x 128); cbn [app hd] in Q; [lia|]. cbn in Q. lia.
      * rewrite <- app_assoc in Q. pose proof (hdr_head 128 (len (x :: z :: c)) ((x :: z :: c) ++ s) Lc). lia.
    + inversion Hy as [|? G Lm]; subst. rewrite !Rl_hdr, <- !app_assoc in E. apply hdr_inj in E; [|assumption..]. destruct E as [E1 E].
      apply app_inj_len in E; [|exact E1]. destruct E as [E ->]. split; [|reflexivity]. f_equal. clear - IH F G E.
      revert m G E. induction l as [|x l IHl]; intros [|y m] G E; cbn [map concat] in E.
      * reflexivity.
      * exfalso. symmetry in E. apply app_eq_nil in E. destruct E as [E _]. eapply RLP_nonempty; exact E.
      * exfalso. apply app_eq_nil in E. destruct E as [E _]. eapply RLP_nonempty; exact E.
      * inversion IH; inversion F; inversion G; subst.
        match goal with H : forall y r s, _ |- _ => apply H in E; [|assumption..] end. destruct E as [-> E].
        f_equal. apply IHl; assumption.
Qed.

Lemma RLP_inj x y : rok x -> rok y -> RLP x = RLP y -> x = y.
Proof. intros Hx Hy E. destruct (RLP_prefix x y [] [] Hx Hy) as [? _]; [rewrite !app_nil_r; exact E|assumption]. Qed.
