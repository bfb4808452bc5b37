(** Keys RLP(i): well formed, prefix-free, and not longer for smaller indices (C68). *)
From Verif Require Import Base Nibbles NibblesSpec NibblesFacts NibblesFacts2 NibblesFacts3 Trie TrieSpec TrieHistSpec TrieFacts TrieGet TrieHist YellowPaper HashSpec HashFacts RlpFacts ListSpec.
Open Scope N_scope.

Lemma BE_bytes x : bytesl (BE x).
Proof. apply be_bytes_bytesl. Qed.
Lemma BE_mono x y : x <= y -> len (BE x) <= len (BE y).
Proof.
  intros H. unfold BE, len. rewrite !be_bytes_length. destruct (N.eq_dec x 0) as [->|Nx]; [cbn; lia|].
  assert (N.size x <= N.size y) by (rewrite !N.size_log2 by lia; pose proof (N.log2_le_mono x y H); lia).
  pose proof (N.div_le_mono (N.size x + 7) (N.size y + 7) 8). lia.
Qed.
Lemma small_Rb b : len b <= 8 -> (exists x, b = [x] /\ x < 128 /\ Rb b = [x]) \/ (Rb b = (128 + len b) :: b /\ forall x, b = [x] -> 128 <= x).
Proof.
  intros H. destruct b as [|x [|y b]].
  - right. split; [reflexivity|discriminate].
  - unfold Rb. destruct (N.ltb_spec x 128); [left; exists x; auto|right]. split; [reflexivity|]. intros z E. injection E as <-. assumption.
  - right. split; [|discriminate]. unfold Rb. destruct (N.ltb_spec (len (x :: y :: b)) 56); [reflexivity|lia].
Qed.
Lemma index_len8 i : index_ok i -> len (BE (N.of_nat i)) <= 8.
Proof. intros H. apply BE_len8. exact H. Qed.
Lemma index_bytes_ok i : index_ok i -> bytesl (index_bytes i) /\ index_bytes i <> [] /\ (length (index_bytes i) <= 9)%nat.
Proof.
  intros H. pose proof (index_len8 i H) as L. unfold index_bytes. cbn [RLP]. pose proof (BE_bytes (N.of_nat i)) as B.
  destruct (small_Rb _ L) as [(x & E & Hx & ->)|[-> _]].
  - split; [constructor; [lia|constructor]|]. split; [discriminate|cbn; lia].
  - split; [constructor; [lia|exact B]|]. split; [discriminate|]. unfold len in L. cbn [length]. lia.
Qed.
Lemma index_key_enc i : index_ok i -> index_key i = Ok (enc (index_nibbles i)).
Proof. intros H. destruct (index_bytes_ok i H) as (B & NE & L). unfold index_key. rewrite from_bytes_be_enc by (assumption || lia). reflexivity. Qed.
Lemma index_hexl i : index_ok i -> hexl (index_nibbles i) /\ (length (index_nibbles i) <= 18)%nat.
Proof. intros H. destruct (index_bytes_ok i H) as (B & NE & L). split; [apply unpair_hexl, B|]. unfold index_nibbles. rewrite unpair_length. lia. Qed.
Lemma index_kwf i : index_ok i -> kwf (enc (index_nibbles i)) /\ nseq (enc (index_nibbles i)) = index_nibbles i.
Proof.
  intros H. destruct (index_hexl i H) as [Hx L]. split; [|apply nseq_enc, Hx]. split; [|cbn [enc count]; lia].
  cbn [enc count packed]. apply undigits_lt, Hx.
Qed.

Lemma unpair_split a b r : bytesl a -> bytesl b -> unpair b = unpair a ++ r -> exists c, b = a ++ c /\ r = unpair c.
Proof.
  revert b. induction a as [|x a IH]; intros b Ha Hb E; [exists b; auto|]. destruct b as [|y b]; [discriminate|].
  cbn [unpair app] in E. injection E as E1 E2 E. inversion Ha; inversion Hb; subst. destruct (IH b ltac:(assumption) ltac:(assumption) E) as (c & -> & ->).
  exists c. split; [|reflexivity]. cbn [app]. f_equal. rewrite (N.div_mod y 16), (N.div_mod x 16) by lia. congruence.
Qed.
Lemma index_rok i : index_ok i -> rok (RStr (BE (N.of_nat i))).
Proof. intros H. constructor. pose proof (index_len8 i H). unfold max_size. lia. Qed.
Lemma index_prefix i j r : index_ok i -> index_ok j -> index_nibbles j = index_nibbles i ++ r -> i = j /\ r = [].
Proof.
  intros Hi Hj E. destruct (index_bytes_ok i Hi) as (Bi & _ & _). destruct (index_bytes_ok j Hj) as (Bj & _ & _).
  destruct (unpair_split _ _ _ Bi Bj E) as (c & Ec & ->). unfold index_bytes in Ec.
  destruct (RLP_prefix (RStr (BE (N.of_nat i))) (RStr (BE (N.of_nat j))) c [] (index_rok i Hi) (index_rok j Hj)) as [Eij ->]; [rewrite app_nil_r; symmetry; exact Ec|].
  split; [|reflexivity]. injection Eij as Eij. apply (f_equal from_be) in Eij. rewrite !BE_from in Eij. lia.
Qed.
Lemma index_inj i j : index_ok i -> index_ok j -> index_nibbles i = index_nibbles j -> i = j.
Proof. intros Hi Hj E. apply (index_prefix i j [] Hi Hj). rewrite app_nil_r. symmetry. exact E. Qed.

Definition below (n : nat) (k : list N) : Prop := exists i, (i < n)%nat /\ index_ok i /\ k = index_nibbles i.
Definition indices (k : list N) : Prop := exists i, index_ok i /\ k = index_nibbles i.
Lemma indices_pf : prefix_free indices.
Proof. intros a b (i & Hi & ->) (j & Hj & ->) (x & c & E). destruct (index_prefix i j (x :: c) Hi Hj E) as [_ Q]. discriminate. Qed.
Lemma below_pf n : prefix_free (below n).
Proof. intros a b (i & _ & Hi & ->) (j & _ & Hj & ->). apply indices_pf; eexists; eauto. Qed.

Lemma index_short i : (i < 128)%nat -> length (index_bytes i) = 1%nat.
Proof.
  intros H. assert (G : forallb (fun i => Nat.eqb (length (index_bytes i)) 1) (seq 0 128) = true) by (vm_compute; reflexivity).
  rewrite forallb_forall in G. apply Nat.eqb_eq, G, in_seq. lia.
Qed.
Lemma index_mono i j : (i <= j)%nat -> index_ok j -> (length (index_nibbles i) <= length (index_nibbles j))%nat.
Proof.
  intros H Hj. assert (Hi : index_ok i) by (unfold index_ok in *; lia). unfold index_nibbles. rewrite !unpair_length.
  assert (length (index_bytes i) <= length (index_bytes j))%nat; [|lia].
  destruct (Nat.lt_ge_cases i 128) as [Si|Bi]; [rewrite (index_short i Si); destruct (index_bytes_ok j Hj) as (_ & NE & _); destruct (index_bytes j); [congruence|cbn; lia]|].
  unfold index_bytes. cbn [RLP]. destruct (small_Rb _ (index_len8 j Hj)) as [(x & E & Hx & _)|[Ej _]].
  - exfalso. apply (f_equal from_be) in E. rewrite BE_from in E. unfold from_be in E. cbn in E. lia.
  - rewrite Ej. pose proof (BE_mono (N.of_nat i) (N.of_nat j) ltac:(lia)) as M. unfold len in M.
    destruct (small_Rb _ (index_len8 i Hi)) as [(x & E & Hx & ->)|[-> _]]; cbn [length]; lia.
Qed.
