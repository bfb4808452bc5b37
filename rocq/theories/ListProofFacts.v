(** The order of the keys RLP(i), and which of them share the longest beginnings (C83). *)
From Verif Require Import Base Nibbles NibblesSpec NibblesFacts NibblesFacts2 NibblesFacts3 Trie TrieSpec TrieHistSpec TrieFacts YellowPaper HashSpec HashFacts RlpFacts ListSpec ListFacts ListProofSpec.
Open Scope N_scope.

Lemma lex_lcp a : forall b c, lex_compare a b = Lt -> lex_compare b c = Lt -> (lcp a c <= lcp b c)%nat.
Proof.
  induction a as [|x a IH]; intros b c H1 H2; [cbn; lia|]. destruct b as [|y b]; [discriminate|]. destruct c as [|z c]; [discriminate|]. cbn [lex_compare lcp] in *.
  destruct (N.eqb_spec x z) as [->|Nx]; [|lia]. destruct (N.compare_spec z y) as [<-|L|L]; [|destruct (N.compare_spec y z); [lia|lia|discriminate]|discriminate].
  rewrite N.compare_refl in H2. rewrite N.eqb_refl. specialize (IH b c H1 H2). lia.
Qed.
Lemma lex_app p a b : lex_compare (p ++ a) (p ++ b) = lex_compare a b.
Proof. induction p as [|x p IH]; [reflexivity|]. cbn [app lex_compare]. rewrite N.compare_refl. exact IH. Qed.

Lemma index_small i : (0 < i)%nat -> (i < 128)%nat -> index_nibbles i = [N.of_nat i / 16; N.of_nat i mod 16].
Proof.
  intros H0 H. assert (G : forallb (fun i => key_eqb (index_nibbles i) [N.of_nat i / 16; N.of_nat i mod 16]) (seq 1 127) = true) by (vm_compute; reflexivity).
  rewrite forallb_forall in G. specialize (G i ltac:(apply in_seq; lia)). destruct (key_eqb_spec (index_nibbles i) [N.of_nat i / 16; N.of_nat i mod 16]); [assumption|discriminate].
Qed.
Lemma index_big i : (128 <= i)%nat -> index_ok i -> let b := BE (N.of_nat i) in index_nibbles i = [8; len b] ++ unpair b /\ 1 <= len b <= 8.
Proof.
  intros H Hi b. pose proof (index_len8 i Hi) as L. fold b in L. pose proof (BE_len1 (N.of_nat i) ltac:(lia)) as L1. fold b in L1. split; [|lia].
  unfold index_nibbles, index_bytes. cbn [RLP]. fold b. destruct (small_Rb b L) as [(x & E & Hx & _)|[E _]].
  - exfalso. pose proof (BE_from (N.of_nat i)) as Q. fold b in Q. rewrite E in Q. unfold from_be in Q. cbn in Q. lia.
  - rewrite E. cbn [unpair app]. f_equal; [|f_equal].
    + replace (128 + len b) with (len b + 8 * 16) by lia. rewrite N.div_add by lia. rewrite N.div_small by lia. reflexivity.
    + replace (128 + len b) with (len b + 8 * 16) by lia. rewrite N.mod_add by lia. apply N.mod_small. lia.
Qed.

(** From 1 on, the keys are in the order of the indices. *)
Lemma index_lex i j : (0 < i)%nat -> (i < j)%nat -> index_ok j -> lex_compare (index_nibbles i) (index_nibbles j) = Lt.
Proof.
  intros H0 H Hj. assert (Hi : index_ok i) by (unfold index_ok in *; lia).
  destruct (Nat.lt_ge_cases j 128) as [Sj|Bj].
  - rewrite (index_small i), (index_small j) by lia. cbn [lex_compare].
    destruct (N.compare_spec (N.of_nat i / 16) (N.of_nat j / 16)) as [E|L|L]; [|reflexivity|].
    + assert (Q : N.of_nat i mod 16 < N.of_nat j mod 16) by (pose proof (N.div_mod (N.of_nat i) 16 ltac:(lia)); pose proof (N.div_mod (N.of_nat j) 16 ltac:(lia)); lia).
      apply N.compare_lt_iff in Q. rewrite Q. reflexivity.
    + pose proof (N.div_le_mono (N.of_nat i) (N.of_nat j) 16 ltac:(lia) ltac:(lia)). lia.
  - destruct (index_big j Bj Hj) as [-> Lj]. destruct (Nat.lt_ge_cases i 128) as [Si|Bi].
    + rewrite (index_small i) by lia. cbn [app lex_compare]. assert (Q : N.of_nat i / 16 < 8) by (apply N.div_lt_upper_bound; lia). apply N.compare_lt_iff in Q. rewrite Q. reflexivity.
    + destruct (index_big i Bi Hi) as [-> Li]. pose proof (BE_mono (N.of_nat i) (N.of_nat j) ltac:(lia)) as M.
      destruct (N.eq_dec (len (BE (N.of_nat i))) (len (BE (N.of_nat j)))) as [E|E].
      * rewrite E, lex_app, lex_undigits.
        -- rewrite <- !from_be_unpair by apply BE_bytes. rewrite !BE_from. apply N.compare_lt_iff. lia.
        -- apply unpair_hexl, BE_bytes.
        -- apply unpair_hexl, BE_bytes.
        -- rewrite !unpair_length. unfold len in E. lia.
      * cbn [app lex_compare]. change (8 ?= 8) with Eq. assert (Q : len (BE (N.of_nat i)) < len (BE (N.of_nat j))) by lia. apply N.compare_lt_iff in Q. rewrite Q. reflexivity.
Qed.

(** No smaller index has a key with a longer common beginning with the key of [i] than [next_to i]. *)
Lemma next_to_lcp i j : (j < i)%nat -> index_ok i -> (lcp (index_nibbles j) (index_nibbles i) <= lcp (index_nibbles (next_to i)) (index_nibbles i))%nat.
Proof.
  intros H Hi. unfold next_to. destruct (Nat.eqb_spec i 128) as [->|N1].
  - assert (G : forallb (fun j => Nat.leb (lcp (index_nibbles j) (index_nibbles 128)) (lcp (index_nibbles 0) (index_nibbles 128))) (seq 0 128) = true) by (vm_compute; reflexivity).
    rewrite forallb_forall in G. apply Nat.leb_le, G, in_seq. lia.
  - destruct (Nat.eq_dec j (i - 1)) as [->|Nj]; [lia|]. destruct j as [|j].
    + destruct (Nat.lt_ge_cases i 128) as [Si|Bi].
      * rewrite (index_small i) by lia. change (index_nibbles 0) with [8; 0]. cbn [lcp]. destruct (N.eqb_spec 8 (N.of_nat i / 16)) as [E|]; [|lia].
        assert (N.of_nat i / 16 < 8) by (apply N.div_lt_upper_bound; lia). lia.
      * destruct (index_big i Bi Hi) as [-> Li]. destruct (index_big (i - 1) ltac:(lia) ltac:(unfold index_ok in *; lia)) as [-> Lp].
        change (index_nibbles 0) with [8; 0]. cbn [app lcp]. change (8 =? 8) with true. destruct (N.eqb_spec 0 (len (BE (N.of_nat i)))); lia.
    + apply lex_lcp; apply index_lex; unfold index_ok in *; lia.
Qed.
