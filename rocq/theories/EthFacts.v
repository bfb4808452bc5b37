(** Facts for C69. *)
From Verif Require Import Base Nibbles NibblesSpec NibblesFacts NibblesFacts2 NibblesFacts3 Trie TrieSpec TrieHistSpec TrieFacts TrieInsert TrieGet TrieDelete TrieUnique TrieIter TrieHist TrieObs Hashing YellowPaper RlpFacts HashSpec HideFacts TextFacts ListFacts P_Trie P_Hash EthSpec.
Open Scope N_scope.

Section Table.
Context {A : Type}.
Implicit Type l : list (list N * A).
Lemma find_assign k x l j : find j (assign k x l) = if key_eqb k j then Some x else find j l.
Proof.
  induction l as [|[i y] l IH]; cbn [assign find]; [reflexivity|]. destruct (key_eqb_spec i k) as [->|N]; cbn [find].
  - destruct (key_eqb k j); reflexivity.
  - destruct (key_eqb_spec i j) as [->|]; [|exact IH]. destruct (key_eqb_spec k j); [congruence|reflexivity].
Qed.
Lemma find_remove k l j : find j (remove k l) = if key_eqb k j then None else find j l.
Proof.
  induction l as [|[i y] l IH]; cbn [remove find]; [destruct (key_eqb k j); reflexivity|]. destruct (key_eqb_spec i k) as [->|N]; cbn [find].
  - rewrite IH. destruct (key_eqb k j); reflexivity.
  - destruct (key_eqb_spec i j) as [->|]; [|exact IH]. destruct (key_eqb_spec k j); [congruence|reflexivity].
Qed.
Lemma assign_names k x l j : In j (map fst (assign k x l)) <-> j = k \/ In j (map fst l).
Proof.
  induction l as [|[i y] l IH]; cbn [assign map In fst]; [intuition congruence|]. destruct (key_eqb_spec i k) as [->|N]; cbn [map In fst]; [intuition congruence|].
  rewrite IH. intuition congruence.
Qed.
Lemma remove_names k l j : In j (map fst (remove k l)) <-> j <> k /\ In j (map fst l).
Proof.
  induction l as [|[i y] l IH]; cbn [remove map In fst]; [tauto|]. destruct (key_eqb_spec i k) as [->|N]; cbn [map In fst]; rewrite IH; intuition congruence.
Qed.
Lemma assign_nodup k x l : NoDup (map fst l) -> NoDup (map fst (assign k x l)).
Proof.
  induction l as [|[i y] l IH]; cbn [assign map fst]; intros H; [repeat constructor; intros []|]. inversion H as [|? ? H1 H2]; subst.
  destruct (key_eqb_spec i k) as [->|N]; cbn [map fst]; constructor; auto. rewrite assign_names. intros [E|E]; [congruence|auto].
Qed.
Lemma remove_nodup k l : NoDup (map fst l) -> NoDup (map fst (remove k l)).
Proof.
  induction l as [|[i y] l IH]; cbn [remove map fst]; intros H; [constructor|]. inversion H as [|? ? H1 H2]; subst.
  destruct (key_eqb_spec i k) as [->|N]; cbn [map fst]; [auto|]. constructor; auto. rewrite remove_names. tauto.
Qed.
Lemma find_in l k x : NoDup (map fst l) -> (find k l = Some x <-> In (k, x) l).
Proof.
  induction l as [|[i y] l IH]; cbn [find map fst In]; intros H; [split; [discriminate|tauto]|]. inversion H as [|? ? H1 H2]; subst.
  destruct (key_eqb_spec i k) as [->|N].
  - split; [intros [= ->]; auto|]. intros [[= ->]|Hin]; [reflexivity|]. exfalso. apply H1. apply in_map_iff. exists (k, x). auto.
  - rewrite (IH H2). split; [auto|]. intros [[= -> ->]|Hin]; [congruence|exact Hin].
Qed.
Lemma find_name l k : (exists x, find k l = Some x) <-> In k (map fst l).
Proof.
  induction l as [|[i y] l IH]; cbn [find map fst In]; [split; [intros [x E]; discriminate|tauto]|].
  destruct (key_eqb_spec i k) as [->|N]; [split; eauto|]. rewrite IH. intuition congruence.
Qed.
Lemma find_none l k : find k l = None <-> ~ In k (map fst l).
Proof. rewrite <- find_name. destruct (find k l) as [x|]; split; try congruence; [intros H; exfalso; apply H; eauto|intros _ [x E]; discriminate]. Qed.
End Table.

Lemma Rb_len b : len b < max_size -> len (Rb b) <= len b + 9.
Proof.
  intros H. pose proof (BE_len8 (len b) H) as L. unfold Rb. destruct b as [|x [|y b]]; [cbn; lia|destruct (x <? 128); cbn; lia|].
  destruct (len (x :: y :: b) <? 56); unfold len in *; cbn [length] in *; rewrite ?app_length; cbn [length]; lia.
Qed.
Lemma Rl_len b : len b < max_size -> len (Rl b) <= len b + 9.
Proof.
  intros H. pose proof (BE_len8 (len b) H) as L. unfold Rl. destruct (len b <? 56); unfold len in *; cbn [length] in *; rewrite ?app_length; lia.
Qed.
Lemma Rb_bytes b : bytesl b -> len b < max_size -> bytesl (Rb b).
Proof.
  intros H L. pose proof (BE_len8 (len b) L) as L8. unfold Rb. destruct b as [|x [|y b]].
  - repeat constructor; cbn; lia.
  - destruct (N.ltb_spec x 128); repeat constructor; try lia. inversion H; assumption.
  - destruct (N.ltb_spec (len (x :: y :: b)) 56); constructor; try lia; [exact H|]. apply Forall_app. split; [apply BE_bytes|exact H].
Qed.
Lemma Rl_bytes b : bytesl b -> len b < max_size -> bytesl (Rl b).
Proof.
  intros H L. pose proof (BE_len8 (len b) L) as L8. unfold Rl. destruct (N.ltb_spec (len b) 56); constructor; try lia; [exact H|]. apply Forall_app. split; [apply BE_bytes|exact H].
Qed.
Lemma Rb_cons b : Rb b <> [].
Proof. unfold Rb. destruct b as [|x [|y b]]; [discriminate|destruct (x <? 128); discriminate|destruct (len (x :: y :: b) <? 56); discriminate]. Qed.
Lemma Rl_cons b : Rl b <> [].
Proof. unfold Rl. destruct (len b <? 56); discriminate. Qed.
Lemma BE_len32 x : x < 2 ^ 256 -> len (BE x) <= 32.
Proof.
  intros H. unfold BE, len. rewrite be_bytes_length, N2Nat.id. assert (N.size x <= 256); [|assert ((N.size x + 7) / 8 < 33) by (apply N.div_lt_upper_bound; lia); lia].
  destruct (N.eq_dec x 0) as [->|Nx]; [cbn; lia|]. rewrite N.size_log2 by lia. apply N.log2_lt_pow2 in H; lia.
Qed.
Lemma word_ok v : v < 2 ^ 256 -> word_rlp v <> [] /\ bytesl (word_rlp v) /\ len (word_rlp v) < 2147483648.
Proof.
  intros H. pose proof (BE_len32 v H). unfold word_rlp. cbn [RLP]. assert (len (BE v) < max_size) by (unfold max_size; lia).
  split; [apply Rb_cons|]. split; [apply Rb_bytes; [apply BE_bytes|assumption]|]. pose proof (Rb_len (BE v)). lia.
Qed.
Lemma word_inj v v' : v < 2 ^ 256 -> v' < 2 ^ 256 -> word_rlp v = word_rlp v' -> v = v'.
Proof.
  intros H H' E. pose proof (BE_len32 v H). pose proof (BE_len32 v' H'). apply RLP_inj in E; [|constructor; unfold max_size; lia..].
  injection E as E. apply (f_equal from_be) in E. rewrite !BE_from in E. exact E.
Qed.
Lemma entry_size n b r c : n < 2 ^ 256 -> b < 2 ^ 256 -> len r = 32 -> len c = 32 ->
  len (concat (map RLP [RStr (BE n); RStr (BE b); RStr r; RStr c])) <= 164.
Proof.
  intros Hn Hb Hr Hc. pose proof (BE_len32 n Hn). pose proof (BE_len32 b Hb). cbn [map RLP concat].
  assert (G : forall x y, len x <= 32 -> len (Rb x ++ y) <= 41 + len y).
  { intros x y H1. pose proof (Rb_len x ltac:(unfold max_size; lia)). unfold len in *. rewrite app_length. lia. }
  pose proof (G (BE n) (Rb (BE b) ++ Rb r ++ Rb c ++ []) ltac:(assumption)). pose proof (G (BE b) (Rb r ++ Rb c ++ []) ltac:(assumption)).
  pose proof (G r (Rb c ++ []) ltac:(lia)). pose proof (G c [] ltac:(lia)). cbn [len length] in *. unfold len in *. cbn [length] in *. lia.
Qed.
Lemma entry_ok n b r c : n < 2 ^ 256 -> b < 2 ^ 256 -> bytesl r -> len r = 32 -> bytesl c -> len c = 32 ->
  entry_rlp n b r c <> [] /\ bytesl (entry_rlp n b r c) /\ len (entry_rlp n b r c) < 2147483648.
Proof.
  intros Hn Hb Br Hr Bc Hc. pose proof (entry_size n b r c Hn Hb Hr Hc) as S. unfold entry_rlp. rewrite (eq_refl : RLP (RList [RStr (BE n); RStr (BE b); RStr r; RStr c]) = Rl (concat (map RLP [RStr (BE n); RStr (BE b); RStr r; RStr c]))).
  assert (M : len (concat (map RLP [RStr (BE n); RStr (BE b); RStr r; RStr c])) < max_size) by (unfold max_size; lia).
  split; [apply Rl_cons|]. split; [|pose proof (Rl_len _ M); lia]. apply Rl_bytes; [|exact M]. cbn [map RLP concat].
  pose proof (BE_len32 n Hn). pose proof (BE_len32 b Hb).
  repeat (apply Forall_app; split); try (constructor; fail); apply Rb_bytes; auto using BE_bytes; unfold max_size; lia.
Qed.
Lemma entry_inj n b r c n' b' r' c' : n < 2 ^ 256 -> b < 2 ^ 256 -> len r = 32 -> len c = 32 -> n' < 2 ^ 256 -> b' < 2 ^ 256 -> len r' = 32 -> len c' = 32 ->
  entry_rlp n b r c = entry_rlp n' b' r' c' -> n = n' /\ b = b' /\ r = r' /\ c = c'.
Proof.
  intros Hn Hb Hr Hc Hn' Hb' Hr' Hc' E.
  assert (R : forall n b r c, n < 2 ^ 256 -> b < 2 ^ 256 -> len r = 32 -> len c = 32 -> rok (RList [RStr (BE n); RStr (BE b); RStr r; RStr c])).
  { clear. intros n b r c Hn Hb Hr Hc. pose proof (BE_len32 n Hn). pose proof (BE_len32 b Hb). constructor.
    - repeat (constructor; [constructor; unfold max_size; lia|]). constructor.
    - pose proof (entry_size n b r c Hn Hb Hr Hc). unfold max_size. lia. }
  apply RLP_inj in E; [|apply R; assumption..]. injection E as E1 E2 E3 E4.
  apply (f_equal from_be) in E1, E2. rewrite !BE_from in *. auto.
Qed.

Section Keccak.
Variable keccak : list N -> list N.
Hypothesis K32 : hash32 keccak.
Definition key (a : list N) : list N := unpair (keccak a).
Definition full (k : list N) : Prop := length k = N.to_nat 64.

Lemma key_ok a : from_h256_be (keccak a) = enc (key a) /\ kwf (from_h256_be (keccak a)) /\ nseq (from_h256_be (keccak a)) = key a /\ full (key a).
Proof.
  destruct (K32 a) as [B L]. assert (L32 : length (keccak a) = 32%nat) by (unfold len in L; lia).
  pose proof (from_h256_be_enc (keccak a) B L32) as E. rewrite E. pose proof (unpair_hexl (keccak a) B) as H. assert (F : length (unpair (keccak a)) = 64%nat) by (rewrite unpair_length; lia).
  split; [reflexivity|]. split; [apply kwf_enc; [exact H|lia]|]. split; [apply nseq_enc, H|]. exact F.
Qed.
Lemma key_inj a b : key a = key b -> keccak a = keccak b.
Proof. apply unpair_inj. Qed.

(** [t] holds the table [l] with the contents encoded by [f]. *)
Definition keeps {A} (S : list (list N)) (f : A -> list N) (t : node) (l : list (list N * A)) : Prop :=
  NoDup (map fst l) /\ incl (map fst l) S /\ fits t /\ exists m, inv full t m /\
    (forall a, In a S -> m (key a) = option_map f (find a l)) /\ (forall k, m k <> None -> exists a, In a (map fst l) /\ k = key a).

Section Keeps.
Context {A : Type}.
Variable S : list (list N).
Hypothesis NC : no_clash keccak S.
Variable f : A -> list N.
Implicit Type l : list (list N * A).

Lemma keeps_empty : keeps S f Empty [].
Proof.
  split; [constructor|]. split; [intros x []|]. split; [exact I|]. exists kv_empty. split; [apply inv_empty|]. split; [reflexivity|].
  intros k H. exfalso. apply H. reflexivity.
Qed.
Lemma keeps_insert pr t l a x : keeps S f t l -> In a S -> f x <> [] -> bytesl (f x) -> len (f x) < 2147483648 ->
  exists t', trie_insert pr t (from_h256_be (keccak a)) (Val (f x)) = Ok t' /\ keeps S f t' (assign a x l).
Proof.
  intros (ND & IS & Ft & m & I & M1 & M2) Ha Nx Bx Lx. destruct (key_ok a) as (E & Kw & Ks & Fl).
  destruct (inv_insert pr full t m (from_h256_be (keccak a)) (f x) (fixed_pf 64) I Kw ltac:(rewrite Ks; exact Fl) Nx) as (t' & Ei & I'). rewrite Ks in I'.
  exists t'. split; [exact Ei|]. split; [apply assign_nodup, ND|]. split; [intros j Hj; apply assign_names in Hj; destruct Hj as [->|Hj]; auto|].
  split; [exact (insert_fits pr t _ (Val (f x)) t' Ft (conj Bx Lx) Ei)|]. exists (kv_set m (key a) (Some (f x))). split; [exact I'|]. split.
  - intros b Hb. unfold kv_set. rewrite find_assign. destruct (key_eqb_spec (key a) (key b)) as [Ek|Ek].
    + assert (a = b) by (apply NC; auto using key_inj). subst b. destruct (key_eqb_spec a a); [reflexivity|congruence].
    + destruct (key_eqb_spec a b) as [->|_]; [congruence|]. apply M1, Hb.
  - intros k. unfold kv_set. destruct (key_eqb_spec (key a) k) as [<-|Ek].
    + intros _. exists a. split; [apply assign_names; auto|reflexivity].
    + intros H. destruct (M2 k H) as (b & Hb & ->). exists b. split; [apply assign_names; auto|reflexivity].
Qed.
Lemma keeps_delete pr t l a : keeps S f t l -> In a S ->
  exists t', trie_delete pr t (from_h256_be (keccak a)) = Ok (t', option_map f (find a l)) /\ keeps S f t' (remove a l).
Proof.
  intros (ND & IS & Ft & m & I & M1 & M2) Ha. destruct (key_ok a) as (E & Kw & Ks & Fl).
  destruct (inv_delete pr full t m (from_h256_be (keccak a)) (fixed_pf 64) I Kw ltac:(rewrite Ks; exact Fl)) as (t' & Ei & I'). rewrite Ks in *.
  rewrite (M1 a Ha) in Ei. exists t'. split; [exact Ei|]. split; [apply remove_nodup, ND|]. split; [intros j Hj; apply remove_names in Hj; apply IS, Hj|].
  split; [exact (tdelete_fits pr t _ _ _ Ft Ei)|]. exists (kv_set m (key a) None). split; [exact I'|]. split.
  - intros b Hb. unfold kv_set. rewrite find_remove. destruct (key_eqb_spec (key a) (key b)) as [Ek|Ek].
    + assert (a = b) by (apply NC; auto using key_inj). subst b. destruct (key_eqb_spec a a); [reflexivity|congruence].
    + destruct (key_eqb_spec a b) as [->|_]; [congruence|]. apply M1, Hb.
  - intros k. unfold kv_set. destruct (key_eqb_spec (key a) k) as [<-|Ek]; [congruence|].
    intros H. destruct (M2 k H) as (b & Hb & ->). exists b. split; [apply remove_names; split; [congruence|exact Hb]|reflexivity].
Qed.
Lemma keeps_get pr t l a : keeps S f t l -> In a S -> trie_get pr t (from_h256_be (keccak a)) = Ok (option_map f (find a l)).
Proof.
  intros (ND & IS & Ft & m & I & M1 & M2) Ha. destruct (key_ok a) as (E & Kw & Ks & Fl). rewrite <- (M1 a Ha), <- Ks.
  apply (inv_get pr full t m _ (fixed_pf 64) I Kw); rewrite Ks; [exact Fl|]. intros j Hj. unfold full in *. lia.
Qed.
Lemma keeps_lists t l : keeps S f t l -> lists (map (fun e => (key (fst e), f (snd e))) l) t.
Proof.
  intros (ND & IS & Ft & m & (W & C & H & _) & M1 & M2). eapply lists_holds; [|exact H]. split.
  - rewrite map_map. cbn [fst]. rewrite <- (map_map fst key). clear - ND IS NC. induction (map fst l) as [|x r IH]; cbn [map]; [constructor|]. inversion ND as [|? ? N1 N2]; subst.
    constructor; [|apply IH; [exact N2|intros y Hy; apply IS; right; exact Hy]]. intros Hin. apply in_map_iff in Hin. destruct Hin as (y & Ey & Hy). apply N1.
    replace x with y; [exact Hy|]. apply NC; [apply IS; right; exact Hy|apply IS; left; reflexivity|]. apply key_inj, Ey.
  - intros k v. rewrite in_map_iff. split.
    + intros E. destruct (M2 k ltac:(congruence)) as (a & Ha & ->). rewrite (M1 a (IS a Ha)) in E. destruct (find a l) as [x|] eqn:Fx; [|discriminate].
      injection E as <-. exists (a, x). split; [reflexivity|]. apply find_in; assumption.
    + intros ([a x] & E & Hin). cbn [fst snd] in E. injection E as <- <-. rewrite (M1 a); [|apply IS, in_map_iff; exists (a, x); auto].
      rewrite (proj2 (find_in l a x ND) Hin). reflexivity.
Qed.
Lemma keeps_hash pr t l : keeps S f t l -> hash_trie keccak pr t = Ok (yp_root keccak (map (fun e => (key (fst e), f (snd e))) l)).
Proof. intros H. pose proof (keeps_lists t l H) as L. destruct H as (_ & _ & Ft & m & (W & C & _) & _). apply C19_canonical; auto. Qed.
Lemma keeps_hash_free t l : keeps S f t l -> hash_free t.
Proof. intros (_ & _ & _ & m & (_ & _ & H & _) & _). intros k h. rewrite H. destruct (m k); discriminate. Qed.
End Keeps.

Lemma yp_root_ok J : bytesl (yp_root keccak J) /\ len (yp_root keccak J) = 32.
Proof. unfold yp_root. destruct J; apply K32. Qed.

(** Two tables with the same trie. *)
Lemma keeps_same {A} S S' (f : A -> list N) t l l' : keeps S f t l -> keeps S' f t l' -> ~ collision keccak (map fst l) (map fst l') ->
  forall a, option_map f (find a l) = option_map f (find a l').
Proof.
  intros (ND & IS & _ & m & (_ & _ & H & _) & M1 & M2) (ND' & IS' & _ & m' & (_ & _ & H' & _) & M1' & M2') NC a.
  assert (E : forall k, m k = m' k).
  { intros k. pose proof (H k) as E. rewrite H' in E. destruct (m k), (m' k); cbn in E; congruence. }
  assert (G : forall a, In a (map fst l) -> In a (map fst l')).
  { intros b Hb. pose proof (proj2 (find_name l b) Hb) as [x Fx]. destruct (M2' (key b)) as (c & Hc & Ek).
    - rewrite <- E, (M1 b (IS b Hb)), Fx. discriminate.
    - destruct (list_eq_dec N.eq_dec b c) as [->|Nb]; [exact Hc|]. exfalso. apply NC. exists b, c. auto using key_inj. }
  assert (G' : forall a, In a (map fst l') -> In a (map fst l)).
  { intros b Hb. pose proof (proj2 (find_name l' b) Hb) as [x Fx]. destruct (M2 (key b)) as (c & Hc & Ek).
    - rewrite E, (M1' b (IS' b Hb)), Fx. discriminate.
    - destruct (list_eq_dec N.eq_dec b c) as [->|Nb]; [exact Hc|]. exfalso. apply NC. exists c, b. repeat split; auto. symmetry. apply key_inj, Ek. }
  destruct (in_dec (list_eq_dec N.eq_dec) a (map fst l)) as [Ha|Ha].
  - rewrite <- (M1 a (IS a Ha)), <- (M1' a (IS' a (G a Ha))). apply E.
  - rewrite (proj2 (find_none l a) Ha), (proj2 (find_none l' a)); [reflexivity|]. auto.
Qed.
Lemma collision_dec A B : collision keccak A B \/ ~ collision keccak A B.
Proof.
  assert (D : {Exists (fun x => Exists (fun y => x <> y /\ keccak x = keccak y) B) A} + {~ Exists (fun x => Exists (fun y => x <> y /\ keccak x = keccak y) B) A}).
  { apply Exists_dec. intros x. apply Exists_dec. intros y. destruct (list_eq_dec N.eq_dec x y) as [->|N]; [right; tauto|].
    destruct (list_eq_dec N.eq_dec (keccak x) (keccak y)) as [E|E]; [left; auto|right; tauto]. }
  destruct D as [D|D]; [left|right].
  - apply Exists_exists in D as (x & Hx & D). apply Exists_exists in D as (y & Hy & N & E). exists x, y. auto.
  - intros (x & y & Hx & Hy & N & E). apply D, Exists_exists. exists x. split; [exact Hx|]. apply Exists_exists. exists y. auto.
Qed.
End Keccak.
