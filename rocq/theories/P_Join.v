(** Property C64: partial tries with one root hash never contradict each other. [keccak] is any function with 32-byte outputs. *)
From Verif Require Import Base Nibbles NibblesSpec NibblesFacts NibblesFacts2 NibblesFacts3 Trie TrieSpec TrieHistSpec TrieFacts TrieGet TrieHist Rlp YellowPaper Hashing Keccak HashSpec HideSpec HashFacts RlpFacts HashBind KeccakFacts HideFacts HideBind JoinFacts P_Trie P_Hash.
Open Scope N_scope.

(** Both are the same trie with some subtrees replaced by their hashes, or one of them is nothing but the root hash. The common trie has the structure of
    a Merkle-Patricia trie if both have it. *)
Theorem C64_common_trie : forall keccak pr1 pr2 t1 t2,
  hash32 keccak -> wf 64 t1 -> wf 64 t2 -> fits t1 -> fits t2 ->
  hash_trie keccak pr1 t1 = hash_trie keccak pr2 t2 ->
  (exists t, wf 64 t /\ fits t /\ hides keccak t t1 /\ hides keccak t t2 /\ (shape t1 -> shape t2 -> shape t) /\ (canon t1 -> canon t2 -> canon t)) \/
  (exists h, hash_trie keccak pr1 t1 = Ok h /\ (t1 = Hash h \/ t2 = Hash h)) \/
  collision keccak (encodings keccak t1) (encodings keccak t2).
Proof.
  intros keccak pr1 pr2 t1 t2 K W1 W2 F1 F2 E. pose proof (hash_trie_ok keccak K pr1 t1 W1 F1) as H1.
  rewrite H1, (hash_trie_ok keccak K pr2 t2 W2 F2) in E. injection E as E.
  destruct (not_hash_dec t1) as [N1|[h ->]]; [|right; left; exists h; auto].
  destruct (not_hash_dec t2) as [N2|[h ->]]; [|right; left; exists h; rewrite H1, E; auto].
  assert (E' : keccak (RLP (item keccak t1)) = keccak (RLP (item keccak t2)))
    by (unfold root in E; destruct t1; try destruct N1; destruct t2; try destruct N2; exact E).
  destruct (join_binding keccak K t1 64 t2 W1 W2 (le_n _) F1 F2 N1 N2 E') as [(t & A & B & C & D & _ & X & Y)|Q]; [left; exists t|]; auto 10.
Qed.

(** [get] gives the same answer on both, unless one of them answers [None]. *)
Theorem C64_get : forall keccak pr1 pr2 pr t1 t2 k,
  hash32 keccak -> wf 64 t1 -> wf 64 t2 -> fits t1 -> fits t2 ->
  hash_trie keccak pr1 t1 = hash_trie keccak pr2 t2 ->
  trie_get pr t1 k = trie_get pr t2 k \/ trie_get pr t1 k = Ok None \/ trie_get pr t2 k = Ok None \/
  collision keccak (encodings keccak t1) (encodings keccak t2).
Proof.
  intros keccak pr1 pr2 pr t1 t2 k K W1 W2 F1 F2 E.
  destruct (C64_common_trie keccak pr1 pr2 t1 t2 K W1 W2 F1 F2 E) as [(t & _ & _ & H1 & H2 & _)|[(h & _ & [-> | ->])|Q]]; auto.
  destruct (hides_get keccak pr t t1 k H1) as [-> |R1]; [|auto]. destruct (hides_get keccak pr t t2 k H2) as [-> |R2]; auto.
Qed.

Theorem C64_values_agree : forall keccak pr1 pr2 pr t1 t2 k v1 v2,
  hash32 keccak -> wf 64 t1 -> wf 64 t2 -> fits t1 -> fits t2 ->
  hash_trie keccak pr1 t1 = hash_trie keccak pr2 t2 ->
  trie_get pr t1 k = Ok (Some v1) -> trie_get pr t2 k = Ok (Some v2) ->
  v1 = v2 \/ collision keccak (encodings keccak t1) (encodings keccak t2).
Proof.
  intros keccak pr1 pr2 pr t1 t2 k v1 v2 K W1 W2 F1 F2 E G1 G2.
  destruct (C64_get keccak pr1 pr2 pr t1 t2 k K W1 W2 F1 F2 E) as [Q|[Q|[Q|Q]]]; auto; left; congruence.
Qed.

(** The stored contents agree at every key at which neither of them has a hash node on the way. *)
Theorem C64_contents : forall keccak pr1 pr2 t1 t2 k,
  hash32 keccak -> wf 64 t1 -> wf 64 t2 -> fits t1 -> fits t2 ->
  hash_trie keccak pr1 t1 = hash_trie keccak pr2 t2 ->
  lk t1 k = lk t2 k \/ (exists p h, (lk t1 p = Some (HashV h) \/ lk t2 p = Some (HashV h)) /\ is_prefix p k) \/
  collision keccak (encodings keccak t1) (encodings keccak t2).
Proof.
  intros keccak pr1 pr2 t1 t2 k K W1 W2 F1 F2 E.
  destruct (C64_common_trie keccak pr1 pr2 t1 t2 K W1 W2 F1 F2 E) as [(t & _ & _ & H1 & H2 & _)|[(h & _ & [-> | ->])|Q]]; auto.
  - destruct (hides_lk keccak t t1 k H1) as [-> |(p & h & A & B)]; [|right; left; eauto].
    destruct (hides_lk keccak t t2 k H2) as [-> |(p & h & A & B)]; [auto|right; left; eauto].
  - right; left. exists [], h. split; [left; reflexivity|exists k; reflexivity].
  - right; left. exists [], h. split; [right; reflexivity|exists k; reflexivity].
Qed.

(** Inserting the same entries into both gives tries with one root hash again. *)
Theorem C64_extend : forall keccak pr1 pr2 pr t1 t2 l r1 r2,
  hash32 keccak -> wf 64 t1 -> wf 64 t2 -> fits t1 -> fits t2 ->
  hash_trie keccak pr1 t1 = hash_trie keccak pr2 t2 ->
  Forall (fun e => kwf (fst e)) l -> Forall (fun e => fits_val (snd e)) l ->
  trie_extend pr t1 l = Ok r1 -> trie_extend pr t2 l = Ok r2 ->
  hash_trie keccak pr r1 = hash_trie keccak pr r2 \/ collision keccak (encodings keccak t1) (encodings keccak t2).
Proof.
  intros keccak pr1 pr2 pr t1 t2 l r1 r2 K W1 W2 F1 F2 E Fl Fv X1 X2.
  destruct (C64_common_trie keccak pr1 pr2 t1 t2 K W1 W2 F1 F2 E) as [(t & W & F & H1 & H2 & _)|[(h & Eh & T)|Q]]; auto; left.
  - destruct (C27_extend keccak pr t t1 l r1 K W F H1 Fl Fv X1) as (r & Er & _ & ->).
    destruct (C27_extend keccak pr t t2 l r2 K W F H2 Fl Fv X2) as (r' & Er' & _ & ->). congruence.
  - (* Nothing can be inserted into a bare hash. *)
    destruct l as [|[k v] l].
    + cbn [trie_extend] in X1, X2. injection X1 as <-. injection X2 as <-.
      rewrite (hash_trie_ok keccak K pr1 t1 W1 F1), (hash_trie_ok keccak K pr2 t2 W2 F2) in E.
      rewrite (hash_trie_ok keccak K pr t1 W1 F1), (hash_trie_ok keccak K pr t2 W2 F2). exact E.
    + destruct T as [-> | ->]; [discriminate X1|discriminate X2].
Qed.

Theorem C64_insert : forall keccak pr1 pr2 pr t1 t2 k v r1 r2,
  hash32 keccak -> wf 64 t1 -> wf 64 t2 -> fits t1 -> fits t2 ->
  hash_trie keccak pr1 t1 = hash_trie keccak pr2 t2 -> kwf k -> fits_val v ->
  trie_insert pr t1 k v = Ok r1 -> trie_insert pr t2 k v = Ok r2 ->
  hash_trie keccak pr r1 = hash_trie keccak pr r2 \/ collision keccak (encodings keccak t1) (encodings keccak t2).
Proof.
  intros keccak pr1 pr2 pr t1 t2 k v r1 r2 K W1 W2 F1 F2 E Hk Fv X1 X2.
  apply (C64_extend keccak pr1 pr2 pr t1 t2 [(k, v)] r1 r2); auto; cbn [trie_extend]; rewrite ?X1, ?X2; reflexivity.
Qed.

(** For [delete] this fails (see C28): two tries with one root hash, one key, two successful deletions, two root hashes. *)
Theorem C64_delete_refuted : forall pr, exists t1 t2 k w r1 r2,
  wf 64 t1 /\ wf 64 t2 /\ fits t1 /\ fits t2 /\ kwf k /\ hash_trie keccak256 pr t1 = hash_trie keccak256 pr t2 /\
  trie_delete pr t1 k = Ok (r1, Some w) /\ trie_delete pr t2 k = Ok (r2, Some w) /\
  hash_trie keccak256 pr r1 <> hash_trie keccak256 pr r2.
Proof.
  intros pr. destruct (C28_refuted pr) as (t & t' & k & w & r & r' & W & _ & F & H & Hk & E1 & E2 & N).
  exists t', t, k, w, r', r. split; [exact (hides_wf _ _ _ _ H W)|]. split; [exact W|].
  split; [exact (hides_fits _ keccak256_32 _ _ H F)|]. split; [exact F|]. split; [exact Hk|].
  split; [apply C20_hiding_keeps_root; auto using keccak256_32|]. auto.
Qed.

(** Two different partial views of one trie: each answers a key that the other does not know. *)
Example C64_example :
  let t1 := hide_child 5 ex_big in let t2 := hide_child 1 ex_big in
  wf 64 t1 /\ wf 64 t2 /\ fits t1 /\ fits t2 /\ t1 <> t2 /\
  hash_trie keccak256 Debug t1 = hash_trie keccak256 Debug t2 /\
  trie_get Debug t1 (K 4 0x1234) = Ok (Some (big 1)) /\ trie_get Debug t2 (K 4 0x1234) = Ok None /\
  (exists r1 r2, trie_insert Debug t1 (K 4 0x9999) (Val [7]) = Ok r1 /\ trie_insert Debug t2 (K 4 0x9999) (Val [7]) = Ok r2 /\ r1 <> r2).
Proof.
  cbv zeta. destruct C20_example as (H1 & H5 & _). destruct ex_big_ok as (_ & W & _ & F).
  split; [exact (hides_wf _ _ _ _ H5 W)|]. split; [exact (hides_wf _ _ _ _ H1 W)|].
  split; [exact (hides_fits _ keccak256_32 _ _ H5 F)|]. split; [exact (hides_fits _ keccak256_32 _ _ H1 F)|].
  split; [vm_compute; discriminate|].
  split; [rewrite !(C20_hiding_keeps_root keccak256 Debug ex_big _ keccak256_32 W F) by assumption; reflexivity|].
  split; [vm_compute; reflexivity|]. split; [vm_compute; reflexivity|].
  do 2 eexists. split; [vm_compute; reflexivity|]. split; [vm_compute; reflexivity|]. discriminate.
Qed.

Print Assumptions C64_common_trie.
Print Assumptions C64_get.
Print Assumptions C64_values_agree.
Print Assumptions C64_contents.
Print Assumptions C64_extend.
Print Assumptions C64_insert.
Print Assumptions C64_delete_refuted.
