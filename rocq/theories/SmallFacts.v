(** The size of subsets: proofs. *)
From Verif Require Import Base Nibbles NibblesSpec Trie TrieSpec TrieFacts Rlp YellowPaper Hashing HashSpec HideSpec HashFacts HideFacts Subset SubsetSpec SubsetFacts StatsSpec StatsFacts.
From Verif Require Import Trie TrieSpec.
Open Scope N_scope.

Fixpoint sumN (l : list N) : N := match l with [] => 0 | x :: l' => x + sumN l' end.
Lemma size_branch ch v : size (Branch ch v) = 1 + sumN (map size ch).
Proof.
  unfold size. cbn [subnodes length]. induction ch as [|c ch IH]; [reflexivity|]. cbn [flat_map map sumN]. rewrite app_length.
  rewrite (subnodes_shift c (0 + 1)), map_length. lia.
Qed.
Lemma size_ext n c : size (Extension n c) = 1 + size c.
Proof. unfold size. cbn [subnodes length]. rewrite (subnodes_shift c (0 + 1)), map_length. lia. Qed.
Lemma size_pos t : 1 <= size t.
Proof. unfold size. destruct t; cbn [subnodes length]; lia. Qed.

(** ** Nodes with a short encoding have few nodes *)
Section Raw.
Variable keccak : list N -> list N.
Hypothesis K32 : hash32 keccak.
Variable pr : profile.

Definition bnd (e : encoded_node) : N := match e with Raw b => lenN b | Hashed _ => 33 end.
Definition small_enc (e : encoded_node) : Prop := match e with Raw b => lenN b <= 31 | Hashed h => lenN h = 32 end.
Lemma lenN_app {A} (a b : list A) : lenN (a ++ b) = lenN a + lenN b.
Proof. unfold lenN. rewrite app_length. lia. Qed.
Lemma lenN_cons {A} (x : A) l : lenN (x :: l) = 1 + lenN l.
Proof. unfold lenN. cbn [length]. lia. Qed.
Lemma encode_value_32 h : lenN h = 32 -> lenN (encode_value h) = 33.
Proof.
  intros H. unfold encode_value. rewrite H. cbn [N.eqb N.leb N.compare Pos.compare Pos.compare_cont].
  destruct h as [|x [|y h]]; [discriminate H|discriminate H|]. rewrite lenN_cons, H. reflexivity.
Qed.
Lemma list_payload_len p : 1 + lenN p <= lenN (list_payload p).
Proof. unfold list_payload. destruct (lenN p <=? 55); rewrite lenN_cons; [lia|]. rewrite lenN_app. lia. Qed.
Lemma append_len st e : small_enc e -> lenN (payload (append_to_stream st e)) = lenN (payload st) + bnd e.
Proof.
  destruct e as [b|h]; cbn [append_to_stream append append_raw payload bnd small_enc]; intros S; rewrite lenN_app; [lia|].
  rewrite encode_value_32 by exact S. lia.
Qed.
Lemma large_enc b : small_enc (hash_bytes_if_large_enough keccak b).
Proof.
  unfold hash_bytes_if_large_enough. destruct (N.leb_spec 32 (lenN b)); cbn [small_enc]; [apply (K32 b)|lia].
Qed.
Lemma large_raw b b' : hash_bytes_if_large_enough keccak b = Raw b' -> b' = b /\ lenN b <= 31.
Proof. unfold hash_bytes_if_large_enough. destruct (N.leb_spec 32 (lenN b)); intros E; [discriminate|]. injection E as <-. split; [reflexivity|lia]. Qed.

Definition fine (t : node) : Prop := forall e, rlp_encode_and_hash_node keccak pr t = Ok e -> small_enc e /\ size t <= bnd e \/ (exists h, e = Hashed h) /\ small_enc e.

Lemma raw_size t : fits t -> fine t.
Proof.
  induction t as [|h|ch v IH|n t IH|n v] using node_ind'; intros F e E; cbn [rlp_encode_and_hash_node] in E.
  - injection E as <-. left. split; cbn; lia.
  - injection E as <-. right. split; [eauto|]. apply F.
  - apply fits_branch in F. destruct F as (_ & _ & F).
    assert (C : forall l st s, Forall fine l -> (fix go (l : list node) (s : stream) {struct l} : res stream :=
              match l with
              | [] => Ok s
              | c :: l' => e <- rlp_encode_and_hash_node keccak pr c ;; go l' (append_to_stream s e)
              end) l st = Ok s -> lenN (payload st) <= lenN (payload s) /\ (lenN (payload s) <= 31 -> lenN (payload st) + sumN (map size l) <= lenN (payload s))).
    { clear. induction l as [|c l IHl]; intros st s Fl E; [injection E as <-; cbn [map sumN]; split; [lia|intros; lia]|].
      destruct (rlp_encode_and_hash_node keccak pr c) as [e1|] eqn:E1; [|discriminate]. cbn [bind] in E.
      destruct (IHl _ _ (Forall_inv_tail Fl) E) as [A B]. clear IHl E.
      destruct (Forall_inv Fl e1 E1) as [[S L]|[[h ->] S]]; rewrite (append_len st _ S) in A, B; (split; [lia|]); intros L31; cbn [map sumN].
      - specialize (B L31). lia.
      - cbn [bnd] in A. lia. }
    rewrite Forall_forall in IH, F.
    assert (Fc : Forall fine ch) by (apply Forall_forall; intros c I; apply IH; auto).
    match type of E with bind ?m _ = _ => destruct m as [s|] eqn:Es; [|discriminate] end. cbn [bind] in E.
    destruct (C ch new_list s Fc Es) as [_ C2]. cbn [new_list payload] in C2.
    unfold stream_out in E. match type of E with context [if ?c then _ else _] => destruct c; [|discriminate] end. cbn [bind] in E. injection E as <-.
    pose proof (large_enc (list_payload (payload (match v with [] => append_empty_data s | _ => append s v end)))) as S.
    destruct (hash_bytes_if_large_enough keccak _) as [b|h] eqn:Eb; [|right; eauto]. left. split; [exact S|].
    apply large_raw in Eb. destruct Eb as [-> L]. rewrite size_branch. cbn [bnd].
    pose proof (list_payload_len (payload (match v with [] => append_empty_data s | _ => append s v end))) as P.
    assert (Q : lenN (payload s) <= lenN (payload (match v with [] => append_empty_data s | _ => append s v end))).
    { destruct v; cbn [append_empty_data append append_raw payload]; rewrite lenN_app; lia. }
    change (lenN []) with 0 in C2. specialize (C2 ltac:(lia)). lia.
  - destruct (to_hex_prefix_encoding pr n false) as [hp|]; [|discriminate]. cbn [bind] in E.
    destruct (rlp_encode_and_hash_node keccak pr t) as [e1|] eqn:E1; [|discriminate]. cbn [bind] in E.
    unfold stream_out in E. match type of E with context [if ?c then _ else _] => destruct c; [|discriminate] end. cbn [bind] in E. injection E as <-.
    match goal with |- context [hash_bytes_if_large_enough keccak ?b] => pose proof (large_enc b) as S; pose proof (list_payload_len (payload (append_to_stream (append new_list hp) e1))) as P;
      destruct (hash_bytes_if_large_enough keccak b) as [b'|h] eqn:Eb; [|right; eauto] end.
    left. split; [exact S|]. apply large_raw in Eb. destruct Eb as [-> L]. rewrite size_ext. cbn [bnd].
    destruct (IH F e1 E1) as [[S1 L1]|[[h ->] S1]]; rewrite (append_len _ _ S1) in P; [lia|cbn [bnd] in P; lia].
  - destruct (to_hex_prefix_encoding pr n true) as [hp|]; [|discriminate]. cbn [bind] in E.
    unfold stream_out in E. match type of E with context [if ?c then _ else _] => destruct c; [|discriminate] end. cbn [bind] in E. injection E as <-.
    match goal with |- context [hash_bytes_if_large_enough keccak ?b] => pose proof (large_enc b) as S; pose proof (list_payload_len (payload (append (append new_list hp) v))) as P;
      destruct (hash_bytes_if_large_enough keccak b) as [b'|h] eqn:Eb; [|right; eauto] end.
    left. split; [exact S|]. apply large_raw in Eb. destruct Eb as [-> L]. cbn [append append_raw new_list payload app] in P. unfold size. cbn [subnodes length bnd]. lia.
Qed.

(** ** Touched nodes *)
Fixpoint marks (tr : tracked) : N :=
  (if touched tr then 1 else 0) +
  match tr with
  | TBranch l _ _ => sumN (map marks l)
  | TExtension c _ _ => marks c
  | _ => 0
  end.

Lemma sum_le {A B} (R : A -> B -> Prop) (f : A -> N) (g : B -> N) l l' : Forall2 R l l' -> (forall a b, In a l -> R a b -> g b <= f a) -> sumN (map g l') <= sumN (map f l).
Proof. induction 1 as [|a b l l' H F IH]; intros G; cbn [map sumN]; [lia|]. pose proof (G a b (or_introl eq_refl) H). specialize (IH (fun x y I => G x y (or_intror I))). lia. Qed.

Lemma hides_size t : forall t', hides keccak t t' -> size t' <= size t.
Proof.
  induction t as [|h|ch v IH|n t IH|n v] using node_ind'; intros t' H; inversion H; subst; try lia; try (apply (N.le_trans _ 1); [unfold size; cbn [subnodes length]; lia|apply size_pos]).
  - rewrite !size_branch. rewrite Forall_forall in IH. match goal with F : Forall2 _ _ _ |- _ => pose proof (sum_le _ size size _ _ F (fun a b I R => IH a I b R)) end. lia.
  - rewrite !size_ext. match goal with H : hides _ t _ |- _ => specialize (IH _ H) end. lia.
Qed.

Lemma create_size t : forall L tr s, tracks tr t -> wf L t -> (L <= 64)%nat -> fits t -> create_from_tracked keccak pr tr = Ok s ->
  size s <= if touched tr then 497 * marks tr else 31.
Proof.
  induction t as [|h|ch v IH|n t IH|n v] using node_ind'; intros L tr s T W HL F E.
  all: assert (U : touched tr = false -> size s <= 31);
    [intros Tu; destruct (create_hides keccak K32 pr tr _ L T W HL F) as (s' & E' & H); assert (s' = s) by congruence; subst s';
     pose proof (hides_size _ _ H) as Hs; pose proof (raw_size _ F (enode keccak _) (hash_node_ok keccak K32 pr _ L W ltac:(lia) F)) as R;
     rewrite (create_eq keccak K32 pr tr _ L T W HL F), Tu in E;
     destruct R as [[S1 S2]|[[h' Eh] S1]]; [|rewrite Eh in E; injection E as <-; cbn; lia];
     destruct (enode keccak _); cbn [small_enc bnd] in *; [lia|injection E as <-; cbn; lia]|].
  all: destruct (touched tr) eqn:Tt; [clear U|auto].
  all: rewrite (create_eq keccak K32 pr tr _ L T W HL F), Tt in E.
  - inversion T; subst. cbn [touched] in Tt. subst. injection E as <-. cbn. lia.
  - inversion T; subst. cbn [touched] in Tt. subst. injection E as <-. cbn. lia.
  - inversion T as [| |l ch0 v0 b Fl| |]; subst. cbn [touched] in Tt. subst b. cbn [keep_of get_branch_value_expected] in E.
    destruct (create_all keccak pr l) as [ch'|] eqn:Ec; [|discriminate]. cbn [bind] in E. injection E as <-. rewrite size_branch.
    cbn [marks touched]. inversion W as [| |L0 ? ? Hlen Fw| |]; subst. apply fits_branch in F. destruct F as (_ & _ & F).
    assert (B : sumN (map size ch') <= 31 * N.of_nat (length ch) + 497 * sumN (map marks l)).
    { clear T W Hlen v. revert ch' Ec. induction Fl as [|tr c l ch T Fl IHl]; intros ch' Ec; cbn [create_all] in Ec.
      - injection Ec as <-. cbn [map sumN]. lia.
      - destruct (create_from_tracked keccak pr tr) as [s|] eqn:Es; [|discriminate]. cbn [bind] in Ec.
        destruct (create_all keccak pr l) as [ss|] eqn:Ess; [|discriminate]. cbn [bind] in Ec. injection Ec as <-.
        specialize (IHl (Forall_inv_tail IH) (Forall_inv_tail F) (Forall_inv_tail Fw) ss eq_refl).
        pose proof (Forall_inv IH L0 tr s T (Forall_inv Fw) ltac:(lia) (Forall_inv F) Es) as A.
        cbn [map sumN length]. destruct (touched tr); lia. }
    lia.
  - inversion T as [| | |c n0 c0 b Tc|]; subst. cbn [touched] in Tt. subst b. cbn [keep_of get_nibbles_expected bind] in E.
    destruct (create_from_tracked keccak pr c) as [s1|] eqn:Es; [|discriminate]. cbn [bind] in E. injection E as <-. rewrite size_ext.
    inversion W as [| | |L0 l c0 Hl Wc|]; subst. pose proof (IH L0 c s1 Tc Wc ltac:(lia) F Es) as A. cbn [marks touched].
    destruct (touched c); lia.
  - inversion T; subst. cbn [touched] in Tt. subst. injection E as <-. unfold size. cbn [subnodes length marks touched]. lia.
Qed.

Definition deep (d : N) (t : node) : Prop := forall x, In x (subnodes 0 t) -> fst x <= d.
Lemma deep_child d ch v c : deep d (Branch ch v) -> In c ch -> 1 <= d /\ deep (d - 1) c.
Proof.
  intros D I. assert (S : forall x, In x (subnodes 0 c) -> fst x + 1 <= d).
  { intros x Hx. assert (G : In (0 + 1 + fst x, snd x) (subnodes 0 (Branch ch v))).
    { cbn [subnodes]. right. apply in_flat_map. exists c. split; [exact I|]. rewrite subnodes_shift. apply in_map_iff. eauto. }
    specialize (D _ G). cbn [fst] in D. lia. }
  assert (R : In (0, c) (subnodes 0 c)) by (destruct c; left; reflexivity).
  split; [specialize (S _ R); cbn [fst] in S; lia|]. intros x Hx. specialize (S x Hx). lia.
Qed.
Lemma deep_ext d n c : deep d (Extension n c) -> 1 <= d /\ deep (d - 1) c.
Proof.
  intros D. assert (S : forall x, In x (subnodes 0 c) -> fst x + 1 <= d).
  { intros x Hx. assert (G : In (0 + 1 + fst x, snd x) (subnodes 0 (Extension n c))).
    { cbn [subnodes]. right. rewrite subnodes_shift. apply in_map_iff. eauto. }
    specialize (D _ G). cbn [fst] in D. lia. }
  assert (R : In (0, c) (subnodes 0 c)) by (destruct c; left; reflexivity).
  split; [specialize (S _ R); cbn [fst] in S; lia|]. intros x Hx. specialize (S x Hx). lia.
Qed.

Lemma with_tracked_marks {E} (f : tracked -> res (result tracked E)) m : forall l ch i l', Forall2 tracks l ch -> with_tracked f l i = Ok (ROk l') ->
  (forall tr tr' t, In t ch -> tracks tr t -> f tr = Ok (ROk tr') -> marks tr' <= marks tr + m) -> sumN (map marks l') <= sumN (map marks l) + m.
Proof.
  intros l ch i l' F. revert i l'. induction F as [|tr t l ch T F IH]; intros i l' Ew H; destruct i as [|i]; cbn [with_tracked] in Ew; try discriminate.
  - destruct (f tr) as [[tr'|]|] eqn:Ef; try discriminate. cbn [bind] in Ew. injection Ew as <-. cbn [map sumN]. pose proof (H tr tr' t (or_introl eq_refl) T Ef). lia.
  - match type of Ew with bind ?x _ = _ => destruct x as [[l1|]|] eqn:Ei; try discriminate end. cbn [bind] in Ew. injection Ew as <-. cbn [map sumN].
    specialize (IH i l1 Ei (fun a b c I => H a b c (or_intror I))). lia.
Qed.

Lemma touched1 tr : (if touched tr then 1 else 0) <= 1.
Proof. destruct (touched tr); lia. Qed.

Lemma mark_marks t : forall d tr k tr', tracks tr t -> deep d t -> mark pr tr k = Ok (ROk tr') -> marks tr' <= marks tr + (d + 1).
Proof.
  induction t as [|h|ch v IH|n t IH|n v] using node_ind'; intros d tr k tr' T D E; inversion T; subst; cbn [mark] in E.
  - injection E as <-. cbn [marks touched]. destruct b; lia.
  - destruct (is_empty k); [|discriminate]. injection E as <-. cbn [marks touched]. destruct b; lia.
  - match goal with F : Forall2 tracks _ _ |- _ => rename F into F0 end. destruct (is_empty k).
    + injection E as <-. cbn [marks touched]. destruct b; lia.
    + destruct (pop_next_nibble_front pr k) as [[nib k']|]; [|discriminate]. cbn [bind] in E.
      destruct (with_tracked _ l (N.to_nat nib)) as [[l'|]|] eqn:Ew; try discriminate. cbn [bind] in E. injection E as <-. cbn [marks touched].
      rewrite Forall_forall in IH.
      assert (B : sumN (map marks l') <= sumN (map marks l) + d).
      { apply (with_tracked_marks _ d l ch _ l' F0 Ew). intros tr tr' t I Tt Em. destruct (deep_child d ch v t D I) as [D1 Dt].
        pose proof (IH t I (d - 1) tr k' tr' Tt Dt Em). lia. }
      destruct b; lia.
  - match goal with F : tracks _ t |- _ => rename F into Tc end. destruct (deep_ext d n t D) as [D1 Dt].
    cbn [get_nibbles_expected bind] in E. destruct (pop_nibbles_front pr k (count n)) as [[r k']|]; [|discriminate]. cbn [bind] in E.
    destruct (identical_up_to_smallest pr r n) as [[|]|]; try discriminate; cbn [bind] in E.
    + destruct (mark pr c k') as [[c'|]|] eqn:Em; try discriminate. cbn [bind] in E. injection E as <-.
      pose proof (IH (d - 1) c k' c' Tc Dt Em). cbn [marks touched]. destruct b; lia.
    + injection E as <-. cbn [marks touched]. destruct b; lia.
  - injection E as <-. cbn [marks touched]. destruct b; lia.
Qed.

Lemma mark_all_marks t d ks : deep d t -> forall tr tr', tracks tr t -> mark_all pr tr ks = Ok (ROk tr') ->
  tracks tr' t /\ marks tr' <= marks tr + (d + 1) * N.of_nat (length ks).
Proof.
  intros D. induction ks as [|k ks IH]; intros tr tr' T E; cbn [mark_all] in E.
  - injection E as <-. split; [exact T|]. cbn [length]. lia.
  - destruct (mark pr tr k) as [[tr1|]|] eqn:Em; try discriminate. cbn [bind] in E.
    pose proof (mark_marks t d tr k tr1 T D Em) as M. pose proof (fle_tracks _ _ _ (mark_fle _ _ _ _ Em) T) as T1.
    destruct (IH tr1 tr' T1 E) as [T2 M2]. split; [exact T2|]. cbn [length]. lia.
Qed.

Lemma track_marks t : marks (track t) = 0.
Proof.
  induction t as [|h|ch v IH|n t IH|n v] using node_ind'; cbn [track marks touched]; try reflexivity; [|lia].
  rewrite N.add_0_l. induction IH as [|c ch H F IHf]; [reflexivity|]. cbn [map sumN]. lia.
Qed.
Lemma reset_info_marks tr : marks (reset_info tr) <= marks tr.
Proof. destruct tr; cbn [reset_info marks touched]; lia. Qed.
Lemma reset_marks tr : marks (reset_tracked tr) <= marks tr.
Proof.
  destruct tr as [u b|u b|l u b|c u b|u b]; cbn [reset_tracked]; try apply reset_info_marks; cbn [marks touched].
  - apply N.add_le_mono_l. induction l as [|c l IH]; cbn [map sumN]; [lia|]. pose proof (reset_info_marks c). lia.
  - apply N.add_le_mono_l. apply reset_info_marks.
Qed.

Lemma subset_size t ks s d : wf 64 t -> fits t -> deep d t -> create_trie_subset keccak pr t ks = Ok (ROk s) ->
  size s <= 31 + 497 * (d + 1) * N.of_nat (length ks).
Proof.
  intros W F D E. unfold create_trie_subset, create_trie_subset_intern in E.
  destruct (mark_all pr (track t) ks) as [[tr|]|] eqn:Em; try discriminate. cbn [bind] in E.
  destruct (create_from_tracked keccak pr tr) as [s'|] eqn:Ec; [|discriminate]. cbn [bind] in E. injection E as ->.
  destruct (mark_all_marks t d ks D _ _ (track_tracks t) Em) as [T M]. rewrite track_marks in M.
  pose proof (create_size t 64 tr s T W (le_n _) F Ec) as C. destruct (touched tr); lia.
Qed.

Lemma subsets_size t d kss : wf 64 t -> fits t -> deep d t -> forall tr l m, tracks tr t -> marks tr <= (d + 1) * m ->
  create_subsets_from keccak pr tr kss = Ok (ROk l) ->
  length l = length kss /\ forall j s, nth_error l j = Some s -> size s <= 31 + 497 * (d + 1) * (m + N.of_nat (length (concat (firstn (S j) kss)))).
Proof.
  intros W F D. induction kss as [|ks kss IH]; intros tr l m T M E; cbn [create_subsets_from] in E.
  - injection E as <-. split; [reflexivity|]. intros [|j] s H; discriminate.
  - unfold create_trie_subset_intern in E. destruct (mark_all pr tr ks) as [[tr1|]|] eqn:Em; try discriminate. cbn [bind] in E.
    destruct (create_from_tracked keccak pr tr1) as [s1|] eqn:Ec; [|discriminate]. cbn [bind] in E.
    destruct (create_subsets_from keccak pr (reset_tracked tr1) kss) as [[l1|]|] eqn:Er; try discriminate. cbn [bind] in E. injection E as <-.
    destruct (mark_all_marks t d ks D _ _ T Em) as [T1 M1].
    pose proof (reset_marks tr1) as R.
    destruct (IH (reset_tracked tr1) l1 (m + N.of_nat (length ks)) (reset_tracks _ _ T1) ltac:(lia) Er) as [L B].
    split; [cbn [length]; lia|]. intros [|j] s H.
    + injection H as <-. cbn [firstn concat]. rewrite app_nil_r. pose proof (create_size t 64 tr1 s1 T1 W (le_n _) F Ec) as C.
      destruct (touched tr1); lia.
    + cbn [nth_error] in H. specialize (B j s H). cbn [firstn concat] in *. rewrite app_length. rewrite Nat2N.inj_add.
      remember (match kss with [] => [] | a :: l => a :: firstn j l end) as X. lia.
Qed.
End Raw.

(** ** What a subset allocates *)
From Verif Require Import Cache CacheSpec CacheFacts CacheFacts2 CacheFacts3 CostSpec CostFacts SharingSpec SharingFacts TrieIter.
(** The nodes of [u] are new, and there is exactly one new node for each. *)
Definition fresh (n n' : N) (us : list hnode) : Prop :=
  n' = n + lenN (flat_map parts us) /\ NoDup (map cell (flat_map parts us)) /\ forall x, In x (flat_map parts us) -> n <= cell x < n'.
Lemma fresh_nil n : fresh n n [].
Proof. split; [cbn; lia|]. split; [constructor|intros x []]. Qed.
Lemma fresh_app n1 n2 n3 a b : fresh n1 n2 a -> fresh n2 n3 b -> fresh n1 n3 (a ++ b).
Proof.
  intros (A1 & A2 & A3) (B1 & B2 & B3). unfold fresh. rewrite flat_map_app, map_app. split; [rewrite lenN_app; lia|]. split.
  - apply TrieIter.NoDup_app; auto. intros c Ia Ib. apply in_map_iff in Ia, Ib. destruct Ia as (x & <- & Ix), Ib as (y & E & Iy).
    specialize (A3 x Ix). specialize (B3 y Iy). lia.
  - intros x I. apply in_app_or in I. destruct I as [I|I]; [specialize (A3 x I)|specialize (B3 x I)]; unfold lenN in *; lia.
Qed.
Lemma fresh_node n n' us u : fresh n n' us -> parts u = u :: flat_map parts us -> cell u = n' -> fresh n (n' + 1) [u].
Proof.
  intros (A1 & A2 & A3) P C. unfold fresh. cbn [flat_map]. rewrite app_nil_r, P. cbn [map]. split; [rewrite lenN_cons; lia|]. split.
  - constructor; [|exact A2]. intros I. apply in_map_iff in I. destruct I as (x & E & Ix). specialize (A3 x Ix). lia.
  - intros x [<-|I]; [lia|]. specialize (A3 x I). lia.
Qed.
Lemma parts_size u : lenN (parts u) = size (erase u).
Proof.
  induction u as [c|c h|c ch v IH|c k t IH|c k v] using hnode_ind'; try reflexivity.
  - cbn [parts erase]. rewrite size_branch, lenN_cons. f_equal. induction IH as [|t ch H F IHf]; [reflexivity|].
    change (flat_map parts (t :: ch)) with (parts t ++ flat_map parts ch). rewrite lenN_app, H, IHf. reflexivity.
  - cbn [parts erase]. rewrite size_ext, lenN_cons. lia.
Qed.

Section Alloc.
Variable keccak : list N -> list N.
Variable pr : profile.
Definition creates (t : hnode) : Prop := forall tr s n u s' n', exec (hcreate_from_tracked keccak pr t tr) s n = Ok (u, s', n') -> fresh n n' [u].
Lemma create_all_fresh ch : Forall creates ch -> forall trs s n us s' n', exec (hcreate_all keccak pr ch trs) s n = Ok (us, s', n') -> fresh n n' us.
Proof.
  induction 1 as [|c ch H F IH]; intros trs s n us s' n' E; cbn [hcreate_all] in E.
  - injection E as <- <- <-. apply fresh_nil.
  - destruct trs as [|x trs]; [discriminate|]. rewrite exec_pbind in E.
    destruct (exec (hcreate_from_tracked keccak pr c x) s n) as [[[u s1] n1]|] eqn:E1; [|discriminate]. rewrite exec_pbind in E.
    destruct (exec (hcreate_all keccak pr ch trs) s1 n1) as [[[us1 s2] n2]|] eqn:E2; [|discriminate]. injection E as <- <- <-.
    apply (fresh_app n n1 n2 [u] us1); eauto.
Qed.
Lemma create_fresh t : creates t.
Proof.
  induction t as [c|c h|c ch v IH|c k t IH|c k v] using hnode_ind'; intros tr0 s n u s' n' E; rewrite hcreate_eq in E.
  all: match type of E with context [hkeep_of keccak pr ?t ?tr] =>
    assert (Kp : forall s n u s' n', exec (hkeep_of keccak pr t tr) s n = Ok (u, s', n') -> fresh n n' [u]) end.
  1, 3, 9: clear; intros s n u s' n' E; cbn [hkeep_of] in E; injection E as <- <- <-; apply (fresh_node n n []); [apply fresh_nil|reflexivity|reflexivity].
  3: { clear E s n u s' n'. intros s n u s' n' E. cbn [hkeep_of] in E. destruct tr0; try discriminate. rewrite exec_pbind in E.
       match type of E with context [exec ?p s n] => destruct (exec p s n) as [[[us s1] n1]|] eqn:E1; [|discriminate] end. injection E as <- <- <-.
       apply (fresh_node n n1 us); [eapply create_all_fresh; eauto|reflexivity|reflexivity]. }
  4: { clear E s n u s' n'. intros s n u s' n' E. cbn [hkeep_of] in E. destruct tr0; try discriminate. rewrite exec_pbind in E.
       match type of E with context [exec ?p s n] => destruct (exec p s n) as [[[u1 s1] n1]|] eqn:E1; [|discriminate] end. injection E as <- <- <-.
       apply (fresh_node n n1 [u1]); [eapply IH; eauto|cbn [flat_map parts]; rewrite app_nil_r; reflexivity|reflexivity]. }
  all: destruct (touched tr0); [eapply Kp; eauto|]; rewrite exec_pbind in E;
    match type of E with context [exec ?p ?s0 ?n0] => destruct (exec p s0 n0) as [[[e s1] n1]|] eqn:E1; [|discriminate] end;
    pose proof (makes_none_exec _ _ _ _ _ _ (intern_none keccak pr _ (encode_none keccak pr _)) E1) as ->;
    destruct e as [b|x]; [eapply Kp; eauto|]; injection E as <- <- <-; apply (fresh_node _ _ []); [apply fresh_nil|reflexivity|reflexivity].
Qed.
Lemma subset_fresh t ks s n u s' n' : exec (hcreate_trie_subset keccak pr t ks) s n = Ok (ROk u, s', n') -> fresh n n' [u].
Proof.
  unfold hcreate_trie_subset. rewrite exec_pbind. destruct (mark_all pr (track (erase t)) ks) as [[tr|e]|]; cbn [lift exec bind]; intros E; try discriminate.
  rewrite exec_pbind in E. destruct (exec (hcreate_from_tracked keccak pr t tr) s n) as [[[u1 s1] n1]|] eqn:E1; [|discriminate]. injection E as <- <- <-.
  eapply create_fresh; eauto.
Qed.
Lemma subsets_fresh t kss : forall tr s n us s' n', exec (hcreate_subsets_from keccak pr t tr kss) s n = Ok (ROk us, s', n') -> fresh n n' us.
Proof.
  induction kss as [|ks kss IH]; intros tr s n us s' n' E; cbn [hcreate_subsets_from] in E.
  - injection E as <- <- <-. apply fresh_nil.
  - rewrite exec_pbind in E. destruct (mark_all pr tr ks) as [[tr1|e]|]; cbn [lift exec bind] in E; try discriminate.
    rewrite exec_pbind in E. destruct (exec (hcreate_from_tracked keccak pr t tr1) s n) as [[[u1 s1] n1]|] eqn:E1; [|discriminate].
    rewrite exec_pbind in E. destruct (exec (hcreate_subsets_from keccak pr t (reset_tracked tr1) kss) s1 n1) as [[[[us1|e] s2] n2]|] eqn:E2; try discriminate.
    injection E as <- <- <-. apply (fresh_app n n1 n2 [u1] us1); [eapply create_fresh; eauto|eauto].
Qed.
End Alloc.
