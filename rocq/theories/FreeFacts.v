(** Partial tries with keys of different lengths: facts. *)
From Verif Require Import Base Nibbles NibblesSpec NibblesFacts NibblesFacts2 NibblesFacts3 Trie TrieSpec TrieHistSpec TrieFacts TrieInsert TrieGet TrieDelete TrieUnique TrieHist TrieObs InsertWf YellowPaper HashSpec HideSpec HashFacts HideFacts HideDelete HideExact Subset SubsetSpec SubsetFacts SubsetFacts2 P_Trie P_Hash ReplaySpec ReplayFacts NeighbourSpec NeighbourFacts RefreshSpec FreeSpec.
Open Scope N_scope.

Lemma get_fine pr t : forall L k,
  wf L t -> shape t -> hexl k -> (length k <= 127)%nat -> (L <= 127)%nat -> ~ too_short t k ->
  (forall j v, lk t j = Some (Val v) -> ~ strict_prefix j k /\ ~ strict_prefix k j) ->
  trie_get pr t (enc k) = Ok (match lk t k with Some (Val v) => Some v | _ => None end).
Proof.
  induction t as [|h|ch w IH|n c IH|n w] using node_ind'; intros L k W Sh Hk Lk HL H1 H2; inversion W; subst.
  - reflexivity.
  - cbn. destruct k; reflexivity.
  - destruct k as [|d k].
    + rewrite get_branch_nil. cbn. destruct w; reflexivity.
    + rewrite get_branch_cons by (auto; lia). rewrite lk_branch. inversion Sh; subst.
      destruct (child_in ch d) as [Ec|I]; [rewrite Ec; reflexivity|].
      rewrite Forall_forall in *. eapply IH; eauto; try lia.
      * inversion Hk; assumption.
      * cbn [length] in Lk. lia.
      * intros Q. apply H1. apply too_short_branch. exact Q.
      * intros j v Ej. destruct (H2 (d :: j) v ltac:(rewrite lk_branch; exact Ej)) as [A B]. split; intros (x & r & ->); [apply A|apply B]; exists x, r; reflexivity.
  - inversion Sh as [| | |? ? Hn B Sc|]; subst. cbn [too_short] in H1. rewrite nseq_enc in H1 by assumption.
    assert (Lp : (length l <= length k)%nat) by lia.
    rewrite lk_ext_nseq by assumption.
    destruct (strip l k) as [k'|] eqn:Es.
    + apply strip_some in Es. subst k. rewrite get_ext_long by (auto; lia). rewrite app_length in *.
      apply hexl_app in Hk. eapply IH; eauto; try tauto; try lia.
      intros j v Ej. destruct (H2 (l ++ j) v) as [A A']; [rewrite lk_ext_nseq, strip_app by assumption; exact Ej|].
      split; intros (x & r & ->); [apply A|apply A']; exists x, r; apply app_assoc.
    + apply strip_none in Es. destruct (compare_keys l k) as [->|y k' ->|x p' ->|q x p' y k' -> -> D].
      * exfalso. apply Es. exists []. rewrite app_nil_r. reflexivity.
      * exfalso. apply Es. exists (y :: k'). reflexivity.
      * rewrite app_length in Lp. cbn [length] in Lp. lia.
      * apply get_ext_div; auto.
  - rewrite get_leaf by (assumption || lia). rewrite lk_leaf_nseq by assumption.
    assert (Sl : lk (Leaf (enc l) w) l = Some (Val w)) by (rewrite lk_leaf_nseq, key_eqb_refl by assumption; reflexivity).
    destruct (key_eqb_spec l k) as [->|Hn].
    + rewrite lcp_refl, Nat.min_id, Nat.leb_refl. reflexivity.
    + destruct (Nat.leb_spec (Nat.min (length l) (length k)) (lcp l k)) as [Hm|]; [|reflexivity]. exfalso.
      apply Nat.leb_le in Hm. apply identical_prefix in Hm. destruct (H2 _ _ Sl) as [A B].
      destruct Hm as [[[|x r] ->]|[[|x r] ->]]; try (rewrite app_nil_r in Hn; congruence).
      * apply A. exists x, r. reflexivity.
      * apply B. exists x, r. reflexivity.
Qed.

(** A stored key does not end inside an extension node, nor does one at least as long as every stored one. *)
Lemma stored_not_short t : forall L k, wf L t -> stored t k -> ~ too_short t k.
Proof.
  induction t as [|h|ch v IH|n c IH|n v] using node_ind'; intros L k W Sk Q; try destruct Q.
  - inversion W as [| |L0 ? ? Hl Fw| |]; subst. destruct k as [|d k]; [destruct Q|]. apply too_short_branch in Q. apply stored_branch in Sk.
    destruct (child_in ch d) as [E|I0]; [rewrite E in Q; destruct Q|]. rewrite Forall_forall in IH, Fw. exact (IH _ I0 L0 k (Fw _ I0) Sk Q).
  - inversion W as [| | |L0 q c1 Hq Wc|]; subst. rewrite nseq_enc in H by exact Hq.
    destruct (stored_ext_inv q c k Hq Sk) as (k' & -> & _). rewrite app_length in H. lia.
  - inversion W as [| | |L0 q c1 Hq Wc|]; subst. rewrite nseq_enc in H by exact Hq.
    destruct (stored_ext_inv q c k Hq Sk) as (k' & -> & S'). rewrite strip_app in H. exact (IH L0 k' Wc S' H).
Qed.

Lemma sp_irrefl (a : list N) : ~ strict_prefix a a.
Proof. intros P. apply strict_length in P. lia. Qed.
Lemma prefix_strict (a b : list N) : is_prefix a b -> a = b \/ strict_prefix a b.
Proof. intros [[|x r] ->]; [left; rewrite app_nil_r; reflexivity|right; exists x, r; reflexivity]. Qed.
Lemma strict_trans (a b c : list N) : strict_prefix a b -> is_prefix b c -> strict_prefix a c.
Proof. intros (x & r & ->) [r' ->]. exists x, (r ++ r'). rewrite <- app_assoc. reflexivity. Qed.

Section Free.
Variable U : list N -> Prop.
Hypothesis PF : prefix_free U.

Lemma free_stored t j : free_trie U t -> stored t j -> exists k, U k /\ is_prefix j k.
Proof.
  intros (_ & _ & A & B) Sj. unfold stored in Sj. destruct (lk t j) as [[v|h]|] eqn:E; [|eauto|congruence].
  exists j. split; [eauto|exists []; rewrite app_nil_r; reflexivity].
Qed.
Lemma free_noext t k j : free_trie U t -> U k -> stored t j -> ~ strict_prefix k j.
Proof. intros Fx Uk Sj P. destruct (free_stored t j Fx Sj) as (k' & Uk' & P'). exact (PF k k' Uk Uk' (strict_trans _ _ _ P P')). Qed.
Lemma free_eff t k : free_trie U t -> U k -> eff t k = k.
Proof. intros Fx Uk. pose proof Fx as (W & C & _). apply (eff_self_aux t 64 k W (canon_shape _ C)). right. left. intros j Sj. exact (free_noext t k j Fx Uk Sj). Qed.

Lemma free_get pr t k : free_trie U t -> kwf k -> U (nseq k) -> ~ too_short t (nseq k) ->
  trie_get pr t k = Ok (match lk t (nseq k) with Some (Val v) => Some v | _ => None end).
Proof.
  intros Fx Hk Uk NS. pose proof Fx as (W & C & A & B). destruct (kwf_ex k Hk) as (l & El & Es & Hl & Ll). rewrite Es in *. rewrite El.
  apply (get_fine pr t 64 l W (canon_shape _ C) Hl ltac:(lia) ltac:(lia) NS). intros j v E. split; apply PF; eauto.
Qed.

Lemma free_insert pr t k v : free_trie U t -> kwf k -> U (nseq k) -> v <> [] ->
  (hash_on_path t (nseq k) /\ trie_insert pr t k (Val v) = Panic) \/
  (~ hash_on_path t (nseq k) /\ exists t', trie_insert pr t k (Val v) = Ok t' /\ updated t t' (nseq k) (Some (Val v)) /\ free_trie U t').
Proof.
  intros Fx Hk Uk Hv. pose proof Fx as (W & C & A & B). pose proof (free_eff t _ Fx Uk) as Ee.
  destruct (tinsert pr t k (Val v) W (canon_shape _ C) Hk Hv) as [(t' & E & (P1 & P2 & _ & P4 & P5) & NB)|[E [Bl|[[] _]]]].
  - right. rewrite Ee in P5. split; [intros HP; apply NB; left; rewrite Ee; exact HP|].
    exists t'. split; [exact E|]. split; [exact P5|]. split; [exact P1|]. split; [exact (P4 C)|]. split; intros j w Q; rewrite P5 in Q.
    + destruct (key_eqb_spec (nseq k) j) as [<-|]; [exact Uk|eauto].
    + destruct (key_eqb_spec (nseq k) j) as [<-|]; [discriminate|eauto].
  - left. rewrite Ee in Bl. split; assumption.
Qed.

Lemma free_delete pr t k : free_trie U t -> kwf k -> U (nseq k) ->
  (hash_on_path t (nseq k) /\ trie_delete pr t k = Panic) \/
  (~ hash_on_path t (nseq k) /\ exists t', trie_delete pr t k = Ok (t', match lk t (nseq k) with Some (Val v) => Some v | _ => None end) /\
     updated t t' (nseq k) None /\ free_trie U t').
Proof.
  intros Fx Hk Uk. pose proof Fx as (W & C & A & B). pose proof (free_eff t _ Fx Uk) as Ee. pose proof (canon_shape _ C) as Sh.
  assert (NoExt : forall j, stored t j -> ~ strict_prefix (nseq k) j) by (intros j Sj; exact (free_noext t _ j Fx Uk Sj)).
  assert (SF : ~ hash_on_path t (nseq k) -> safe_delete t (nseq k)).
  { intros NH. destruct (lk t (nseq k)) as [[v|h]|] eqn:E.
    - apply (safe_delete_obs t 64 _ v W C E). intros p d s Ep Sp. exfalso. unfold stored in Sp. destruct (lk t p) as [[u|h]|] eqn:Eu; [|apply NH; exists p, h; split; [exact Eu|exists (d :: s); exact Ep]|congruence].
      apply A in Eu. apply (PF p (nseq k) Eu Uk). exists d, s. exact Ep.
    - exfalso. apply NH. exists (nseq k), h. split; [exact E|exists []; rewrite app_nil_r; reflexivity].
    - apply (safe_absent t 64 _ W E). }
  pose proof (tdelete pr t k W Sh Hk) as G. destruct (trie_delete pr t k) as [[t' [w|]]|] eqn:Ed; cbn [tdel_post] in G; rewrite ?Ee in G.
  - destruct G as (G1 & G2 & G3 & G4 & G5 & G6 & G7 & G8). right. split; [exact G1|].
    destruct w as [|b w].
    { exfalso. destruct (tdelete_empty_val pr t k t' W Sh Hk Ed) as (j & Sj & Pj). exact (NoExt j Sj Pj). }
    cbn [val_opt] in G2. rewrite G2. exists t'. split; [reflexivity|].
    assert (Up : updated t t' (nseq k) None).
    { intros j. destruct (key_eqb_spec (nseq k) j) as [<-|N]; [exact G6|]. apply G7; [exact (SF G1)|congruence]. }
    split; [exact Up|]. split; [exact G3|]. split; [|split; intros j x Q; rewrite (Up j) in Q; destruct (key_eqb _ _); [discriminate|eauto|discriminate|eauto]].
    apply G8; [exact C|exact (SF G1)|]. apply (keeps_canon_obs t 64 _ W Sh); [unfold stored; congruence|left; exact NoExt].
  - destruct G as (-> & G1 & _ & G2). right. split; [exact G1|]. exists t. rewrite G2. split; [reflexivity|]. split; [|exact Fx].
    intros j. destruct (key_eqb_spec (nseq k) j) as [<-|]; [exact G2|reflexivity].
  - destruct G as [G|G]; [left; split; [exact G|reflexivity]|].
    left. split; [|reflexivity]. assert (D : hash_on_path t (nseq k) \/ ~ hash_on_path t (nseq k)).
    { destruct (free_insert pr t k [1] Fx Hk Uk ltac:(discriminate)) as [[D _]|[D _]]; [left|right]; exact D. }
    destruct D as [D|D]; [exact D|]. exfalso. exact (G (SF D)).
Qed.

Lemma free_hop_dec t k : free_trie U t -> kwf k -> U (nseq k) -> hash_on_path t (nseq k) \/ ~ hash_on_path t (nseq k).
Proof. intros Fx Hk Uk. destruct (free_insert Debug t k [1] Fx Hk Uk ltac:(discriminate)) as [[D _]|[D _]]; [left|right]; exact D. Qed.

Lemma free_alike_value t s k : free_trie U t -> wf 64 s -> kwf k -> U (nseq k) -> alike t s (nseq k) -> value_of t (nseq k) = value_of s (nseq k).
Proof.
  intros Fx W Hk Uk [A B]. destruct (free_hop_dec t k Fx Hk Uk) as [D|D].
  - rewrite !hop_value; [reflexivity|exact W|tauto|apply Fx|exact D].
  - unfold value_of. rewrite (B D). reflexivity.
Qed.

Lemma free_hides keccak t s : free_trie U t -> hides keccak t s -> free_trie U s.
Proof.
  intros Fx H. pose proof Fx as (W & C & A & B). split; [exact (hides_wf keccak t 64 s H W)|]. split; [exact (hides_canon keccak t s H C)|]. split.
  - intros k v E. exact (A k v (hides_lk_val keccak t s k v H E)).
  - intros p h E. destruct (hides_pos keccak t s p h (canon_shape _ C) H E) as [r R]. destruct (free_stored t _ Fx R) as (k & Uk & [q ->]).
    exists ((p ++ r) ++ q). split; [exact Uk|]. exists (r ++ q). rewrite app_assoc. reflexivity.
Qed.

Lemma short_longer t k : free_trie U t -> too_short t k -> exists j, U j /\ (length k < length j)%nat.
Proof.
  intros Fx Q. pose proof Fx as (W & C & _). destruct (fixed_not_short t 64 k (canon_shape _ C) W Q) as (j & Sj & Lj).
  destruct (free_stored t j Fx Sj) as (j' & Uj & [r ->]). exists (j ++ r). rewrite app_length. split; [exact Uj|lia].
Qed.

Variable ks : list nibbles.
Hypothesis Kw : Forall kwf ks.
Hypothesis Ku : forall k, In k ks -> U (nseq k).

Definition flike (t s : node) : Prop := free_trie U t /\ free_trie U s /\ forall k, In k ks -> alike t s (nseq k).

Lemma flike_sym t s : flike t s -> flike s t.
Proof. intros (A & B & H). split; [exact B|]. split; [exact A|]. intros k I. apply alike_sym, H, I. Qed.
Lemma fkw k : In k ks -> kwf k.
Proof. rewrite Forall_forall in Kw. auto. Qed.

Lemma flike_hides keccak t s : free_trie U t -> hides keccak t s -> (forall k, In k ks -> hash_on_path s (nseq k) -> hash_on_path t (nseq k)) -> flike t s.
Proof.
  intros Fx H V. split; [exact Fx|]. split; [exact (free_hides keccak t s Fx H)|]. intros k I. split; [split; [apply (hides_hop keccak), H|apply (V k I)]|].
  intros N. destruct (hides_lk keccak t s (nseq k) H) as [E|(p & h & E & P)]; [symmetry; exact E|]. exfalso. apply N, (V k I). exists p, h. split; assumption.
Qed.

Lemma flike_insert pr t s k v t' : flike t s -> In k ks -> v <> [] -> trie_insert pr t k (Val v) = Ok t' ->
  exists s', trie_insert pr s k (Val v) = Ok s' /\ flike t' s'.
Proof.
  intros (Ft & Fs & A) I Hv E.
  destruct (free_insert pr t k v Ft (fkw k I) (Ku k I) Hv) as [[_ Q]|(N & t1 & Q & Up & F1)]; [congruence|]. assert (t1 = t') by congruence. subst t1.
  destruct (free_insert pr s k v Fs (fkw k I) (Ku k I) Hv) as [[D _]|(N' & s1 & Q' & Up' & F1')]; [exfalso; apply N, (A k I), D|].
  exists s1. split; [exact Q'|]. split; [exact F1|]. split; [exact F1'|]. intros j J.
  apply (alike_updated t s t' s1 (nseq k) (Some (Val v)) (nseq j)); auto. discriminate.
Qed.

Lemma flike_extend pr l : forall t s t', flike t s -> Forall (fun e => In (fst e) ks /\ value_ok (snd e)) l ->
  trie_extend pr t (map (fun e => (fst e, Val (snd e))) l) = Ok t' ->
  exists s', trie_extend pr s (map (fun e => (fst e, Val (snd e))) l) = Ok s' /\ flike t' s'.
Proof.
  induction l as [|[k v] l IH]; intros t s t' H F E; cbn [map trie_extend fst snd] in *.
  - injection E as <-. eauto.
  - inversion F as [|? ? (I & Hv & _) F']; subst. cbn [fst snd] in *.
    destruct (trie_insert pr t k (Val v)) as [t1|] eqn:E1; [|discriminate]. cbn [bind] in E.
    destruct (flike_insert pr t s k v t1 H I Hv E1) as (s1 & -> & H1). cbn [bind]. eauto.
Qed.

Definition get_reaches (t : node) (o : op) : Prop := match o with OGet k => ~ too_short t (nseq k) | _ => True end.

Lemma flike_op pr t s o t' x : flike t s -> op_on ks o -> get_reaches t o -> get_reaches s o -> trie_op pr t o = Ok (t', x) ->
  exists s', trie_op pr s o = Ok (s', x) /\ flike t' s'.
Proof.
  intros H O G G' E. pose proof H as (Ft & Fs & A). destruct o as [k v|l|k|k]; cbn [op_on trie_op get_reaches] in *.
  - destruct O as (I & Hv & _). destruct (trie_insert pr t k (Val v)) as [t1|] eqn:E1; [|discriminate]. cbn [bind] in E. injection E as <- <-.
    destruct (flike_insert pr t s k v t1 H I Hv E1) as (s1 & -> & H1). cbn [bind]. eauto.
  - destruct (trie_extend pr t _) as [t1|] eqn:E1; [|discriminate]. cbn [bind] in E. injection E as <- <-.
    destruct (flike_extend pr l t s t1 H O E1) as (s1 & -> & H1). cbn [bind]. eauto.
  - destruct (free_delete pr t k Ft (fkw k O) (Ku k O)) as [[_ Q]|(N & t1 & Q & Up & F1)]; rewrite Q in E; [discriminate|]. cbn [bind] in E. injection E as <- <-.
    destruct (free_delete pr s k Fs (fkw k O) (Ku k O)) as [[D _]|(N' & s1 & Q' & Up' & F1')]; [exfalso; apply N, (A k O), D|]. rewrite Q'. cbn [bind].
    exists s1. split; [do 3 f_equal; symmetry; exact (free_alike_value t s k Ft (proj1 Fs) (fkw k O) (Ku k O) (A k O))|]. split; [exact F1|]. split; [exact F1'|]. intros j J.
    apply (alike_updated t s t1 s1 (nseq k) None (nseq j)); auto. discriminate.
  - rewrite (free_get pr t k Ft (fkw k O) (Ku k O) G) in E. cbn [bind] in E. injection E as <- <-.
    rewrite (free_get pr s k Fs (fkw k O) (Ku k O) G'). cbn [bind]. exists s. split; [|exact H].
    do 3 f_equal. symmetry. exact (free_alike_value t s k Ft (proj1 Fs) (fkw k O) (Ku k O) (A k O)).
Qed.

(** With gets of keys as long as any. *)
Lemma flike_ops pr l : forall t s t' xs, flike t s -> Forall (op_on ks) l -> Forall (get_long_key U) l -> trie_ops pr t l = Ok (t', xs) ->
  exists s', trie_ops pr s l = Ok (s', xs) /\ flike t' s'.
Proof.
  induction l as [|o l IH]; intros t s t' xs H F G E; cbn [trie_ops] in *.
  - injection E as <- <-. eauto.
  - inversion F as [|? ? Fo Fl]; subst. inversion G as [|? ? Go Gl]; subst. destruct (trie_op pr t o) as [[t1 x]|] eqn:E1; [|discriminate]. cbn [bind] in E.
    destruct (trie_ops pr t1 l) as [[t2 ys]|] eqn:E2; [|discriminate]. cbn [bind] in E. injection E as <- <-.
    assert (R : forall u, free_trie U u -> get_reaches u o).
    { intros u Fu. destruct o as [| | |k]; try exact I. intros Q. destruct (short_longer u _ Fu Q) as (j & Uj & Lj). specialize (Go j Uj). lia. }
    destruct (flike_op pr t s o t1 x H Fo (R t (proj1 H)) (R s (proj1 (proj2 H))) E1) as (s1 & -> & H1). cbn [bind].
    destruct (IH t1 s1 t2 ys H1 Fl Gl E2) as (s2 & -> & H2). cbn [bind]. eauto.
Qed.
End Free.

(** ** A neighbour that is not hidden makes the merge visible *)
Lemma free_neighbour_visible keccak t : forall L s k k' v v', wf L t -> canon t -> hides keccak t s -> lk t k = Some (Val v) -> lk t k' = Some (Val v') ->
  ~ is_prefix k' k -> (forall j, stored t j -> j <> k -> (lcp j k <= lcp k' k)%nat) -> ~ hash_on_path s k' -> merge_visible t s k.
Proof.
  induction t as [|h|ch w IH|n c IH|n w] using node_ind'; intros L s k k' v v' W C H E E' NP Max NH; try (destruct s; exact I).
  - inversion H as [| |? ch' ? F| | |]; subst; [|exact I]. inversion W as [| |L0 ? ? Hl Fw| |]; subst. inversion C as [| |? ? FC O| |]; subst.
    destruct k as [|d k]; [exact I|]. destruct k' as [|d' k']; [exfalso; apply NP; exists (d :: k); reflexivity|]. pose proof (lk_big _ _ _ _ _ Hl E) as Hd. pose proof (lk_big _ _ _ _ _ Hl E') as Hd'.
    rewrite lk_branch in E, E'. cbn [merge_visible]. rewrite at_child_nth, nth_error_child by assumption. fold (child ch d).
    assert (I0 : In (child ch d) ch) by (destruct (child_in ch d) as [Z|I0]; [rewrite Z in E; discriminate|exact I0]).
    assert (NEd : child ch d <> Empty) by (intros Z; rewrite Z in E; discriminate). assert (NEd' : child ch d' <> Empty) by (intros Z; rewrite Z in E'; discriminate).
    rewrite Forall_forall in IH, Fw, FC. split.
    + destruct (N.eq_dec d' d) as [->|D].
      * apply (IH _ I0 L0 _ k k' v v'); auto; [apply hides_child, F| | |].
        -- intros [r ->]. apply NP. exists r. reflexivity.
        -- intros j Sj NEj. specialize (Max (d :: j) ltac:(apply stored_branch; exact Sj) ltac:(congruence)). cbn [lcp] in Max. rewrite N.eqb_refl in Max. lia.
        -- intros (p & h & Ep & r & Er). apply NH. exists (d :: p), h. split; [rewrite lk_branch; exact Ep|]. exists r. cbn. congruence.
      * destruct (other_key (child ch d) L0 k v (Fw _ I0) (FC _ I0) E) as [(n & u & ->)|(j & Sj & NEj)]; [destruct (nth _ _ _); exact I|]. exfalso.
        specialize (Max (d :: j) ltac:(apply stored_branch; exact Sj) ltac:(congruence)). cbn [lcp] in Max. rewrite N.eqb_refl in Max.
        destruct (N.eqb_spec d' d); [contradiction|]. lia.
    + intros Oc. destruct (child ch d) as [| | | |m u] eqn:Ec; try exact I. intros Em i Hi.
      destruct (N.eq_dec d' d) as [->|D].
      { exfalso. rewrite Ec in E'. cbn [lk] in E'. destruct (key_eqb_spec (nseq m) k') as [Q|]; [|discriminate]. apply NP. exists []. rewrite app_nil_r. congruence. }
      rewrite occupied_nil in Oc. destruct (Nat.eq_dec i (N.to_nat d')) as [->|Di].
      * destruct (nth (N.to_nat d') ch' Empty) as [|h| | |] eqn:Eh; try exact I. exfalso. apply NH. exists [d'], h. split; [|exists k'; reflexivity].
        rewrite lk_branch. unfold child. rewrite Eh. reflexivity.
      * assert (Z : nth i ch Empty = Empty).
        { apply (occ_others ch (N.to_nat d) (N.to_nat d')); auto; [lia|]. unfold child in Ec. rewrite Ec. discriminate. }
        pose proof (hides_child keccak ch ch' i F) as Hc. rewrite Z in Hc. apply hides_empty in Hc. rewrite Hc. exact I.
  - inversion H as [| | |? ? c' Hc| |]; subst; [|exact I]. inversion W as [| | |L0 q c0 Hq Wc|]; subst. inversion C as [| | |? ? Hn Bc Cc|]; subst.
    destruct (stored_ext_inv q c k Hq ltac:(unfold stored; congruence)) as (k1 & -> & _). destruct (stored_ext_inv q c k' Hq ltac:(unfold stored; congruence)) as (k2 & -> & _).
    rewrite lk_in_ext in E, E' by exact Hq. cbn [merge_visible]. rewrite nseq_enc by exact Hq. rewrite strip_app.
    apply (IH L0 _ k1 k2 v v'); auto.
    + intros [r ->]. apply NP. exists r. apply app_assoc.
    + intros j Sj NEj. specialize (Max (q ++ j) ltac:(apply stored_in_ext; assumption) ltac:(intros X; apply app_inv_head in X; contradiction)). rewrite !lcp_app in Max. lia.
    + intros (p & h & Ep & r & Er). apply NH. exists (q ++ p), h. split; [rewrite lk_in_ext by exact Hq; exact Ep|]. exists r. rewrite <- app_assoc. congruence.
Qed.
