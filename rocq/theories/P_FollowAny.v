(** Property C92: following a trie with any keys, of which only the root hash is known. *)
From Verif Require Import Base Nibbles NibblesSpec NibblesFacts NibblesFacts2 NibblesFacts3 Trie TrieSpec TrieHistSpec TrieFacts TrieInsert TrieGet TrieDelete TrieUnique TrieIter TrieHist TrieObs InsertWf Rlp YellowPaper Hashing Keccak HashSpec HideSpec HashFacts HashBind KeccakFacts HideFacts HideBind HideDelete HideExact JoinFacts P_Trie P_Hash P_Join Subset SubsetSpec SubsetFacts SubsetFacts2 P_Subset ReplaySpec ReplayFacts P_Replay NeighbourSpec NeighbourFacts PartialSpec P_Partial Serde Json JsonSpec TypeSpec TypeFacts TypeFacts2 P_Json JsonText JsonTextSpec P_JsonText WitnessSpec P_Witness TxSpec TrieHistSpec HashSpec HideExact FollowSpec FollowAnySpec.
Open Scope N_scope.

(** Where no hash node is in the way a get on a partial trie is the get on the full one. *)
Lemma hides_get_clear keccak pr t : forall L t' k, hides keccak t t' -> wf L t -> (L <= 64)%nat -> hexl k -> (length k <= 64)%nat -> ~ too_short t' k -> ~ hash_on_path t' k ->
  trie_get pr t' (enc k) = trie_get pr t (enc k).
Proof.
  induction t as [|h|ch v IH|n c IH|n v] using node_ind'; intros L t' k H W HL Hk Lk NS NH; inversion H as [| |? ch' ? F|? ? c' F| |t0 N G]; subst; try reflexivity;
    try (exfalso; apply NH; eexists [], _; split; [reflexivity|apply prefix_nil]).
  - destruct k as [|d k]; [reflexivity|]. inversion W as [| |L0 ? ? Hl Fw| |]; subst. pose proof (Forall2_length _ _ _ F) as Hl'.
    rewrite !get_branch_cons by (auto; cbn [length] in *; lia). rewrite too_short_branch in NS. rewrite hop_branch in NH.
    destruct (child_in ch d) as [E0|I0].
    + assert (Hc : hides keccak (child ch d) (child ch' d)) by (apply hides_child, F). rewrite E0 in *. apply hides_empty in Hc. rewrite Hc. reflexivity.
    + rewrite Forall_forall in IH, Fw. inversion Hk; subst. apply (IH _ I0 L0); auto; [apply hides_child, F|lia|cbn [length] in Lk; lia].
  - inversion W as [| | |L0 q c0 Hq Wc|]; subst. rewrite too_short_ext in NS by exact Hq. assert (Lq : (length q <= length k)%nat) by lia.
    destruct (compare_keys q k) as [->|y k' ->|x p' ->|q0 x p' y k' -> -> D].
    + assert (G : forall x, trie_get pr (Extension (enc k) x) (enc k) = trie_get pr x (enc [])).
      { intros x. rewrite <- (app_nil_r k) at 2. apply get_ext_long; rewrite app_nil_r; [exact Hk|lia]. }
      rewrite !G. apply (IH L0 c' [] F Wc); [lia|apply Forall_nil|cbn [length]; lia| |].
      * intros T. apply NS. right. exists []. rewrite app_nil_r. auto.
      * intros T. apply NH. rewrite <- (app_nil_r k) at 2. apply hop_ext; assumption.
    + rewrite !get_ext_long by (auto; lia). pose proof Hk as Hk'. apply hexl_app in Hk' as [_ Hk']. rewrite app_length in Lk. apply (IH L0); auto; try lia.
      * intros T. apply NS. right. eauto.
      * intros T. apply NH. apply hop_ext; assumption.
    + rewrite app_length in Lq. cbn [length] in Lq. lia.
    + rewrite !get_ext_div by (auto; lia). reflexivity.
Qed.

Section F.
Variable keccak : list N -> list N.
Hypothesis H32 : hash32 keccak.
Variable pr : profile.

(** What any history of such operations makes. *)
Definition full (t : node) : Prop := wf 64 t /\ shape t /\ fits t /\ hash_free t.

Lemma insert_free t k v r : wf 64 t -> shape t -> kwf k -> value_ok v -> hash_free t -> trie_insert pr t k (Val v) = Ok r -> wf 64 r /\ shape r /\ hash_free r.
Proof.
  intros W Sh Hk (Nv & _) HF E. destruct (tinsert pr t k (Val v) W Sh Hk Nv) as [(r1 & E1 & (A & B & _ & _ & C) & _)|[E1 _]]; [|congruence].
  assert (r1 = r) by congruence. subst r1. split; [exact A|]. split; [exact B|]. intros j h. rewrite C. destruct (key_eqb _ j); [discriminate|apply HF].
Qed.
Lemma full_op t o t1 x : full t -> op_any o -> trie_op pr t o = Ok (t1, x) -> full t1.
Proof.
  intros (W & Sh & F & HF) V E. destruct o as [k v|l|k|k].
  - destruct (op_keeps pr t _ t1 x W Sh F V E) as (A & B & C). cbn [trie_op op_any op_write] in *. destruct V as [Hk Hv]. destruct (trie_insert pr t k (Val v)) as [r|] eqn:Er; [|discriminate]. injection E as <- _.
    destruct (insert_free t k v r W Sh Hk Hv HF Er) as (_ & _ & D). repeat split; assumption.
  - destruct (op_keeps pr t _ t1 x W Sh F V E) as (A & B & C). cbn [trie_op op_any op_write] in *. destruct (trie_extend pr t _) as [r|] eqn:Er; [|discriminate]. injection E as <- _. repeat (split; [assumption|]).
    clear F A B C. revert t W Sh HF Er. induction l as [|[k v] l IH]; intros t W Sh HF Er; cbn [map trie_extend fst snd] in Er; [injection Er as <-; exact HF|].
    inversion V as [|? ? [Hk Hv] V']; subst. cbn [fst snd] in *. destruct (trie_insert pr t k (Val v)) as [r1|] eqn:E1; [|discriminate]. cbn [bind] in Er.
    destruct (insert_free t k v r1 W Sh Hk Hv HF E1) as (W1 & S1 & F1). exact (IH V' r1 W1 S1 F1 Er).
  - destruct (op_keeps pr t _ t1 x W Sh F V E) as (A & B & C). cbn [trie_op] in E. destruct (trie_delete pr t k) as [[r w]|] eqn:Er; [|discriminate]. injection E as <- _. repeat (split; [assumption|]).
    exact (nohash_free r (nohash_trie_delete pr t k r w Er (free_nohash t 64 W HF))).
  - cbn [trie_op] in E. destruct (trie_get pr t k); [|discriminate]. injection E as <- _. repeat split; assumption.
Qed.
Lemma full_ops ops : forall t t1 xs, full t -> Forall op_any ops -> trie_ops pr t ops = Ok (t1, xs) -> full t1.
Proof.
  induction ops as [|o ops IH]; intros t t1 xs Ft F E; cbn [trie_ops] in E; [injection E as <- _; exact Ft|]. inversion F as [|? ? Fo Fl]; subst.
  destruct (trie_op pr t o) as [[t2 x]|] eqn:E1; [|discriminate]. cbn [bind] in E. destruct (trie_ops pr t2 ops) as [[t3 ys]|] eqn:E2; [|discriminate]. cbn [bind] in E. injection E as <- _.
  exact (IH t2 t3 ys (full_op t o t2 x Ft Fo E1) Fl E2).
Qed.

Lemma seen_op t s o s1 y : full t -> hides keccak t s -> op_any o -> seen s o y -> trie_op pr s o = Ok (s1, y) -> exists t1, trie_op pr t o = Ok (t1, y) /\ full t1 /\ hides keccak t1 s1.
Proof.
  intros Ft H V Se E. pose proof Ft as (W & Sh & F & HF).
  assert (A : exists t1, trie_op pr t o = Ok (t1, y) /\ hides keccak t1 s1).
  { destruct o as [k v|l|k|k]; cbn [seen] in Se; try (apply (hides_op keccak pr t s _ s1 y H32 W Sh F H); auto; fail).
    cbn [trie_op op_any] in *. destruct (trie_get pr s k) as [w|] eqn:Es; [|discriminate]. cbn [bind] in E. injection E as <- <-. exists t. split; [|exact H].
    assert (G : trie_get pr t k = Ok w).
    { destruct Se as [Se|[NS NH]].
      - destruct (hides_get keccak pr t s k H) as [G|G]; congruence.
      - destruct (kwf_ex k V) as (q & Eq & Eqs & Hq & Lq). rewrite Eqs in NS, NH. rewrite Eq in *. rewrite <- Es. symmetry. apply (hides_get_clear keccak pr t 64 s q); auto. }
    rewrite G. reflexivity. }
  destruct A as (t1 & Et & H1). exists t1. split; [exact Et|]. split; [exact (full_op t o t1 y Ft V Et)|exact H1].
Qed.
Lemma seen_run p : forall t s s' l, full t -> hides keccak t s -> tx_any p -> all_seen pr s p -> tx_run pr s p = Ok (s', l) ->
  exists t', tx_run pr t p = Ok (t', l) /\ full t' /\ hides keccak t' s'.
Proof.
  induction p as [|o next IH]; intros t s s' l Ft H V Se E; cbn [tx_run tx_any all_seen] in *.
  - injection E as <- <-. eauto.
  - destruct V as [Vo Vn]. destruct (trie_op pr s o) as [[s1 x]|] eqn:E1; [|discriminate]. cbn [bind] in E.
    destruct (tx_run pr s1 (next x)) as [[s2 l2]|] eqn:E2; [|discriminate]. cbn [bind] in E. injection E as <- <-. destruct (Se s1 x eq_refl) as [So Sn].
    destruct (seen_op t s o s1 x Ft H Vo So E1) as (t1 & Et & F1 & H1). destruct (IH x t1 s1 s2 l2 F1 H1 (Vn x) Sn E2) as (t2 & Et2 & F2 & H2).
    exists t2. rewrite Et. cbn [bind]. rewrite Et2. auto.
Qed.
Lemma bare_seen h p : forall t s' l, tx_any p -> all_seen pr (Hash h) p -> tx_run pr (Hash h) p = Ok (s', l) -> s' = Hash h /\ tx_run pr t p = Ok (t, l).
Proof.
  induction p as [|o next IH]; intros t s' l V Se E; cbn [tx_run tx_any all_seen] in *.
  - injection E as <- <-. auto.
  - destruct V as [Vo Vn]. destruct (trie_op pr (Hash h) o) as [[s1 x]|] eqn:E1; [|discriminate]. cbn [bind] in E.
    destruct (tx_run pr s1 (next x)) as [[s2 l2]|] eqn:E2; [|discriminate]. cbn [bind] in E. injection E as <- <-. destruct (Se s1 x eq_refl) as [So Sn].
    assert (A : s1 = Hash h /\ o = OExtend [] /\ x = ODone).
    { destruct o as [k v|[|[k v] l]|k|k]; cbn in E1; try discriminate; [injection E1 as <- <-; auto|]. injection E1 as <- <-. exfalso. destruct So as [So|[_ So]]; [apply So; reflexivity|].
      apply So. exists [], h. split; [reflexivity|apply prefix_nil]. }
    destruct A as (-> & -> & ->). destruct (IH ODone t s2 l2 (Vn _) Sn E2) as (-> & Et). split; [reflexivity|]. cbn. rewrite Et. reflexivity.
Qed.

Lemma any_run rs : forall t r xss r2, full t -> hash_trie keccak pr t = Ok r -> Forall (fun R => tx_any (program R)) rs -> follows_any keccak pr r rs xss r2 ->
  (exists t1, serial pr t (map program rs) = Ok (t1, xss) /\ hash_trie keccak pr t1 = Ok r2) \/
  exists rs1 R rs2 t1 yss limit s, rs = rs1 ++ R :: rs2 /\ serial pr t (map program rs1) = Ok (t1, yss) /\
    load_text limit (received R) = Some s /\ collision keccak (encodings keccak t1) (encodings keccak s).
Proof.
  induction rs as [|[p text] rs IH]; intros t r xss r2 Ft R F FC; inversion FC as [|? ? ? limit s s' l r1 ? xss' ? Ld Ck Eh Ca Er Eh1 FC']; subst.
  - left. exists t. auto.
  - inversion F as [|? ? Fp Fl]; subst. cbn [program] in Fp.
    assert (Hd : (exists t', tx_run pr t p = Ok (t', l) /\ full t' /\ hash_trie keccak pr t' = Ok r1) \/ collision keccak (encodings keccak t) (encodings keccak s)).
    { pose proof (proj1 (C62_loaded _ _ _ Ld)) as T. apply (checked_wf s 64 (le_n _) T) in Ck as [Ws Fs]. pose proof Ft as (W & Sh & Fi & HF).
      destruct (C40_partial_trie_binding keccak pr pr t s H32 W Ws Fi Fs HF) as [Q|[[Er' ->]|Q]]; [congruence| | |right; exact Q]; left.
      - destruct (seen_run p t s s' l Ft Q Fp Ca Er) as (t' & Et & F' & H'). exists t'. split; [exact Et|]. split; [exact F'|].
        rewrite <- Eh1. symmetry. destruct F' as (W' & _ & Fi' & _). apply C20_hiding_keeps_root; auto.
      - destruct (bare_seen _ p t s' l Fp Ca Er) as (-> & Et). exists t. split; [exact Et|]. split; [exact Ft|]. congruence. }
    destruct Hd as [(t' & Et & F' & Ht)|Q].
    + destruct (IH t' r1 xss' r2 F' Ht Fl FC') as [(t1 & Es & H1)|(rs1 & R1 & rs2 & t1 & yss & lim & s1 & -> & Es & Ld1 & Q)].
      * left. cbn [map program serial]. rewrite Et. cbn [bind]. rewrite Es. exists t1. auto.
      * right. exists (Round p text :: rs1), R1, rs2, t1, (map snd l :: yss), lim, s1. split; [reflexivity|]. split; [|auto]. cbn [map program serial]. rewrite Et. cbn [bind]. rewrite Es. reflexivity.
    + right. exists [], (Round p text), rs, t, [], limit, s. repeat split; auto.
Qed.
End F.

(** Any history over any keys, also ones that start others, has made a trie, and only its root hash is known. The programs that run one after the other, each on a trie received as text from
    anybody that was checked against the last known root hash, get the answers, and the last root hash is the one, that running them on the full trie gives, where none of them panics either;
    or one of the texts holds a concrete collision with the trie at that time. *)
Theorem C92_any : forall keccak pr ops0 t0 ys rs r xss r2,
  hash32 keccak -> Forall op_any ops0 -> trie_ops pr Empty ops0 = Ok (t0, ys) -> hash_trie keccak pr t0 = Ok r -> Forall (fun R => tx_any (program R)) rs -> follows_any keccak pr r rs xss r2 ->
  (exists t1, serial pr t0 (map program rs) = Ok (t1, xss) /\ hash_trie keccak pr t1 = Ok r2) \/
  exists rs1 R rs2 t1 yss limit s, rs = rs1 ++ R :: rs2 /\ serial pr t0 (map program rs1) = Ok (t1, yss) /\
    load_text limit (received R) = Some s /\ collision keccak (encodings keccak t1) (encodings keccak s).
Proof.
  intros keccak pr ops0 t0 ys rs r xss r2 H32 F0 E R F FC. apply (any_run keccak H32 pr rs t0 r xss r2); auto. apply (full_ops pr ops0 Empty t0 ys); auto.
  split; [constructor|]. split; [constructor|]. split; [exact Logic.I|]. intros k h. discriminate.
Qed.
Print Assumptions C92_any.

(** One stored key is the start of another, and part of what is received is only a hash. *)
Definition any_ops : list op := [OInsert (K 2 0x12) [1]; OInsert (K 4 0x1234) (big 1); OInsert (K 4 0x5678) (big 2)].
Definition any_trie : node := match trie_ops Debug Empty any_ops with Ok (t, _) => t | Panic => Empty end.
Definition any_part : node := hide_child 5 any_trie.
Definition any_prog : tx := Do (OGet (K 2 0x12)) (fun x => match x with OValue (Some _) => Do (OInsert (K 4 0x1299) (big 3)) (fun _ => Finish) | _ => Finish end).
Example C92_any_example : Forall op_any any_ops /\ trie_ops Debug Empty any_ops = Ok (any_trie, [ODone; ODone; ODone]) /\ any_part <> any_trie /\ tx_any any_prog /\
  exists r r2, hash_trie keccak256 Debug any_trie = Ok r /\ follows_any keccak256 Debug r [Round any_prog (to_string (serialize any_part))] [[OValue (Some [1]); ODone]] r2.
Proof.
  assert (Kk : kwf (K 2 0x12) /\ kwf (K 4 0x1234) /\ kwf (K 4 0x5678) /\ kwf (K 4 0x1299)) by (repeat split; vm_compute; (reflexivity || (intro; discriminate))). destruct Kk as (K1 & K2 & K3 & K4).
  assert (Vb : value_ok [1] /\ value_ok (big 1) /\ value_ok (big 2) /\ value_ok (big 3)) by (repeat match goal with |- _ /\ _ => split | |- value_ok _ => split; [discriminate|]; split; [repeat constructor|reflexivity] end).
  destruct Vb as (V0 & V1 & V2 & V3).
  split; [unfold any_ops; repeat apply Forall_cons; try apply Forall_nil; cbn [op_any op_write]; auto|]. split; [vm_compute; reflexivity|]. split; [vm_compute; discriminate|].
  split. { cbn [any_prog tx_any op_any]. split; [exact K1|]. intros [|[v|]]; cbn [tx_any op_any op_write]; auto. }
  eexists. eexists. split; [vm_compute; reflexivity|].
  set (p1 := match tx_run Debug any_part any_prog with Ok (s', _) => s' | Panic => Empty end).
  apply (fa_cons keccak256 Debug _ any_prog _ (Some 127%nat) any_part p1 [(OGet (K 2 0x12), OValue (Some [1])); (OInsert (K 4 0x1299) (big 3), ODone)] (match hash_trie keccak256 Debug p1 with Ok r => r | Panic => [] end)).
  - vm_compute. reflexivity.
  - vm_compute. reflexivity.
  - vm_compute. reflexivity.
  - cbn [any_prog all_seen]. intros s1 x E. assert (A : trie_op Debug any_part (OGet (K 2 0x12)) = Ok (any_part, OValue (Some [1]))) by (vm_compute; reflexivity). rewrite A in E. injection E as <- <-.
    cbn [seen all_seen]. split; [left; discriminate|]. intros. split; exact Logic.I.
  - vm_compute. reflexivity.
  - vm_compute. reflexivity.
  - constructor.
Qed.
