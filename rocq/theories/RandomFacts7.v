(** Facts about the model of the random tests: children of the root replaced by hash nodes. *)
From Verif Require Import Base Nibbles NibblesSpec NibblesFacts NibblesFacts2 NibblesFacts3 Trie TrieSpec TrieHistSpec TrieFacts TrieInsert TrieGet TrieDelete TrieUnique TrieIter TrieHist TrieObs
  Hashing YellowPaper HashSpec HideSpec InsertWf HashFacts HideFacts TextFacts OrderSpec OrderFacts OrderExact Subset SubsetSpec SubsetFacts SubsetFacts2 P_Trie P_Hash P_Order Cache CacheSpec P_Cache EthSpec UserSpec P_User
  RandomTests RandomFacts RandomFacts2 RandomFacts3 RandomFacts4 RandomFacts5.
Open Scope N_scope.

Notation holds := TrieHistSpec.holds.

(** ** The keys *)
Lemma force_ok pr i k v : i < 16 -> kwf k -> exists k', force pr i (k, v) = Ok (k', v) /\ kwf k' /\ nseq k' = i :: tl (nseq k).
Proof.
  intros Hi Hk. destruct (kwf_ex k Hk) as (l & E & Es & H & L). exists (enc (i :: skipn 1 l)).
  assert (H1 : hexl (skipn 1 l)) by (apply hexl_skipn, H).
  assert (H2 : hexl (i :: skipn 1 l)) by (constructor; assumption). unfold force. cbn [fst snd]. rewrite E.
  change 1 with (N.of_nat 1). rewrite truncate_front_enc by (auto; lia). cbn [bind]. assert (Ll : (length (skipn 1 l) < 64)%nat) by (rewrite skipn_length; lia).
  rewrite push_front_enc by assumption. cbn [bind]. rewrite (nseq_enc l) by exact H. split; [reflexivity|]. rewrite nseq_enc by exact H2. split; [|destruct l; reflexivity].
  split; [cbn [enc count packed]; apply undigits_lt; exact H2|]. cbn [enc count length]. lia.
Qed.
Definition starts (d : N) (e : entry) : Prop := exists r, nseq (fst e) = d :: r.
Lemma force_group pr i (g : list entry) : i < 16 -> Forall (fun e => kwf (fst e) /\ bytes32 (snd e)) g ->
  exists es, mapr (force pr i) g = Ok es /\ Forall (fun e => kwf (fst e) /\ bytes32 (snd e) /\ starts i e) es /\ length es = length g.
Proof.
  intros Hi. induction 1 as [|[k v] g [Hk Hv] F IH]; [exists []; split; [reflexivity|split; [constructor|reflexivity]]|].
  cbn [fst snd] in *. destruct IH as (es & E & Fe & L). destruct (force_ok pr i k v Hi Hk) as (k' & E' & Hk' & Es).
  exists ((k', v) :: es). cbn [mapr]. rewrite E', E. split; [reflexivity|]. split; [|cbn [length]; rewrite L; reflexivity]. constructor; [|exact Fe].
  split; [exact Hk'|]. split; [exact Hv|]. exists (tl (nseq k)). exact Es.
Qed.
Lemma force_groups_ok pr gs : forall i, i + N.of_nat (length gs) <= 16 -> Forall (Forall (fun e : entry => kwf (fst e) /\ bytes32 (snd e))) gs ->
  exists es, force_groups pr i gs = Ok es /\ Forall (fun e => kwf (fst e) /\ bytes32 (snd e) /\ exists d, starts d e) es /\
    (Forall (fun g => g <> []) gs -> forall d, i <= d < i + N.of_nat (length gs) -> exists e, In e es /\ starts d e).
Proof.
  induction gs as [|g gs IH]; intros i L F; cbn [length] in *.
  - exists []. split; [reflexivity|]. split; [constructor|]. intros _ d X. lia.
  - inversion F as [|? ? Fg Fs]; subst. destruct (force_group pr i g ltac:(lia) Fg) as (a & Ea & Fa & La). destruct (IH (i + 1) ltac:(lia) Fs) as (b & Eb & Fb & Hb).
    exists (a ++ b). cbn [force_groups]. rewrite Ea. cbn [bind]. rewrite Eb. split; [reflexivity|]. split.
    + apply Forall_app. split; [|exact Fb]. eapply Forall_impl; [|exact Fa]. intros e (A & B & S). split; [exact A|]. split; [exact B|]. exists i. exact S.
    + intros NE d X. inversion NE as [|? ? N1 N2]; subst. destruct (N.eq_dec d i) as [->|D].
      * destruct a as [|e a]; [destruct g; [congruence|discriminate]|]. exists e. split; [left; reflexivity|]. inversion Fa as [|? ? (_ & _ & S) _]; subst. exact S.
      * destruct (Hb N2 d ltac:(lia)) as (e & I & S). exists e. split; [apply in_app_iff; right; exact I|exact S].
Qed.

(** ** A trie with values of 32 bytes has no short node *)
Lemma Rb_len b : len b <= len (Rb b).
Proof.
  unfold Rb. destruct b as [|x [|y b]]; [cbn; lia| |].
  - destruct (x <? 128); cbn; lia.
  - set (l := x :: y :: b). destruct (len l <? 56); rewrite ?len_cons, ?len_app; lia.
Qed.
Section Big.
Variable keccak : list N -> list N.
Hypothesis H32 : hash32 keccak.
Definition large (t : node) : Prop := forall k v, lk t k = Some (Val v) -> 32 <= len v.
Lemma big_ref t : (not_hash t -> 32 <= len (RLP (item keccak t))) -> fits t -> 32 <= len (RLP (ref keccak t)).
Proof.
  intros B F. unfold ref. assert (G : 32 <= len (RLP (item keccak t)) -> 32 <= len (RLP (shorten keccak (item keccak t)))).
  { intros X. unfold shorten. destruct (N.ltb_spec (len (RLP (item keccak t))) 32); [lia|]. cbn [RLP]. pose proof (Rb_len (keccak (RLP (item keccak t)))). destruct (H32 (RLP (item keccak t))). lia. }
  destruct t; try (apply G, B; exact Logic.I). cbn [RLP]. destruct F as [_ F]. pose proof (Rb_len h). lia.
Qed.
Lemma big_item t : forall L, wf L t -> shape t -> fits t -> large t -> t <> Empty -> not_hash t -> 32 <= len (RLP (item keccak t)).
Proof.
  induction t as [|h|ch v IH|n c IH|n v] using node_ind'; intros L W Sh F Lg NE NH; try congruence; try contradiction.
  - inversion W as [| |L0 ? ? Hl Wc| |]; subst. inversion Sh as [| |? ? FS (c0 & I0 & N0)| |]; subst. rewrite Forall_forall in IH, Wc, FS.
    assert (Fc : fits c0). { destruct F as (_ & _ & Fa). clear - Fa I0. induction ch as [|c ch IH]; [destruct I0|]. destruct Fa as [A B]. destruct I0 as [->|I]; [exact A|apply IH; assumption]. }
    rewrite item_branch. assert (X : 32 <= len (RLP (ref keccak c0))).
    { apply big_ref; [|exact Fc]. intros NH0. apply (IH c0 I0 L0 (Wc c0 I0) (FS c0 I0) Fc); auto.
      destruct (in_child_ex _ _ I0) as (d & _ & Ed). intros k v0 E. apply (Lg (d :: k) v0). rewrite lk_branch, Ed. exact E. }
    assert (Y : len (RLP (ref keccak c0)) < len (RLP (RList (map (ref keccak) ch ++ [RStr v])))) by (apply RLP_list_len, in_app_iff; left; apply in_map, I0). lia.
  - inversion W as [| | |L0 p ? Hp Wc|]; subst. inversion Sh as [| | |? ? Hn B Sc|]; subst. rewrite item_ext.
    assert (X : 32 <= len (RLP (ref keccak c))).
    { apply big_ref; [|exact F]. intros NH0. apply (IH L0 Wc Sc F); [|intros ->; exact B|exact NH0]. intros k v E. apply (Lg (p ++ k) v). cbn [lk]. rewrite nseq_enc by exact Hp. rewrite strip_app. exact E. }
    assert (Y : len (RLP (ref keccak c)) < len (RLP (RList [RStr (yp_hp (nseq (enc p)) false); ref keccak c]))) by (apply RLP_list_len; right; left; reflexivity). lia.
  - inversion W as [| | | |L0 p ? Hp Lp]; subst. cbn [item].
    assert (Y : len (RLP (RStr v)) < len (RLP (RList [RStr (yp_hp (nseq (enc p)) true); RStr v]))) by (apply RLP_list_len; right; left; reflexivity).
    change (RLP (RStr v)) with (Rb v) in Y. pose proof (Rb_len v). assert (32 <= len v); [|lia]. apply (Lg p). cbn [lk]. rewrite nseq_enc by exact Hp. destruct (key_eqb_spec p p); congruence.
Qed.
End Big.

(** ** The program *)
Section Program.
Variable keccak : list N -> list N.
Variable pr : profile.
Hypothesis H32 : hash32 keccak.
Definition plain0 (i : nat) : kind := match i with O => Plain | _ => View end.
(** The new child [j] of a root with the children [cs]. *)
Definition swapped (cs : list node) (j : nat) : node := if Nat.even j then Hash (root keccak (nth j cs Empty)) else nth j cs Empty.

Lemma new_children_ok cs (k : nat -> list nat -> user (option (list N * list N))) : length cs = 16%nat ->
  (forall j, (j < 16)%nat -> hash_trie keccak pr (nth j cs Empty) = Ok (root keccak (nth j cs Empty))) ->
  forall todo i rest ch, (i + todo <= 16)%nat ->
  exists more is, let ts := Branch cs [] :: rest in
    vplay keccak pr ts (new_children i todo (length ts) ch k) = vplay keccak pr (ts ++ more) (k (length (ts ++ more)) (ch ++ is)) /\
    (obeys keccak pr plain0 (ts ++ more) (k (length (ts ++ more)) (ch ++ is)) -> obeys keccak pr plain0 ts (new_children i todo (length ts) ch k)) /\
    Forall2 (fun x j => nth_error (ts ++ more) x = Some (swapped cs j) /\ x <> 0%nat) is (seq i todo).
Proof.
  intros Hl Hh. induction todo as [|todo IH]; intros i rest ch B.
  - exists [], []. cbv zeta. rewrite !app_nil_r. cbn [new_children seq]. split; [reflexivity|]. split; [auto|constructor].
  - set (c := nth i cs Empty).
    assert (Ec : the cs i = Ok c) by (apply the_nth; unfold c; apply nth_error_nth'; lia).
    assert (Hc : hash_trie keccak pr c = Ok (root keccak c)) by (apply Hh; lia).
    destruct (Nat.even i) eqn:Ev.
    + destruct (IH (S i) (rest ++ [c; Hash (root keccak c)]) (ch ++ [S (length (Branch cs [] :: rest))]) ltac:(lia)) as (more & is & E & O & F). cbv zeta in *.
      exists ([c; Hash (root keccak c)] ++ more), (S (length (Branch cs [] :: rest)) :: is).
      assert (A1 : (Branch cs [] :: rest) ++ [c; Hash (root keccak c)] ++ more = (Branch cs [] :: rest ++ [c; Hash (root keccak c)]) ++ more) by (cbn [app]; rewrite <- app_assoc; reflexivity).
      rewrite A1. replace (ch ++ S (length (Branch cs [] :: rest)) :: is) with ((ch ++ [S (length (Branch cs [] :: rest))]) ++ is) by (rewrite <- app_assoc; reflexivity).
      assert (A2 : length (Branch cs [] :: rest ++ [c; Hash (root keccak c)]) = S (S (length (Branch cs [] :: rest)))) by (cbn [length]; rewrite app_length; cbn [length]; lia).
      rewrite A2 in E, O.
      assert (T1 : the ((Branch cs [] :: rest) ++ [c]) (length (Branch cs [] :: rest)) = Ok c).
      { apply the_nth. rewrite nth_error_app2, Nat.sub_diag by lia. reflexivity. }
      assert (A3 : ((Branch cs [] :: rest) ++ [c]) ++ [Hash (root keccak c)] = Branch cs [] :: rest ++ [c; Hash (root keccak c)]) by (cbn [app]; rewrite <- app_assoc; reflexivity).
      split; [|split].
      * cbn [new_children]. rewrite Ev. cbn [vplay vstep]. change (the (Branch cs [] :: rest) 0) with (Ok (Branch cs [])). cbn [bind subtrie]. rewrite Ec. cbn [bind vplay vstep].
        rewrite T1. cbn [bind]. rewrite Hc. cbn [bind vplay vstep vmake]. rewrite A3. exact E.
      * intros X. specialize (O X). cbn [new_children]. rewrite Ev. cbn [obeys legal vstep]. change (the (Branch cs [] :: rest) 0) with (Ok (Branch cs [])). cbn [bind subtrie]. rewrite Ec. cbn [bind obeys vstep].
        rewrite T1. cbn [bind]. rewrite Hc. cbn [bind obeys legal vstep vmake taken]. rewrite A3. split; [split; [discriminate|reflexivity]|]. split; [exact Logic.I|]. split; [intros x []|]. exact O.
      * cbn [seq]. constructor; [|exact F]. split; [|discriminate]. rewrite <- A3, <- app_assoc. rewrite nth_error_app2 by (rewrite app_length; cbn [length]; lia).
        rewrite app_length. replace (S (length (Branch cs [] :: rest)) - (length (Branch cs [] :: rest) + length [c]))%nat with 0%nat by (cbn [length]; lia).
        cbn [app nth_error]. unfold swapped. rewrite Ev. reflexivity.
    + destruct (IH (S i) (rest ++ [c]) (ch ++ [length (Branch cs [] :: rest)]) ltac:(lia)) as (more & is & E & O & F). cbv zeta in *.
      exists ([c] ++ more), (length (Branch cs [] :: rest) :: is).
      assert (A1 : (Branch cs [] :: rest) ++ [c] ++ more = (Branch cs [] :: rest ++ [c]) ++ more) by (cbn [app]; rewrite <- app_assoc; reflexivity).
      rewrite A1. replace (ch ++ length (Branch cs [] :: rest) :: is) with ((ch ++ [length (Branch cs [] :: rest)]) ++ is) by (rewrite <- app_assoc; reflexivity).
      assert (A2 : length (Branch cs [] :: rest ++ [c]) = S (length (Branch cs [] :: rest))) by (cbn [length]; rewrite app_length; cbn [length]; lia).
      rewrite A2 in E, O. split; [|split].
      * cbn [new_children]. rewrite Ev. cbn [vplay vstep]. change (the (Branch cs [] :: rest) 0) with (Ok (Branch cs [])). cbn [bind subtrie]. rewrite Ec. cbn [bind]. exact E.
      * intros X. specialize (O X). cbn [new_children]. rewrite Ev. cbn [obeys legal vstep]. change (the (Branch cs [] :: rest) 0) with (Ok (Branch cs [])). cbn [bind subtrie]. rewrite Ec. cbn [bind].
        split; [split; [discriminate|reflexivity]|]. exact O.
      * cbn [seq]. constructor; [|exact F]. split; [|discriminate]. change (Branch cs [] :: rest ++ [c]) with ((Branch cs [] :: rest) ++ [c]). rewrite <- app_assoc.
        rewrite nth_error_app2, Nat.sub_diag by lia. cbn [app nth_error]. unfold swapped. rewrite Ev. reflexivity.
Qed.

Lemma pick_ok {A} (l : list A) is xs : Forall2 (fun i x => nth_error l i = Some x) is xs -> pick l is = Ok xs.
Proof. induction 1 as [|i x is xs H F IH]; cbn [pick]; [reflexivity|]. rewrite (the_nth _ _ _ H), IH. reflexivity. Qed.

Lemma program_ok es cs h : from_iter pr (vals es) = Ok (Branch cs []) -> length cs = 16%nat ->
  (forall j, (j < 16)%nat -> hash_trie keccak pr (nth j cs Empty) = Ok (root keccak (nth j cs Empty))) ->
  hash_trie keccak pr (Branch cs []) = Ok h -> hash_trie keccak pr (Branch (map (swapped cs) (seq 0 16)) []) = Ok h ->
  exists hs, play keccak pr (replacing_program es) = Ok (hs, Some (h, h)).
Proof.
  intros E Hl Hh E0 E1.
  set (kk := fun (made : nat) (ch : list nat) => Call (Make (MBranch ch [])) (fun _ => Call (Assign 0 made) (fun _ => Call (HashOf 0) (fun y =>
            match y with Digest h1 => Return (Some (h, h1)) | _ => Return None end)))).
  destruct (new_children_ok cs kk Hl Hh 16 0 [] [] ltac:(lia)) as (more & is & Ev & Ob & F). cbv zeta in *. cbn [app] in Ev, Ob, F.
  set (ts := Branch cs [] :: more) in *. set (nb := Branch (map (swapped cs) (seq 0 16)) []) in *.
  assert (Lis : length is = 16%nat) by (rewrite (Forall2_length _ _ _ F); reflexivity).
  assert (Pk : pick ts is = Ok (map (swapped cs) (seq 0 16))).
  { apply pick_ok. clear - F. induction F as [|x j is js [A _] F IH]; cbn [map]; constructor; auto. }
  assert (Tb : the (ts ++ [nb]) (length ts) = Ok nb) by (apply the_nth; rewrite nth_error_app2, Nat.sub_diag by lia; reflexivity).
  assert (V1 : vplay keccak pr ts (kk (length ts) is) = Ok (nb :: more ++ [nb], Some (h, h))).
  { unfold kk. cbn [vplay vstep vmake]. rewrite Lis, Nat.eqb_refl, Pk. cbn [bind]. fold nb. rewrite Tb. unfold ts. cbn -[hash_trie nb]. rewrite E1. reflexivity. }
  assert (O1 : obeys keccak pr plain0 ts (kk (length ts) is)).
  { unfold kk. cbn [obeys legal vstep vmake taken]. split.
    - intros x I. clear - F I. induction F as [|y j is js [_ A] F IH]; [destruct I|]. destruct I as [<-|I]; [destruct y; [congruence|reflexivity]|auto].
    - rewrite Lis, Nat.eqb_refl, Pk. cbn [bind]. fold nb. split; [reflexivity|]. rewrite Tb. unfold ts. cbn -[hash_trie nb]. split; [exact Logic.I|]. rewrite E1. exact Logic.I. }
  destruct (C72_discipline keccak pr plain0 _ (replacing_program es) (nb :: more ++ [nb]) (Some (h, h))) as (hs & Eh & _); [| |exists hs; exact Eh].
  - unfold replacing_program. cbn [obeys legal vstep]. split; [exact Logic.I|]. rewrite E. cbn [bind app obeys vstep legal the nth_error]. split; [exact Logic.I|]. rewrite E0. cbn [bind]. exact (Ob O1).
  - unfold replacing_program. cbn [vplay vstep]. rewrite E. cbn [bind app vplay vstep the nth_error]. rewrite E0. cbn [bind]. etransitivity; [exact Ev|exact V1].
Qed.
End Program.

(** ** The trie *)
Lemma replacing_ok keccak pr gs es : hash32 keccak -> length gs = 16%nat -> Forall (fun g => g <> []) gs ->
  Forall (Forall (fun e : entry => kwf (fst e) /\ bytes32 (snd e))) gs -> force_groups pr 0 gs = Ok es -> in_time es ->
  replacing_children keccak pr gs = Ok tt.
Proof.
  intros H32 Lg NE F Eg T. destruct (force_groups_ok pr gs 0 ltac:(lia) F) as (es' & Eg' & Fe & Hd). rewrite Eg in Eg'. injection Eg' as <-. specialize (Hd NE). rewrite Lg in Hd.
  assert (Fo : Forall ok_entry es).
  { eapply Forall_impl; [|exact Fe]. intros e (A & B & _). split; [exact A|apply bytes32_ne, B]. }
  destruct (run_in_time pr es Fo T) as (t & E & V & H). pose proof V as (W & C & HF). pose proof (canon_shape _ C) as Sh.
  assert (Ft : fits t).
  { apply (extend_fits pr (vals es) Empty t); [exact Logic.I| |exact E]. unfold vals. rewrite Forall_map. eapply Forall_impl; [|exact Fe]. intros e (_ & [B1 B2] & _). cbn [snd]. split; [exact B1|]. unfold len. rewrite B2. reflexivity. }
  assert (Lt : large t).
  { intros k v Ek. rewrite H in Ek. destruct (last_value es k) as [w|] eqn:El; [|discriminate]. cbn in Ek. injection Ek as ->. destruct (last_value_in _ _ _ El) as (j & _ & Ij).
    rewrite Forall_forall in Fe. destruct (Fe _ Ij) as (_ & [_ B] & _). cbn [snd] in B. unfold len. rewrite B. reflexivity. }
  assert (St : forall d, d < 16 -> exists r, stored t (d :: r)).
  { intros d Hd0. destruct (Hd d ltac:(lia)) as (e & I & (r & Er)). exists r. apply (OrderExact.holds_stored t es H). unfold keys. apply in_map_iff. exists e. auto. }
  assert (S0 : ~ stored t []).
  { intros X. apply (OrderExact.holds_stored t es H) in X. unfold keys in X. apply in_map_iff in X. destruct X as (e & Ee & I). rewrite Forall_forall in Fe. destruct (Fe _ I) as (_ & _ & d & r & Er). congruence. }
  destruct (St 0 eq_refl) as (r0 & X0). destruct (St 1 eq_refl) as (r1 & X1).
  destruct t as [|h|cs v|n c|n v].
  - unfold stored in X0. cbn in X0. congruence.
  - exfalso. apply (HF [] h). reflexivity.
  - assert (v = []) by (destruct v; [reflexivity|exfalso; apply S0; unfold stored; cbn; discriminate]). subst v.
    inversion W as [| |L0 ? ? Hl Wc| |]; subst. inversion Sh as [| |? ? FS _| |]; subst. rewrite Forall_forall in Wc, FS.
    assert (Fc : forall c, In c cs -> fits c).
    { destruct Ft as (_ & _ & Fa). clear - Fa. induction cs as [|c cs IH]; intros x I; [destruct I|]. destruct Fa as [A B]. destruct I as [->|I]; [exact A|apply IH; assumption]. }
    assert (Ic : forall j, (j < 16)%nat -> In (nth j cs Empty) cs) by (intros j Hj; apply nth_In; lia).
    assert (Hh : forall j, (j < 16)%nat -> hash_trie keccak pr (nth j cs Empty) = Ok (root keccak (nth j cs Empty))).
    { intros j Hj. apply (hash_trie_gen keccak H32 pr _ 63); [apply Wc, Ic, Hj|lia|apply Fc, Ic, Hj]. }
    assert (Nc : forall j, (j < 16)%nat -> nth j cs Empty <> Empty /\ not_hash (nth j cs Empty) /\ large (nth j cs Empty)).
    { intros j Hj. assert (Ej : child cs (N.of_nat j) = nth j cs Empty) by (unfold child; rewrite Nat2N.id; reflexivity). rewrite <- Ej. split; [|split].
      - destruct (St (N.of_nat j) ltac:(lia)) as (r & Sr). apply stored_branch in Sr. intros Z. rewrite Z in Sr. unfold stored in Sr. cbn in Sr. congruence.
      - destruct (child cs (N.of_nat j)) as [|h| | |] eqn:Z; try exact Logic.I. exfalso. apply (HF [N.of_nat j] h). rewrite lk_branch, Z. reflexivity.
      - intros k v Ek. apply (Lt (N.of_nat j :: k) v). rewrite lk_branch. exact Ek. }
    assert (Hd2 : hides keccak (Branch cs []) (Branch (map (swapped keccak cs) (seq 0 16)) [])).
    { constructor. replace cs with (map (fun j => nth j cs Empty) (seq 0 16)) at 1.
      - assert (G : forall l, (forall j, In j l -> (j < 16)%nat) -> Forall2 (hides keccak) (map (fun j => nth j cs Empty) l) (map (swapped keccak cs) l)).
        { induction l as [|j l IH]; intros B; cbn [map]; constructor; [|apply IH; intros i I; apply B; right; exact I].
          specialize (B j (or_introl eq_refl)). unfold swapped. destruct (Nat.even j); [|apply hides_refl]. destruct (Nc j B) as (A1 & A2 & A3).
          replace (root keccak (nth j cs Empty)) with (keccak (RLP (item keccak (nth j cs Empty)))) by (destruct (nth j cs Empty); try reflexivity; contradiction).
          apply hd_out; [exact A2|]. apply (big_item keccak H32 _ 63); auto. }
        apply G. intros j I. apply in_seq in I. lia.
      - rewrite <- Hl. clear. induction cs as [|c cs IH]; [reflexivity|]. cbn [length seq map nth]. f_equal. rewrite <- seq_shift, map_map. exact IH. }
    pose proof (hash_trie_ok keccak H32 pr _ W Ft) as Eh. set (h := root keccak (Branch cs [])) in *.
    assert (Eh2 : hash_trie keccak pr (Branch (map (swapped keccak cs) (seq 0 16)) []) = Ok h) by (rewrite <- Eh; apply C20_hiding_keeps_root; assumption).
    destruct (program_ok keccak pr es cs h E Hl Hh Eh Eh2) as (hs & Ep). unfold replacing_children. rewrite Eg. cbn [bind]. rewrite Ep. cbn [bind]. rewrite (proj2 (key_eqb_iff h h) eq_refl). reflexivity.
  - exfalso. inversion W as [| | |L0 p ? Hp Wc|]; subst. destruct (stored_ext_inv p c _ Hp X0) as (k0 & E0 & _). destruct (stored_ext_inv p c _ Hp X1) as (k1 & E1 & _).
    inversion C as [| | |? ? Hn _ _|]; subst. rewrite nseq_enc in Hn by exact Hp. destruct p as [|d p]; [congruence|]. cbn [app] in *. congruence.
  - exfalso. unfold stored in X0, X1. cbn [lk] in X0, X1. destruct (key_eqb_spec (nseq n) (0 :: r0)), (key_eqb_spec (nseq n) (1 :: r1)); congruence.
Qed.
