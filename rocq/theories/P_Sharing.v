(** Property C53: changes are local. *)
From Verif Require Import Base Nibbles Trie TrieSpec TrieHistSpec TrieFacts TrieHist Rlp Hashing Query Diff Serde DiffCache Subset StatsSpec Cache CacheSpec
  CacheFacts FailFacts ReloadFacts DiffCacheFacts CacheFacts2 CacheFacts3 CacheFacts4 CostSpec CostFacts SharingSpec SharingFacts P_Trie P_Size.
Open Scope N_scope.

(** * C53: an update creates few nodes and shares all others *)
(** [exec p s n] hands out the cells from [n] on, one for each node that is created. [d] is a bound for the depth of the trie. *)
Theorem C53_insert : forall pr t k v s n t' s' n' d, (forall x, In x (subnodes 0 (erase t)) -> fst x <= d) ->
  exec (hinsert pr t k v) s n = Ok (t', s', n') -> n' - n <= d + 21 /\ shares n t t'.
Proof. intros pr t k v s n t' s' n' d H E. apply tall_subnodes in H. apply insert_shares in E. destruct E as (L & S & _). split; [lia|exact S]. Qed.
Theorem C53_delete : forall pr t k s n t' w s' n' d, (forall x, In x (subnodes 0 (erase t)) -> fst x <= d) ->
  exec (hdelete pr t k) s n = Ok ((t', w), s', n') -> n' - n <= 2 * d + 2 /\ shares n t t'.
Proof. intros pr t k s n t' w s' n' d H E. apply tall_subnodes in H. apply delete_shares in E. destruct E as (L & S & _). split; [lia|exact S]. Qed.
Theorem C53_extend : forall pr t l s n t' s' n', exec (hextend pr t l) s n = Ok (t', s', n') -> shares n t t'.
Proof.
  intros pr t l s n t' s' n' E. unfold hextend in E. rewrite exec_pbind in E. destruct (exec (htrie_extend pr t l) s n) as [[[x s1] n1]|] eqn:E1; [|discriminate].
  cbn [exec] in E. injection E as <- <- <-. apply extend_shares in E1. apply E1.
Qed.

(** Tries that the operations build have depth at most 64 (C50), so these are constants. *)
Theorem C53_reachable : forall pr t s n, reach pr (erase t) ->
  (forall k v t' s' n', exec (hinsert pr t k v) s n = Ok (t', s', n') -> n' - n <= 85) /\
  (forall k t' w s' n', exec (hdelete pr t k) s n = Ok ((t', w), s', n') -> n' - n <= 130).
Proof.
  intros pr t s n R. assert (D : forall x, In x (subnodes 0 (erase t)) -> fst x <= 64) by (intros x I; apply (C50_depth pr _ x R I)). split.
  - intros k v t' s' n' E. destruct (C53_insert _ _ _ _ _ _ _ _ _ 64 D E). lia.
  - intros k t' w s' n' E. destruct (C53_delete _ _ _ _ _ _ _ _ _ 64 D E). lia.
Qed.

(** Cloning, taking a handle for an inner node, assigning and reading create no node at all. *)
Definition creates_none (o : op) : Prop :=
  match o with Get _ _ | HashOf _ | Equal _ _ | Clone _ | SubTrie _ _ | Assign _ _ | Differ _ _ => True | _ => False end.
Theorem C53_reading : forall keccak pr hs o s n r s' n', creates_none o -> exec (hstep keccak pr hs o) s n = Ok (r, s', n') -> n' = n.
Proof.
  intros keccak pr hs o s n r s' n' C E. eapply makes_none_exec; [|exact E]. destruct o; cbn [creates_none] in C; try contradiction; cbn [hstep]; apply makes_none_lift; intros t;
    try (apply makes_none_lift; intros u); try exact I.
  - apply makes_none_bind; [apply hash_none|]. intros h. exact I.
  - apply makes_none_bind; [apply differ_none|]. intros h. exact I.
Qed.

(** Keeping any number of old versions: what all versions together need is bounded by the number of updates, whatever the number and
    the sizes of the versions. *)
Section History.
Variable keccak : list N -> list N.
Variable pr : profile.
Lemma extend_reach l : forall t t', reach pr t -> Forall (fun e => kwf (fst e) /\ proper (snd e)) l -> trie_extend pr t l = Ok t' -> reach pr t'.
Proof.
  induction l as [|[k v] l IH]; intros t t' R F E; cbn [trie_extend] in E; [injection E as <-; exact R|]. inversion F as [|? ? [Hk Hv] F']; subst. cbn [fst snd] in *.
  destruct (trie_insert pr t k v) as [t1|] eqn:E1; [|discriminate]. cbn [bind] in E. eapply IH; [|exact F'|exact E]. eapply reach_insert; eauto.
Qed.
Lemma reach_new : reach pr Empty.
Proof. apply reach_start; constructor. Qed.
Lemma extend_creates l : forall t s n t' s' n' y, reach pr (erase t) -> Forall (fun e => kwf (fst e) /\ proper (snd e)) l ->
  bounded n t -> fresh_above n s -> trie_extend pr (erase t) l = Ok y -> exec (htrie_extend pr t l) s n = Ok (t', s', n') -> n' <= n + 85 * N.of_nat (length l).
Proof.
  induction l as [|[k v] l IH]; intros t s n t' s' n' y R F B Fr Ey E; cbn [htrie_extend trie_extend] in *; [injection E as <- <- <-; lia|].
  inversion F as [|? ? [Hk Hv] F']; subst. cbn [fst snd] in *. destruct (trie_insert pr (erase t) k v) as [y1|] eqn:E1; [|discriminate]. cbn [bind] in Ey.
  apply bounded_iff in B. destruct B as [Ct Bt].
  assert (W : wp (htrie_insert pr t k v) n (values s) (fun u b' V' => ext n (values s) b' V' /\ CacheFacts.kids any b' V' u /\ cell u = cell t /\ erase u = y1)).
  { eapply (wp_htrie_insert pr any any_ex); [apply kids_any, Bt|exact E1|]. intros u b' V' X Ku Cu Ru. auto. }
  destruct (exec_wp _ _ _ _ _ W (keeps_values n s Fr)) as (u & s1 & n1 & V1 & Ex & _ & Kp & X & Ku & Cu & Eu).
  rewrite exec_pbind, Ex in E.
  assert (E2 : exec (hinsert pr t k v) s n = Ok (u, update s1 (cell t) None, n1)) by (unfold hinsert; rewrite exec_pbind, Ex; reflexivity).
  pose proof (proj1 (C53_reachable pr t s n R) _ _ _ _ _ E2) as L1.
  assert (L2 : n' <= n1 + 85 * N.of_nat (length l)).
  { eapply IH; [|exact F'| | |rewrite Eu; exact Ey|exact E].
    - rewrite Eu. eapply reach_insert; eauto.
    - apply bounded_iff. split; [|apply (kids_any _ V1), Ku]. rewrite Cu. destruct X. lia.
    - eapply keeps_fresh, Kp. }
  cbn [length]. lia.
Qed.
Lemma replace_forall {A} (P : A -> Prop) l : forall i x, Forall P l -> P x -> Forall P (replace l i x).
Proof. induction l as [|y l IH]; intros [|i] x F Px; cbn [replace]; inversion F; subst; constructor; auto. Qed.
Lemma the_in {A} (l : list A) i x : the l i = Ok x -> In x l.
Proof. unfold the. destruct (nth_error l i) eqn:E; intros H; [|discriminate]. injection H as <-. eapply nth_error_In, E. Qed.
Lemma step_creates hs o s n ts' x r s' n' : versioned o -> Forall (bounded n) hs -> fresh_above n s -> Forall (reach pr) (map erase hs) ->
  vstep keccak pr (map erase hs) o = Ok (ts', x) -> exec (hstep keccak pr hs o) s n = Ok (r, s', n') -> n' <= n + 131 * updates1 o /\ Forall (reach pr) ts'.
Proof.
  intros V B Fr R Ev E. assert (RT : forall i t, the hs i = Ok t -> reach pr (erase t) /\ bounded n t).
  { intros i t Et. apply the_in in Et. split; [rewrite Forall_forall in R; apply R, in_map, Et|rewrite Forall_forall in B; apply B, Et]. }
  assert (TM : forall i, the (map erase hs) i = match the hs i with Ok t => Ok (erase t) | Panic => Panic end).
  { intros i. unfold the. rewrite nth_error_map. destruct (nth_error hs i); reflexivity. }
  assert (RD : creates_none o -> n' <= n + 131 * updates1 o) by (intros C; rewrite (C53_reading _ _ _ _ _ _ _ _ _ C E); lia).
  destruct o as [l|i k v|i l|i k|i k|i|i j|i|i path|i j|i ks|i kss|i|i j|p]; cbn [versioned] in V; try contradiction;
    try (split; [apply RD; exact I|]); clear RD; cbn [vstep hstep updates1] in *.
  - okbind Ev. injection Ev as <- <-. unfold hfrom_iter, hempty in E. rewrite !exec_pbind in E. cbn [exec] in E. unfold hextend in E. rewrite exec_pbind in E.
    destruct (exec (htrie_extend pr (HEmpty n) l) (update s n None) (n + 1)) as [[[u s1] n1]|] eqn:E1; [|discriminate]. cbn [exec] in E. injection E as <- <- <-. split.
    + enough (n1 <= n + 1 + 85 * N.of_nat (length l)) by lia. eapply extend_creates; [| | | | |exact E1].
      * exact reach_new.
      * exact V.
      * apply bounded_iff. split; [cbn; lia|constructor].
      * intros c L. unfold update. destruct (N.eqb_spec c n); [reflexivity|]. apply Fr. lia.
      * exact E0.
    + apply Forall_app. split; [exact R|]. constructor; [|constructor]. eapply extend_reach; [exact reach_new|exact V|exact E0].
  - rewrite TM in Ev. destruct (the hs i) as [t|] eqn:Et; [|discriminate]. cbn [bind lift pbind] in *. destruct (RT _ _ Et) as [Rt Bt]. okbind Ev. injection Ev as <- <-. destruct V as [Hk Hv].
    rewrite exec_pbind in E. destruct (exec (hinsert pr t k v) s n) as [[[u s1] n1]|] eqn:E1; [|discriminate]. cbn [exec] in E. injection E as <- <- <-. split.
    + pose proof (proj1 (C53_reachable pr t s n Rt) _ _ _ _ _ E1). lia.
    + apply replace_forall; [exact R|]. eapply reach_insert; eauto.
  - rewrite TM in Ev. destruct (the hs i) as [t|] eqn:Et; [|discriminate]. cbn [bind lift pbind] in *. destruct (RT _ _ Et) as [Rt Bt]. okbind Ev. injection Ev as <- <-.
    rewrite exec_pbind in E. unfold hextend in E. rewrite exec_pbind in E. destruct (exec (htrie_extend pr t l) s n) as [[[u s1] n1]|] eqn:E1; [|discriminate]. cbn [exec] in E. injection E as <- <- <-. split.
    + enough (n1 <= n + 85 * N.of_nat (length l)) by lia. eapply extend_creates; eauto.
    + apply replace_forall; [exact R|]. eapply extend_reach; eauto.
  - rewrite TM in Ev. destruct (the hs i) as [t|] eqn:Et; [|discriminate]. cbn [bind lift pbind] in *. destruct (RT _ _ Et) as [Rt Bt]. okbind Ev. destruct a as [y d]. injection Ev as <- <-.
    rewrite exec_pbind in E. destruct (exec (hdelete pr t k) s n) as [[[[u w] s1] n1]|] eqn:E1; [|discriminate]. cbn [exec] in E. injection E as <- <- <-. split.
    + pose proof (proj2 (C53_reachable pr t s n Rt) _ _ _ _ _ E1). lia.
    + apply replace_forall; [exact R|]. eapply reach_delete; eauto.
  - okbind Ev. okbind Ev. injection Ev as <- <-. exact R.
  - okbind Ev. okbind Ev. injection Ev as <- <-. exact R.
  - okbind Ev. okbind Ev. injection Ev as <- <-. exact R.
  - okbind Ev. injection Ev as <- <-. apply Forall_app. split; [exact R|]. constructor; [|constructor]. rewrite Forall_forall in R. eapply R, the_in; eassumption.
  - okbind Ev. okbind Ev. injection Ev as <- <-. apply replace_forall; [exact R|]. rewrite Forall_forall in R. eapply R, the_in; eassumption.
Qed.
Lemma run_creates os : forall hs s n ts' xs hs' xs' s' n', Forall versioned os -> Forall (bounded n) hs -> fresh_above n s -> Forall (reach pr) (map erase hs) ->
  vrun keccak pr (map erase hs) os = Ok (ts', xs) -> exec (hrun keccak pr hs os) s n = Ok ((hs', xs'), s', n') -> n' <= n + 131 * updates os.
Proof.
  induction os as [|o os IH]; intros hs s n ts' xs hs' xs' s' n' V B Fr R Ev E; cbn [vrun hrun updates] in *; [injection E as <- <- <- <-; lia|].
  inversion V as [|? ? V1 V2]; subst. okbind Ev. destruct a as [ts1 x]. okbind Ev. destruct a as [ts2 xs2]. injection Ev as <- <-.
  assert (HF : CacheSpec.hash_free o) by (destruct o; cbn in V1 |- *; tauto).
  destruct (contents_step keccak pr hs o ts1 x s n HF B Fr E0) as (hs1 & x1 & s1 & n1 & Ex & <- & _ & B1 & Fr1).
  destruct (step_creates hs o s n _ _ _ _ _ V1 B Fr R E0 Ex) as [L1 R1]. rewrite exec_pbind, Ex, exec_pbind in E.
  destruct (exec (hrun keccak pr hs1 os) s1 n1) as [[[[hs2 xs3] s2] n2]|] eqn:E2; [|discriminate]. cbn [exec] in E. injection E as <- <- <- <-.
  assert (L2 : n2 <= n1 + 131 * updates os) by (eapply IH; eassumption). lia.
Qed.
End History.
Theorem C53_versions : forall keccak pr os ts ys hs xs s n, Forall versioned os -> vrun keccak pr [] os = Ok (ts, ys) ->
  exec (hrun keccak pr [] os) (fun _ => None) 0 = Ok ((hs, xs), s, n) -> n <= 131 * updates os.
Proof.
  intros keccak pr os ts ys hs xs s n V Ev E. pose proof (run_creates keccak pr os [] (fun _ => None) 0 ts ys hs xs s n V (Forall_nil _) (fun _ _ => eq_refl) (Forall_nil _) Ev E). lia.
Qed.

(** The hypotheses are met: 256 entries in one trie, then two versions of it, one with a new entry, one without an entry. Building
    the first trie creates 1040 nodes (many of them are replaced again), the new entry 21 more, the removal 3 more. *)
Definition ex_many : list (nibbles * val_or_hash) := map (fun i => (K 2 (N.of_nat i), Val [7])) (seq 0 256).
Definition ex_versions : list op := [New ex_many; Clone 0; Insert 1 (K 4 0x3456) (Val [1]); Clone 0; Delete 2 (K 2 0x34); HashOf 0; HashOf 1; Get 2 (K 2 0x35)].
Definition ex_hash_fn (b : list N) : list N := repeat (lenN b mod 256) 32.
Definition next_of {A} (r : res (A * store * N)) : N := match r with Ok (_, _, n) => n | Panic => 0 end.
Example C53_example :
  Forall versioned ex_versions /\ updates ex_versions = 259 /\ (exists ts ys, vrun ex_hash_fn Debug [] ex_versions = Ok (ts, ys)) /\
  map (fun m => next_of (exec (hrun ex_hash_fn Debug [] (firstn m ex_versions)) (fun _ => None) 0)) [1; 2; 3; 4; 5; 8]%nat = [1040; 1040; 1061; 1061; 1064; 1064].
Proof.
  split; [|split; [reflexivity|split]].
  - assert (F : Forall (fun e => kwf (fst e) /\ proper (snd e)) ex_many).
    { unfold ex_many. apply Forall_forall. intros e I. apply in_map_iff in I. destruct I as (i & <- & J). apply in_seq in J. cbn [fst snd]. split; [|discriminate].
      split; cbn [count packed K]; [|lia]. change (16 ^ 2) with 256. lia. }
    unfold ex_versions. repeat (constructor; [first [exact I|exact F|split; [split; vm_compute; congruence|discriminate]|split; vm_compute; congruence]|]). constructor.
  - destruct (vrun ex_hash_fn Debug [] ex_versions) as [[ts ys]|] eqn:E; [eauto|]. exfalso. revert E. vm_compute. discriminate.
  - vm_compute. reflexivity.
Qed.

Print Assumptions C53_insert.
Print Assumptions C53_delete.
Print Assumptions C53_extend.
Print Assumptions C53_reachable.
Print Assumptions C53_reading.
Print Assumptions C53_versions.
