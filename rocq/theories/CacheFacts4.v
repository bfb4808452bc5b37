(** The contents of the handles do not depend on the cells. *)
From Verif Require Import Base Nibbles Trie TrieFacts Rlp Hashing Query Diff Serde DiffCache Subset Cache CacheSpec CacheFacts FailFacts ReloadFacts DiffCacheFacts CacheFacts2 CacheFacts3.
Open Scope N_scope.

Definition any (t : node) (g : option (list N) * bool) : Prop := True.
Lemma any_ex t : exists g, any t g. Proof. exists (None, true). exact I. Qed.
Definition fresh_above (n : N) (s : store) : Prop := forall c, n <= c -> s c = None.

(** All cells are below [n]. *)
Definition bounded (n : N) (t : hnode) : Prop := Forall (fun s => cell s < n) (nodes t).
Lemma bounded_iff n t : bounded n t <-> cell t < n /\ Forall (fun s => cell s < n) (below t).
Proof. unfold bounded. rewrite nodes_below. split; [intros H; inversion H; auto|intros [A B]; constructor; auto]. Qed.
Lemma kids_any n V t : kids any n V t <-> Forall (fun s => cell s < n) (below t).
Proof.
  unfold kids. split; apply Forall_impl; intros s.
  - intros [H _]. exact H.
  - intros H. split; [exact H|exact I].
Qed.
Definition values (s : store) : ghost := fun c => (s c, true).
Lemma keeps_values n s : fresh_above n s -> keeps n (values s) s.
Proof. intros H c. destruct (N.ltb_spec c n); [right; reflexivity|apply H; assumption]. Qed.
Lemma keeps_fresh n V s : keeps n V s -> fresh_above n s.
Proof. intros H c L. specialize (H c). destruct (N.ltb_spec c n); [lia|exact H]. Qed.

Section Contents.
Variable keccak : list N -> list N.
Variable pr : profile.

Lemma fresh_update n s c o : fresh_above n s -> c < n -> fresh_above n (update s c o).
Proof. intros F L c' L'. unfold update. destruct (N.eqb_spec c' c); [lia|apply F, L']. Qed.

Lemma append_items s e : items (append_to_stream s e) = items s + 1.
Proof. destruct e; reflexivity. Qed.

Lemma hash_any t : forall e s n, rlp_encode_and_hash_node keccak pr (erase t) = Ok e -> fresh_above n s ->
  (Forall (fun u => cell u < n) (below t) -> exists e' s', exec (encode_node keccak pr t) s n = Ok (e', s', n) /\ fresh_above n s') /\
  (bounded n t -> exists e' s', exec (hash_intern keccak pr t) s n = Ok (e', s', n) /\ fresh_above n s').
Proof.
  induction t as [c|c h|c ch val IH|c m t IH|c m val] using hnode_ind'; intros e s n E F;
    match goal with |- _ /\ (bounded _ ?t -> _) =>
      assert (G : Forall (fun u => cell u < n) (below t) ->
                  exists e' s', exec (encode_node keccak pr t) s n = Ok (e', s', n) /\ fresh_above n s')
    end;
    try match goal with |- _ /\ _ =>
      split; [exact G|]; intros B; apply bounded_iff in B; destruct B as [Bt Bb]; rewrite hash_intern_eq; cbn [exec];
      match goal with |- context [match ?o with Some _ => _ | None => _ end] => destruct o as [h'|] end;
      [exists (Hashed h'), s; auto|];
      rewrite exec_bind; destruct (G Bb) as (e' & s' & -> & F'); destruct e' as [r|h']; cbn [exec];
      [exists (Raw r), s'; auto|eexists (Hashed h'), _; split; [reflexivity|apply fresh_update; assumption]]
    end; intros B; cbn [encode_node erase rlp_encode_and_hash_node] in *.
  - exists (Raw [0x80]), s. auto.
  - exists (Hashed h), s. auto.
  - okbind E. okbind E.
    assert (S : forall l s0 s1 s2 s, Forall (bounded n) l -> items s0 = items s1 -> fresh_above n s ->
      Forall (fun t => forall e s n, rlp_encode_and_hash_node keccak pr (erase t) = Ok e -> fresh_above n s ->
        (Forall (fun u => cell u < n) (below t) -> exists e' s', exec (encode_node keccak pr t) s n = Ok (e', s', n) /\ fresh_above n s') /\
        (bounded n t -> exists e' s', exec (hash_intern keccak pr t) s n = Ok (e', s', n) /\ fresh_above n s')) l ->
      (fix go (l : list node) (s : stream) {struct l} : res stream :=
         match l with [] => Ok s | c :: l' => e <- rlp_encode_and_hash_node keccak pr c ;; go l' (append_to_stream s e) end)
        (map erase l) s0 = Ok s2 ->
      exists s3 s', exec (hash_children keccak pr l s1) s n = Ok (s3, s', n) /\ fresh_above n s' /\ items s3 = items s2).
    { clear. intros l. induction l as [|t l IHl]; intros s0 s1 s2 s B I0 F FI E; cbn [map] in E; cbn [hash_children].
      - injection E as <-. exists s1, s. auto.
      - inversion B; subst. inversion FI; subst. okbind E. rewrite exec_bind.
        destruct (proj2 (H3 _ s n eq_refl F) H1) as (e' & s' & -> & F').
        eapply IHl; [assumption| |exact F'|assumption|exact E]. rewrite !append_items, I0. reflexivity. }
    destruct (S ch new_list new_list a s) as (s3 & s' & Es & F' & I3); auto.
    { unfold below in B. cbn [nodes tl] in B. apply Forall_flat_map in B. exact B. }
    rewrite exec_bind, Es. cbn zeta. unfold stream_out in *.
    destruct (items (match val with [] => append_empty_data a | _ :: _ => append a val end) =? 17) eqn:I17; [|discriminate].
    assert (J : items (match val with [] => append_empty_data s3 | _ :: _ => append s3 val end) =
                items (match val with [] => append_empty_data a | _ :: _ => append a val end)).
    { destruct val; unfold append_empty_data, append, append_raw; cbn [items]; rewrite I3; reflexivity. }
    rewrite J, I17. cbn [lift pbind exec]. eexists _, s'. split; [reflexivity|exact F'].
  - okbind E. okbind E. cbn [lift pbind]. rewrite exec_bind. destruct (proj2 (IH _ s n eq_refl F)) as (e' & s' & -> & F').
    { exact B. }
    unfold stream_out. rewrite append_items. cbn [append append_raw new_list items N.add N.eqb lift pbind exec].
    eexists _, s'. split; [reflexivity|exact F'].
  - okbind E. okbind E. cbn [lift pbind exec]. eexists _, s. split; [reflexivity|exact F].
Qed.

Lemma same_refl x : same_but_digest x x.
Proof. destruct x; cbn; auto. Qed.

Lemma bounded_mono n n' t : n <= n' -> bounded n t -> bounded n' t.
Proof. intros L. apply Forall_impl. intros s H. lia. Qed.

Lemma bounded_replace n hs i t : Forall (bounded n) hs -> bounded n t -> Forall (bounded n) (replace hs i t).
Proof. intros F B. revert i. induction F as [|u hs Hu F IH]; intros [|i]; cbn [replace]; auto. Qed.

Lemma bounded_with_cell n c t : c < n -> Forall (fun s => cell s < n) (below t) -> bounded n (with_cell c t).
Proof. intros L B. apply bounded_iff. rewrite cell_with_cell, below_with_cell. auto. Qed.

Lemma subtrie_bounded n path : forall t u, bounded n t -> hsubtrie t path = Ok u -> bounded n u.
Proof.
  induction path as [|d path IH]; intros t u B E; [injection E as <-; exact B|].
  apply bounded_iff in B. destruct B as [_ B]. destruct t as [c|c h|c ch v|c m t|c m v]; cbn [hsubtrie] in *; try discriminate.
  - unfold the in E. destruct (nth_error ch d) as [w|] eqn:En; [|discriminate]. cbn [bind] in E. unfold below in B. cbn [nodes tl] in B.
    apply Forall_flat_map in B. rewrite Forall_forall in B. eapply IH; [apply B; eapply nth_error_In, En|exact E].
  - eapply IH; [|exact E]. exact B.
Qed.

Lemma contents_step hs o ts' x s n : hash_free o -> Forall (bounded n) hs -> fresh_above n s ->
  vstep keccak pr (map erase hs) o = Ok (ts', x) ->
  exists hs' x' s' n', exec (hstep keccak pr hs o) s n = Ok ((hs', x'), s', n') /\ map erase hs' = ts' /\ same_but_digest x' x /\
    Forall (bounded n') hs' /\ fresh_above n' s'.
Proof.
  intros NS B F E. pose proof (keeps_values n s F) as Kp.
  assert (BT : forall i t, nth_error hs i = Some t -> cell t < n /\ kids any n (values s) t).
  { intros i t Et. apply nth_error_In in Et. rewrite Forall_forall in B. specialize (B t Et). apply bounded_iff in B.
    split; [tauto|]. apply kids_any. tauto. }
  assert (MU : forall (p : prog hnode) i t y, nth_error hs i = Some t ->
     wp p n (values s) (fun u b' V' => ext n (values s) b' V' /\ kids any b' V' u /\ cell u = cell t /\ erase u = y) ->
     forall x, exists hs' x' s' n', exec (t' <~ p ;; Ret (replace hs i t', x)) s n = Ok ((hs', x'), s', n') /\
       map erase hs' = replace (map erase hs) i y /\ same_but_digest x' x /\ Forall (bounded n') hs' /\ fresh_above n' s').
  { intros p i t y Et W x0. destruct (exec_wp _ _ _ _ _ W Kp) as (u & s' & b' & V' & Ex & _ & Kp' & X & Ku & Cu & <-).
    exists (replace hs i u), x0, s', b'. rewrite exec_bind, Ex. split; [reflexivity|]. split; [apply map_replace|].
    split; [apply same_refl|]. split; [|eapply keeps_fresh, Kp'].
    apply bounded_replace.
    - eapply Forall_impl; [|exact B]. intros w. apply bounded_mono, X.
    - apply bounded_iff. split; [|apply (kids_any _ V'), Ku]. rewrite Cu. destruct (BT i t Et). destruct X. lia. }
  destruct o as [l|i k v|i l|i k|i k|i|i j|i|i path|i j|i ks|i kss|i|i j|p]; cbn [vstep hstep hash_free] in *; try contradiction.
  - okbind E. injection E as <- <-. rewrite exec_bind.
    assert (W : wp (hfrom_iter pr l) n (values s) (fun u b' V' => ext n (values s) b' V' /\ kids any b' V' u /\ cell u < b' /\ erase u = a)).
    { unfold hfrom_iter. apply wp_bind, (wp_hempty any any_ex). intros t b1 V1 X1 C1 R1. apply coh_iff in C1. destruct C1 as [[C1 _] K1].
      eapply (wp_hextend pr any any_ex); [exact K1|exact C1|rewrite R1; exact E0|].
      intros u b2 V2 X2 K2 C2 R2. split; [eapply ext_trans; eauto|]. split; [exact K2|]. split; [|exact R2]. rewrite C2. destruct X2. lia. }
    destruct (exec_wp _ _ _ _ _ W Kp) as (u & s' & b' & V' & -> & _ & Kp' & X & Ku & Cu & <-). cbn [exec].
    exists (hs ++ [u]), Done, s', b'. split; [reflexivity|]. split; [rewrite map_app; reflexivity|]. split; [reflexivity|].
    split; [|eapply keeps_fresh, Kp']. apply Forall_app. split.
    + eapply Forall_impl; [|exact B]. intros w. apply bounded_mono, X.
    + constructor; [|constructor]. apply bounded_iff. split; [exact Cu|]. apply (kids_any _ V'), Ku.
  - okbind E. destruct (the_map _ _ _ E0) as (t & Et & -> & <-). okbind E. injection E as <- <-. cbn [lift pbind].
    destruct (BT i t Et) as [Ct Kt]. eapply MU; [exact Et|]. eapply (wp_hinsert pr any any_ex); [exact Kt|exact Ct|eassumption|].
    intros u b' V' X Ku Cu Ru. auto.
  - okbind E. destruct (the_map _ _ _ E0) as (t & Et & -> & <-). okbind E. injection E as <- <-. cbn [lift pbind].
    destruct (BT i t Et) as [Ct Kt]. eapply MU; [exact Et|]. eapply (wp_hextend pr any any_ex); [exact Kt|exact Ct|eassumption|].
    intros u b' V' X Ku Cu Ru. auto.
  - okbind E. destruct (the_map _ _ _ E0) as (t & Et & -> & <-). okbind E. destruct a as [y d]. injection E as <- <-. cbn [lift pbind].
    destruct (BT i t Et) as [Ct Kt].
    assert (W : wp (hdelete pr t k) n (values s) (fun r b' V' => ext n (values s) b' V' /\ kids any b' V' (fst r) /\ cell (fst r) = cell t /\ erase (fst r) = y /\ snd r = d)).
    { eapply (wp_hdelete pr any any_ex); [exact Kt|exact Ct|eassumption|]. intros u b' V' X Ku Cu Ru. cbn [fst snd]. auto. }
    destruct (exec_wp _ _ _ _ _ W Kp) as ([u d'] & s' & b' & V' & Ex & _ & Kp' & X & Ku & Cu & Ru & Rd). cbn [fst snd] in *. subst d'.
    exists (replace hs i u), (Value d), s', b'. rewrite exec_bind, Ex. split; [reflexivity|]. split; [rewrite map_replace, Ru; reflexivity|].
    split; [reflexivity|]. split; [|eapply keeps_fresh, Kp']. apply bounded_replace.
    + eapply Forall_impl; [|exact B]. intros w. apply bounded_mono, X.
    + apply bounded_iff. split; [|apply (kids_any _ V'), Ku]. rewrite Cu. destruct X. lia.
  - okbind E. destruct (the_map _ _ _ E0) as (t & Et & -> & <-). okbind E. injection E as <- <-. unfold hget. rewrite E1. cbn [lift pbind exec].
    exists hs, (Value a), s, n. auto using same_refl.
  - okbind E. destruct (the_map _ _ _ E0) as (t & Et & -> & <-). okbind E. injection E as <- <-. cbn [lift pbind]. rewrite exec_bind.
    unfold hash_trie in E1. okbind E1. unfold hhash_of. cbn [exec]. destruct (BT i t Et) as [Ct Kt]. destruct (s (cell t)) as [h|].
    + cbn [exec]. exists hs, (Digest h), s, n. cbn. auto.
    + rewrite exec_bind. destruct (proj1 (hash_any t _ s n E F)) as (e & s' & -> & F'); [apply (kids_any _ (values s)), Kt|]. cbn [exec].
      exists hs, (Digest (encoded_to_h256 keccak e)), s', n. cbn. auto.
  - okbind E. destruct (the_map _ _ _ E0) as (t & Et & -> & <-). okbind E. destruct (the_map _ _ _ E1) as (u & Eu & -> & <-).
    injection E as <- <-. cbn [lift pbind exec]. exists hs, (Answer (heqb t u)), s, n. rewrite heqb_erase. auto using same_refl.
  - okbind E. destruct (the_map _ _ _ E0) as (t & Et & -> & <-). injection E as <- <-. cbn [lift pbind exec].
    exists (hs ++ [t]), Done, s, n. rewrite map_app. repeat split; auto. apply Forall_app. split; [exact B|].
    constructor; [|constructor]. rewrite Forall_forall in B. apply B. eapply nth_error_In, Et.
  - okbind E. destruct (the_map _ _ _ E0) as (t & Et & -> & <-). okbind E. injection E as <- <-.
    destruct (hsubtrie_erase _ _ _ E1) as (u & Eu & <-). rewrite Eu. cbn [lift pbind exec].
    exists (hs ++ [u]), Done, s, n. rewrite map_app. repeat split; auto. apply Forall_app. split; [exact B|].
    constructor; [|constructor]. rewrite Forall_forall in B. eapply subtrie_bounded; [|exact Eu]. apply B. eapply nth_error_In, Et.
  - okbind E. destruct (the_map _ _ _ E0) as (t & Et & -> & <-). okbind E. destruct (the_map _ _ _ E1) as (u & Eu & -> & <-).
    injection E as <- <-. cbn [lift pbind exec]. exists (replace hs i (with_cell (cell t) u)), Done, s, n.
    rewrite map_replace, erase_with_cell. repeat split; auto. apply bounded_replace; [exact B|]. destruct (BT i t Et), (BT j u Eu).
    apply bounded_with_cell; [assumption|]. apply (kids_any _ (values s)). assumption.
  - okbind E. destruct (the_map _ _ _ E0) as (t & Et & -> & <-). okbind E. injection E as <- <-. cbn [lift pbind]. rewrite exec_bind.
    destruct (BT i t Et) as [Ct Kt].
    assert (W : wp (hreload t) n (values s) (fun u b' V' => ext n (values s) b' V' /\ kids any b' V' u /\ cell u < b' /\ erase u = a)).
    { eapply (wp_hreload any t (values s (cell t))); [exact Kt|exact Ct|intros o A; exact A|exact E1|].
      intros u b' V' X Ku Cu _ Ru. split; [exact X|]. split; [exact Ku|]. split; [lia|exact Ru]. }
    destruct (exec_wp _ _ _ _ _ W Kp) as (u & s' & b' & V' & -> & _ & Kp' & X & Ku & Cu & <-). cbn [exec].
    exists (hs ++ [u]), Done, s', b'. split; [reflexivity|]. split; [rewrite map_app; reflexivity|]. split; [reflexivity|].
    split; [|eapply keeps_fresh, Kp']. apply Forall_app. split.
    + eapply Forall_impl; [|exact B]. intros w. apply bounded_mono, X.
    + constructor; [|constructor]. apply bounded_iff. split; [exact Cu|]. apply (kids_any _ V'), Ku.
  - okbind E. injection E as <- <-. rewrite exec_bind.
    assert (W : wp (hmake hs p) n (values s) (fun u b' V' => ext n (values s) b' V' /\ kids any b' V' u /\ cell u < b' /\ erase u = a)).
    { eapply (wp_hmake any (None, true)); [|exact E0|].
      - intros i t _ Et. destruct (BT i t Et) as [Ct Kt]. apply coh_iff. split; [split; [exact Ct|exact I]|exact Kt].
      - intros u b' V' X Ku Cu _ Ru. split; [exact X|]. split; [exact Ku|]. split; [lia|exact Ru]. }
    destruct (exec_wp _ _ _ _ _ W Kp) as (u & s' & b' & V' & -> & _ & Kp' & X & Ku & Cu & <-). cbn [exec].
    exists (hs ++ [u]), Done, s', b'. split; [reflexivity|]. split; [rewrite map_app; reflexivity|]. split; [reflexivity|].
    split; [|eapply keeps_fresh, Kp']. apply Forall_app. split.
    + eapply Forall_impl; [|exact B]. intros w. apply bounded_mono, X.
    + constructor; [|constructor]. apply bounded_iff. split; [exact Cu|]. apply (kids_any _ V'), Ku.
Qed.

Lemma contents_run os : forall hs ts' xs s n, Forall hash_free os -> Forall (bounded n) hs -> fresh_above n s ->
  vrun keccak pr (map erase hs) os = Ok (ts', xs) ->
  exists hs' xs' s' n', exec (hrun keccak pr hs os) s n = Ok ((hs', xs'), s', n') /\ map erase hs' = ts' /\ Forall2 same_but_digest xs' xs.
Proof.
  induction os as [|o os IH]; intros hs ts' xs s n NS B F E; cbn [vrun hrun] in *.
  - injection E as <- <-. exists hs, [], s, n. auto.
  - okbind E. destruct a as [ts1 x]. okbind E. destruct a as [ts2 xs2]. injection E as <- <-. inversion NS; subst.
    destruct (contents_step hs o ts1 x s n) as (hs1 & x1 & s1 & n1 & E1' & <- & S1 & B1 & F1); auto.
    destruct (IH hs1 ts2 xs2 s1 n1) as (hs2 & xs2' & s2 & n2 & E2 & <- & S2); auto.
    exists hs2, (x1 :: xs2'), s2, n2. rewrite exec_bind, E1', exec_bind, E2. auto.
Qed.
End Contents.

(** ** Operations that change no handle *)
Section Readers.
Variable keccak : list N -> list N.
Variable pr : profile.
Notation rh := (right_hash keccak pr).

Notation handle_ok := (handle_ok keccak pr).
Lemma inv_handles K b V hs : inv keccak pr K None b V hs -> Forall (handle_ok b V) hs.
Proof. intros I. apply Forall_forall. intros t Ht. apply In_nth_error in Ht. destruct Ht as [i Ei]. eapply inv_handle; eauto. Qed.

Lemma wp_reader hs o ts' x b V : Forall (handle_ok b V) hs -> reader o -> vstep keccak pr (map erase hs) o = Ok (ts', x) ->
  wp (hstep keccak pr hs o) b V (fun r b' V' => map erase (fst r) = ts' /\ snd r = x /\ Forall (handle_ok b' V') (fst r)).
Proof.
  intros F R E. assert (G : forall i t, nth_error hs i = Some t -> handle_ok b V t) by (rewrite Forall_forall in F; intros; eapply F, nth_error_In; eauto).
  destruct o as [l|i k v|i l|i k|i k|i|i j|i|i path|i j|i ks|i kss|i|i j|p]; cbn [reader] in R; try contradiction; cbn [vstep hstep] in *.
  - okbind E. destruct (the_map _ _ _ E0) as (t & Et & -> & <-). okbind E. injection E as <- <-. cbn [lift pbind].
    unfold hget. rewrite E1. cbn [lift pbind wp fst snd]. auto.
  - okbind E. destruct (the_map _ _ _ E0) as (t & Et & -> & <-). okbind E. injection E as <- <-. cbn [lift pbind].
    destruct (G i t Et) as (A & B & C). apply wp_bind. eapply wp_hhash_of; [exact A|exact B|exact C|eassumption|]. cbn [wp fst snd]. auto.
  - okbind E. destruct (the_map _ _ _ E0) as (t & Et & -> & <-). okbind E.
    destruct (the_map _ _ _ E1) as (u & Eu & -> & <-). injection E as <- <-. cbn [lift pbind wp fst snd]. rewrite heqb_erase. auto.
  - okbind E. destruct (the_map _ _ _ E0) as (t & Et & -> & <-). injection E as <- <-. cbn [lift pbind wp fst snd].
    rewrite map_app. split; [reflexivity|]. split; [reflexivity|]. apply Forall_app. split; [exact F|]. constructor; [eauto|constructor].
  - okbind E. destruct (the_map _ _ _ E0) as (t & Et & -> & <-). okbind E. injection E as <- <-. cbn [lift pbind].
    destruct (hsubtrie_erase _ _ _ E1) as (s & Es & <-). rewrite Es. cbn [lift pbind wp fst snd].
    rewrite map_app. split; [reflexivity|]. split; [reflexivity|]. apply Forall_app. split; [exact F|]. constructor; [|constructor].
    destruct (G i t Et) as (A & B & C). destruct path as [|d path].
    + injection Es as <-. split; auto.
    + apply handle_ok_coh. eapply (hsubtrie_kids keccak pr (d :: path)); [discriminate|exact A|exact Es].
  - okbind E. destruct (the_map _ _ _ E0) as (t & Et & -> & <-). okbind E. injection E as <- <-. cbn [lift pbind].
    destruct (G i t Et) as (A & B & C). apply wp_bind. eapply (wp_hreload rh t (V (cell t))); [exact A|exact B|intros o Ao; exact Ao|exact E1|].
    assert (Ex : a = erase t) by (rewrite reload_eq in E1; destruct (full (erase t)); congruence). subst a.
    intros u b1 V1 X1 K1 B1 G1 R1. cbn [wp fst snd]. rewrite map_app. cbn [map]. rewrite R1. split; [reflexivity|]. split; [reflexivity|].
    apply Forall_app. split; [eapply Forall_impl; [|exact F]; intros w; apply handle_ok_ext, X1|]. constructor; [|constructor].
    split; [exact K1|]. split; [lia|]. rewrite G1, R1. exact C.
  - okbind E. destruct (the_map _ _ _ E0) as (t & Et & -> & <-). okbind E. destruct (the_map _ _ _ E1) as (u & Eu & -> & <-).
    okbind E. injection E as <- <-. cbn [lift pbind]. apply wp_bind.
    eapply does_wp; [apply does_diff; [eapply G; exact Et|eapply G; exact Eu]|exact E2|]. cbn [wp fst snd]. auto.
  - okbind E. injection E as <- <-. apply wp_bind. eapply (wp_hmake rh (None, true)); [|exact E0|].
    { intros i t Ii. rewrite R in Ii. destruct Ii. }
    intros u b1 V1 X1 K1 B1 G1 R1. cbn [wp fst snd]. rewrite map_app. cbn [map]. rewrite R1. split; [reflexivity|]. split; [reflexivity|].
    apply Forall_app. split; [eapply Forall_impl; [|exact F]; intros w; apply handle_ok_ext, X1|]. constructor; [|constructor].
    split; [exact K1|]. split; [lia|]. rewrite G1. discriminate.
Qed.

Lemma wp_readers os : forall hs ts' xs b V, Forall (handle_ok b V) hs -> Forall reader os -> vrun keccak pr (map erase hs) os = Ok (ts', xs) ->
  wp (hrun keccak pr hs os) b V (fun r _ _ => map erase (fst r) = ts' /\ snd r = xs).
Proof.
  induction os as [|o os IH]; intros hs ts' xs b V F R E; cbn [vrun hrun] in *.
  - injection E as <- <-. cbn [wp fst snd]. auto.
  - okbind E. destruct a as [ts1 x]. okbind E. destruct a as [ts2 xs']. injection E as <- <-. inversion R; subst.
    apply wp_bind. eapply wp_conseq; [eapply wp_reader; eassumption|].
    intros [hs1 x1] b1 V1 X1 (R1 & Rx & I1). cbn [fst snd] in *. subst ts1 x1. apply wp_bind.
    eapply wp_conseq; [eapply IH; eassumption|].
    intros [hs2 xs2] b2 V2 X2 [R2 Rx2]. cbn [fst snd wp] in *. subst. auto.
Qed.
End Readers.
