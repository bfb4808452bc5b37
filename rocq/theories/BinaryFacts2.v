(** Facts about the binary format: what is loaded. *)
From Coq Require Import String Permutation.
From Verif Require Import Base Nibbles NibblesSpec NibblesFacts NibblesFacts2 Trie TrieFacts TrieInsert Cache CacheFacts CacheSpec Serde ReloadFacts P_Serde Json JsonSpec JsonFacts JsonFacts2 Text JsonText JsonTextSpec JsonTextFacts JsonTextFacts2 JsonTextFacts3 Binary BinarySpec BinaryFacts.
Open Scope N_scope.
Open Scope list_scope.

(** ** What is read has the types *)
Lemma take_u8s k bs x rest : u8s bs -> take k bs = Some (x, rest) -> u8s x /\ u8s rest /\ N.of_nat (length x) = k.
Proof. intros U E. apply take_inv in E as [-> L]. apply Forall_app in U as [A B]. auto. Qed.
Ltac step E := cbv beta iota in E; unfold next at 1 in E; match type of E with match ?p ?bs with _ => _ end = Some _ => let a := fresh "a" in let r := fresh "r" in let E' := fresh "E" in
  destruct (p bs) as [[a r]|] eqn:E'; [|discriminate E] end.
Lemma int_type k bs x rest : u8s bs -> get_int (N.of_nat k) bs = Some (x, rest) -> x < 256 ^ N.of_nat k /\ u8s rest.
Proof.
  intros U E. unfold get_int in E. step E. injection E as <- <-. apply take_u8s in E0 as (A & B & L); [|exact U]. split; [|exact B]. apply Nat2N.inj in L. subst k. apply le_value_lt, A.
Qed.
Lemma sized_type bs x rest : u8s bs -> get_sized bs = Some (x, rest) -> u8s x /\ vec x /\ u8s rest.
Proof.
  intros U E. unfold get_sized in E. step E. apply (int_type 8) in E0 as [A B]; [|exact U]. apply take_u8s in E as (C & D & L); [|exact B]. split; [exact C|]. split; [|exact D].
  unfold vec. rewrite L. exact A.
Qed.
Lemma bytes_type_b bs x rest : u8s bs -> get_bytes bs = Some (x, rest) -> exists v, x = ser_bytes v /\ u8s v /\ vec v /\ u8s rest.
Proof. intros U E. unfold get_bytes in E. step E. apply sized_type in E0 as (A & B & C); [|exact U]. injection E as <- <-. eauto. Qed.
Lemma u512_type_b bs x rest : u8s bs -> get_u512 bs = Some (x, rest) -> exists n, x = DU512 n /\ n < 2 ^ 512 /\ u8s rest.
Proof.
  intros U E. unfold get_u512 in E. step E. apply sized_type in E0 as (A & B & C); [|exact U]. destruct (read_u512 _) as [n|] eqn:R; [|discriminate]. injection E as <- <-.
  apply u512_type in R. eauto.
Qed.
Lemma h256_type_b bs x rest : u8s bs -> get_h256 bs = Some (x, rest) -> exists h, x = DH256 h /\ h256 h /\ u8s rest.
Proof.
  intros U E. unfold get_h256 in E. step E. apply sized_type in E0 as (A & B & C); [|exact U]. destruct (read_h256 _) as [n|] eqn:R; [|discriminate]. injection E as <- <-.
  apply h256_type in R. eauto.
Qed.
Lemma nibbles_type_b bs x rest : u8s bs -> get_nibbles bs = Some (x, rest) -> exists n, x = ser_nibbles n /\ key_type n /\ u8s rest.
Proof.
  intros U E. unfold get_nibbles in E. step E. apply (int_type 8) in E0 as [A B]; [|exact U]. step E. apply u512_type_b in E0 as (p & -> & C & D); [|exact B]. injection E as <- <-.
  exists (Nib a p). split; [reflexivity|]. split; [split; assumption|exact D].
Qed.
Lemma cached_type_b bs x rest : u8s bs -> get_cached bs = Some (x, rest) -> exists o, x = ser_cached o /\ (forall h, o = Some h -> h256 h) /\ u8s rest.
Proof.
  intros U E. unfold get_cached in E. step E. apply (int_type 1) in E0 as [_ B]; [|exact U]. destruct a as [|[a|a|]]; try discriminate E.
  - injection E as <- <-. exists None. split; [reflexivity|]. split; [discriminate|exact B].
  - step E. apply h256_type_b in E0 as (h & -> & C & D); [|exact B]. injection E as <- <-. exists (Some h). split; [reflexivity|]. split; [congruence|exact D].
Qed.
Lemma times_type {A} (P : A -> Prop) (p : reader A) : (forall bs x rest, u8s bs -> p bs = Some (x, rest) -> P x /\ u8s rest) ->
  forall k bs l rest, u8s bs -> get_times k p bs = Some (l, rest) -> length l = k /\ Forall P l /\ u8s rest.
Proof.
  intros H. induction k as [|k IH]; intros bs l rest U E; cbn [get_times] in E; [injection E as <- <-; auto|].
  step E. apply H in E0 as [A1 B]; [|exact U]. step E. apply IH in E0 as (L & F & C); [|exact B]. injection E as <- <-. cbn. auto.
Qed.

(** Data of a handle. *)
Inductive hdata : data -> Prop :=
| hd_intro dn o : ndata dn -> (forall h, o = Some h -> h256 h) -> hdata (DStruct [(f_node, dn); (f_hash, ser_cached o)])
with ndata : data -> Prop :=
| nd_empty : ndata (DUnitVariant v_Empty)
| nd_hash h : h256 h -> ndata (DNewtypeVariant v_Hash (DH256 h))
| nd_branch ds v : length ds = 16%nat -> (forall d, In d ds -> hdata d) -> u8s v -> vec v -> ndata (DStructVariant v_Branch [(f_children, DTuple ds); (f_value, ser_bytes v)])
| nd_extension n d : key_type n -> hdata d -> ndata (DStructVariant v_Extension [(f_nibbles, ser_nibbles n); (f_child, d)])
| nd_leaf n v : key_type n -> u8s v -> vec v -> ndata (DStructVariant v_Leaf [(f_nibbles, ser_nibbles n); (f_value, ser_bytes v)]).
Scheme hdata_mut := Minimality for hdata Sort Prop with ndata_mut := Minimality for ndata Sort Prop.

Lemma trie_type f : forall bs d rest, u8s bs -> get_trie f bs = Some (d, rest) -> (exists t, node_type t /\ vecs t /\ d = serialize t) /\ u8s rest.
Proof.
  induction f as [|f IH]; intros bs d rest U E; [discriminate|]. cbn [get_trie] in E. step E. injection E as <- <-. unfold get_node in E0. step E0.
  apply (int_type 4) in E as [_ B]; [|exact U]. destruct a0 as [|[[v|v|]|[v|[v|v|]|]|]]; try discriminate E0.
  - injection E0 as <- <-. split; [|exact B]. exists Empty. repeat constructor.
  - step E0. apply nibbles_type_b in E as (n & -> & C & D); [|exact B]. step E0. apply IH in E as [(t & T & V & ->) F]; [|exact D]. injection E0 as <- <-. split; [|exact F].
    exists (Extension n t). split; [constructor; assumption|]. split; [exact V|reflexivity].
  - step E0. apply nibbles_type_b in E as (n & -> & C & D); [|exact B]. step E0. apply bytes_type_b in E as (w & -> & X & Y & Z); [|exact D]. injection E0 as <- <-. split; [|exact Z].
    exists (Leaf n w). split; [constructor; assumption|]. split; [exact Y|reflexivity].
  - step E0. apply (times_type _ _ IH) in E as (L & F & C); [|exact B]. step E0. apply bytes_type_b in E as (w & -> & X & Y & Z); [|exact C]. injection E0 as <- <-. split; [|exact Z].
    assert (G : exists ch, a0 = map serialize ch /\ Forall node_type ch /\ Forall vecs ch).
    { clear L C. induction F as [|x l (t & T & V & ->) _ (ch & -> & F1 & F2)]; [exists []; auto|]. exists (t :: ch). cbn. auto. }
    destruct G as (ch & -> & F1 & F2). rewrite map_length in L. exists (Branch ch w). split; [constructor; auto; apply Forall_forall, F1|]. split; [|reflexivity]. cbn [vecs]. split; [exact Y|].
    clear - F2. induction F2; cbn; auto.
  - step E0. apply h256_type_b in E as (h & -> & C & D); [|exact B]. injection E0 as <- <-. split; [|exact D]. exists (Hash h). split; [constructor; assumption|]. split; [exact I|reflexivity].
Qed.
Lemma handle_type f : forall bs d rest, u8s bs -> get_handle f bs = Some (d, rest) -> hdata d /\ u8s rest.
Proof.
  induction f as [|f IH]; intros bs d rest U E; [discriminate|]. cbn [get_handle] in E. step E.
  assert (G : ndata a /\ u8s r).
  { clear E. unfold get_node in E0. step E0. apply (int_type 4) in E as [_ B]; [|exact U]. destruct a0 as [|[[v|v|]|[v|[v|v|]|]|]]; try discriminate E0.
    - injection E0 as <- <-. split; [constructor|exact B].
    - step E0. apply nibbles_type_b in E as (n & -> & C & D); [|exact B]. step E0. apply IH in E as [T F]; [|exact D]. injection E0 as <- <-. split; [constructor; assumption|exact F].
    - step E0. apply nibbles_type_b in E as (n & -> & C & D); [|exact B]. step E0. apply bytes_type_b in E as (w & -> & X & Y & Z); [|exact D]. injection E0 as <- <-. split; [constructor; assumption|exact Z].
    - step E0. apply (times_type _ _ IH) in E as (L & F & C); [|exact B]. step E0. apply bytes_type_b in E as (w & -> & X & Y & Z); [|exact C]. injection E0 as <- <-. split; [|exact Z].
      rewrite Forall_forall in F. constructor; assumption.
    - step E0. apply h256_type_b in E as (h & -> & C & D); [|exact B]. injection E0 as <- <-. split; [constructor; assumption|exact D]. }
  destruct G as [G R]. step E. apply cached_type_b in E1 as (o & -> & C & D); [|exact R]. injection E as <- <-. split; [constructor; assumption|exact D].
Qed.

(** ** Handles *)
Lemma vecs_map ch : fold_right and True (map vecs ch) <-> Forall vecs ch.
Proof. induction ch as [|c ch IH]; cbn; [split; constructor|]. rewrite IH. split; [intros [A B]; constructor; assumption|]. intros F. inversion F; auto. Qed.
Lemma saved_data s t : node_type (erase t) -> vecs (erase t) -> (forall u h, In u (nodes t) -> s (cell u) = Some h -> h256 h) -> hdata (saved s t).
Proof.
  induction t as [c|c h|c ch v IH|c k t IH|c k v] using hnode_ind'; intros T V H; cbn [saved erase] in *; inversion T; subst;
    (constructor; [|intros h' E; apply (H _ _ (or_introl eq_refl) E)]).
  - constructor.
  - constructor. assumption.
  - destruct V as [V1 V2]. apply vecs_map in V2. rewrite Forall_map in V2. rewrite Forall_forall in V2, IH. constructor; auto; [rewrite map_length in *; assumption|]. intros d D.
    apply in_map_iff in D as (t & <- & I). apply IH; auto; [apply H3, in_map, I|]. intros u h U. apply H. right. apply in_flat_map. eauto.
  - constructor; [assumption|]. apply IH; auto. intros u h U. apply H. right. exact U.
  - constructor; auto.
Qed.
Lemma ser_bytes_inj v v' : ser_bytes v = ser_bytes v' -> v = v'.
Proof. intros E. apply (f_equal de_bytes) in E. rewrite !de_ser_bytes in E. congruence. Qed.
Lemma ser_nibbles_inj v v' : ser_nibbles v = ser_nibbles v' -> v = v'.
Proof. intros E. apply (f_equal de_nibbles) in E. rewrite !de_ser_nibbles in E. congruence. Qed.
Lemma ser_cached_inj v v' : ser_cached v = ser_cached v' -> v = v'.
Proof. intros E. apply (f_equal de_cached) in E. rewrite !de_ser_cached in E. congruence. Qed.
Lemma hdata_inv dn dh : hdata (DStruct [(f_node, dn); (f_hash, dh)]) -> ndata dn /\ exists o, dh = ser_cached o /\ forall h, o = Some h -> h256 h.
Proof. intros H. remember (DStruct [(f_node, dn); (f_hash, dh)]) as d eqn:E. destruct H as [dn' o D O]. injection E as -> <-. eauto. Qed.
Lemma ndata_inv d : ndata d ->
  match d with
  | DNewtypeVariant v_Hash (DH256 h) => h256 h
  | DStructVariant v_Branch [(f_children, DTuple ds); (f_value, b)] => length ds = 16%nat /\ (forall d, In d ds -> hdata d) /\ exists v, b = ser_bytes v /\ u8s v /\ vec v
  | DStructVariant v_Extension [(f_nibbles, n); (f_child, d)] => (exists k, n = ser_nibbles k /\ key_type k) /\ hdata d
  | DStructVariant v_Leaf [(f_nibbles, n); (f_value, b)] => (exists k, n = ser_nibbles k /\ key_type k) /\ exists v, b = ser_bytes v /\ u8s v /\ vec v
  | _ => True
  end.
Proof. destruct 1; eauto 10. Qed.
Lemma data_saved s t : hdata (saved s t) -> node_type (erase t) /\ vecs (erase t) /\ forall u h, In u (nodes t) -> s (cell u) = Some h -> h256 h.
Proof.
  induction t as [c|c h|c ch v IH|c k t IH|c k v] using hnode_ind'; intros T; cbn [saved erase] in *; apply hdata_inv in T as (D & o & E & O); apply ser_cached_inj in E; subst o; cbn [cell] in O;
    apply ndata_inv in D; cbv beta iota in D.
  - split; [constructor|]. split; [exact I|]. intros u h [<-|[]] E. apply O, E.
  - split; [constructor; assumption|]. split; [exact I|]. intros u h' [<-|[]] E. apply O, E.
  - destruct D as (L & H & w & E & U & V). apply ser_bytes_inj in E. subst w. rewrite map_length in L. rewrite Forall_forall in IH.
    assert (G : forall t, In t ch -> node_type (erase t) /\ vecs (erase t) /\ forall u h, In u (nodes t) -> s (cell u) = Some h -> h256 h) by (intros t J; apply IH; [exact J|]; apply H, in_map, J).
    split; [constructor; [rewrite map_length; assumption| |assumption]; intros c' J; apply in_map_iff in J as (t & <- & J); apply G, J|]. split.
    + cbn [vecs]. split; [assumption|]. apply vecs_map. rewrite Forall_map. apply Forall_forall. intros t J. apply G, J.
    + intros u h [<-|J] E; [apply O, E|]. apply in_flat_map in J as (t & J & J'). destruct (G t J) as (_ & _ & G'). apply (G' u h J' E).
  - destruct D as [(k' & E & K) H]. apply ser_nibbles_inj in E. subst k'. destruct (IH H) as (A & B & C). split; [constructor; assumption|]. split; [exact B|].
    intros u h [<-|J] E; [apply O, E|]. apply (C u h J E).
  - destruct D as [(k' & E & K) (w & E' & U & V)]. apply ser_nibbles_inj in E. apply ser_bytes_inj in E'. subst. split; [constructor; assumption|]. split; [assumption|].
    intros u h' [<-|[]] E. apply O, E.
Qed.

Definition hdes_all : list data -> prog (option (list hnode)) :=
  fix go (l : list data) : prog (option (list hnode)) :=
    match l with
    | [] => Ret (Some [])
    | d :: l' => r <~ hdeserialize d ;; match r with Some c => rs <~ go l' ;; Ret (match rs with Some ch => Some (c :: ch) | None => None end) | None => Ret None end
    end.
Lemma does_new_cell p x o : does p (Some x) (fun mk => map cell (below (mk 0))) node_rel ->
  does (r <~ p ;; match r, Some o with Some mk, Some o => new_cell mk o | _, _ => Ret None end) (Some (DStruct [(f_node, x); (f_hash, ser_cached o)])) cells holds.
Proof.
  intros D s n. destruct (D s n) as (r & s1 & n1 & E & L & F & Fr & R). rewrite exec_bind, E. destruct r as [mk|]; [|contradiction]. destruct R as (R1 & R2 & R3). unfold new_cell. cbn [exec].
  eexists _, _, _. split; [reflexivity|]. destruct (R3 s1 (fun x _ => eq_refl) n1) as (C1 & C2 & _).
  assert (P : cells (mk n1) = n1 :: map cell (below (mk 0))) by (unfold cells; rewrite nodes_below; cbn [map]; rewrite C1, C2; reflexivity).
  split; [lia|]. split; [intros c C; unfold update; destruct (N.eqb_spec c n1); [lia|]; apply F, C|].
  split; [intros H c C; unfold update; destruct (N.eqb_spec c n1); [lia|]; apply Fr; [exact H|lia]|]. rewrite P. split; [|split].
  - constructor; [|exact R1]. intros J. apply R2 in J. lia.
  - intros c [<-|J]; [lia|]. apply R2 in J. lia.
  - intros s'' S. assert (Q : same_on (map cell (below (mk 0))) s'' s1).
    { intros c J. rewrite S by (right; exact J). unfold update. destruct (N.eqb_spec c n1); [|reflexivity]. apply R2 in J. lia. }
    destruct (R3 s'' Q n1) as (_ & _ & R). unfold holds. rewrite R, (S n1 (or_introl eq_refl)). unfold update. rewrite N.eqb_refl. reflexivity.
Qed.
Lemma does_hdes_all ds : (forall d, In d ds -> does (hdeserialize d) (Some d) cells holds) -> does (hdes_all ds) (Some ds) (flat_map cells) (fun s => Forall2 (holds s)).
Proof.
  induction ds as [|d ds IH]; intros H; [apply does_ret; split; [reflexivity|constructor]|]. specialize (IH (fun x J => H x (or_intror J))). intros s n. cbn [hdes_all]. fold hdes_all.
  destruct (H d (or_introl eq_refl) s n) as (r & s1 & n1 & E & L & F & Fr & R). rewrite exec_bind, E. destruct r as [a|]; [|contradiction]. destruct R as (R1 & R2 & R3).
  rewrite exec_bind. destruct (IH s1 n1) as (r & s2 & n2 & -> & L' & F' & Fr' & R'). destruct r as [us|]; [|contradiction]. destruct R' as (R1' & R2' & R3').
  eexists _, s2, n2. split; [reflexivity|]. split; [lia|]. split; [intros c C; rewrite F', F by lia; reflexivity|]. split; [auto|]. cbn [flat_map]. split; [|split].
  + eapply NoDup_ranges; eauto.
  + intros c J. apply in_app_or in J. destruct J as [J|J]; [apply R2 in J|apply R2' in J]; lia.
  + intros s'' S. constructor.
    * apply R3. intros c J. rewrite S by (apply in_or_app; left; exact J). apply F'. apply R2 in J. lia.
    * apply R3'. intros c J. apply S, in_or_app. right. exact J.
Qed.
(** Loading data of a handle gives a handle with that data, in new cells. *)
Theorem does_hdeserialize d : hdata d -> does (hdeserialize d) (Some d) cells holds.
Proof.
  pose (P := fun dn => forall o, does (hdeserialize (DStruct [(f_node, dn); (f_hash, ser_cached o)])) (Some (DStruct [(f_node, dn); (f_hash, ser_cached o)])) cells holds).
  revert d. apply (hdata_mut (fun d => does (hdeserialize d) (Some d) cells holds) P).
  - intros dn o _ H _. apply H.
  - intros o. cbn [hdeserialize]. rewrite de_ser_cached. apply (does_new_cell (Ret (Some HEmpty))). apply does_ret. split; [reflexivity|]. intros s c. repeat split.
  - intros h Hh o. cbn [hdeserialize]. rewrite de_ser_cached. apply (does_new_cell (Ret (Some (fun c => HHash c h)))). apply does_ret. split; [reflexivity|]. intros s c. repeat split.
  - intros ds v L _ H _ _ o. cbn [hdeserialize]. rewrite de_ser_cached. fold hdes_all. unfold sixteen. rewrite L. cbn [Nat.eqb].
    apply (does_new_cell (ch <~ hdes_all ds ;; Ret (match ch, de_bytes (ser_bytes v) with Some ch, Some v => Some (fun c => HBranch c ch v) | _, _ => None end))).
    eapply does_exec with (q := (ch <~ hdes_all ds ;; Ret (pair_with (fun ch c => HBranch c ch v) ch))); [|reflexivity|].
    + apply map_ret. intros [ch|]; rewrite ?de_ser_bytes; reflexivity.
    + eapply does_map with (g := fun ds => DStructVariant v_Branch [(f_children, DTuple ds); (f_value, ser_bytes v)]); [apply does_hdes_all, H|reflexivity| |].
      * intros ch. cbn [below nodes tl]. rewrite flat_cells. apply Permutation_refl.
      * intros s ch ds' R c. apply holds_all in R. subst ds'. repeat split.
  - intros k d _ _ H o. cbn [hdeserialize]. rewrite de_ser_cached, de_ser_nibbles.
    apply (does_new_cell (r <~ hdeserialize d ;; Ret (match r with Some t => Some (fun c => HExtension c k t) | None => None end))).
    eapply does_exec with (q := (ch <~ hdeserialize d ;; Ret (pair_with (fun t c => HExtension c k t) ch))); [|reflexivity|].
    + apply map_ret. intros [ch|]; reflexivity.
    + eapply does_map with (g := fun d => DStructVariant v_Extension [(f_nibbles, ser_nibbles k); (f_child, d)]); [exact H|reflexivity| |].
      * intros t. cbn [below nodes tl]. apply Permutation_refl.
      * intros s t d' R c. unfold holds in R. subst d'. repeat split.
  - intros k v _ _ _ o. cbn [hdeserialize]. rewrite de_ser_cached, de_ser_nibbles, de_ser_bytes.
    apply (does_new_cell (Ret (Some (fun c => HLeaf c k v)))). apply does_ret. split; [reflexivity|]. intros s c. repeat split.
Qed.
