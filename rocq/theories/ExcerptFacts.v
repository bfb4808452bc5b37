(** What the debugging tools say about a partial trie: facts. *)
From Verif Require Import Base Nibbles NibblesSpec Trie TrieSpec TrieFacts Rlp YellowPaper Hashing HashSpec HideSpec HashFacts HideFacts Query QuerySpec StatsSpec StatsFacts.
Open Scope N_scope.

Section X.
Variable keccak : list N -> list N.
Notation hides := (hides keccak).
Notation item := (HashSpec.item keccak).

(** * Path queries *)
Lemma mask_hides ch ch' : Forall2 hides ch ch' -> create_child_mask ch' = create_child_mask ch.
Proof.
  intros F. unfold create_child_mask. generalize 0 at 2 4. generalize 0. generalize 16%nat.
  induction F as [|c c' ch ch' Hc F IH]; intros [|n] i m; try reflexivity. cbn [firstn child_mask_loop].
  assert (E : node_is_empty c' = node_is_empty c).
  { pose proof (hides_empty_iff keccak _ _ Hc) as [A B]. destruct c, c'; try reflexivity; exfalso; first [discriminate (A eq_refl)|discriminate (B eq_refl)]. }
  rewrite E. apply IH.
Qed.

Lemma nth_hides ch ch' i : Forall2 hides ch ch' ->
  match nth_error ch i, nth_error ch' i with Some c, Some c' => hides c c' | None, None => True | _, _ => False end.
Proof. intros F. revert i. induction F as [|c c' ch ch' Hc F IH]; intros [|i]; cbn [nth_error]; auto. apply IH. Qed.

Definition cut_walk (t : node) (w w' : option (list node * list segment * list N)) : Prop :=
  exists ns' p' u r, w' = Some (ns' ++ [Hash (keccak (RLP (item u)))], p' ++ [SHash], r) /\ length ns' = length p' /\ not_hash u /\ In u (map snd (subnodes 0 t)) /\
    forall ns p r0, w = Some (ns, p, r0) -> exists ns1 ns2 s p2, ns = ns1 ++ u :: ns2 /\ map extra_of ns1 = map extra_of ns' /\ p = p' ++ s :: p2 /\ seg_type s = type_of u.
Definition same_walk (w w' : option (list node * list segment * list N)) : Prop :=
  match w, w' with
  | None, None => True
  | Some (ns, p, r), Some (ns', p', r') => map extra_of ns = map extra_of ns' /\ p = p' /\ r = r'
  | _, _ => False
  end.

Lemma walk_type t k ns p r : walk t k = Some (ns, p, r) -> exists ns2 s p2, ns = t :: ns2 /\ p = s :: p2 /\ seg_type s = type_of t.
Proof.
  destruct t as [|h|ch w|n c|n w]; cbn [walk]; intros E.
  - injection E as <- <- <-. eexists _, _, _. repeat split.
  - injection E as <- <- <-. eexists _, _, _. repeat split.
  - destruct k as [|d k]; [discriminate|]. destruct (at_child _ _ _ _) as [[[a b] x]|]; [|discriminate]. injection E as <- <- <-. eexists _, _, _. repeat split.
  - destruct (walk c k) as [[[a b] x]|]; [|discriminate]. injection E as <- <- <-. eexists _, _, _. repeat split.
  - injection E as <- <- <-. eexists _, _, _. repeat split.
Qed.

Lemma in_subnodes_depth t u d : In u (map snd (subnodes d t)) <-> In u (map snd (subnodes 0 t)).
Proof. rewrite (subnodes_shift t d), map_map. reflexivity. Qed.

Lemma in_subnodes_top t d : In t (map snd (subnodes d t)).
Proof. destruct t; left; reflexivity. Qed.

Lemma walk_hides t : forall t' k, hides t t' -> same_walk (walk t k) (walk t' k) \/ cut_walk t (walk t k) (walk t' k).
Proof.
  induction t as [|h|ch w IH|n c IH|n w] using node_ind'; intros t' k H; inversion H as [| |? ch' ? F|? ? c' F| |t0 N G]; subst;
    try (right; match goal with |- cut_walk ?t _ _ => exists [], [], t, k; repeat split; auto;
           [apply in_subnodes_top|intros ns p r0 E; destruct (walk_type _ _ _ _ _ E) as (ns2 & s & p2 & -> & -> & T); exists [], ns2, s, p2; repeat split; auto] end).
  1,2,5: left; cbn; auto.
  - destruct k as [|d k]; [left; exact Logic.I|]. cbn [walk]. rewrite !at_child_nth. pose proof (nth_hides _ _ (N.to_nat d) F) as Q.
    destruct (nth_error ch (N.to_nat d)) as [c|] eqn:Ec, (nth_error ch' (N.to_nat d)) as [c'|]; try contradiction; [|left; exact Logic.I].
    apply nth_error_In in Ec as Ic. rewrite Forall_forall in IH. destruct (IH c Ic c' k Q) as [A|A].
    + left. unfold same_walk in *. destruct (walk c k) as [[[ns p] r]|], (walk c' k) as [[[ns' p'] r']|]; auto.
      destruct A as (A & -> & ->). cbn [map extra_of]. rewrite A, (mask_hides _ _ F). auto.
    + right. destruct A as (ns' & p' & u & r & E & L & Nu & I & B). rewrite E. exists (Branch ch' w :: ns'), (SBranch d :: p'), u, r.
      split; [reflexivity|]. split; [cbn [length]; lia|]. split; [exact Nu|]. split.
      { cbn [subnodes map snd]. right. apply in_map_iff in I. destruct I as ((e & u') & Eu & I). cbn in Eu. subst u'. apply in_map_iff.
        exists (1 + e, u). split; [reflexivity|]. apply in_flat_map. exists c. split; [exact Ic|]. rewrite subnodes_shift. apply in_map_iff. exists (e, u). auto. }
      intros ns p r0 E0. destruct (walk c k) as [[[ns0 p0] r1]|]; [|discriminate]. injection E0 as <- <- <-.
      destruct (B _ _ _ eq_refl) as (ns1 & ns2 & s & p2 & -> & M & -> & T). exists (Branch ch w :: ns1), ns2, s, p2. cbn [map extra_of app].
      rewrite M, (mask_hides _ _ F). auto.
  - cbn [walk]. destruct (IH c' k F) as [A|A].
    + left. unfold same_walk in *. destruct (walk c k) as [[[ns p] r]|], (walk c' k) as [[[ns' p'] r']|]; auto.
      destruct A as (A & -> & ->). cbn [map extra_of]. rewrite A. auto.
    + right. destruct A as (ns' & p' & u & r & E & L & Nu & I & B). rewrite E. exists (Extension n c' :: ns'), (SExtension n :: p'), u, r.
      split; [reflexivity|]. split; [cbn [length]; lia|]. split; [exact Nu|]. split.
      { cbn [subnodes map snd]. right. apply in_subnodes_depth, I. }
      intros ns p r0 E0. destruct (walk c k) as [[[ns0 p0] r1]|]; [|discriminate]. injection E0 as <- <- <-.
      destruct (B _ _ _ eq_refl) as (ns1 & ns2 & s & p2 & -> & M & -> & T). exists (Extension n c :: ns1), ns2, s, p2. cbn [map extra_of app].
      rewrite M. auto.
Qed.

(** * Statistics *)
Lemma filter_hides (q : N * node -> bool) : (forall d u v, hides u v -> q (d, v) = true -> q (d, u) = true) ->
  forall t t' d, hides t t' -> (length (filter q (subnodes d t')) <= length (filter q (subnodes d t)))%nat.
Proof.
  intros Q t. induction t as [|h|ch w IH|n c IH|n w] using node_ind'; intros t' d H; inversion H as [| |? ch' ? F|? ? c' F| |t0 N G]; subst; auto;
    try (cbn [subnodes filter]; pose proof (Q d _ _ H) as Z;
         destruct (q (d, Hash _)); [rewrite (Z eq_refl); cbn [length]; lia|cbn [length]; lia]).
  - cbn [subnodes filter]. assert (X : (length (filter q (flat_map (subnodes (d + 1)) ch')) <= length (filter q (flat_map (subnodes (d + 1)) ch)))%nat).
    { clear H Q. induction F as [|c c' ch ch' Hc F IHf]; [cbn; lia|]. inversion IH; subst. cbn [flat_map]. rewrite !filter_app, !app_length.
      specialize (IHf ltac:(assumption)). match goal with A : forall t' d, hides c t' -> _ |- _ => specialize (A c' (d + 1) Hc) end. lia. }
    pose proof (Q d _ _ H) as Z. destruct (q (d, Branch ch' w)); [rewrite (Z eq_refl); cbn [length]; lia|]. destruct (q (d, Branch ch w)); cbn [length]; lia.
  - cbn [subnodes filter]. pose proof (IH c' (d + 1) F) as X. pose proof (Q d _ _ H) as Z.
    destruct (q (d, Extension n c')); [rewrite (Z eq_refl); cbn [length]; lia|]. destruct (q (d, Extension n c)); cbn [length]; lia.
Qed.

Lemma subnodes_hides t : forall t' d x, hides t t' -> In x (subnodes d t') -> exists u, In (fst x, u) (subnodes d t) /\ hides u (snd x).
Proof.
  induction t as [|h|ch w IH|n c IH|n w] using node_ind'; intros t' d x H I; inversion H as [| |? ch' ? F|? ? c' F| |t0 N G]; subst;
    cbn [subnodes] in I; destruct I as [<-|I]; try (eexists; split; [left; reflexivity|exact H]); try contradiction.
  - apply in_flat_map in I. destruct I as (c' & Ic & I). clear H.
    assert (X : exists c, In c ch /\ hides c c') by (clear - F Ic; induction F; [contradiction|destruct Ic as [->|Ic]; [eexists; split; [left; reflexivity|assumption]|destruct (IHF Ic) as (? & ? & ?); eexists; split; [right; eassumption|assumption]]]).
    destruct X as (c & Ic0 & Hc). rewrite Forall_forall in IH. destruct (IH c Ic0 c' (d + 1) x Hc I) as (u & Iu & Hu).
    exists u. split; [|exact Hu]. cbn [subnodes]. right. apply in_flat_map. eauto.
  - destruct (IH c' (d + 1) x F I) as (u & Iu & Hu). exists u. split; [|exact Hu]. cbn [subnodes]. right. exact Iu.
Qed.

Lemma subnodes_shape t : forall d x, shape t -> In x (subnodes d t) -> shape (snd x) /\ incl (subnodes (fst x) (snd x)) (subnodes d t).
Proof.
  induction t as [|h|ch w IH|n c IH|n w] using node_ind'; intros d x Sh I; cbn [subnodes] in I; destruct I as [<-|I];
    try (split; [exact Sh|apply incl_refl]); try contradiction; inversion Sh; subst.
  - apply in_flat_map in I. destruct I as (c & Ic & I). rewrite Forall_forall in *. destruct (IH c Ic (d + 1) x ltac:(auto) I) as [A B].
    split; [exact A|]. intros y Iy. cbn [subnodes]. right. apply in_flat_map. exists c. auto.
  - destruct (IH (d + 1) x ltac:(assumption) I) as [A B]. split; [exact A|]. intros y Iy. cbn [subnodes]. right. auto.
Qed.

Lemma has_end t : forall d, shape t -> t <> Empty -> exists x, In x (subnodes d t) /\ is_hash_node x || is_leaf_node x = true /\ d <= fst x.
Proof.
  induction t as [|h|ch w IH|n c IH|n w] using node_ind'; intros d Sh N.
  - congruence.
  - exists (d, Hash h). split; [left; reflexivity|split; [reflexivity|cbn; lia]].
  - inversion Sh as [| |? ? Fs (c & Ic & Nc)| |]; subst. rewrite Forall_forall in *. destruct (IH c Ic (d + 1) (Fs c Ic) Nc) as (x & Ix & E & L).
    exists x. split; [cbn [subnodes]; right; apply in_flat_map; eauto|]. split; [exact E|lia].
  - inversion Sh as [| | |? ? Hn Bo Sc|]; subst. destruct (IH (d + 1) Sc) as (x & Ix & E & L); [intros ->; exact Bo|].
    exists x. split; [cbn [subnodes]; right; exact Ix|]. split; [exact E|lia].
  - exists (d, Leaf n w). split; [left; reflexivity|split; [reflexivity|cbn; lia]].
Qed.

Lemma deepest_hides t t' m m' : shape t -> hides t t' -> deepest (fun x => is_hash_node x || is_leaf_node x) t m ->
  deepest (fun x => is_hash_node x || is_leaf_node x) t' m' -> m' <= m.
Proof.
  intros Sh H [A _] [_ [->|(x & Ix & Ex & <-)]]; [lia|]. destruct (subnodes_hides t t' 0 x H Ix) as (u & Iu & Hu).
  destruct (subnodes_shape t 0 _ Sh Iu) as [Su In']. cbn [fst snd] in *.
  destruct (has_end u (fst x) Su) as (y & Iy & Ey & L).
  - intros ->. apply (hides_empty_iff keccak) in Hu as [Z _]. destruct x as [? v]. cbn in Z. rewrite (Z eq_refl) in Ex. discriminate.
  - specialize (A y (In' y Iy) Ey). lia.
Qed.
End X.
