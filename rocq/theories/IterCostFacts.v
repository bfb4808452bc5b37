(** The cost of an iteration (C67): exact, by a potential that every round of the loop uses up. *)
From Verif Require Import Base Nibbles Trie TrieFacts StatsSpec SizeFacts JsonSpec IterCost TrieSpec TrieFacts.
Open Scope N_scope.

(** * Costs as functions of the state *)
(** trie_ops.rs:161-196 [advance_iter_to_next_empty_leaf_or_hash_node]: the number of its calls, one for each node on the way down. *)
Fixpoint walk (t : node) : N :=
  match t with
  | Branch ch _ => 1 + match ch with c :: _ => walk c | [] => 0 end
  | Extension _ c => 1 + walk c
  | _ => 1
  end.

(** trie_ops.rs:206-256: one round of the loop costs one, and one more for each node that it looks at. A round that finds the stack empty
    (208-211) costs nothing. *)
Definition round_cost (st : iter) : N :=
  match trie_stack st with
  | [] => 0
  | SRoot t :: _ => 1 + walk t
  | SExtension _ :: _ => 1
  | SBranch ch _ i :: _ => 1 + (if i <=? 15 then walk (nth (N.to_nat i) ch Empty) else 0)
  end.

(** trie_ops.rs:202-260: one call of [next]; follows [next] of Trie.v. *)
Fixpoint next_cost (fuel : nat) (pr : profile) (st : iter) : N :=
  match fuel with
  | O => 0
  | S fuel' =>
      round_cost st +
      match next_step pr st with
      | Ok (Some (st', None)) => next_cost fuel' pr st'
      | _ => 0
      end
  end.

(** All calls of [next] until it returns [None]; follows [collect] of Trie.v. *)
Fixpoint collect_cost (calls fuel : nat) (pr : profile) (st : iter) : N :=
  match calls with
  | O => 0
  | S calls' =>
      next_cost fuel pr st +
      match next fuel pr st with
      | Some (Ok (st', Some _)) => collect_cost calls' fuel pr st'
      | _ => 0
      end
  end.
Definition items_cost (fuel : nat) (pr : profile) (t : node) : N := collect_cost fuel fuel pr (items_iter t).

(** Arity of branches: all that is needed of a trie. *)
Inductive arity : node -> Prop :=
| A_empty : arity Empty
| A_hash h : arity (Hash h)
| A_branch ch v : length ch = 16%nat -> Forall arity ch -> arity (Branch ch v)
| A_ext n c : arity c -> arity (Extension n c)
| A_leaf n v : arity (Leaf n v).

Lemma wf_arity L t : wf L t -> arity t.
Proof.
  revert L. induction t as [|h|ch w IH|n c IH|n w] using node_ind'; intros L W; try constructor.
  - inversion W; assumption.
  - inversion W as [|?|? ? ? L16 F|?|?]; subst. rewrite Forall_forall in *. intros c I. eapply IH; [exact I|]. apply F. exact I.
  - inversion W; subst. eapply IH. eassumption.
Qed.

(** * The potential *)
Fixpoint total (t : node) : N :=
  match t with
  | Branch ch _ => 17 + sum (map total ch)
  | Extension _ c => 1 + (match c with Hash _ => 0 | _ => 1 end) + total c
  | _ => 1
  end.
Definition pot1 (e : stack_entry) : N :=
  match e with
  | SRoot t => 1 + total t
  | SExtension _ => 1
  | SBranch ch _ i => (17 - i) + sum (map total (skipn (N.to_nat i) ch))
  end.
Definition pot (st : iter) : N := sum (map pot1 (trie_stack st)).
Definition entry_ok (e : stack_entry) : Prop :=
  match e with
  | SRoot t => arity t
  | SExtension _ => True
  | SBranch ch _ i => 1 <= i <= 16 /\ length ch = 16%nat /\ Forall arity ch
  end.
Definition st_ok (st : iter) : Prop := Forall entry_ok (trie_stack st).

Lemma bind_ok {A B} (m : res A) (f : A -> res B) b : bind m f = Ok b -> exists a, m = Ok a /\ f a = Ok b.
Proof. destruct m as [a|]; cbn [bind]; intros H; [exists a; auto|discriminate]. Qed.

Lemma advance_pot pr t : forall key st st' r, arity t -> st_ok st -> advance pr t key st = Ok (st', r) -> st_ok st' /\ walk t + pot st' = total t + pot st.
Proof.
  induction t as [|h|ch w IH|n c IH|n w] using node_ind'; intros key st st' r A S E; cbn [advance] in E.
  - injection E as <- <-. cbn [walk total]. auto.
  - injection E as <- <-. cbn [walk total]. auto.
  - inversion A as [|?|? ? L F|?|?]; subst. apply bind_ok in E. destruct E as (k' & _ & E).
    destruct ch as [|c ch]; [discriminate|]. cbn [with_child] in E.
    assert (S1 : st_ok (Iter key (SBranch (c :: ch) w 1 :: trie_stack st))).
    { constructor; [|exact S]. cbn [entry_ok]. split; [lia|]. split; assumption. }
    destruct (Forall_inv IH k' _ st' r (Forall_inv F) S1 E) as [S' P]. split; [exact S'|].
    cbn [walk total map sum fold_right]. unfold sum in *. unfold pot in *. cbn [map trie_stack pot1 fold_right sum] in *. change (skipn (N.to_nat 1) (c :: ch)) with ch in P. unfold sum in *. cbn [fold_right] in P. lia.
  - inversion A; subst. apply bind_ok in E. destruct E as (k' & _ & E).
    destruct c as [|h|ch w|m c|m w]; cbv zeta in E; cbn match in E.
    2:{ destruct (IH k' _ st' r ltac:(assumption) S E) as [S' P]. split; [exact S'|]. cbn [walk total] in *. lia. }
    all: destruct (IH k' (Iter (curr_key_after_last_branch st) (SExtension (count n) :: trie_stack st)) st' r ltac:(assumption) (Forall_cons _ (Logic.I : entry_ok (SExtension (count n))) S) E) as [S' P]; split; [exact S'|];
      unfold pot in *; cbn [map trie_stack pot1 sum fold_right] in P; unfold sum in *; cbn [fold_right] in P.
    + change (walk (Extension n Empty)) with (1 + walk Empty). change (total (Extension n Empty)) with (1 + 1 + total Empty). lia.
    + change (walk (Extension n (Branch ch w))) with (1 + walk (Branch ch w)). change (total (Extension n (Branch ch w))) with (1 + 1 + total (Branch ch w)). lia.
    + change (walk (Extension n (Extension m c))) with (1 + walk (Extension m c)). change (total (Extension n (Extension m c))) with (1 + 1 + total (Extension m c)). lia.
    + change (walk (Extension n (Leaf m w))) with (1 + walk (Leaf m w)). change (total (Extension n (Leaf m w))) with (1 + 1 + total (Leaf m w)). lia.
  - apply bind_ok in E. destruct E as (k' & _ & E). injection E as <- <-. cbn [walk total]. auto.
Qed.

Lemma skipn_nth (l : list node) i : (i < length l)%nat -> skipn i l = nth i l Empty :: skipn (S i) l.
Proof. revert i. induction l as [|x l IH]; intros [|i] H; cbn [length] in H; try lia; [reflexivity|]. cbn [skipn nth]. apply IH. lia. Qed.

Lemma step_pot pr st st' r : st_ok st -> next_step pr st = Ok (Some (st', r)) -> st_ok st' /\ round_cost st + pot st' = pot st.
Proof.
  destruct st as [key [|e rest]]; intros S E; unfold next_step in E; cbn [trie_stack curr_key_after_last_branch] in E; [discriminate|].
  inversion S as [|? ? Se Sr]; subst. unfold round_cost. cbn [trie_stack].
  destruct e as [t|n|ch w i].
  - apply bind_ok in E. destruct E as ([st1 r1] & E & Q). injection Q as <- <-. apply advance_pot in E; [|exact Se|exact Sr].
    destruct E as [S1 P]. split; [exact S1|]. unfold pot in *. cbn [trie_stack map pot1 sum fold_right] in *. unfold sum in *. cbn [fold_right]. lia.
  - apply bind_ok in E. destruct E as (k' & _ & Q). injection Q as <- <-. split; [exact Sr|]. unfold pot. cbn [trie_stack map pot1 sum fold_right]. reflexivity.
  - destruct Se as (Hi & L & F). destruct (N.leb_spec 1 i) as [H1|H1]; [|lia]. cbn [andb] in E. destruct (N.leb_spec i 15) as [H15|H15].
    + apply bind_ok in E. destruct E as (k' & _ & E). apply bind_ok in E. destruct E as ([st1 r1] & E & Q). injection Q as <- <-.
      rewrite with_child_ok in E by (assumption || lia). unfold child in E. apply advance_pot in E.
      * destruct E as [S1 P]. split; [exact S1|]. unfold pot in *. cbn [trie_stack map pot1] in *. unfold sum in *. cbn [fold_right] in *.
        rewrite (skipn_nth ch (N.to_nat i)) by lia. cbn [map fold_right]. rewrite Nnat.N2Nat.inj_add in P. change (N.to_nat 1) with 1%nat in P. rewrite Nat.add_1_r in P. lia.
      * rewrite Forall_forall in F. apply F. apply nth_In. lia.
      * constructor; [|exact Sr]. cbn [entry_ok]. split; [lia|]. auto.
    + assert (i = 16) by lia. subst i. change (16 =? 16) with true in E. cbn match in E. apply bind_ok in E. destruct E as (k' & _ & Q). injection Q as <- <-.
      split; [exact Sr|]. unfold pot. cbn [trie_stack map pot1]. unfold sum. cbn [fold_right].
      rewrite skipn_all2 by (rewrite L; apply Nat.le_refl). cbn [map fold_right]. lia.
Qed.

Lemma next_pot pr fuel : forall st st' r, st_ok st -> next fuel pr st = Some (Ok (st', r)) -> st_ok st' /\ next_cost fuel pr st + pot st' = pot st /\ (r = None -> pot st' = 0).
Proof.
  induction fuel as [|fuel IH]; intros st st' r S E; cbn [next next_cost] in *; [discriminate|].
  destruct (next_step pr st) as [[[st1 [it|]]|]|] eqn:N; [|..]; try discriminate.
  - injection E as <- <-. destruct (step_pot _ _ _ _ S N) as [S1 P]. split; [exact S1|]. split; [lia|discriminate].
  - destruct (step_pot _ _ _ _ S N) as [S1 P]. destruct (IH _ _ _ S1 E) as (S2 & P2 & Z). split; [exact S2|]. split; [lia|exact Z].
  - injection E as <- <-. split; [exact S|]. destruct st as [key [|e rest]].
    + split; [reflexivity|]. intros _. reflexivity.
    + exfalso. clear - N. unfold next_step in N. cbn [trie_stack] in N. destruct e; cbn in N;
        repeat match type of N with context [if ?b then _ else _] => destruct b | context [bind ?m _] => destruct m; cbn [bind] in N end; discriminate.
Qed.

Lemma collect_pot pr fuel calls : forall st l, st_ok st -> collect calls fuel pr st = Some (Ok l) -> collect_cost calls fuel pr st = pot st.
Proof.
  induction calls as [|calls IH]; intros st l S E; cbn [collect collect_cost] in *; [discriminate|].
  destruct (next fuel pr st) as [[[st1 [it|]]|]|] eqn:N; try discriminate.
  - destruct (next_pot _ _ _ _ _ S N) as (S1 & P & _). destruct (collect calls fuel pr st1) as [[l1|]|] eqn:C; try discriminate.
    rewrite (IH _ _ S1 C). exact P.
  - destruct (next_pot _ _ _ _ _ S N) as (_ & P & Z). specialize (Z eq_refl). lia.
Qed.

Lemma total_counts t : N.of_nat (c_of (fun _ => true) t) + 16 * N.of_nat (c_of is_branch_node t) + N.of_nat (c_of is_live_extension t) = total t.
Proof.
  induction t as [|h|ch w IH|n c IH|n w] using node_ind'; try reflexivity.
  - rewrite !c_branch by (intros a b x; reflexivity). cbn [is_branch_node is_live_extension snd total].
    assert (G : N.of_nat (list_sum (map (c_of (fun _ => true)) ch)) + 16 * N.of_nat (list_sum (map (c_of is_branch_node) ch)) + N.of_nat (list_sum (map (c_of is_live_extension) ch)) = sum (map total ch)); [|lia].
    clear - IH. induction IH as [|c ch E F IH]; [reflexivity|]. cbn [map]. unfold list_sum, sum in *. cbn [fold_right]. lia.
  - rewrite !c_ext by (intros a b x; reflexivity).
    destruct c; cbn [is_branch_node is_live_extension snd]; cbn [total] in *; lia.
Qed.

(** * The stack *)
Definition room1 (e : stack_entry) : N :=
  match e with
  | SRoot t => N.max 1 (height t)
  | SExtension _ => 1
  | SBranch ch _ _ => 1 + fold_right N.max 0 (map height ch)
  end.
Fixpoint room (H : N) (stk : list stack_entry) : Prop :=
  match stk with [] => True | e :: rest => N.of_nat (length rest) + room1 e <= H /\ room H rest end.

Lemma height_pos_stack t key st pr st' r H : advance pr t key st = Ok (st', r) -> room H (trie_stack st) -> N.of_nat (length (trie_stack st)) + height t <= H ->
  room H (trie_stack st').
Proof.
  revert key st st' r. induction t as [|h|ch w IH|n c IH|n w] using node_ind'; intros key st st' r E R B; cbn [advance] in E.
  - injection E as <- <-. exact R.
  - injection E as <- <-. exact R.
  - apply bind_ok in E. destruct E as (k' & _ & E). destruct ch as [|c ch]; [discriminate|]. cbn [with_child] in E.
    refine (Forall_inv IH k' _ st' r E _ _); cbn [trie_stack length room room1]; cbn [height map fold_right] in *; [split; [lia|exact R]|lia].
  - apply bind_ok in E. destruct E as (k' & _ & E).
    destruct c as [|h|ch w|m c|m w]; cbv zeta in E; cbn match in E.
    2:{ refine (IH k' _ st' r E R _). cbn [height] in *. lia. }
    all: refine (IH k' _ st' r E _ _); cbn [trie_stack length room room1]; [split; [|exact R]|];
      match type of B with _ + height (Extension _ ?c) <= _ => change (height (Extension n c)) with (1 + height c) in B end; lia.
  - apply bind_ok in E. destruct E as (k' & _ & E). injection E as <- <-. exact R.
Qed.

Lemma max_le c ch : In c ch -> height c <= fold_right N.max 0 (map height ch).
Proof. induction ch as [|x ch IH]; intros I; [contradiction|]. cbn [map fold_right]. destruct I as [->|I]; [lia|]. specialize (IH I). lia. Qed.

Lemma step_room pr H st st' r : room H (trie_stack st) -> next_step pr st = Ok (Some (st', r)) -> room H (trie_stack st').
Proof.
  destruct st as [key [|e rest]]; intros R E; unfold next_step in E; cbn [trie_stack curr_key_after_last_branch] in E; [discriminate|].
  cbn [trie_stack room] in R. destruct R as [B R]. destruct e as [t|n|ch w i].
  - apply bind_ok in E. destruct E as ([st1 r1] & E & Q). injection Q as <- <-. cbn [room1] in B. refine (height_pos_stack _ _ _ _ _ _ _ E R _). cbn [trie_stack]. lia.
  - apply bind_ok in E. destruct E as (k' & _ & Q). injection Q as <- <-. exact R.
  - destruct ((1 <=? i) && (i <=? 15)).
    + apply bind_ok in E. destruct E as (k' & _ & E). apply bind_ok in E. destruct E as ([st1 r1] & E & Q). injection Q as <- <-.
      rewrite with_child_nth in E. destruct (nth_error ch (N.to_nat i)) as [c|] eqn:Nc; [|discriminate].
      pose proof (max_le c ch (nth_error_In _ _ Nc)) as M. cbn [room1] in B.
      refine (height_pos_stack _ _ _ _ _ _ _ E _ _); cbn [trie_stack room room1 length]; [split; [exact B|exact R]|lia].
    + destruct (i =? 16); [|discriminate]. apply bind_ok in E. destruct E as (k' & _ & Q). injection Q as <- <-. exact R.
Qed.

Lemma rounds_room pr H n : forall st st', room H (trie_stack st) -> after_rounds n pr st = Some st' -> room H (trie_stack st').
Proof.
  induction n as [|n IH]; intros st st' R E; cbn [after_rounds] in E; [injection E as <-; exact R|].
  destruct (next_step pr st) as [[[st1 r]|]|] eqn:N; try discriminate. exact (IH _ _ (step_room _ _ _ _ _ R N) E).
Qed.

(** * The iterator with a counter is the iterator *)
Lemma cwith_nth {A} (f : node -> counted A) ch i : cwith_child f ch i = match nth_error ch i with Some c => f c | None => clift Panic end.
Proof. revert i. induction ch as [|c ch IH]; intros [|i]; cbn [cwith_child nth_error]; try reflexivity. apply IH. Qed.
Lemma snd_cbind {A B} (m : counted A) (f : A -> counted B) : snd (cbind m f) = bind (snd m) (fun a => snd (f a)).
Proof. unfold cbind. destruct (snd m); reflexivity. Qed.

Lemma cadvance_snd pr t : forall key st, snd (cadvance pr t key st) = advance pr t key st.
Proof.
  induction t as [|h|ch w IH|n c IH|n w] using node_ind'; intros key st; cbn [cadvance advance]; unfold step; cbn [snd cret]; try reflexivity.
  - rewrite snd_cbind. cbn [clift snd]. destruct (push_nibble_back key 0) as [k'|]; cbn [bind]; [|reflexivity].
    rewrite cwith_nth, with_child_nth. destruct ch as [|c ch]; cbn [nth_error]; [reflexivity|]. apply (Forall_inv IH).
  - rewrite snd_cbind. cbn [clift snd]. destruct (merge_nibbles pr key n) as [k'|]; cbn [bind]; [|reflexivity]. apply IH.
  - rewrite snd_cbind. cbn [clift snd cret]. reflexivity.
Qed.
Lemma cadvance_fst pr t : forall key st r, advance pr t key st = Ok r -> fst (cadvance pr t key st) = walk t.
Proof.
  induction t as [|h|ch w IH|n c IH|n w] using node_ind'; intros key st r E; cbn [cadvance advance] in *; unfold step; cbn [fst cret walk]; try reflexivity.
  - unfold cbind. cbn [clift snd fst]. destruct (push_nibble_back key 0) as [k'|]; cbn [bind] in E; [|discriminate]. cbn [fst].
    destruct ch as [|c ch]; [discriminate|]. cbn [with_child cwith_child] in *. rewrite (Forall_inv IH _ _ _ E). lia.
  - unfold cbind. cbn [clift snd fst]. destruct (merge_nibbles pr key n) as [k'|]; cbn [bind] in E; [|discriminate]. cbn [fst]. rewrite (IH _ _ _ E). lia.
  - unfold cbind. cbn [clift snd fst]. destruct (merge_nibbles pr key n) as [k'|]; cbn [bind] in E; [|discriminate]. reflexivity.
Qed.
Lemma cnext_step_snd pr st : snd (cnext_step pr st) = next_step pr st.
Proof.
  destruct st as [key [|e rest]]; unfold cnext_step, next_step; cbn [trie_stack curr_key_after_last_branch]; [reflexivity|]. unfold step. cbn [snd]. destruct e as [t|n|ch w i].
  - rewrite snd_cbind, cadvance_snd. reflexivity.
  - rewrite snd_cbind. reflexivity.
  - destruct ((1 <=? i) && (i <=? 15)).
    + rewrite snd_cbind. cbn [clift snd]. destruct (merge_nibble key i) as [k'|]; cbn [bind]; [|reflexivity]. rewrite snd_cbind, cwith_nth, with_child_nth.
      destruct (nth_error ch (N.to_nat i)) as [c|]; [|reflexivity]. rewrite cadvance_snd. reflexivity.
    + destruct (i =? 16); [|reflexivity]. rewrite snd_cbind. reflexivity.
Qed.
Lemma cnext_step_fst pr st o : st_ok st -> next_step pr st = Ok o -> fst (cnext_step pr st) = round_cost st.
Proof.
  destruct st as [key [|e rest]]; intros S E; unfold cnext_step, round_cost; unfold next_step in E; cbn [trie_stack curr_key_after_last_branch] in *; [reflexivity|].
  unfold step. cbn [fst]. inversion S as [|? ? Se Sr]; subst. destruct e as [t|n|ch w i].
  - apply bind_ok in E. destruct E as (r & E & _). unfold cbind. rewrite cadvance_snd, E. cbn [fst cret]. rewrite (cadvance_fst _ _ _ _ _ E). lia.
  - apply bind_ok in E. destruct E as (k' & E & _). unfold cbind. cbn [clift snd]. rewrite E. reflexivity.
  - destruct Se as (Hi & L & F). destruct (N.leb_spec 1 i) as [H1|H1]; [|lia]. cbn [andb] in *. destruct (N.leb_spec i 15) as [H15|H15].
    + apply bind_ok in E. destruct E as (k' & E1 & E). apply bind_ok in E. destruct E as (r & E & _). unfold cbind at 1. cbn [clift snd fst]. rewrite E1. cbn [fst].
      rewrite with_child_ok in E by (assumption || lia). unfold child in E. unfold cbind. rewrite cwith_nth, (nth_error_nth' ch Empty) by lia.
      rewrite cadvance_snd, E. cbn [fst cret]. rewrite (cadvance_fst _ _ _ _ _ E). lia.
    + assert (i = 16) by lia. subst i. change (16 =? 16) with true in *. cbn match in *. apply bind_ok in E. destruct E as (k' & E & _). unfold cbind. cbn [clift snd]. rewrite E. reflexivity.
Qed.
Lemma cnext_snd pr fuel : forall st, snd (cnext fuel pr st) = next fuel pr st.
Proof.
  induction fuel as [|fuel IH]; intros st; cbn [cnext next]; [reflexivity|]. cbv zeta. rewrite cnext_step_snd.
  destruct (next_step pr st) as [[[st1 [it|]]|]|]; cbn [snd]; try reflexivity. apply IH.
Qed.
Lemma cnext_fst pr fuel : forall st r, st_ok st -> next fuel pr st = Some (Ok r) -> fst (cnext fuel pr st) = next_cost fuel pr st.
Proof.
  induction fuel as [|fuel IH]; intros st r S E; cbn [cnext next next_cost] in *; [discriminate|]. cbv zeta. rewrite cnext_step_snd.
  destruct (next_step pr st) as [[[st1 [it|]]|]|] eqn:N; cbn [fst]; try discriminate; rewrite (cnext_step_fst _ _ _ S N); try lia.
  rewrite (IH st1 r (proj1 (step_pot _ _ _ _ S N)) E). reflexivity.
Qed.
Lemma ccollect_snd pr fuel calls : forall st, snd (ccollect calls fuel pr st) = collect calls fuel pr st.
Proof.
  induction calls as [|calls IH]; intros st; cbn [ccollect collect]; [reflexivity|]. cbv zeta. rewrite cnext_snd.
  destruct (next fuel pr st) as [[[st1 [it|]]|]|]; cbn [snd]; try reflexivity. rewrite IH. reflexivity.
Qed.
Lemma ccollect_fst pr fuel calls : forall st l, st_ok st -> collect calls fuel pr st = Some (Ok l) -> fst (ccollect calls fuel pr st) = pot st.
Proof.
  intros st l S E. rewrite <- (collect_pot pr fuel calls st l S E). revert st l S E.
  induction calls as [|calls IH]; intros st l S E; cbn [ccollect collect collect_cost] in *; [discriminate|]. cbv zeta. rewrite cnext_snd.
  destruct (next fuel pr st) as [[[st1 [it|]]|]|] eqn:N; cbn [fst]; try discriminate; rewrite (cnext_fst _ _ _ _ S N); try lia.
  destruct (collect calls fuel pr st1) as [[l1|]|] eqn:C; try discriminate. rewrite (IH _ _ (proj1 (next_pot _ _ _ _ _ S N)) C). reflexivity.
Qed.
