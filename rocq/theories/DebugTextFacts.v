(** The [Debug] output: the builders write the specified texts, and these can be read back. *)
From Coq Require Import String.
From Verif Require Import Base Nibbles NibblesSpec NibblesFacts NibblesFacts2 NibblesFacts3 Trie TrieSpec Query Diff P_Query Text TextSpec TextFacts.
From Verif Require Import Rlp Hashing Cache Subset DebugText DebugTextSpec.
Open Scope N_scope.
Open Scope list_scope.

(** ** Induction *)
Section Ind.
  Variable P : dbg -> Prop.
  Hypothesis HW : forall w, P (DWord w).
  Hypothesis HS : forall s, P (DText s).
  Hypothesis HT : forall name l, Forall P l -> P (DTuple name l).
  Hypothesis HR : forall name l, Forall (fun x => P (snd x)) l -> P (DStruct name l).
  Hypothesis HL : forall l, Forall P l -> P (DList l).
  Fixpoint dbg_ind' (d : dbg) : P d :=
    match d with
    | DWord w => HW w
    | DText s => HS s
    | DTuple name l => HT name l ((fix go l : Forall P l := match l with [] => Forall_nil P | x :: l' => Forall_cons x (dbg_ind' x) (go l') end) l)
    | DStruct name l => HR name l ((fix go l : Forall (fun x => P (snd x)) l :=
        match l with [] => Forall_nil _ | x :: l' => Forall_cons x (dbg_ind' (snd x)) (go l') end) l)
    | DList l => HL l ((fix go l : Forall P l := match l with [] => Forall_nil P | x :: l' => Forall_cons x (dbg_ind' x) (go l') end) l)
    end.
End Ind.

(** ** What occurs *)
Definition wc (c : N) : bool := word c || (c =? 95) || (c =? 60) || (c =? 62) || (c =? 45) || (c =? 46).
Definition wl (l : list N) : Prop := l <> [] /\ Forall (fun c => wc c = true) l.
Inductive dok : dbg -> Prop :=
| ok_word w : wl w -> dok (DWord w)
| ok_text s : Forall (fun c => c <> 10) s -> dok (DText s)
| ok_tuple name l : wl name -> l <> [] -> Forall dok l -> dok (DTuple name l)
| ok_struct name l : wl name -> l <> [] -> Forall (fun x => wl (fst x)) l -> Forall (fun x => dok (snd x)) l -> dok (DStruct name l)
| ok_list l : Forall dok l -> dok (DList l).

(** ** One line *)
Definition field_text (g : dbg -> list N) (x : list N * dbg) : list N := fst x ++ txt ": " ++ g (snd x).
Lemma put_tuple name l : l <> [] -> put false (DTuple name l) = name ++ txt "(" ++ commas (map (put false) l) ++ txt ")".
Proof.
  intros Ne. destruct l as [|x l]; [congruence|]. cbn [put]. f_equal. cbn [map]. rewrite <- app_assoc. f_equal. revert x Ne.
  induction l as [|y l IH]; intros x _; [reflexivity|]. unfold commas in *. cbn [join map] in *. rewrite <- !app_assoc. f_equal. f_equal. apply IH. discriminate.
Qed.
Lemma put_struct name l : l <> [] -> put false (DStruct name l) = name ++ txt " { " ++ commas (map (field_text (put false)) l) ++ txt " }".
Proof.
  intros Ne. destruct l as [|x l]; [congruence|]. cbn [put]. f_equal. cbn [map]. revert x Ne.
  assert (G : forall (x : list N * dbg) (l : list (list N * dbg)), (let (f, d) := x in (txt " { " ++ f ++ txt ": " ++ put false d) ++
     (fix go (has_fields : bool) (l : list (list N * dbg)) {struct l} : list N :=
         match l with
         | [] => if has_fields then txt " }" else []
         | (f, x) :: l' => ((if has_fields then txt ", " else txt " { ") ++ f ++ txt ": " ++ put false x) ++ go true l'
         end) true l) = txt " { " ++ commas (field_text (put false) x :: map (field_text (put false)) l) ++ txt " }").
  2: { intros [f d] _. exact (G (f, d) l). }
  clear l. intros x l. revert x. induction l as [|y l IH]; intros [f d].
  - unfold commas, field_text. cbn [join map fst snd]. rewrite <- !app_assoc. reflexivity.
  - specialize (IH y). destruct y as [f' d']. unfold commas in *. cbn [join map] in *. rewrite <- !app_assoc. f_equal. unfold field_text at 1. cbn [fst snd].
    rewrite <- !app_assoc in *. rewrite !app_inv_head_iff in *. exact IH.
Qed.
Lemma put_list l : put false (DList l) = txt "[" ++ commas (map (put false) l) ++ txt "]".
Proof.
  destruct l as [|x l]; [reflexivity|]. cbn [put map]. f_equal. revert x.
  induction l as [|y l IH]; intros x; [reflexivity|]. unfold commas in *. cbn [join map] in *. specialize (IH y).
  rewrite <- !app_assoc, ?app_nil_l in *. rewrite !app_inv_head_iff in *. exact IH.
Qed.

(** ** Reading back *)
Definition stop (r : list N) : Prop :=
  match r with [] => True | c :: r' => c = 44 \/ c = 41 \/ c = 93 \/ c = 32 /\ match r' with c' :: _ => c' = 125 | [] => False end end.
Definition ends (r : list N) : Prop := match r with [] => True | c :: _ => wc c = false end.
Lemma stop_ends r : stop r -> ends r.
Proof. destruct r as [|c r]; [auto|]. cbn [stop ends]. intros [->|[->|[->|[-> _]]]]; reflexivity. Qed.

Lemma peel_wc a b r s : Forall (fun c => wc c = true) a -> Forall (fun c => wc c = true) b -> ends r -> ends s -> a ++ r = b ++ s -> a = b /\ r = s.
Proof.
  intros A. revert b. induction A as [|x a X A IH]; intros b B R S E.
  - destruct B as [|y b Y B]; [auto|]. cbn [app] in E. subst r. cbn in R. congruence.
  - destruct B as [|y b Y B]; cbn [app] in E.
    + subst s. cbn in S. congruence.
    + injection E as -> E. destruct (IH b B R S E). subst. auto.
Qed.

Lemma escape_inj s : forall s' r r', escape s ++ 34 :: r = escape s' ++ 34 :: r' -> s = s' /\ r = r'.
Proof.
  induction s as [|c s IH]; intros [|c' s'] r r' E; unfold escape in *; cbn [flat_map app] in *.
  - injection E. auto.
  - exfalso. destruct (N.eqb_spec c' 34) as [->|C]; [discriminate|]. cbn [orb] in E. destruct (c' =? 92); [discriminate|]. injection E as E _. congruence.
  - exfalso. destruct (N.eqb_spec c 34) as [->|C]; [discriminate|]. cbn [orb] in E. destruct (c =? 92); [discriminate|]. injection E as E _. congruence.
  - assert (G : c = c' /\ flat_map (fun c => if (c =? 34) || (c =? 92) then [92; c] else [c]) s ++ 34 :: r =
                          flat_map (fun c => if (c =? 34) || (c =? 92) then [92; c] else [c]) s' ++ 34 :: r').
    { destruct ((c =? 34) || (c =? 92)) eqn:B, ((c' =? 34) || (c' =? 92)) eqn:B'; cbn [app] in E; injection E; intros; subst; auto; exfalso; cbn in *; congruence. }
    destruct G as [-> G]. destruct (IH _ _ _ G) as [-> ->]. auto.
Qed.

(** What the text of a value starts with. *)
Definition opens (c : N) : Prop := wc c = true \/ c = 34 \/ c = 91.
Lemma put_head p d : dok d -> exists c r, put p d = c :: r /\ opens c.
Proof.
  assert (W : forall w r, wl w -> exists c r', w ++ r = c :: r' /\ opens c).
  { intros w r [Ne F]. destruct F as [|c w C F]; [congruence|]. exists c, (w ++ r). split; [reflexivity|left; exact C]. }
  intros [w H|s _|name l H _ _|name l H _ _ _|l _]; cbn [put].
  - destruct (W w [] H) as (c & r & E & O). rewrite app_nil_r in E. eauto.
  - eexists _, _. split; [reflexivity|right; left; reflexivity].
  - apply W, H.
  - apply W, H.
  - eexists _, _. split; [reflexivity|right; right; reflexivity].
Qed.

Section Items.
  Context {A : Type} (f : A -> list N) (ok : A -> Prop).
  Hypothesis head : forall x, ok x -> exists c r, f x = c :: r /\ opens c.
  Let back (x : A) : Prop := forall y r s, ok y -> stop r -> stop s -> f x ++ r = f y ++ s -> x = y /\ r = s.
  Lemma commas_back cl c0 r0 : cl = c0 :: r0 -> c0 <> 44 -> (forall r, stop (cl ++ r)) ->
    forall l m r s, Forall back l -> Forall ok l -> Forall ok m -> l <> [] -> m <> [] ->
    commas (map f l) ++ cl ++ r = commas (map f m) ++ cl ++ s -> l = m /\ r = s.
  Proof.
    intros -> C0 St. induction l as [|x l IH]; intros m r s B L M NL NM E; [congruence|]. destruct m as [|y m]; [congruence|].
    inversion B as [|? ? Bx B']; inversion L as [|? ? Lx L']; inversion M as [|? ? My M']; subst.
    unfold commas in E. cbn [map join] in E.
    assert (T : forall l r, exists q, stop q /\ (match map f l with [] => f x | _ :: _ => f x ++ txt ", " ++ join (txt ", ") (map f l) end) ++ (c0 :: r0) ++ r = f x ++ q /\
                q = (match map f l with [] => [] | _ :: _ => txt ", " ++ join (txt ", ") (map f l) end) ++ (c0 :: r0) ++ r).
    { clear - St. intros [|z l] r; cbn [map].
      - eexists. split; [|split; [reflexivity|reflexivity]]. apply St.
      - eexists. split; [|split; [rewrite <- !app_assoc; reflexivity|rewrite <- !app_assoc; reflexivity]]. left. reflexivity. }
    assert (T' : forall l r, exists q, stop q /\ (match map f l with [] => f y | _ :: _ => f y ++ txt ", " ++ join (txt ", ") (map f l) end) ++ (c0 :: r0) ++ r = f y ++ q /\
                q = (match map f l with [] => [] | _ :: _ => txt ", " ++ join (txt ", ") (map f l) end) ++ (c0 :: r0) ++ r).
    { clear - St. intros [|z l] r; cbn [map].
      - eexists. split; [|split; [reflexivity|reflexivity]]. apply St.
      - eexists. split; [|split; [rewrite <- !app_assoc; reflexivity|rewrite <- !app_assoc; reflexivity]]. left. reflexivity. }
    destruct (T l r) as (q & Sq & E1 & Q). destruct (T' m s) as (q' & Sq' & E2 & Q'). rewrite E1, E2 in E.
    destruct (Bx y q q' My Sq Sq' E) as [-> E']. subst q q'. clear - E' IH C0 B' L' M'.
    destruct l as [|x l], m as [|z m]; cbn [map app] in E'.
    - injection E' as E'. apply app_inv_head in E'. auto.
    - exfalso. injection E' as E' _. congruence.
    - exfalso. injection E' as E' _. congruence.
    - rewrite <- !app_assoc in E'. apply app_inv_head in E'. destruct (IH (z :: m) r s B' L' M' ltac:(discriminate) ltac:(discriminate) E') as [-> ->]. auto.
  Qed.
End Items.


Lemma wl_all l : wl l -> Forall (fun c => wc c = true) l.
Proof. intros [_ F]. exact F. Qed.
Lemma wl_not l r q : wl l -> ends q -> q <> [] -> l ++ r = q -> False.
Proof. intros [Ne F] C Nq E. destruct F as [|x l X F]; [congruence|]. subst q. cbn [app ends] in C. congruence. Qed.
Lemma field_head x : wl (fst x) /\ dok (snd x) -> exists c r, field_text (put false) x = c :: r /\ opens c.
Proof.
  intros [[Ne F] _]. unfold field_text. destruct x as [f d]. cbn [fst snd] in *. destruct F as [|c w C F]; [congruence|].
  eexists _, _. split; [reflexivity|left; exact C].
Qed.
Lemma put_back d : forall d' r r', dok d -> dok d' -> stop r -> stop r' -> put false d ++ r = put false d' ++ r' -> d = d' /\ r = r'.
Proof.
  induction d as [w|s|name l IH|name l IH|l IH] using dbg_ind'; intros d' r r' O O' S S' E;
    inversion O as [? Hw|? Hs|? ? Hn Hl Hd|? ? Hn Hl Hf Hd|? Hd]; subst; inversion O' as [w' Hw'|s' Hs'|name' l' Hn' Hl' Hd'|name' l' Hn' Hl' Hf' Hd'|l' Hd']; subst;
    rewrite ?put_tuple, ?put_struct, ?put_list in E by assumption; cbn [put] in E; rewrite <- ?app_assoc in E;
    try solve [exfalso; apply wl_not in E; [exact E|assumption|reflexivity|discriminate] | exfalso; symmetry in E; apply wl_not in E; [exact E|assumption|reflexivity|discriminate] | discriminate E];
    try solve [exfalso; apply peel_wc in E; [|apply wl_all; assumption|apply wl_all; assumption|reflexivity || (apply stop_ends; assumption)|reflexivity || (apply stop_ends; assumption)];
               destruct E as [_ E]; subst; try discriminate E; cbn in S; cbn in S';
               solve [destruct S as [S|[S|[S|[S S2]]]]; discriminate | destruct S' as [S'|[S'|[S'|[S' S2]]]]; discriminate]].
  - apply peel_wc in E; [|apply wl_all; assumption|apply wl_all; assumption|apply stop_ends; assumption|apply stop_ends; assumption]. destruct E as [-> ->]. auto.
  - cbn [app] in E. injection E as E. apply escape_inj in E as [-> ->]. auto.
  - apply peel_wc in E; [|apply wl_all; assumption|apply wl_all; assumption|reflexivity|reflexivity]. destruct E as [-> E]. cbn [app] in E. apply app_inv_head in E.
    apply (commas_back (put false) dok (txt ")") 41 []) in E as [-> ->]; auto; try discriminate.
    + intros q. right. left. reflexivity.
    + clear - IH Hd. rewrite Forall_forall in *. intros x Ix y q q' Oy Sq Sq' E. apply (IH x Ix); auto.
  - apply peel_wc in E; [|apply wl_all; assumption|apply wl_all; assumption|reflexivity|reflexivity]. destruct E as [-> E]. apply app_inv_head in E.
    apply (commas_back (field_text (put false)) (fun x => wl (fst x) /\ dok (snd x)) (txt " }") 32 [125]) in E as [-> ->]; auto; try discriminate.
    + intros q. right. right. right. cbn. auto.
    + clear - IH Hd Hf. rewrite Forall_forall in *. intros [f x] Ix [f' x'] q q' [Wf Oy] Sq Sq' E. unfold field_text in E. cbn [fst snd] in *. rewrite <- !app_assoc in E.
      apply peel_wc in E; [|apply wl_all; apply (Hf _ Ix)|apply wl_all, Wf|reflexivity|reflexivity]. destruct E as [-> E]. apply app_inv_head in E.
      destruct (IH _ Ix _ q q' (Hd _ Ix) Oy Sq Sq' E) as [X ->]. cbn [snd] in X. subst. auto.
    + apply Forall_and; assumption.
    + apply Forall_and; assumption.
  - cbn [app] in E. injection E as E. destruct l as [|x l], l' as [|y l'].
    + cbn in E. injection E as ->. auto.
    + exfalso. inversion Hd' as [|? ? Oy _]; subst. destruct (put_head false y Oy) as (c & q & P & C). unfold commas in E. cbn [map join] in E.
      destruct l'; cbn [map] in E; rewrite P in E; cbn [app] in E; injection E as <- _; destruct C as [C|[C|C]]; discriminate C.
    + exfalso. inversion Hd as [|? ? Oy _]; subst. destruct (put_head false x Oy) as (c & q & P & C). unfold commas in E. cbn [map join] in E.
      destruct l; cbn [map] in E; rewrite P in E; cbn [app] in E; injection E as -> _; destruct C as [C|[C|C]]; discriminate C.
    + apply (commas_back (put false) dok (txt "]") 93 []) in E as [-> ->]; auto; try discriminate.
      * intros q. right. right. left. reflexivity.
      * clear - IH Hd. rewrite Forall_forall in *. intros z Ix u q q' Oy Sq Sq' E. apply (IH z Ix); auto.
Qed.
Lemma put_inj d d' : dok d -> dok d' -> put false d = put false d' -> d = d'.
Proof. intros O O' E. apply (put_back d d' [] []); auto; try exact Logic.I. rewrite E. reflexivity. Qed.

(** ** Indented *)
Fixpoint tree (i : nat) (d : dbg) {struct d} : list N :=
  match d with
  | DWord w => w
  | DText s => [34] ++ escape s ++ [34]
  | DTuple name l => block i (name ++ txt "(") (map (tree (S i)) l) (txt ")")
  | DStruct name l => block i (name ++ txt " {") (map (fun x => fst x ++ txt ": " ++ tree (S i) (snd x)) l) (txt "}")
  | DList l => tall_list i (map (tree (S i)) l)
  end.

Fixpoint shift (i : nat) (on : bool) (l : list N) : list N :=
  match l with [] => [] | c :: l' => (if on then indent i else []) ++ c :: shift i (c =? 10) l' end.
Definition after (on : bool) (l : list N) : bool := fold_left (fun _ c => c =? 10) l on.
Lemma shift_app i l : forall on r, shift i on (l ++ r) = shift i on l ++ shift i (after on l) r.
Proof.
  induction l as [|c l IH]; intros on r; [reflexivity|]. cbn [app shift]. rewrite IH, <- app_assoc. reflexivity.
Qed.
Lemma shift_flat i l : Forall (fun c => c <> 10) l -> shift i false l = l.
Proof.
  induction 1 as [|c l C F IH]; [reflexivity|]. cbn [shift app]. destruct (N.eqb_spec c 10); [congruence|]. rewrite IH. reflexivity.
Qed.
Lemma after_flat l : Forall (fun c => c <> 10) l -> after false l = false.
Proof. unfold after. induction 1 as [|c l C F IH]; [reflexivity|]. cbn [fold_left]. destruct (N.eqb_spec c 10); [congruence|exact IH]. Qed.
Lemma shift_true i l : l <> [] -> shift i true l = indent i ++ shift i false l.
Proof. destruct l; [congruence|reflexivity]. Qed.
Lemma shift_indent i k r : shift i false (repeat 32 k ++ r) = repeat 32 k ++ shift i false r.
Proof. induction k as [|k IH]; [reflexivity|]. cbn [repeat app shift N.eqb Pos.eqb]. rewrite IH. reflexivity. Qed.
Lemma pad_shift l : forall i on, shift i on (pad on l) = shift (S i) on l.
Proof.
  induction l as [|c l IH]; intros i on; [reflexivity|]. cbn [pad shift]. destruct on.
  - change (txt "    ") with (repeat 32 4). cbn [repeat app shift N.eqb Pos.eqb]. rewrite IH.
    unfold indent. replace (4 * S i)%nat with (4 * i + 4)%nat by lia. rewrite repeat_app. rewrite <- app_assoc. reflexivity.
  - cbn [app shift]. rewrite IH. reflexivity.
Qed.
Lemma shift_zero l : forall on, shift 0 on l = l.
Proof. induction l as [|c l IH]; intros on; [reflexivity|]. cbn [shift]. rewrite IH. destruct on; reflexivity. Qed.

Lemma wl_flat l : Forall (fun c => wc c = true) l -> Forall (fun c => c <> 10) l.
Proof. intros F. eapply Forall_impl; [|exact F]. cbn. intros c C ->. discriminate C. Qed.
Lemma escape_flat s : Forall (fun c => c <> 10) s -> Forall (fun c => c <> 10) (escape s).
Proof.
  induction 1 as [|c s C F IH]; [constructor|]. unfold escape. cbn [flat_map]. apply Forall_app. split; [|exact IH].
  destruct (_ || _); repeat (constructor; [assumption || discriminate|]); constructor.
Qed.
Definition unbroken (l : list N) : Prop := forall on, after on l = false.
Lemma after_app on a b : after on (a ++ b) = after (after on a) b.
Proof. apply fold_left_app. Qed.
Lemma unbroken_app a b : unbroken b -> unbroken (a ++ b).
Proof. intros B on. rewrite after_app. apply B. Qed.
Lemma unbroken_last a c : c <> 10 -> unbroken (a ++ [c]).
Proof. intros C. apply unbroken_app. intros on. unfold after. cbn [fold_left]. apply N.eqb_neq, C. Qed.
Lemma unbroken_flat l : l <> [] -> Forall (fun c => c <> 10) l -> unbroken l.
Proof. intros Ne F. destruct (exists_last Ne) as (a & c & ->). apply unbroken_last. apply Forall_app in F as [_ F]. inversion F. assumption. Qed.

(** One item of a list, a tuple or a struct. *)
Lemma shift_item i x X r : shift (S i) false x = X -> x <> [] -> unbroken x ->
  shift i true (pad true (x ++ txt "," ++ [10]) ++ r) = indent (S i) ++ X ++ txt "," ++ newline ++ shift i true r.
Proof.
  intros E Ne U. rewrite shift_app, pad_shift. rewrite shift_true by (destruct x; discriminate || congruence). rewrite shift_app, E, U.
  assert (A : forall on, after on (pad true (x ++ txt "," ++ [10])) = true).
  { clear. intros on. assert (G : forall l a, pad a (l ++ [10]) = pad a l ++ (if after a l then txt "    " else []) ++ [10]).
    { induction l as [|c l IH]; intros a; [reflexivity|]. cbn [app pad]. rewrite IH. rewrite <- app_assoc. cbn [app]. reflexivity. }
    rewrite app_assoc, G, !after_app. reflexivity. }
  rewrite A. rewrite <- !app_assoc. reflexivity.
Qed.

Lemma shift_true_nil i c r : shift i true (c :: r) = indent i ++ c :: shift i (c =? 10) r.
Proof. reflexivity. Qed.
Lemma put_unbroken d : dok d -> unbroken (put true d) /\ put true d <> [].
Proof.
  intros O. split; [|destruct (put_head true d O) as (c & r & E & _); rewrite E; discriminate].
  assert (W : forall w, wl w -> unbroken w) by (intros w [Ne F]; apply unbroken_flat, wl_flat; assumption).
  destruct O as [w H|s H|name l H Ne _|name l H Ne _ _|l _]; cbn [put].
  - apply W, H.
  - apply unbroken_app, unbroken_last. discriminate.
  - apply unbroken_app. destruct l as [|x l]; [congruence|]. clear. revert x.
    assert (G : forall m, unbroken ((fix go (has_fields : bool) (l : list dbg) {struct l} : list N :=
         match l with
         | [] => if has_fields then txt ")" else []
         | x :: l' => ((if has_fields then [] else txt "(" ++ [10]) ++ pad true (put true x ++ txt "," ++ [10])) ++ go true l'
         end) true m)) by (induction m as [|y m IH]; [intros on; reflexivity|apply unbroken_app, IH]).
    intros x. apply unbroken_app, G.
  - apply unbroken_app. destruct l as [|x l]; [congruence|]. clear. revert x.
    assert (G : forall m, unbroken ((fix go (has_fields : bool) (l : list (list N * dbg)) {struct l} : list N :=
         match l with
         | [] => if has_fields then txt "}" else []
         | (f, x) :: l' => ((if has_fields then [] else txt " {" ++ [10]) ++ pad true (f ++ txt ": " ++ put true x ++ txt "," ++ [10])) ++ go true l'
         end) true m)) by (induction m as [|[f y] m IH]; [intros on; reflexivity|apply unbroken_app, IH]).
    intros [f x]. apply unbroken_app, G.
  - apply unbroken_app. destruct l as [|x l]; [intros on; reflexivity|]. revert x.
    assert (G : forall m, unbroken ((fix go (has_fields : bool) (l : list dbg) {struct l} : list N :=
         match l with
         | [] => txt "]"
         | x :: l' => ((if has_fields then [] else [10]) ++ pad true (put true x ++ txt "," ++ [10])) ++ go true l'
         end) true m)) by (induction m as [|y m IH]; [intros on; reflexivity|apply unbroken_app, IH]).
    intros x. apply unbroken_app, G.
Qed.

Definition lines (i : nat) (items : list (list N)) : list N := concat (map (fun x => indent (S i) ++ x ++ txt "," ++ newline) items).
Lemma shift_items {A} (f F : A -> list N) cl i (l : list A) :
  Forall (fun x => shift (S i) false (f x) = F x /\ f x <> [] /\ unbroken (f x)) l -> cl <> [] -> Forall (fun c => c <> 10) cl ->
  shift i true (fold_right (fun x r => pad true (f x ++ txt "," ++ [10]) ++ r) cl l) = lines i (map F l) ++ indent i ++ cl.
Proof.
  intros H Nc Fc. induction H as [|x l (E & Ne & U) H IH]; cbn [fold_right map].
  - unfold lines. cbn [map concat app]. rewrite shift_true by exact Nc. rewrite shift_flat by exact Fc. reflexivity.
  - rewrite (shift_item i (f x) (F x)) by assumption. rewrite IH. unfold lines. cbn [map concat]. rewrite <- !app_assoc. reflexivity.
Qed.
Lemma shift_block {A} (f F : A -> list N) op cl i (l : list A) :
  Forall (fun x => shift (S i) false (f x) = F x /\ f x <> [] /\ unbroken (f x)) l -> cl <> [] -> Forall (fun c => c <> 10) cl -> Forall (fun c => c <> 10) op ->
  shift i false (op ++ [10] ++ fold_right (fun x r => pad true (f x ++ txt "," ++ [10]) ++ r) cl l) = block i op (map F l) cl.
Proof.
  intros H Nc Fc Fo. rewrite !shift_app, !after_flat by exact Fo. rewrite (shift_flat i op Fo). unfold block. f_equal.
  change (shift i false [10]) with newline. f_equal. change (after false [10]) with true. rewrite (shift_items f F) by assumption. reflexivity.
Qed.

(** The builders, as folds. *)
Lemma put_tuple_tall name l : l <> [] ->
  put true (DTuple name l) = (name ++ txt "(") ++ [10] ++ fold_right (fun x r => pad true (put true x ++ txt "," ++ [10]) ++ r) (txt ")") l.
Proof.
  intros Ne. destruct l as [|x l]; [congruence|]. cbn [put fold_right]. rewrite <- !app_assoc. do 4 f_equal. clear Ne.
  induction l as [|y l IH]; [reflexivity|]. cbn [fold_right]. rewrite app_nil_l. f_equal. exact IH.
Qed.
Lemma put_list_tall l : l <> [] ->
  put true (DList l) = txt "[" ++ [10] ++ fold_right (fun x r => pad true (put true x ++ txt "," ++ [10]) ++ r) (txt "]") l.
Proof.
  intros Ne. destruct l as [|x l]; [congruence|]. cbn [put fold_right]. rewrite <- !app_assoc. do 3 f_equal. clear Ne.
  induction l as [|y l IH]; [reflexivity|]. cbn [fold_right]. rewrite app_nil_l. f_equal. exact IH.
Qed.
Lemma put_struct_tall name l : l <> [] ->
  put true (DStruct name l) = (name ++ txt " {") ++ [10] ++ fold_right (fun x r => pad true (field_text (put true) x ++ txt "," ++ [10]) ++ r) (txt "}") l.
Proof.
  intros Ne. destruct l as [|[f x] l]; [congruence|]. cbn [put fold_right]. unfold field_text at 1. cbn [fst snd]. rewrite <- !app_assoc. do 4 f_equal. clear Ne.
  induction l as [|[g y] l IH]; [reflexivity|]. cbn [fold_right]. unfold field_text at 1. cbn [fst snd]. rewrite app_nil_l, <- !app_assoc. f_equal. exact IH.
Qed.

Ltac flat_tac := repeat (constructor; [discriminate|]); constructor.
Lemma put_tree d : dok d -> forall i, shift i false (put true d) = tree i d.
Proof.
  induction d as [w|s|name l IH|name l IH|l IH] using dbg_ind'; intros O i;
    inversion O as [? [_ Hw]|? Hs|? ? [_ Hn] Hl Hd|? ? [_ Hn] Hl Hf Hd|? Hd]; subst.
  - apply shift_flat, wl_flat, Hw.
  - apply shift_flat. cbn [put]. apply Forall_app. split; [flat_tac|]. apply Forall_app. split; [apply escape_flat, Hs|flat_tac].
  - rewrite put_tuple_tall by exact Hl. cbn [tree]. apply shift_block; [|discriminate|flat_tac|apply Forall_app; split; [apply wl_flat, Hn|flat_tac]].
    rewrite Forall_forall in *. intros x Ix. destruct (put_unbroken x (Hd x Ix)) as [U Ne]. auto.
  - rewrite put_struct_tall by exact Hl. cbn [tree]. apply shift_block; [|discriminate|flat_tac|apply Forall_app; split; [apply wl_flat, Hn|flat_tac]].
    rewrite Forall_forall in *. intros [f x] Ix. destruct (put_unbroken x (Hd _ Ix)) as [U Ne]. destruct (Hf _ Ix) as [Nf Wf]. cbn [fst snd] in *. unfold field_text. cbn [fst snd].
    split; [|split; [destruct f; [congruence|discriminate]|apply unbroken_app, unbroken_app, U]].
    rewrite !shift_app. rewrite (shift_flat _ f) by (apply wl_flat, Wf). rewrite (after_flat f) by (apply wl_flat, Wf). do 2 f_equal. apply (IH _ Ix). exact (Hd _ Ix).
  - destruct l as [|x l]; [reflexivity|]. rewrite put_list_tall by discriminate. cbn [tree tall_list map].
    change (shift i false (txt "[" ++ [10] ++ fold_right (fun x r => pad true (put true x ++ txt "," ++ [10]) ++ r) (txt "]") (x :: l)) = block i (txt "[") (map (tree (S i)) (x :: l)) (txt "]")).
    apply shift_block; [|discriminate|flat_tac|flat_tac].
    rewrite Forall_forall in *. intros y Iy. destruct (put_unbroken y (Hd y Iy)) as [U Ne]. auto.
Qed.
Lemma put_tall d : dok d -> put true d = tree 0 d.
Proof. intros O. rewrite <- (put_tree d O 0). symmetry. apply shift_zero. Qed.

(** ** Back to one line *)
Definition same_after (r : list N) : Prop := forall p q, one_line (After p) r = one_line (After q) r.
Definition joined (x y : list N) : Prop :=
  (exists c r, x = c :: r /\ opens c) /\ forall p r, same_after r -> one_line (After p) (x ++ r) = y ++ one_line (After 0) r.
Lemma opens_not c : opens c -> c <> 10 /\ c <> 44 /\ c <> 32 /\ c <> 125 /\ c <> 41 /\ c <> 93.
Proof. intros [C|[->| ->]]; repeat split; try discriminate; intros ->; discriminate C. Qed.
Lemma same_comma r : same_after (txt "," ++ r).
Proof. intros p q. reflexivity. Qed.
Definition calm (l : list N) : Prop := Forall (fun c => c <> 10 /\ c <> 44) l.
Lemma one_line_plain l : calm l -> forall p r, exists q, one_line (After p) (l ++ r) = l ++ one_line (After q) r.
Proof.
  induction 1 as [|c l [C1 C2] F IH]; intros p r; [exists p; reflexivity|]. cbn [app one_line].
  destruct (N.eqb_spec c 10); [congruence|]. destruct (N.eqb_spec c 44); [congruence|]. destruct (IH c r) as [q ->]. exists q. reflexivity.
Qed.
Lemma one_line_to l c p r : calm l -> c <> 10 -> c <> 44 -> one_line (After p) (l ++ c :: r) = l ++ c :: one_line (After c) r.
Proof.
  intros F C1 C2. destruct (one_line_plain l F p (c :: r)) as [q ->]. cbn [one_line].
  destruct (N.eqb_spec c 10); [congruence|]. destruct (N.eqb_spec c 44); [congruence|]. reflexivity.
Qed.
Lemma broken_indent o k r : one_line (Broken o) (repeat 32 k ++ r) = one_line (Broken o) r.
Proof. induction k as [|k IH]; [reflexivity|]. cbn [repeat app one_line N.eqb Pos.eqb]. exact IH. Qed.

Definition gap (o : N) : list N := if o =? 44 then txt ", " else if o =? 123 then txt " " else [].
Lemma broken_item o x y r : joined x y -> same_after r -> one_line (Broken o) (x ++ r) = gap o ++ y ++ one_line (After 0) r.
Proof.
  intros ((c & x' & -> & C) & J) S. rewrite <- (J 0 r S). destruct (opens_not c C) as (C1 & C2 & C3 & C4 & C5 & C6). cbn [app one_line].
  destruct (N.eqb_spec c 32); [congruence|]. destruct (N.eqb_spec c 10); [congruence|]. destruct (N.eqb_spec c 44); [congruence|].
  unfold between, gap. destruct (N.eqb_spec c 125); [congruence|]. destruct (N.eqb_spec c 41); [congruence|]. destruct (N.eqb_spec c 93); [congruence|]. reflexivity.
Qed.
Lemma one_line_items (items : list (list N * list N)) i : forall o cl r,
  Forall (fun x => joined (fst x) (snd x)) items -> items <> [] -> cl = 125 \/ cl = 41 \/ cl = 93 ->
  one_line (Broken o) (lines i (map fst items) ++ indent i ++ cl :: r) = gap o ++ commas (map snd items) ++ (if cl =? 125 then txt " " else []) ++ cl :: one_line (After cl) r.
Proof.
  induction items as [|[x y] items IH]; intros o cl r F Ne C; [congruence|]. inversion F as [|? ? J F']; subst. cbn [fst snd] in J.
  unfold lines. cbn [map concat fst snd]. rewrite <- !app_assoc. unfold indent at 1. rewrite broken_indent.
  rewrite (broken_item o x y); [|exact J|apply same_comma]. f_equal. unfold commas. cbn [join map].
  match goal with |- context[one_line (After 0) (txt "," ++ newline ++ ?r)] => change (one_line (After 0) (txt "," ++ newline ++ r)) with (one_line (Broken 44) r) end.
  destruct items as [|[x' y'] items].
  - cbn [map concat app]. unfold indent. rewrite broken_indent. f_equal. destruct C as [->|[->| ->]]; reflexivity.
  - specialize (IH 44 cl r F' ltac:(discriminate) C). unfold lines in IH. rewrite IH. change (map snd ((x', y') :: items)) with (y' :: map snd items). cbv iota. rewrite <- !app_assoc. reflexivity.
Qed.

Lemma one_line_block op o i items cl p r : calm op -> o <> 10 -> o <> 44 ->
  Forall (fun x => joined (fst x) (snd x)) items -> items <> [] -> cl = 125 \/ cl = 41 \/ cl = 93 -> same_after r ->
  one_line (After p) (block i (op ++ [o]) (map fst items) [cl] ++ r) =
  op ++ [o] ++ gap o ++ commas (map snd items) ++ (if cl =? 125 then txt " " else []) ++ [cl] ++ one_line (After 0) r.
Proof.
  intros Fo O1 O2 F Ne C Sr. unfold block. rewrite <- !app_assoc. cbn [app]. rewrite one_line_to by assumption. do 2 f_equal.
  change (one_line (After o) (newline ++ ?x)) with (one_line (Broken o) x).
  pose proof (one_line_items items i o cl r F Ne C) as G. unfold lines in G. cbn [newline app one_line N.eqb Pos.eqb]. rewrite G. rewrite (Sr cl 0). reflexivity.
Qed.

Lemma wl_calm l : Forall (fun c => wc c = true) l -> calm l.
Proof. intros F. eapply Forall_impl; [|exact F]. cbn. intros c C. split; intros ->; discriminate C. Qed.
Lemma same_after_quote s : Forall (fun c => c <> 10) s -> forall st r, (forall c, st <> Broken c) -> same_after r ->
  one_line st (s ++ 34 :: r) = (match st with AfterComma => [44] | _ => [] end) ++ s ++ 34 :: one_line (After 0) r.
Proof.
  induction 1 as [|c s C F IH]; intros st r St Sr.
  - destruct st as [p| |o]; cbn [app one_line N.eqb Pos.eqb]; [|rewrite (Sr 34 0); reflexivity|destruct (St o eq_refl)]. rewrite (Sr 34 0). reflexivity.
  - destruct st as [p| |o]; [| |destruct (St o eq_refl)]; cbn [app one_line]; (destruct (N.eqb_spec c 10); [congruence|]).
    + destruct (N.eqb_spec c 44) as [->|]; rewrite IH by (congruence || assumption); reflexivity.
    + rewrite IH by (congruence || assumption). reflexivity.
Qed.

Lemma tree_head i d : dok d -> exists c r, tree i d = c :: r /\ opens c.
Proof.
  assert (W : forall w r, wl w -> exists c r', w ++ r = c :: r' /\ opens c).
  { intros w r [Ne F]. destruct F as [|c w C F]; [congruence|]. exists c, (w ++ r). split; [reflexivity|left; exact C]. }
  intros [w H|s _|name l H _ _|name l H _ _ _|l _]; cbn [tree]; unfold block; rewrite <- ?app_assoc.
  - destruct (W w [] H) as (c & r & E & O). rewrite app_nil_r in E. eauto.
  - eexists _, _. split; [reflexivity|right; left; reflexivity].
  - apply W, H.
  - apply W, H.
  - destruct l; (eexists _, _; split; [reflexivity|right; right; reflexivity]).
Qed.
Lemma map_pairs {A} (f g : A -> list N) l : map f l = map fst (map (fun x => (f x, g x)) l) /\ map g l = map snd (map (fun x => (f x, g x)) l).
Proof. rewrite !map_map. split; reflexivity. Qed.
Lemma put_joined d : dok d -> forall i, joined (tree i d) (put false d).
Proof.
  induction d as [w|s|name l IH|name l IH|l IH] using dbg_ind'; intros O i; (split; [apply tree_head, O|]); intros p r Sr;
    inversion O as [? [_ Hw]|? Hs|? ? [_ Hn] Hl Hd|? ? [_ Hn] Hl Hf Hd|? Hd]; subst.
  - cbn [tree put]. destruct (one_line_plain w (wl_calm w Hw) p r) as [q ->]. f_equal. apply Sr.
  - cbn [tree put]. rewrite <- !app_assoc. cbn [app one_line N.eqb Pos.eqb]. f_equal.
    rewrite same_after_quote; [reflexivity|apply escape_flat, Hs|discriminate|exact Sr].
  - rewrite put_tuple by exact Hl. cbn [tree]. destruct (map_pairs (tree (S i)) (put false) l) as [-> ->].
    rewrite (one_line_block name 40 i _ 41); [cbn [gap N.eqb Pos.eqb]; rewrite <- !app_assoc; reflexivity|apply wl_calm, Hn|discriminate|discriminate| |destruct l; [congruence|discriminate]|auto|exact Sr].
    apply Forall_map. rewrite Forall_forall in *. intros x Ix. cbn [fst snd]. apply IH; auto.
  - rewrite put_struct by exact Hl. cbn [tree]. destruct (map_pairs (fun x => fst x ++ txt ": " ++ tree (S i) (snd x)) (field_text (put false)) l) as [-> ->].
    change (name ++ txt " {") with (name ++ [32] ++ [123]). rewrite (app_assoc name).
    rewrite (one_line_block (name ++ [32]) 123 i _ 125);
      [cbn [gap N.eqb Pos.eqb]; rewrite <- !app_assoc; reflexivity|apply Forall_app; split; [apply wl_calm, Hn|repeat constructor; discriminate]|discriminate|discriminate| |destruct l; [congruence|discriminate]|auto|exact Sr].
    apply Forall_map. rewrite Forall_forall in *. intros [f x] Ix. cbn [fst snd]. unfold field_text. cbn [fst snd]. destruct (Hf _ Ix) as [Nf Wf]. cbn [fst] in *. split.
    + destruct Wf as [|c f' C F]; [congruence|]. eexists _, _. split; [reflexivity|left; exact C].
    + intros p' r' Sr'. destruct (IH _ Ix (Hd _ Ix) (S i)) as [_ J]. cbn [snd] in J. rewrite <- !app_assoc.
      assert (Cf : calm (f ++ txt ": ")) by (apply Forall_app; split; [apply wl_calm, Wf|repeat constructor; discriminate]).
      destruct (one_line_plain _ Cf p' (tree (S i) x ++ r')) as [q E]. rewrite <- app_assoc in E. rewrite E, J by exact Sr'. rewrite <- !app_assoc. reflexivity.
  - rewrite put_list. destruct l as [|x l]; [cbn [tree tall_list map commas join]; change (txt "[]") with ([91; 93]); cbn [app one_line N.eqb Pos.eqb]; rewrite (Sr 93 0); reflexivity|].
    change (tree i (DList (x :: l))) with (block i ([] ++ [91]) (map (tree (S i)) (x :: l)) [93]). destruct (map_pairs (tree (S i)) (put false) (x :: l)) as [-> ->].
    rewrite (one_line_block [] 91 i _ 93); [cbn [gap N.eqb Pos.eqb]; rewrite <- !app_assoc; reflexivity|constructor|discriminate|discriminate| |discriminate|auto|exact Sr].
    apply Forall_map. rewrite Forall_forall in *. intros y Iy. cbn [fst snd]. apply IH; auto.
Qed.
Lemma put_one_line d : dok d -> one_line (After 0) (put true d) = put false d.
Proof.
  intros O. rewrite put_tall by exact O. destruct (put_joined d O 0) as [_ J]. rewrite <- (app_nil_r (tree 0 d)). rewrite J; [apply app_nil_r|intros p q; reflexivity].
Qed.
Lemma put_tall_inj d d' : dok d -> dok d' -> put true d = put true d' -> d = d'.
Proof. intros O O' E. apply put_inj; auto. rewrite <- !put_one_line, E by assumption. reflexivity. Qed.
