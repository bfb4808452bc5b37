(** What is read is in the grammar (C62). *)
From Coq Require Import String.
From Verif Require Import Base Nibbles Trie Cache Serde Json Text JsonText JsonTextSpec JsonTextFacts.
Open Scope N_scope.
Open Scope list_scope.

(** ** Tokens *)
Inductive token_text : token -> list N -> Prop :=
| tt_open : token_text TkOpen [123]
| tt_close : token_text TkClose [125]
| tt_open_array : token_text TkOpenArray [91]
| tt_close_array : token_text TkCloseArray [93]
| tt_comma : token_text TkComma [44]
| tt_colon : token_text TkColon [58]
| tt_null : token_text TkNull (txt "null")
| tt_true : token_text TkOther (txt "true")
| tt_false : token_text TkOther (txt "false")
| tt_int q : int_text q -> token_text (TkNumber (value_of_digits q)) q
| tt_number m i f x : minus_text m -> int_text i -> fraction_text f -> exponent_text x -> m ++ f ++ x <> [] -> token_text TkOther (m ++ i ++ f ++ x)
| tt_string s q : string_text s q -> token_text (TkString s) q.
(** Tokens one after the other, with blanks after the last. *)
Inductive tokens_text : list token -> list N -> Prop :=
| ts_none b : blank b -> tokens_text [] b
| ts_some t q ts r : token_text t q -> tokens_text ts r -> tokens_text (t :: ts) (q ++ r).

Definition neg_text (neg : bool) : list N := if neg then [45] else [].
Inductive partial_text : partial -> list N -> Prop :=
| pt_none : partial_text PNone []
| pt_word rest t q : rest <> [] -> token_text t (q ++ rest) -> partial_text (PWord rest t) q
| pt_string s q : chars s q -> partial_text (PString s) (34 :: q)
| pt_escape s q : chars s q -> partial_text (PEscape s) (34 :: q ++ [92])
| pt_unicode s q h ds : chars s q -> hex_vals h = Some ds -> (length ds <= 3)%nat -> partial_text (PUnicode s None ds) (34 :: q ++ 92 :: 117 :: h)
| pt_pair1 s q u hu : chars s q -> four_hex u hu -> is_high u = true -> partial_text (PPair1 s u) (34 :: q ++ 92 :: 117 :: hu)
| pt_pair2 s q u hu : chars s q -> four_hex u hu -> is_high u = true -> partial_text (PPair2 s u) (34 :: q ++ 92 :: 117 :: hu ++ [92])
| pt_second s q u hu h ds : chars s q -> four_hex u hu -> is_high u = true -> hex_vals h = Some ds -> (length ds <= 3)%nat ->
    partial_text (PUnicode s (Some u) ds) (34 :: q ++ 92 :: 117 :: hu ++ 92 :: 117 :: h)
| pt_minus : partial_text PMinus [45]
| pt_zero neg : partial_text (PZero neg) (neg_text neg ++ [48])
| pt_int neg q : digits q -> hd 48 q <> 48 -> partial_text (PInt neg (value_of_digits q)) (neg_text neg ++ q)
| pt_dot m i : minus_text m -> int_text i -> partial_text PDot (m ++ i ++ [46])
| pt_fraction m i f : minus_text m -> int_text i -> digits f -> partial_text PFraction (m ++ i ++ 46 :: f)
| pt_exp m i f e : minus_text m -> int_text i -> fraction_text f -> In e [101; 69] -> partial_text PExp (m ++ i ++ f ++ [e])
| pt_exp_sign m i f e sign : minus_text m -> int_text i -> fraction_text f -> In e [101; 69] -> In sign [43; 45] ->
    partial_text PExpSign (m ++ i ++ f ++ [e; sign])
| pt_exponent m i f x : minus_text m -> int_text i -> fraction_text f -> exponent_text x -> x <> [] -> partial_text PExponent (m ++ i ++ f ++ x).

Lemma chars_app s q s' q' : chars s q -> chars s' q' -> chars (s ++ s') (q ++ q').
Proof.
  intros C D. induction C as [|c s q H1 H2 H3 _ IH|e c s q I _ IH|u h w s q F S Ut _ IH|u v h l w s q F G U V Ut _ IH].
  - exact D.
  - cbn [app]. constructor; assumption.
  - cbn [app]. econstructor; [exact I|exact IH].
  - rewrite <- app_assoc. cbn [app]. rewrite <- app_assoc. eapply ch_unicode; eassumption.
  - rewrite <- app_assoc. cbn [app]. rewrite <- app_assoc. cbn [app]. rewrite <- app_assoc. eapply ch_pair; eassumption.
Qed.
Lemma digit_range c : is_digit c = true -> 48 <= c /\ c <= 57.
Proof. unfold is_digit. intros E. apply andb_prop in E as [A B]. apply N.leb_le in A, B. split; assumption. Qed.
Lemma digits_snoc q c : Forall (fun c => 48 <= c /\ c <= 57) q -> is_digit c = true -> digits (q ++ [c]).
Proof. intros F D. split; [destruct q; discriminate|]. apply Forall_app. split; [exact F|]. constructor; [apply digit_range, D|constructor]. Qed.
Lemma hex_vals_app a b x y : hex_vals a = Some x -> hex_vals b = Some y -> hex_vals (a ++ b) = Some (x ++ y).
Proof.
  revert x. induction a as [|c a IH]; intros x A B; cbn [app hex_vals] in *; [injection A as <-; exact B|].
  destruct (hex_val c) as [v|]; [|discriminate A]. destruct (hex_vals a) as [vs|]; [|discriminate A]. injection A as <-. rewrite (IH vs eq_refl B). reflexivity.
Qed.
Lemma four_hex_vals h a b c d : hex_vals h = Some [a; b; c; d] -> four_hex (((a * 16 + b) * 16 + c) * 16 + d) h.
Proof.
  intros H. destruct h as [|x1 h]; [discriminate H|]. cbn [hex_vals] in H. destruct (hex_val x1) as [v1|] eqn:E1; [|discriminate H].
  destruct h as [|x2 h]; [discriminate H|]. cbn [hex_vals] in H. destruct (hex_val x2) as [v2|] eqn:E2; [|discriminate H].
  destruct h as [|x3 h]; [discriminate H|]. cbn [hex_vals] in H. destruct (hex_val x3) as [v3|] eqn:E3; [|discriminate H].
  destruct h as [|x4 h]; [discriminate H|]. cbn [hex_vals] in H. destruct (hex_val x4) as [v4|] eqn:E4; [|discriminate H].
  destruct h as [|x5 h].
  - cbn [hex_vals] in H. injection H as <- <- <- <-. replace (((v1 * 16 + v2) * 16 + v3) * 16 + v4) with (v1 * 4096 + v2 * 256 + v3 * 16 + v4) by lia. constructor; apply hex_digit_val; assumption.
  - cbn [hex_vals] in H. destruct (hex_val x5); [|discriminate H]. destruct (hex_vals h); discriminate H.
Qed.
Lemma fold_digits_snoc q c : value_of_digits (q ++ [c]) = value_of_digits q * 10 + (c - 48).
Proof. unfold value_of_digits. rewrite fold_left_app. reflexivity. Qed.
Lemma int_of_neg (neg : bool) : minus_text (neg_text neg).
Proof. destruct neg; [right|left]; reflexivity. Qed.
Lemma exp_in c : is_exp c = true -> In c [101; 69].
Proof. unfold is_exp. intros E. apply orb_prop in E. destruct E as [E|E]; apply N.eqb_eq in E; cbn [In]; auto. Qed.

(** A text that starts with a token or a blank. *)
Definition continues (ts : list token) (p : partial) (text : list N) : Prop := exists q rest, text = q ++ rest /\ tokens_text ts q /\ partial_text p rest.
Lemma continues_quiet p text : partial_text p text -> continues [] p text.
Proof. intros P. exists [], text. repeat split; [constructor; constructor|exact P]. Qed.
Lemma continues_token t text : token_text t text -> continues [t] PNone text.
Proof.
  intros T. exists (text ++ []), []. rewrite !app_nil_r. repeat split; [|constructor]. rewrite <- (app_nil_r text). constructor; [exact T|constructor; constructor].
Qed.
Ltac eqb_at E := match type of E with context [?a =? ?b] => destruct (N.eqb_spec a b) as [->|]; [|] end.
Lemma start_sound c ts p : token_start c = Some (ts, p) -> continues ts p [c].
Proof.
  unfold token_start. intros E. destruct (is_blank c) eqn:B.
  { injection E as <- <-. exists [c], []. repeat split; [|constructor]. constructor. constructor; [|constructor]. unfold is_blank in B.
    repeat (apply orb_prop in B; destruct B as [B|B]); apply N.eqb_eq in B; subst c; cbn [In]; auto 10. }
  eqb_at E; [injection E as <- <-; apply continues_token; constructor|].
  eqb_at E; [injection E as <- <-; apply continues_token; constructor|].
  eqb_at E; [injection E as <- <-; apply continues_token; constructor|].
  eqb_at E; [injection E as <- <-; apply continues_token; constructor|].
  eqb_at E; [injection E as <- <-; apply continues_token; constructor|].
  eqb_at E; [injection E as <- <-; apply continues_token; constructor|].
  eqb_at E; [injection E as <- <-; apply continues_quiet; constructor; constructor|].
  eqb_at E; [injection E as <- <-; apply continues_quiet; constructor; [discriminate|exact tt_null]|].
  eqb_at E; [injection E as <- <-; apply continues_quiet; constructor; [discriminate|exact tt_true]|].
  eqb_at E; [injection E as <- <-; apply continues_quiet; constructor; [discriminate|exact tt_false]|].
  eqb_at E; [injection E as <- <-; apply continues_quiet; constructor|].
  eqb_at E; [injection E as <- <-; apply continues_quiet; exact (pt_zero false)|].
  destruct (is_digit c) eqn:D; [|discriminate E]. injection E as <- <-. apply continues_quiet.
  assert (X : partial_text (PInt false (value_of_digits [c])) (neg_text false ++ [c])) by (apply pt_int; [exact (digits_snoc [] c (Forall_nil _) D)|assumption]).
  exact X.
Qed.
Lemma after_sound p c ts p' text : (forall t, number_end p = Some t -> token_text t text) -> after_number p c = Some (ts, p') -> continues ts p' (text ++ [c]).
Proof.
  unfold after_number. intros T E. destruct (number_end p) as [t|]; [|discriminate E]. destruct (token_start c) as [[ts0 p0]|] eqn:Es; [|discriminate E]. injection E as <- <-.
  destruct (start_sound c ts0 p0 Es) as (q & rest & Eq & Tq & Pq). exists (text ++ q), rest. repeat split; [rewrite Eq, app_assoc; reflexivity| |exact Pq].
  constructor; [apply T; reflexivity|exact Tq].
Qed.
Lemma number_text p text t : partial_text p text -> number_end p = Some t -> token_text t text.
Proof.
  intros P E. destruct P; try discriminate E; cbn [number_end] in E; injection E as <-.
  - destruct neg; [|exact (tt_int [48] (or_introl eq_refl))]. refine (tt_number [45] [48] [] [] _ _ _ _ _); [right; reflexivity|left; reflexivity|left; reflexivity|left; reflexivity|discriminate].
  - destruct neg.
    + replace (neg_text true ++ q) with ([45] ++ q ++ [] ++ []) by (rewrite !app_nil_r; reflexivity). apply tt_number; [right; reflexivity|right; auto|left; reflexivity|left; reflexivity|discriminate].
    + cbn [neg_text app]. constructor. right. auto.
  - replace (m ++ i ++ 46 :: f) with (m ++ i ++ (46 :: f) ++ []) by (rewrite app_nil_r; reflexivity). apply tt_number; try assumption; [right; eauto|left; reflexivity|]. destruct m; discriminate.
  - apply tt_number; try assumption. intros C. apply app_eq_nil in C as [_ C]. apply app_eq_nil in C as [_ C]. congruence.
Qed.
Lemma partial_digit_int neg q c : digits q -> hd 48 q <> 48 -> is_digit c = true -> partial_text (PInt neg (value_of_digits q * 10 + (c - 48))) ((neg_text neg ++ q) ++ [c]).
Proof.
  intros [N0 D] H Dc. rewrite <- fold_digits_snoc, <- app_assoc. apply pt_int; [apply digits_snoc; assumption|]. destruct q as [|x q]; [congruence|exact H].
Qed.
Lemma step_sound p text c ts p' : partial_text p text -> token_step p c = Some (ts, p') -> continues ts p' (text ++ [c]).
Proof.
  intros P E. pose proof (number_text p text) as Num. destruct P.
  - apply start_sound, E.
  - cbn [token_step] in E. destruct rest as [|x rest]; [congruence|]. destruct (N.eqb_spec c x) as [->|]; [|discriminate E]. destruct rest as [|y rest].
    + injection E as <- <-. apply continues_token. assumption.
    + injection E as <- <-. apply continues_quiet. constructor; [discriminate|]. rewrite <- app_assoc. assumption.
  - cbn [token_step] in E. destruct (N.eqb_spec c 34) as [->|]; [|destruct (N.eqb_spec c 92) as [->|]; [|destruct (N.ltb_spec c 32); [discriminate E|]]]; injection E as <- <-.
    + apply continues_token. constructor. cbn [app]. exact (str s q H).
    + apply continues_quiet. constructor. assumption.
    + apply continues_quiet. constructor. apply chars_app; [assumption|]. constructor; try assumption. constructor.
  - cbn [token_step] in E. cbn [app]. rewrite <- app_assoc. cbn [app]. destruct (N.eqb_spec c 117) as [->|].
    + injection E as <- <-. apply continues_quiet. constructor; [assumption|reflexivity|cbn; lia].
    + destruct (unescape c) as [x|] eqn:U; [|discriminate E]. injection E as <- <-. apply continues_quiet. constructor. apply chars_app; [assumption|].
      apply (ch_escape c x [] []); [|constructor]. clear - U. unfold unescape in U. repeat (eqb_at U; [injection U as <-; cbn [In]; auto 10|]). discriminate U.
  - cbn [token_step] in E. destruct (hex_val c) as [v|] eqn:V; [|discriminate E]. cbn [app]. rewrite <- app_assoc. cbn [app].
    assert (Hh : hex_vals (h ++ [c]) = Some (ds ++ [v])) by (apply hex_vals_app; [assumption|cbn [hex_vals]; rewrite V; reflexivity]).
    destruct ds as [|a [|b [|d [|? ?]]]].
    4:{ cbn [app] in Hh. apply four_hex_vals in Hh. set (u := ((a * 16 + b) * 16 + d) * 16 + v) in *.
        destruct (code_unit s None u) as [p1|] eqn:C; [|discriminate E]. injection E as <- <-. apply continues_quiet. cbn [code_unit] in C.
        destruct (is_high u) eqn:Hi; [injection C as <-; constructor; assumption|]. destruct (is_low u) eqn:Lo; [discriminate C|]. injection C as <-. constructor.
        apply chars_app; [assumption|]. rewrite <- (app_nil_r (utf8 u)), <- (app_nil_r (h ++ [c])). apply unicode_here; [assumption| |constructor].
        unfold surrogate. unfold is_high, is_low in *. destruct (N.leb_spec 55296 u), (N.ltb_spec u 56320), (N.leb_spec 56320 u), (N.ltb_spec u 57344); try discriminate; lia. }
    all: injection E as <- <-; try (apply continues_quiet; constructor; [assumption|exact Hh|cbn [app length]; lia]). cbn [length] in *. lia.
  - cbn [token_step] in E. destruct (N.eqb_spec c 92) as [->|]; [|discriminate E]. injection E as <- <-. apply continues_quiet. cbn [app]. rewrite <- app_assoc. cbn [app].
    constructor; assumption.
  - cbn [token_step] in E. destruct (N.eqb_spec c 117) as [->|]; [|discriminate E]. injection E as <- <-. apply continues_quiet. cbn [app]. rewrite <- app_assoc. cbn [app].
    rewrite <- app_assoc. cbn [app]. constructor; try assumption; [reflexivity|cbn; lia].
  - cbn [token_step] in E. destruct (hex_val c) as [v|] eqn:V; [|discriminate E]. cbn [app]. rewrite <- app_assoc. cbn [app]. rewrite <- app_assoc. cbn [app].
    assert (Hh : hex_vals (h ++ [c]) = Some (ds ++ [v])) by (apply hex_vals_app; [assumption|cbn [hex_vals]; rewrite V; reflexivity]).
    destruct ds as [|a [|b [|d [|? ?]]]].
    4:{ cbn [app] in Hh. apply four_hex_vals in Hh. set (w := ((a * 16 + b) * 16 + d) * 16 + v) in *.
        destruct (code_unit s (Some u) w) as [p1|] eqn:C; [|discriminate E]. injection E as <- <-. apply continues_quiet. cbn [code_unit] in C.
        destruct (is_low w) eqn:Lo; [|discriminate C]. injection C as <-. constructor.
        apply chars_app; [assumption|]. unfold pair_value. rewrite <- (app_nil_r (utf8 _)), <- (app_nil_r (h ++ [c])). apply pair_here; [assumption|assumption| | |constructor].
        - unfold is_high in *. destruct (N.leb_spec 55296 u), (N.ltb_spec u 56320); try discriminate; lia.
        - unfold is_low in *. destruct (N.leb_spec 56320 w), (N.ltb_spec w 57344); try discriminate; lia. }
    all: injection E as <- <-; try (apply continues_quiet; constructor; [assumption|assumption|assumption|exact Hh|cbn [app length]; lia]). cbn [length] in *. lia.
  - cbn [token_step] in E. destruct (N.eqb_spec c 48) as [->|]; [|destruct (is_digit c) eqn:D; [|discriminate E]]; injection E as <- <-; apply continues_quiet.
    + exact (pt_zero true).
    + assert (X : partial_text (PInt true (value_of_digits [c])) (neg_text true ++ [c])) by (apply pt_int; [exact (digits_snoc [] c (Forall_nil _) D)|assumption]). exact X.
  - cbn [token_step] in E. destruct (is_digit c) eqn:D; [discriminate E|]. destruct (N.eqb_spec c 46) as [->|]; [|destruct (is_exp c) eqn:X].
    + injection E as <- <-. apply continues_quiet. rewrite <- app_assoc. constructor; [apply int_of_neg|left; reflexivity].
    + injection E as <- <-. apply continues_quiet. rewrite <- app_assoc. apply (pt_exp (neg_text neg) [48] [] c); [apply int_of_neg|left; reflexivity|left; reflexivity|apply exp_in, X].
    + apply (after_sound (PZero neg)); [intros t Et; apply Num; [constructor|exact Et]|exact E].
  - cbn [token_step] in E. destruct (is_digit c) eqn:D; [|destruct (N.eqb_spec c 46) as [->|]; [|destruct (is_exp c) eqn:X]].
    + injection E as <- <-. apply continues_quiet. apply partial_digit_int; assumption.
    + injection E as <- <-. apply continues_quiet. rewrite <- app_assoc. constructor; [apply int_of_neg|right; auto].
    + injection E as <- <-. apply continues_quiet. rewrite <- app_assoc. apply (pt_exp (neg_text neg) q [] c); [apply int_of_neg|right; auto|left; reflexivity|apply exp_in, X].
    + apply (after_sound (PInt neg (value_of_digits q))); [intros t Et; apply Num; [constructor; assumption|exact Et]|exact E].
  - cbn [token_step] in E. destruct (is_digit c) eqn:D; [|discriminate E]. injection E as <- <-. apply continues_quiet. rewrite <- !app_assoc. cbn [app]. constructor; try assumption.
    exact (digits_snoc [] c (Forall_nil _) D).
  - cbn [token_step] in E. match goal with F : digits f |- _ => destruct F as [Fn Fd] end. destruct (is_digit c) eqn:D; [|destruct (is_exp c) eqn:X].
    + injection E as <- <-. apply continues_quiet. rewrite <- !app_assoc. cbn [app]. constructor; try assumption. apply digits_snoc; assumption.
    + injection E as <- <-. apply continues_quiet. rewrite <- !app_assoc. apply (pt_exp m i (46 :: f) c); try assumption; [right; exists f; split; [split; assumption|reflexivity]|apply exp_in, X].
    + apply (after_sound PFraction); [intros t Et; apply Num; [constructor; try assumption; split; assumption|exact Et]|exact E].
  - cbn [token_step] in E. destruct (is_digit c) eqn:D; [|destruct ((c =? 43) || (c =? 45)) eqn:S; [|discriminate E]]; injection E as <- <-; apply continues_quiet; rewrite <- !app_assoc; cbn [app].
    + apply pt_exponent; try assumption; [|discriminate]. right. exists e, [], [c]. repeat split; try assumption; [cbn [In]; auto|discriminate|]. constructor; [apply digit_range, D|constructor].
    + apply pt_exp_sign; try assumption. apply orb_prop in S. cbn [In]. destruct S as [S|S]; apply N.eqb_eq in S; auto.
  - cbn [token_step] in E. destruct (is_digit c) eqn:D; [|discriminate E]. injection E as <- <-. apply continues_quiet. rewrite <- !app_assoc. cbn [app].
    apply pt_exponent; try assumption; [|discriminate]. right. exists e, [sign], [c]. repeat split; try assumption; [|discriminate|constructor; [apply digit_range, D|constructor]].
    match goal with S : In sign _ |- _ => cbn [In] in S; destruct S as [<-|[<-|[]]]; cbn [In]; auto end.
  - cbn [token_step] in E. destruct (is_digit c) eqn:D.
    + injection E as <- <-. apply continues_quiet. rewrite <- !app_assoc. apply pt_exponent; try assumption; [|destruct x; discriminate].
      match goal with X : exponent_text x |- _ => destruct X as [->|(e & sign & q & Ie & Is & [Qn Qd] & ->)] end; [congruence|]. right. exists e, sign, (q ++ [c]).
      repeat split; try assumption; [destruct q; discriminate|apply (digits_snoc q c Qd D)|]. cbn [app]. rewrite <- app_assoc. reflexivity.
    + apply (after_sound PExponent); [intros t Et; apply Num; [constructor; assumption|exact Et]|exact E].
Qed.

(** ** Documents *)
(** [opened stack p]: the text [p] comes before a value, inside of the arrays and objects [stack]; [named stack p]: before the name of an entry. *)
Inductive opened : list frame -> list N -> Prop :=
| op_top : opened [] []
| op_first stack p b : opened stack p -> blank b -> opened (FArray [] :: stack) (p ++ b ++ [91])
| op_more done stack p a d q b : opened (FArray done :: stack) p -> blank a -> value_text d q -> blank b ->
    opened (FArray (d :: done) :: stack) (p ++ a ++ q ++ b ++ [44])
| op_entry done stack p a s n b : named (FObject done None :: stack) p -> blank a -> string_text s n -> blank b ->
    opened (FObject done (Some (key_of s)) :: stack) (p ++ a ++ n ++ b ++ [58])
with named : list frame -> list N -> Prop :=
| na_first stack p b : opened stack p -> blank b -> named (FObject [] None :: stack) (p ++ b ++ [123])
| na_more done k stack p a d q b : opened (FObject done (Some k) :: stack) p -> blank a -> value_text d q -> blank b ->
    named (FObject ((k, d) :: done) None :: stack) (p ++ a ++ q ++ b ++ [44]).

Lemma elements_snoc l r a d q b : elements l r -> blank a -> value_text d q -> blank b -> elements (l ++ [d]) (r ++ [44] ++ a ++ q ++ b).
Proof.
  intros E A V B. induction E as [a' d' q' b' A' V' B'|a' d' q' b' l r A' V' B' E IH].
  - rewrite <- !app_assoc. apply el_more; try assumption. apply el_one; assumption.
  - rewrite <- !app_assoc. exact (el_more a' d' q' b' _ _ A' V' B' IH).
Qed.
Lemma members_snoc l r e q : members l r -> member e q -> members (l ++ [e]) (r ++ [44] ++ q).
Proof.
  intros M E. induction M as [e' q' E'|e' q' l r E' M IH].
  - apply me_more; [exact E'|]. constructor. exact E.
  - rewrite <- !app_assoc. exact (me_more e' q' _ _ E' IH).
Qed.
Lemma array_opened done : forall stack p, opened (FArray done :: stack) p ->
  exists p0 b, opened stack p0 /\ blank b /\
    (done = [] /\ p = p0 ++ b ++ [91] \/ exists q, elements (rev done) q /\ p = p0 ++ b ++ [91] ++ q ++ [44]).
Proof.
  induction done as [|d done IH]; intros stack p O; inversion O; subst.
  - eexists _, _. split; [eassumption|split; [eassumption|]]. left. split; reflexivity.
  - destruct (IH stack p0) as (p1 & b1 & O1 & B1 & D); [assumption|]. exists p1, b1. split; [exact O1|split; [exact B1|]]. right. cbn [rev].
    destruct D as [[-> ->]|(q1 & E1 & ->)].
    + exists (a ++ q ++ b). split; [apply el_one; assumption|]. rewrite <- !app_assoc. reflexivity.
    + exists (q1 ++ [44] ++ a ++ q ++ b). split; [apply elements_snoc; assumption|]. rewrite <- !app_assoc. reflexivity.
Qed.
Lemma array_closed done stack p a d q b : opened (FArray done :: stack) p -> blank a -> value_text d q -> blank b ->
  exists p0 b0 v, opened stack p0 /\ blank b0 /\ value_text (JArray (rev (d :: done))) v /\ (p ++ a ++ q ++ b) ++ [93] = p0 ++ b0 ++ v.
Proof.
  intros O A V B. destruct (array_opened done stack p O) as (p0 & b0 & O0 & B0 & D). exists p0, b0. cbn [rev].
  destruct D as [[-> ->]|(q1 & E1 & ->)].
  - exists ([91] ++ (a ++ q ++ b) ++ [93]). split; [exact O0|split; [exact B0|split]]; [constructor; apply at_some, el_one; assumption|]. rewrite <- !app_assoc. reflexivity.
  - exists ([91] ++ (q1 ++ [44] ++ a ++ q ++ b) ++ [93]). split; [exact O0|split; [exact B0|split]]; [constructor; apply at_some, elements_snoc; assumption|]. rewrite <- !app_assoc. reflexivity.
Qed.
Lemma object_named done : forall stack p, named (FObject done None :: stack) p ->
  exists p0 b, opened stack p0 /\ blank b /\
    (done = [] /\ p = p0 ++ b ++ [123] \/ exists q, members (rev done) q /\ p = p0 ++ b ++ [123] ++ q ++ [44]).
Proof.
  induction done as [|[k d] done IH]; intros stack p O; inversion O as [? ? ? O1 B1|? ? ? ? ? ? ? ? O1 A1 V1 B1]; subst.
  - eexists _, _. split; [eassumption|split; [eassumption|]]. left. split; reflexivity.
  - inversion O1 as [|? ? ? ?|? ? ? ? ? ? ? ?|? ? ? a2 s n b2 N2 A2 S2 B2]; subst. destruct (IH stack _ N2) as (p1 & b1 & O2 & B2' & D). exists p1, b1. split; [exact O2|split; [exact B2'|]]. right. cbn [rev].
    assert (M : member (key_of s, d) (a2 ++ n ++ b2 ++ [58] ++ a ++ q ++ b)) by (apply member_here; assumption).
    destruct D as [[-> ->]|(q1 & E1 & ->)].
    + eexists. split; [apply me_one; exact M|]. rewrite <- !app_assoc. reflexivity.
    + eexists. split; [apply members_snoc; [exact E1|exact M]|]. rewrite <- !app_assoc. reflexivity.
Qed.
Lemma object_closed done k stack p a d q b : opened (FObject done (Some k) :: stack) p -> blank a -> value_text d q -> blank b ->
  exists p0 b0 v, opened stack p0 /\ blank b0 /\ value_text (JObject (rev ((k, d) :: done))) v /\ (p ++ a ++ q ++ b) ++ [125] = p0 ++ b0 ++ v.
Proof.
  intros O A V B. pose proof (na_more done k stack p a d q b O A V B) as N. destruct (object_named _ stack _ N) as (p0 & b0 & O0 & B0 & D). exists p0, b0.
  destruct D as [[C _]|(q1 & E1 & Ep)]; [discriminate C|].
  exists ([123] ++ q1 ++ [125]). split; [exact O0|split; [exact B0|split]]; [constructor; apply ot_some; exact E1|].
  assert (X : p ++ a ++ q ++ b = p0 ++ b0 ++ [123] ++ q1).
  { apply (app_inv_tail [44]). rewrite <- !app_assoc. exact Ep. }
  rewrite X, <- !app_assoc. reflexivity.
Qed.

Inductive mode_text : mode * list frame -> list N -> Prop :=
| mt_value stack p b : opened stack p -> blank b -> mode_text (MValue, stack) (p ++ b)
| mt_first stack p b : opened stack p -> blank b -> mode_text (MFirst, stack) (p ++ b)
| mt_first_name stack p b : named stack p -> blank b -> mode_text (MFirstName, stack) (p ++ b)
| mt_name stack p b : named stack p -> blank b -> mode_text (MName, stack) (p ++ b)
| mt_colon done stack p a s n b : named (FObject done None :: stack) p -> blank a -> string_text s n -> blank b ->
    mode_text (MColon, FObject done (Some (key_of s)) :: stack) (p ++ a ++ n ++ b)
| mt_after d stack p a q b : opened stack p -> blank a -> value_text d q -> blank b -> mode_text (MAfter d, stack) (p ++ a ++ q ++ b).

Lemma blank_app a b : blank a -> blank b -> blank (a ++ b).
Proof. intros A B. apply Forall_app. split; assumption. Qed.
Lemma mode_blank st p b : mode_text st p -> blank b -> mode_text st (p ++ b).
Proof.
  intros M B. destruct M; rewrite <- ?app_assoc; constructor; try assumption; apply blank_app; assumption.
Qed.
Lemma blank_nil : blank [].
Proof. constructor. Qed.
Lemma after_value stack p b d q : opened stack p -> blank b -> value_text d q -> mode_text (MAfter d, stack) ((p ++ b) ++ q).
Proof. intros O B V. rewrite <- (app_nil_r q), <- app_assoc. constructor; try assumption. apply blank_nil. Qed.
Lemma value_sound lim stack p b t q st : opened stack p -> blank b -> token_text t q -> value_step lim stack t = Some st -> mode_text st ((p ++ b) ++ q).
Proof.
  intros O B T E. destruct T; cbn [value_step] in E; try discriminate E.
  - destruct (may_open lim stack); [|discriminate E]. injection E as <-. rewrite <- (app_nil_r ((p ++ b) ++ _)), <- (app_assoc p). constructor; [constructor; assumption|apply blank_nil].
  - destruct (may_open lim stack); [|discriminate E]. injection E as <-. rewrite <- (app_nil_r ((p ++ b) ++ _)), <- (app_assoc p). constructor; [constructor; assumption|apply blank_nil].
  - injection E as <-. apply after_value; try assumption. constructor.
  - injection E as <-. apply after_value; try assumption. constructor.
  - injection E as <-. apply after_value; try assumption. constructor.
  - injection E as <-. apply after_value; try assumption. constructor. assumption.
  - injection E as <-. apply after_value; try assumption. constructor; assumption.
  - injection E as <-. apply after_value; try assumption. apply string_here. assumption.
Qed.
Lemma name_sound stack p b t q st : named stack p -> blank b -> token_text t q -> name_step stack t = Some st -> mode_text st ((p ++ b) ++ q).
Proof.
  intros O B T E. destruct T; cbn [name_step] in E; try discriminate E. destruct stack as [|[|done [k|]] stack]; try discriminate E. injection E as <-.
  rewrite <- (app_nil_r q), <- app_assoc. constructor; try assumption. apply blank_nil.
Qed.
Lemma doc_sound lim st p t q st' : mode_text st p -> token_text t q -> doc_step lim st t = Some st' -> mode_text st' (p ++ q).
Proof.
  intros M T E. destruct M; cbn [doc_step] in E.
  - eapply value_sound; eassumption.
  - assert (G : value_step lim stack t = Some st' -> mode_text st' ((p ++ b) ++ q)) by (intros; eapply value_sound; eassumption).
    destruct T; try (apply G; exact E). destruct stack as [|[[|? ?]|] stack]; try (apply G; exact E). injection E as <-.
    match goal with O : opened _ _ |- _ => inversion O; subst end. rewrite <- (app_nil_r (_ ++ [93])).
    match goal with O : opened stack ?p0, B : blank ?b0, B' : blank b |- context [((?p0 ++ ?b0 ++ [91]) ++ b) ++ [93]] =>
      replace ((((p0 ++ b0 ++ [91]) ++ b) ++ [93]) ++ []) with (p0 ++ b0 ++ ([91] ++ b ++ [93]) ++ []) by (rewrite <- !app_assoc; reflexivity) end.
    constructor; try assumption; [|apply blank_nil]. constructor. constructor. assumption.
  - assert (G : name_step stack t = Some st' -> mode_text st' ((p ++ b) ++ q)) by (intros; eapply name_sound; eassumption).
    destruct T; try (apply G; exact E). destruct stack as [|[|[|? ?] [k|]] stack]; try (apply G; exact E). injection E as <-.
    match goal with O : named _ _ |- _ => inversion O; subst end. rewrite <- (app_nil_r (_ ++ [125])).
    match goal with O : opened stack ?p0, B : blank ?b0, B' : blank b |- context [((?p0 ++ ?b0 ++ [123]) ++ b) ++ [125]] =>
      replace ((((p0 ++ b0 ++ [123]) ++ b) ++ [125]) ++ []) with (p0 ++ b0 ++ ([123] ++ b ++ [125]) ++ []) by (rewrite <- !app_assoc; reflexivity) end.
    constructor; try assumption; [|apply blank_nil]. constructor. constructor. assumption.
  - eapply name_sound; eassumption.
  - destruct T; try discriminate E. injection E as <-. rewrite <- (app_nil_r (_ ++ [58])). constructor; [|apply blank_nil]. rewrite <- !app_assoc. constructor; assumption.
  - destruct T; try discriminate E.
    + destruct stack as [|[|done [k|]] stack]; try discriminate E. injection E as <-.
      destruct (object_closed done k stack p a d q0 b) as (p0 & b0 & v & O0 & B0 & V0 & Ev); try assumption. rewrite Ev.
      rewrite <- (app_nil_r v). constructor; try assumption. apply blank_nil.
    + destruct stack as [|[done|] stack]; try discriminate E. injection E as <-.
      destruct (array_closed done stack p a d q0 b) as (p0 & b0 & v & O0 & B0 & V0 & Ev); try assumption. rewrite Ev.
      rewrite <- (app_nil_r v). constructor; try assumption. apply blank_nil.
    + assert (X : (p ++ a ++ q0 ++ b) ++ [44] = (p ++ a ++ q0 ++ b ++ [44]) ++ []) by (rewrite <- !app_assoc; reflexivity). rewrite X.
      destruct stack as [|[done|done [k|]] stack]; try discriminate E; injection E as <-; constructor; try apply blank_nil; constructor; assumption.
Qed.
Lemma docs_sound lim ts : forall st p q st', mode_text st p -> tokens_text ts q -> doc_steps lim st ts = Some st' -> mode_text st' (p ++ q).
Proof.
  induction ts as [|t ts IH]; intros st p q st' M T E; inversion T; subst; cbn [doc_steps] in E.
  - injection E as <-. apply mode_blank; assumption.
  - destruct (doc_step lim st t) as [st1|] eqn:E1; [|discriminate E]. rewrite app_assoc. eapply IH; [|eassumption|exact E]. eapply doc_sound; eassumption.
Qed.

Definition state_text (st : state) (text : list N) : Prop := exists p q, text = p ++ q /\ mode_text (snd st) p /\ partial_text (fst st) q.
Lemma steps_sound lim s : forall st text st', state_text st text -> steps lim st s = Some st' -> state_text st' (text ++ s).
Proof.
  induction s as [|c s IH]; intros st text st' T E; cbn [steps] in E.
  - injection E as <-. rewrite app_nil_r. exact T.
  - destruct (step lim st c) as [st1|] eqn:E1; [|discriminate E]. replace (text ++ c :: s) with ((text ++ [c]) ++ s) by (rewrite <- app_assoc; reflexivity).
    apply (IH st1); [|exact E]. unfold step in E1. destruct (token_step (fst st) c) as [[ts p']|] eqn:Et; [|discriminate E1].
    destruct (doc_steps lim (snd st) ts) as [ds|] eqn:Ed; [|discriminate E1]. injection E1 as <-. destruct T as (p & q & -> & M & P).
    destruct (step_sound _ _ _ _ _ P Et) as (q1 & rest & Eq & Tq & Pr). exists (p ++ q1), rest. split; [rewrite <- app_assoc, Eq, <- app_assoc; reflexivity|].
    split; [|exact Pr]. eapply docs_sound; eassumption.
Qed.
Lemma finish_sound lim st text d : state_text st text -> finish lim st = Some d -> json_text d text.
Proof.
  intros (p & q & -> & M & P) E. unfold finish in E.
  assert (G : exists ts, tokens_text ts q /\ match doc_steps lim (snd st) ts with Some (MAfter d, []) => Some d | _ => None end = Some d).
  { destruct (number_end (fst st)) as [t|] eqn:Nt.
    - exists [t]. split; [|exact E]. rewrite <- (app_nil_r q). constructor; [eapply number_text; eassumption|constructor; constructor].
    - destruct (fst st); try discriminate E. exists []. split; [|exact E]. inversion P. constructor. constructor. }
  destruct G as (ts & T & F). destruct (doc_steps lim (snd st) ts) as [[m stk]|] eqn:Ed; [|discriminate F].
  destruct m; try discriminate F. destruct stk; [|discriminate F]. injection F as ->. pose proof (docs_sound _ _ _ _ _ _ M T Ed) as R.
  inversion R as [| | | | |? ? p1 a1 q1 b1 O1 A1 V1 B1]; subst. inversion O1; subst. exists a1, q1, b1. auto.
Qed.
Theorem parse_sound lim s d : parse lim s = Some d -> json_text d s.
Proof.
  unfold parse, parse_from. intros E. destruct (steps lim (PNone, (MValue, [])) s) as [st|] eqn:Es; [|discriminate E].
  eapply finish_sound; [|exact E]. apply (steps_sound lim s (PNone, (MValue, [])) [] st); [|exact Es]. exists [], []. split; [reflexivity|]. split; [|constructor].
  apply (mt_value [] [] []); [constructor|constructor].
Qed.

(** ** The limit *)
Fixpoint stack_within (lim : option nat) (stk : list frame) : Prop :=
  match stk with
  | [] => True
  | FArray done :: rest => within lim (depth rest + 1 + nests done) /\ stack_within lim rest
  | FObject done _ :: rest => within lim (depth rest + 1 + nests' done) /\ stack_within lim rest
  end.
Definition mode_within (lim : option nat) (st : mode * list frame) : Prop :=
  stack_within lim (snd st) /\ match fst st with MAfter d => within lim (depth (snd st) + nesting d) | _ => True end.
Lemma may_within lim stk : may_open lim stk = true -> within lim (depth stk + 1 + 0).
Proof. unfold may_open, depth. destruct lim as [k|]; cbn [within]; [|auto]. intros W. apply Nat.ltb_lt in W. lia. Qed.
Lemma nests_rev l : nests (rev l) = nests l.
Proof.
  unfold nests. rewrite map_rev. induction (map nesting l) as [|x xs IH]; [reflexivity|]. cbn [rev fold_right]. rewrite <- IH. clear. induction (rev xs) as [|y ys IH]; cbn [app fold_right]; [lia|].
  rewrite IH. lia.
Qed.
Lemma nests'_rev l : nests' (rev l) = nests' l.
Proof.
  unfold nests'. rewrite map_rev. induction (map (fun e => nesting (snd e)) l) as [|x xs IH]; [reflexivity|]. cbn [rev fold_right]. rewrite <- IH. clear. induction (rev xs) as [|y ys IH]; cbn [app fold_right]; [lia|].
  rewrite IH. lia.
Qed.
Lemma within_max lim a b c : within lim (a + b) -> within lim (a + c) -> within lim (a + N.max b c).
Proof. destruct lim as [k|]; cbn [within]; [lia|auto]. Qed.
Lemma start_within lim : (forall k, lim = Some k -> (0 < k)%nat) -> within lim 0.
Proof. destruct lim as [k|]; cbn [within]; [|auto]. intros H. specialize (H k eq_refl). lia. Qed.
Lemma string_doc_flat s : nesting (string_doc s) = 0.
Proof. unfold string_doc. destruct s; [reflexivity|]. destruct (hex_vals _); reflexivity. Qed.
Lemma doc_within lim st t st' : within lim (depth (snd st)) -> mode_within lim st -> doc_step lim st t = Some st' -> mode_within lim st' /\ within lim (depth (snd st')).
Proof.
  intros D [S A] E. destruct st as [m stk]. cbn [fst snd] in *.
  assert (V : value_step lim stk t = Some st' -> mode_within lim st' /\ within lim (depth (snd st'))).
  { intros Ev. destruct t; cbn [value_step] in Ev; try discriminate Ev.
    - destruct (may_open lim stk) eqn:O; [|discriminate Ev]. injection Ev as <-. apply may_within in O. unfold mode_within. cbn [fst snd stack_within nests' map fold_right].
      repeat split; try assumption. rewrite depth_cons. eapply within_le; [exact O|lia].
    - destruct (may_open lim stk) eqn:O; [|discriminate Ev]. injection Ev as <-. apply may_within in O. unfold mode_within. cbn [fst snd stack_within nests map fold_right].
      repeat split; try assumption. rewrite depth_cons. eapply within_le; [exact O|lia].
    - injection Ev as <-. unfold mode_within. cbn [fst snd nesting]. rewrite N.add_0_r. auto.
    - injection Ev as <-. unfold mode_within. cbn [fst snd nesting]. rewrite N.add_0_r. auto.
    - injection Ev as <-. unfold mode_within. cbn [fst snd nesting]. rewrite N.add_0_r. auto.
    - injection Ev as <-. unfold mode_within. cbn [fst snd]. rewrite string_doc_flat, N.add_0_r. auto. }
  assert (Nm : name_step stk t = Some st' -> mode_within lim st' /\ within lim (depth (snd st'))).
  { intros Ev. destruct t; cbn [name_step] in Ev; try discriminate Ev. destruct stk as [|[|done [k|]] stk]; try discriminate Ev. injection Ev as <-.
    unfold mode_within. cbn [fst snd stack_within] in *. rewrite depth_cons in *. tauto. }
  destruct m; cbn [doc_step] in E.
  - apply V, E.
  - destruct t; try (apply V, E). destruct stk as [|[[|? ?]|] stk]; try (apply V, E). injection E as <-. unfold mode_within. cbn [fst snd stack_within nests map fold_right] in *.
    rewrite depth_cons in D. destruct S as [S1 S2]. repeat split; [exact S2| |]; (eapply within_le; [exact D|cbn [nesting map fold_right]; lia]).
  - destruct t; try (apply Nm, E). destruct stk as [|[|[|? ?] [k|]] stk]; try (apply Nm, E). injection E as <-. unfold mode_within. cbn [fst snd stack_within nests' map fold_right] in *.
    rewrite depth_cons in D. destruct S as [S1 S2]. repeat split; [exact S2| |]; (eapply within_le; [exact D|cbn [nesting map fold_right]; lia]).
  - apply Nm, E.
  - destruct t; try discriminate E. injection E as <-. unfold mode_within. cbn [fst snd] in *. auto.
  - destruct t; try discriminate E.
    + destruct stk as [|[|done [k|]] stk]; try discriminate E. injection E as <-. unfold mode_within. cbn [fst snd stack_within] in *. rewrite depth_cons in *. destruct S as [S1 S2].
      repeat split; [exact S2| |eapply within_le; [exact D|lia]]. change (rev done ++ [(k, d)]) with (rev ((k, d) :: done)). rewrite nesting_object, nests'_rev, N.add_assoc. cbn [nests' map fold_right snd]. apply within_max; assumption.
    + destruct stk as [|[done|] stk]; try discriminate E. injection E as <-. unfold mode_within. cbn [fst snd stack_within] in *. rewrite depth_cons in *. destruct S as [S1 S2].
      repeat split; [exact S2| |eapply within_le; [exact D|lia]]. change (rev done ++ [d]) with (rev (d :: done)). rewrite nesting_array, nests_rev, N.add_assoc. cbn [nests map fold_right]. apply within_max; assumption.
    + destruct stk as [|[done|done [k|]] stk]; try discriminate E; injection E as <-; unfold mode_within; cbn [fst snd stack_within] in *; rewrite depth_cons in *; destruct S as [S1 S2];
        repeat split; try assumption; cbn [nests nests' map fold_right snd]; apply within_max; assumption.
Qed.
Lemma docs_within lim ts : forall st st', within lim (depth (snd st)) -> mode_within lim st -> doc_steps lim st ts = Some st' -> mode_within lim st' /\ within lim (depth (snd st')).
Proof.
  induction ts as [|t ts IH]; intros st st' D M E; cbn [doc_steps] in E; [injection E as <-; auto|]. destruct (doc_step lim st t) as [st1|] eqn:E1; [|discriminate E].
  destruct (doc_within lim st t st1 D M E1) as [M1 D1]. apply (IH st1); assumption.
Qed.
Lemma steps_within lim s : forall st st', within lim (depth (snd (snd st))) -> mode_within lim (snd st) -> steps lim st s = Some st' ->
  mode_within lim (snd st') /\ within lim (depth (snd (snd st'))).
Proof.
  induction s as [|c s IH]; intros st st' D M E; cbn [steps] in E; [injection E as <-; auto|]. destruct (step lim st c) as [st1|] eqn:E1; [|discriminate E].
  unfold step in E1. destruct (token_step (fst st) c) as [[ts p']|]; [|discriminate E1]. destruct (doc_steps lim (snd st) ts) as [ds|] eqn:Ed; [|discriminate E1]. injection E1 as <-.
  destruct (docs_within lim ts (snd st) ds D M Ed) as [M1 D1]. apply (IH (p', ds)); assumption.
Qed.
Theorem parse_within lim s d : within lim 0 -> parse lim s = Some d -> within lim (nesting d).
Proof.
  unfold parse, parse_from. intros W E. destruct (steps lim (PNone, (MValue, [])) s) as [st|] eqn:Es; [|discriminate E].
  destruct (steps_within lim s (PNone, (MValue, [])) st W (conj I I) Es) as [M D]. unfold finish in E.
  destruct (match number_end (fst st) with Some t => Some [t] | None => match fst st with PNone => Some [] | _ => None end end) as [ts|]; [|discriminate E].
  destruct (doc_steps lim (snd st) ts) as [[m stk]|] eqn:Ed; [|discriminate E]. destruct m; try discriminate E. destruct stk; [|discriminate E]. injection E as ->.
  destruct (docs_within lim ts (snd st) _ D M Ed) as [[_ M1] _]. exact M1.
Qed.

(** ** The end of the text *)
(** After a document only blanks are read. *)
Lemma after_number_token p c ts p' : after_number p c = Some (ts, p') -> ts <> [].
Proof. unfold after_number. destruct (number_end p); [|discriminate]. destruct (token_start c) as [[? ?]|]; [|discriminate]. intros E. injection E as <- <-. discriminate. Qed.
Lemma code_unit_some s h u p : code_unit s h u = Some p -> p <> PNone.
Proof.
  unfold code_unit. intros E. destruct h.
  - destruct (is_low u); [|discriminate E]. injection E as <-. discriminate.
  - destruct (is_high u); [injection E as <-; discriminate|]. destruct (is_low u); [discriminate E|]. injection E as <-. discriminate.
Qed.
Lemma quiet_none p c : token_step p c = Some ([], PNone) -> p = PNone /\ In c [32; 9; 10; 13].
Proof.
  intros E. destruct p; cbn [token_step] in E;
    try (exfalso; repeat (match type of E with
         | context [if ?b then _ else _] => destruct b
         | after_number _ _ = _ => apply after_number_token in E; congruence
         | context [match unescape ?x with _ => _ end] => destruct (unescape x)
         end; try discriminate E); fail).
  - split; [reflexivity|]. unfold token_start in E. destruct (is_blank c) eqn:B.
    + unfold is_blank in B. repeat (apply orb_prop in B; destruct B as [B|B]); apply N.eqb_eq in B; subst c; cbn [In]; auto 10.
    + repeat match type of E with context [if ?b then _ else _] => destruct b; [discriminate E|] end. discriminate E.
  - destruct rest as [|x rest]; [discriminate E|]. destruct (c =? x); [|discriminate E]. destruct rest; discriminate E.
  - destruct (hex_val c); [|discriminate E]. destruct digits as [|a [|b [|d [|? ?]]]]; try discriminate E.
    destruct (code_unit _ _ _) as [p|] eqn:C; [|discriminate E]. injection E as ->. apply code_unit_some in C. congruence.
Qed.
Lemma no_token lim d t : doc_step lim (MAfter d, []) t = None.
Proof. destruct t; reflexivity. Qed.
Lemma after_doc lim d s : forall p x, parse_from lim (p, (MAfter d, [])) s = Some x -> p = PNone /\ blank s.
Proof.
  induction s as [|c s IH]; intros p x E.
  - split; [|constructor]. unfold parse_from in E. cbn [steps] in E. unfold finish in E. cbn [fst snd] in E.
    destruct (number_end p) as [t|]; [cbn [doc_steps] in E; rewrite no_token in E; discriminate E|]. destruct p; try discriminate E. reflexivity.
  - rewrite parse_cons in E. unfold step in E. cbn [fst snd] in E. destruct (token_step p c) as [[ts p']|] eqn:T; [|discriminate E].
    destruct ts as [|t ts]; [|cbn [doc_steps] in E; rewrite no_token in E; discriminate E]. cbn [doc_steps] in E. apply IH in E as [-> B].
    apply quiet_none in T as [-> T]. split; [reflexivity|]. constructor; assumption.
Qed.
(** Strings, arrays and objects end with their last character. *)
Lemma closed_value d q : value_text d q -> closed d -> forall lim stk m s, m = MValue \/ m = MFirst -> within lim (depth stk + nesting d) ->
  parse_from lim (PNone, (m, stk)) (q ++ s) = parse_from lim (PNone, (MAfter d, stk)) s.
Proof.
  intros V C lim stk m s M W. destruct V; try destruct C.
  - match goal with H : string_value _ _ |- _ => apply string_value_iff in H; subst d end. rewrite (reads_string s0 q s H). destruct M as [-> | ->]; reflexivity.
  - rewrite nesting_array in W. rewrite <- !app_assoc. cbn [app]. rewrite (parse_token _ _ _ _ _ TkOpenArray PNone) by reflexivity.
    assert (E : doc_step lim (m, stk) TkOpenArray = Some (MFirst, FArray [] :: stk)).
    { assert (E : value_step lim stk TkOpenArray = Some (MFirst, FArray [] :: stk)); [|destruct M as [-> | ->]; exact E]. cbn [value_step].
      rewrite may_open_within; [reflexivity|]. eapply within_le; [exact W|lia]. }
    rewrite E. apply (proj1 (proj2 grammar_reads)); [assumption|]. eapply within_le; [exact W|lia].
  - rewrite nesting_object in W. rewrite <- !app_assoc. cbn [app]. rewrite (parse_token _ _ _ _ _ TkOpen PNone) by reflexivity.
    assert (E : doc_step lim (m, stk) TkOpen = Some (MFirstName, FObject [] None :: stk)).
    { assert (E : value_step lim stk TkOpen = Some (MFirstName, FObject [] None :: stk)); [|destruct M as [-> | ->]; exact E]. cbn [value_step].
      rewrite may_open_within; [reflexivity|]. eapply within_le; [exact W|lia]. }
    rewrite E. apply (proj1 (proj2 (proj2 (proj2 grammar_reads)))); [assumption|]. eapply within_le; [exact W|lia].
Qed.
Theorem text_end s x d d' lim : parse lim s = Some d -> closed d -> within lim 0 -> parse lim (s ++ x) = Some d' -> blank x /\ d' = d.
Proof.
  intros E C W0 E'. pose proof (parse_within lim s d W0 E) as W. apply parse_sound in E as (a & q & b & A & V & B & ->).
  pose proof E' as E2. unfold parse in E'. rewrite <- !app_assoc in E'. rewrite parse_blank in E' by exact A.
  rewrite (closed_value d q V C) in E' by (auto; exact W). rewrite parse_blank in E' by exact B. pose proof (after_doc _ _ _ _ _ E') as [_ X].
  split; [exact X|]. assert (parse lim (a ++ q ++ (b ++ x)) = Some d).
  { apply parse_complete; [|exact W]. exists a, q, (b ++ x). repeat split; try assumption. apply blank_app; assumption. }
  rewrite <- !app_assoc in E2. congruence.
Qed.
