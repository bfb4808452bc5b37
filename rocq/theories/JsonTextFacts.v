(** Reading JSON texts accepts exactly the grammar (C62). *)
From Coq Require Import String.
From Verif Require Import Base Nibbles NibblesFacts2 Trie Cache CacheFacts2 Serde Json Text JsonText JsonTextSpec.
Open Scope N_scope.
Open Scope list_scope.

(** ** The specification's strings and characters, computed *)
Lemma hex_digit_val c v : hex_digit c v <-> hex_val c = Some v.
Proof.
  unfold hex_digit, hex_val. destruct (N.leb_spec 48 c), (N.leb_spec c 57), (N.leb_spec 97 c), (N.leb_spec c 102), (N.leb_spec 65 c), (N.leb_spec c 70); cbn [andb]; try lia;
    split; intros H'; try discriminate; try lia; try (f_equal; lia); injection H' as <-; lia.
Qed.
Lemma hex_digit_vals b : forall l, Forall2 hex_digit b l <-> hex_vals b = Some l.
Proof.
  induction b as [|c b IH]; intros l; cbn [hex_vals].
  - split; intros H; [inversion H; reflexivity|injection H as <-; constructor].
  - split.
    + intros H. inversion H as [|? v ? l' Hc Hb]; subst. apply hex_digit_val in Hc. apply IH in Hb. rewrite Hc, Hb. reflexivity.
    + destruct (hex_val c) as [v|] eqn:V; [|discriminate]. destruct (hex_vals b) as [l'|]; [|discriminate]. intros H. injection H as <-. constructor; [apply hex_digit_val, V|apply IH; reflexivity].
Qed.
Lemma four_small u h : four_hex u h -> u < 65536.
Proof. intros [a b c d va vb vc vd A B C D]. unfold hex_digit in *. lia. Qed.
Lemma div64 a b : 128 <= b < 192 -> (a * 64 + (b - 128)) / 64 = a /\ (a * 64 + (b - 128)) mod 64 = b - 128.
Proof. intros B. rewrite N.add_comm. rewrite N.div_add, N.mod_add by lia. rewrite N.div_small, N.mod_small by lia. lia. Qed.
Lemma split64 u : u = u / 64 * 64 + (128 + u mod 64 - 128) /\ 128 <= 128 + u mod 64 < 192.
Proof. pose proof (N.div_mod u 64). pose proof (N.mod_lt u 64). lia. Qed.
Lemma utf8_iff u w : u < 1114112 -> (utf8_text u w <-> w = utf8 u).
Proof.
  intros U. assert (D2 : u / 4096 = u / 64 / 64) by (rewrite N.div_div by lia; reflexivity). assert (D3 : u / 262144 = u / 64 / 64 / 64) by (rewrite !N.div_div by lia; reflexivity).
  unfold utf8. split.
  - intros T. destruct T as [a A|a b u A B E L|a b c u A B C E L|a b c d u A B C D E L]; unfold later in *.
    + destruct (N.ltb_spec a 128); [reflexivity|lia].
    + destruct (N.ltb_spec u 128); [lia|]. destruct (N.ltb_spec u 2048); [|lia]. destruct (div64 (a - 192) b B) as [Q R]. rewrite <- E in Q, R. rewrite Q, R. f_equal; [lia|f_equal; lia].
    + destruct (N.ltb_spec u 128); [lia|]. destruct (N.ltb_spec u 2048); [lia|]. destruct (N.ltb_spec u 65536); [|lia].
      destruct (div64 ((a - 224) * 64 + (b - 128)) c C) as [Q R]. destruct (div64 (a - 224) b B) as [Q' R']. rewrite <- E in Q, R. rewrite D2, Q, Q', R, R'.
      f_equal; [lia|f_equal; [lia|f_equal; lia]].
    + destruct (N.ltb_spec u 128); [lia|]. destruct (N.ltb_spec u 2048); [lia|]. destruct (N.ltb_spec u 65536); [lia|].
      destruct (div64 (((a - 240) * 64 + (b - 128)) * 64 + (c - 128)) d D) as [Q R]. destruct (div64 ((a - 240) * 64 + (b - 128)) c C) as [Q' R']. destruct (div64 (a - 240) b B) as [Q'' R''].
      rewrite <- E in Q, R. rewrite D3, D2, Q, Q', Q'', R, R', R''. f_equal; [lia|f_equal; [lia|f_equal; [lia|f_equal; lia]]].
  - intros ->. destruct (split64 u) as [E1 L1], (split64 (u / 64)) as [E2 L2], (split64 (u / 64 / 64)) as [E3 L3].
    destruct (N.ltb_spec u 128); [constructor; assumption|]. destruct (N.ltb_spec u 2048); [|destruct (N.ltb_spec u 65536)].
    + assert (u / 64 < 32) by (apply N.div_lt_upper_bound; lia). constructor; unfold later; lia.
    + rewrite D2. assert (u / 64 / 64 < 16) by (rewrite N.div_div by lia; apply N.div_lt_upper_bound; lia). constructor; unfold later; lia.
    + rewrite D2, D3. assert (u / 64 / 64 / 64 < 8) by (rewrite !N.div_div by lia; apply N.div_lt_upper_bound; lia). constructor; unfold later; lia.
Qed.
Lemma bytes_eqb_eq a b : bytes_eqb a b = true <-> a = b.
Proof. destruct (CacheFacts2.bytes_eqb_spec a b); split; congruence. Qed.
Lemma spelled_text n s : In (n, s) spelled <-> s = name_text n.
Proof.
  split.
  - intros I. cbn [spelled In] in I. repeat (destruct I as [I|I]; [injection I as <- <-; reflexivity|]). destruct I.
  - intros ->. destruct n; cbn [spelled In name_text]; tauto.
Qed.
Lemma key_of_name s n : key_of s = KName n -> s = name_text n.
Proof.
  unfold key_of. destruct (find _ names) as [m|] eqn:F; [|discriminate]. intros E. injection E as ->. apply find_some in F as [_ F]. apply bytes_eqb_eq in F. congruence.
Qed.
Lemma key_of_other s t : key_of s = KOther t -> t = s /\ forall n, s <> name_text n.
Proof.
  unfold key_of. destruct (find _ names) as [m|] eqn:F; [discriminate|]. intros E. injection E as ->. split; [reflexivity|]. intros n ->.
  assert (I : In n names) by (destruct n; cbn; tauto). pose proof (find_none _ _ F n I) as X. cbn beta in X. assert (Y : bytes_eqb (name_text n) (name_text n) = true) by (apply bytes_eqb_eq; reflexivity). congruence.
Qed.
Lemma name_text_inj n m : name_text n = name_text m -> n = m.
Proof. destruct n, m; intros E; (reflexivity || (vm_compute in E; discriminate E)). Qed.
Lemma key_value_iff s k : key_value s k <-> k = key_of s.
Proof.
  split.
  - intros [n I|O].
    + apply spelled_text in I. destruct (key_of s) as [m|t] eqn:E.
      * apply key_of_name in E. f_equal. apply name_text_inj. congruence.
      * apply key_of_other in E as [_ E]. destruct (E n I).
    + destruct (key_of s) as [m|t] eqn:E.
      * apply key_of_name in E. destruct (O m). apply spelled_text, E.
      * apply key_of_other in E as [-> _]. reflexivity.
  - intros ->. destruct (key_of s) as [m|t] eqn:E.
    + constructor. apply spelled_text, key_of_name, E.
    + apply key_of_other in E as [-> E]. constructor. intros n I. apply spelled_text in I. exact (E n I).
Qed.
Lemma hex_text_iff s l : hex_text s l <-> s <> [] /\ hex_vals (hex_part s) = Some l.
Proof.
  unfold hex_text. split; intros [N H]; (split; [exact N|]).
  - destruct H as (b & F & [-> | ->]).
    + apply hex_digit_vals in F. unfold hex_part. destruct b as [|x b]; [congruence|]. destruct (N.eq_dec x 48) as [->|Nx].
      * destruct b as [|y b]; [exact F|]. destruct (N.eq_dec y 120) as [->|Ny]; [discriminate F|]. destruct y as [|p]; [exact F|]. repeat (destruct p as [p|p|]; try exact F; try congruence).
      * destruct x as [|p]; [exact F|]. repeat (destruct p as [p|p|]; try exact F; try congruence).
    + apply hex_digit_vals in F. exact F.
  - exists (hex_part s). split; [apply hex_digit_vals, H|]. unfold hex_part in *.
    repeat match goal with |- context [match ?x with _ => _ end] => is_var x; destruct x end; auto.
Qed.
Lemma string_value_iff s d : string_value s d <-> d = string_doc s.
Proof.
  unfold string_doc. split.
  - intros [l H|k H K].
    + apply hex_text_iff in H as [N H]. destruct s; [congruence|]. rewrite H. reflexivity.
    + apply key_value_iff in K. subst k. destruct s as [|c s]; [reflexivity|]. destruct (hex_vals (hex_part (c :: s))) as [l|] eqn:E; [|reflexivity].
      destruct (H l). apply hex_text_iff. split; [discriminate|exact E].
  - intros ->. destruct s as [|c s].
    + constructor; [intros l H; apply hex_text_iff in H as [N _]; congruence|apply key_value_iff; reflexivity].
    + destruct (hex_vals (hex_part (c :: s))) as [l|] eqn:E.
      * constructor. apply hex_text_iff. split; [discriminate|exact E].
      * constructor; [intros l H; apply hex_text_iff in H as [_ H]; congruence|apply key_value_iff; reflexivity].
Qed.
Lemma string_here s q : string_text s q -> value_text (string_doc s) q.
Proof. intros T. econstructor; [exact T|apply string_value_iff; reflexivity]. Qed.
Lemma member_here a s n b c d q e : blank a -> string_text s n -> blank b -> blank c -> value_text d q -> blank e -> member (key_of s, d) (a ++ n ++ b ++ [58] ++ c ++ q ++ e).
Proof. intros. apply (me a s (key_of s)); try assumption. apply key_value_iff. reflexivity. Qed.
Lemma unicode_here u h s q : four_hex u h -> ~ surrogate u -> chars s q -> chars (utf8 u ++ s) (92 :: 117 :: h ++ q).
Proof. intros F S C. apply (ch_unicode u); try assumption. apply utf8_iff; [|reflexivity]. apply four_small in F. lia. Qed.
Lemma pair_here u v h l s q : four_hex u h -> four_hex v l -> 55296 <= u < 56320 -> 56320 <= v < 57344 -> chars s q ->
  chars (utf8 (65536 + (u - 55296) * 1024 + (v - 56320)) ++ s) (92 :: 117 :: h ++ 92 :: 117 :: l ++ q).
Proof. intros F G U V C. apply (ch_pair u v); try assumption. apply utf8_iff; [|reflexivity]. lia. Qed.

(** ** What is in the grammar is read *)
Lemma steps_app lim a : forall st b, steps lim st (a ++ b) = match steps lim st a with Some st' => steps lim st' b | None => None end.
Proof. induction a as [|c a IH]; intros st b; [reflexivity|]. cbn [app steps]. destruct (step lim st c) as [st'|]; [apply IH|reflexivity]. Qed.
Lemma parse_cons lim st c s : parse_from lim st (c :: s) = match step lim st c with Some st' => parse_from lim st' s | None => None end.
Proof. unfold parse_from. cbn [steps]. destruct (step lim st c); reflexivity. Qed.

Definition delim (s : list N) : Prop := match s with [] => True | c :: _ => In c [32; 9; 10; 13; 44; 93; 125] end.
Lemma delim_blank b s : blank b -> delim s -> delim (b ++ s).
Proof. destruct b as [|c b]; intros B D; [exact D|]. inversion B as [|? ? I _]; subst. cbn [app delim In] in *. intuition. Qed.
Lemma blank_start c : In c [32; 9; 10; 13] -> token_start c = Some ([], PNone).
Proof. cbn [In]. intros [<-|[<-|[<-|[<-|[]]]]]; reflexivity. Qed.
Lemma parse_blank lim b : forall x s, blank b -> parse_from lim (PNone, x) (b ++ s) = parse_from lim (PNone, x) s.
Proof.
  induction b as [|c b IH]; intros x s B; [reflexivity|]. inversion B; subst. cbn [app]. rewrite parse_cons. unfold step. cbn [fst snd token_step].
  rewrite blank_start by assumption. cbn [doc_steps]. apply IH. assumption.
Qed.

(** The text [q] is the token [t]. *)
Definition reads (q : list N) (t : token) (s : list N) : Prop :=
  forall lim st, parse_from lim (PNone, st) (q ++ s) = match doc_step lim st t with Some st' => parse_from lim (PNone, st') s | None => None end.

Lemma parse_step lim p st c s ts p' : token_step p c = Some (ts, p') ->
  parse_from lim (p, st) (c :: s) = match doc_steps lim st ts with Some st' => parse_from lim (p', st') s | None => None end.
Proof. intros E. rewrite parse_cons. unfold step. cbn [fst snd]. rewrite E. destruct (doc_steps lim st ts); reflexivity. Qed.
Lemma parse_quiet lim p st c s p' : token_step p c = Some ([], p') -> parse_from lim (p, st) (c :: s) = parse_from lim (p', st) s.
Proof. intros E. rewrite (parse_step _ _ _ _ _ _ _ E). reflexivity. Qed.
Lemma parse_token lim p st c s t p' : token_step p c = Some ([t], p') ->
  parse_from lim (p, st) (c :: s) = match doc_step lim st t with Some st' => parse_from lim (p', st') s | None => None end.
Proof. intros E. rewrite (parse_step _ _ _ _ _ _ _ E). cbn [doc_steps]. destruct (doc_step lim st t); reflexivity. Qed.

Lemma reads_word c rest t s : rest <> [] -> token_start c = Some ([], PWord rest t) -> reads (c :: rest) t s.
Proof.
  intros R E lim st. cbn [app]. rewrite (parse_quiet _ PNone _ c _ (PWord rest t) E). clear E c. induction rest as [|c rest IH]; [congruence|]. cbn [app].
  destruct rest as [|c' rest].
  - cbn [app]. apply parse_token. cbn [token_step]. rewrite N.eqb_refl. reflexivity.
  - rewrite (parse_quiet _ _ _ _ _ (PWord (c' :: rest) t)); [apply IH; discriminate|]. cbn [token_step]. rewrite N.eqb_refl. reflexivity.
Qed.
Lemma reads_null s : reads (txt "null") TkNull s.
Proof. apply reads_word; [discriminate|reflexivity]. Qed.
Lemma reads_true s : reads (txt "true") TkOther s.
Proof. apply reads_word; [discriminate|reflexivity]. Qed.
Lemma reads_false s : reads (txt "false") TkOther s.
Proof. apply reads_word; [discriminate|reflexivity]. Qed.
Lemma reads_char c t s : token_start c = Some ([t], PNone) -> reads [c] t s.
Proof. intros E lim st. cbn [app]. apply (parse_token _ PNone _ c), E. Qed.

(** Strings. *)
Lemma parse_chars s q : chars s q -> forall lim st read r,
  parse_from lim (PString read, st) (q ++ r) = parse_from lim (PString (read ++ s), st) r.
Proof.
  induction 1 as [|c s q H1 H2 H3 _ IH|e c s q I _ IH|u h w s q F S Ut _ IH|u v h l w s q F G U V Ut _ IH]; intros lim st read r.
  - rewrite app_nil_r. reflexivity.
  - cbn [app]. rewrite (parse_quiet _ _ _ _ _ (PString (read ++ [c]))), IH, <- app_assoc; [reflexivity|]. cbn [token_step].
    destruct (N.eqb_spec c 34); [lia|]. destruct (N.eqb_spec c 92); [lia|]. destruct (N.ltb_spec c 32); [lia|reflexivity].
  - cbn [app]. rewrite (parse_quiet _ _ _ _ _ (PEscape read)) by reflexivity. rewrite (parse_quiet _ _ _ _ _ (PString (read ++ [c]))), IH, <- app_assoc; [reflexivity|].
    cbn [In] in I. repeat (destruct I as [I|I]; [injection I as <- <-; reflexivity|]). destruct I.
  - pose proof (four_small _ _ F) as Su. apply utf8_iff in Ut; [|lia]. subst w. destruct F as [a b c d va vb vc vd Ha Hb Hc Hd]. apply hex_digit_val in Ha, Hb, Hc, Hd. cbn [app]. rewrite (parse_quiet _ _ _ _ _ (PEscape read)) by reflexivity.
    rewrite (parse_quiet _ _ _ _ _ (PUnicode read None [])) by reflexivity.
    rewrite (parse_quiet _ _ _ _ _ (PUnicode read None [va])) by (cbn [token_step]; rewrite Ha; reflexivity).
    rewrite (parse_quiet _ _ _ _ _ (PUnicode read None [va; vb])) by (cbn [token_step]; rewrite Hb; reflexivity).
    rewrite (parse_quiet _ _ _ _ _ (PUnicode read None [va; vb; vc])) by (cbn [token_step]; rewrite Hc; reflexivity).
    replace (va * 4096 + vb * 256 + vc * 16 + vd) with (((va * 16 + vb) * 16 + vc) * 16 + vd) in * by lia.
    set (u := ((va * 16 + vb) * 16 + vc) * 16 + vd) in *.
    rewrite (parse_quiet _ _ _ _ _ (PString (read ++ utf8 u))), IH, <- app_assoc; [reflexivity|]. cbn [token_step]. rewrite Hd. fold u. cbn [code_unit].
    unfold surrogate in S. unfold is_high, is_low. destruct (N.leb_spec 55296 u), (N.ltb_spec u 56320), (N.leb_spec 56320 u), (N.ltb_spec u 57344); try lia; reflexivity.
  - apply utf8_iff in Ut; [|lia]. subst w. destruct F as [a b c d va vb vc vd Ha Hb Hc Hd]. destruct G as [a' b' c' d' va' vb' vc' vd' Ha' Hb' Hc' Hd']. apply hex_digit_val in Ha, Hb, Hc, Hd, Ha', Hb', Hc', Hd'. cbn [app].
    rewrite (parse_quiet _ _ _ _ _ (PEscape read)) by reflexivity.
    rewrite (parse_quiet _ _ _ _ _ (PUnicode read None [])) by reflexivity.
    rewrite (parse_quiet _ _ _ _ _ (PUnicode read None [va])) by (cbn [token_step]; rewrite Ha; reflexivity).
    rewrite (parse_quiet _ _ _ _ _ (PUnicode read None [va; vb])) by (cbn [token_step]; rewrite Hb; reflexivity).
    rewrite (parse_quiet _ _ _ _ _ (PUnicode read None [va; vb; vc])) by (cbn [token_step]; rewrite Hc; reflexivity).
    replace (va * 4096 + vb * 256 + vc * 16 + vd) with (((va * 16 + vb) * 16 + vc) * 16 + vd) in * by lia.
    set (u := ((va * 16 + vb) * 16 + vc) * 16 + vd) in *.
    rewrite (parse_quiet _ _ _ _ _ (PPair1 read u)).
    2:{ cbn [token_step]. rewrite Hd. fold u. cbn [code_unit]. unfold is_high. destruct (N.leb_spec 55296 u), (N.ltb_spec u 56320); try lia; reflexivity. }
    rewrite (parse_quiet _ _ _ _ _ (PPair2 read u)) by reflexivity.
    rewrite (parse_quiet _ _ _ _ _ (PUnicode read (Some u) [])) by reflexivity.
    rewrite (parse_quiet _ _ _ _ _ (PUnicode read (Some u) [va'])) by (cbn [token_step]; rewrite Ha'; reflexivity).
    rewrite (parse_quiet _ _ _ _ _ (PUnicode read (Some u) [va'; vb'])) by (cbn [token_step]; rewrite Hb'; reflexivity).
    rewrite (parse_quiet _ _ _ _ _ (PUnicode read (Some u) [va'; vb'; vc'])) by (cbn [token_step]; rewrite Hc'; reflexivity).
    replace (va' * 4096 + vb' * 256 + vc' * 16 + vd') with (((va' * 16 + vb') * 16 + vc') * 16 + vd') in * by lia.
    set (v := ((va' * 16 + vb') * 16 + vc') * 16 + vd') in *.
    rewrite (parse_quiet _ _ _ _ _ (PString (read ++ utf8 (pair_value u v)))), IH, <- app_assoc; [reflexivity|]. cbn [token_step]. rewrite Hd'. fold v. cbn [code_unit].
    unfold is_low. destruct (N.leb_spec 56320 v), (N.ltb_spec v 57344); try lia; reflexivity.
Qed.
Lemma reads_string s q r : string_text s q -> reads q (TkString s) r.
Proof.
  intros [q' C] lim st. rewrite <- !app_assoc. cbn [app]. rewrite (parse_quiet _ _ _ _ _ (PString [])) by reflexivity. rewrite (parse_chars _ _ C).
  cbn [app]. apply parse_token. reflexivity.
Qed.

(** Numbers. *)
Lemma delim_start c : In c [32; 9; 10; 13; 44; 93; 125] -> exists ts, token_start c = Some (ts, PNone) /\ is_digit c = false /\ is_exp c = false /\ (c =? 46) = false.
Proof. cbn [In]. intros I. repeat (destruct I as [<-|I]; [eexists; repeat split; reflexivity|]). destruct I. Qed.
Lemma parse_number_end lim p t st s : number_end p = Some t -> delim s ->
  parse_from lim (p, st) s = match doc_step lim st t with Some st' => parse_from lim (PNone, st') s | None => None end.
Proof.
  intros E D. destruct s as [|c s].
  - unfold parse_from. cbn [steps]. unfold finish. cbn [fst snd]. rewrite E. cbn [doc_steps number_end fst]. destruct (doc_step lim st t) as [st'|]; reflexivity.
  - cbn [delim] in D. destruct (delim_start c D) as (ts & T & E1 & E2 & E3).
    rewrite (parse_step _ _ _ _ _ (t :: ts) PNone).
    + cbn [doc_steps]. destruct (doc_step lim st t) as [st'|]; [|reflexivity]. symmetry. apply parse_step. exact T.
    + assert (A : after_number p c = Some (t :: ts, PNone)) by (unfold after_number; rewrite E, T; reflexivity).
      destruct p; try discriminate E; cbn [token_step]; rewrite ?E1, ?E2, ?E3; exact A.
Qed.
Lemma digit_is c : 48 <= c /\ c <= 57 -> is_digit c = true.
Proof. intros [A B]. unfold is_digit. destruct (N.leb_spec 48 c), (N.leb_spec c 57); try lia; reflexivity. Qed.
Lemma parse_digits lim st neg q : Forall (fun c => 48 <= c /\ c <= 57) q -> forall n s,
  parse_from lim (PInt neg n, st) (q ++ s) = parse_from lim (PInt neg (fold_left (fun a c => a * 10 + (c - 48)) q n), st) s.
Proof.
  induction 1 as [|c q D _ IH]; intros n s; [reflexivity|]. cbn [app fold_left]. rewrite (parse_quiet _ _ _ _ _ (PInt neg (n * 10 + (c - 48)))); [apply IH|].
  cbn [token_step]. rewrite (digit_is c D). reflexivity.
Qed.
Lemma parse_same lim st p q : Forall (fun c => 48 <= c /\ c <= 57) q -> p = PFraction \/ p = PExponent -> forall s,
  parse_from lim (p, st) (q ++ s) = parse_from lim (p, st) s.
Proof.
  intros F P. induction F as [|c q D _ IH]; intros s; [reflexivity|]. cbn [app]. rewrite (parse_quiet _ _ _ _ _ p); [apply IH|].
  destruct P as [-> | ->]; cbn [token_step]; rewrite (digit_is c D); reflexivity.
Qed.

Definition int_end (neg : bool) (q : list N) : partial := match q with [48] => PZero neg | _ => PInt neg (value_of_digits q) end.
Lemma parse_int lim st q (neg : bool) : int_text q -> forall s,
  parse_from lim (if neg then PMinus else PNone, st) (q ++ s) = parse_from lim (int_end neg q, st) s.
Proof.
  intros I s. destruct I as [-> | [[E D] Z]].
  - cbn [app int_end]. apply parse_quiet. destruct neg; reflexivity.
  - destruct q as [|c q]; [congruence|]. cbn [hd] in Z. inversion D as [|? ? Dc Dq]; subst.
    assert (Ec : token_step (if neg then PMinus else PNone) c = Some ([], PInt neg (c - 48))).
    { assert (In c [49; 50; 51; 52; 53; 54; 55; 56; 57]) as X by (cbn [In]; lia). clear - X. cbn [In] in X.
      destruct neg; repeat (destruct X as [<-|X]; [reflexivity|]); destruct X. }
    cbn [app]. rewrite (parse_quiet _ _ _ _ _ _ Ec), (parse_digits _ _ _ _ Dq).
    assert (Ei : int_end neg (c :: q) = PInt neg (value_of_digits (c :: q))).
    { unfold int_end. assert (In c [49; 50; 51; 52; 53; 54; 55; 56; 57]) as X by (cbn [In]; lia). cbn [In] in X. repeat (destruct X as [<-|X]; [reflexivity|]). destruct X. }
    rewrite Ei. reflexivity.
Qed.
Lemma int_end_token neg q : int_text q -> number_end (int_end neg q) = Some (if neg then TkOther else TkNumber (value_of_digits q)).
Proof.
  intros [-> | [[E D] Z]]; [destruct neg; reflexivity|]. destruct q as [|c q]; [congruence|]. cbn [hd] in Z. inversion D as [|? ? Dc Dq]; subst.
  assert (Ei : int_end neg (c :: q) = PInt neg (value_of_digits (c :: q))).
  { unfold int_end. assert (In c [49; 50; 51; 52; 53; 54; 55; 56; 57]) as X by (cbn [In]; lia). cbn [In] in X. repeat (destruct X as [<-|X]; [reflexivity|]). destruct X. }
  rewrite Ei. destruct neg; reflexivity.
Qed.
Lemma reads_int q s : int_text q -> delim s -> reads q (TkNumber (value_of_digits q)) s.
Proof. intros I D lim st. rewrite (parse_int lim st q false I). apply parse_number_end; [apply int_end_token, I|exact D]. Qed.
Lemma int_end_is neg q : int_end neg q = PZero neg \/ int_end neg q = PInt neg (value_of_digits q).
Proof. unfold int_end. destruct q as [|c q]; [right; reflexivity|]. destruct (N.eq_dec c 48) as [->|N0]; [destruct q; [left|right]; reflexivity|].
  right. destruct c as [|p]; [reflexivity|]. repeat (destruct p as [p|p|]; try reflexivity). destruct q; [congruence|reflexivity]. Qed.
Lemma parse_exponent lim st p x s : (p = PFraction \/ (exists neg, p = PZero neg) \/ exists neg n, p = PInt neg n) -> exponent_text x -> x <> [] -> delim s ->
  parse_from lim (p, st) (x ++ s) = match doc_step lim st TkOther with Some st' => parse_from lim (PNone, st') s | None => None end.
Proof.
  intros P X NX D. destruct X as [->|(e & sign & q & Ie & Is & [Qn Qd] & ->)]; [congruence|]. cbn [app].
  assert (Ee : is_exp e = true) by (cbn [In] in Ie; destruct Ie as [<-|[<-|[]]]; reflexivity).
  assert (Ed : is_digit e = false /\ (e =? 46) = false) by (cbn [In] in Ie; destruct Ie as [<-|[<-|[]]]; split; reflexivity). destruct Ed as [Ed Ed'].
  rewrite (parse_quiet _ _ _ _ _ PExp).
  2:{ destruct P as [->|[(neg & ->)|(neg & n & ->)]]; cbn [token_step]; rewrite ?Ed, ?Ed', Ee; reflexivity. }
  rewrite <- app_assoc. destruct q as [|c q]; [congruence|]. inversion Qd as [|? ? Dc Dq]; subst.
  assert (G : forall p', p' = PExp \/ p' = PExpSign -> parse_from lim (p', st) ((c :: q) ++ s) = match doc_step lim st TkOther with Some st' => parse_from lim (PNone, st') s | None => None end).
  { intros p' P'. cbn [app]. rewrite (parse_quiet _ _ _ _ _ PExponent); [|destruct P' as [-> | ->]; cbn [token_step]; rewrite (digit_is c Dc); reflexivity].
    rewrite (parse_same _ _ _ _ Dq) by (right; reflexivity). apply parse_number_end; [reflexivity|exact D]. }
  cbn [In] in Is. destruct Is as [<-|[<-|[<-|[]]]].
  - cbn [app]. apply (G PExp). left. reflexivity.
  - cbn [app]. rewrite (parse_quiet _ _ _ _ _ PExpSign) by reflexivity. apply (G PExpSign). right. reflexivity.
  - cbn [app]. rewrite (parse_quiet _ _ _ _ _ PExpSign) by reflexivity. apply (G PExpSign). right. reflexivity.
Qed.
Lemma reads_number m i f x s : minus_text m -> int_text i -> fraction_text f -> exponent_text x -> m ++ f ++ x <> [] -> delim s -> reads (m ++ i ++ f ++ x) TkOther s.
Proof.
  intros M I F X NE D lim st. assert (exists neg : bool, (m = if neg then [45] else [])) as [neg Em] by (destruct M as [-> | ->]; [exists false|exists true]; reflexivity).
  assert (E1 : parse_from lim (PNone, st) ((m ++ i ++ f ++ x) ++ s) = parse_from lim (int_end neg i, st) (f ++ x ++ s)).
  { rewrite <- !app_assoc. rewrite <- (parse_int lim st i neg I). subst m. destruct neg; [|reflexivity]. cbn [app]. rewrite (parse_quiet _ _ _ _ _ PMinus) by reflexivity. reflexivity. }
  rewrite E1. clear E1.
  destruct F as [->|(q & [Qn Qd] & ->)].
  - cbn [app] in *. destruct x as [|e x'] eqn:Ex.
    + rewrite app_nil_r in NE. subst m. destruct neg; [|congruence]. cbn [app]. apply parse_number_end; [apply (int_end_token true i I)|exact D].
    + rewrite <- Ex in *. apply parse_exponent; [|exact X|rewrite Ex; discriminate|exact D]. right. destruct (int_end_is neg i) as [-> | ->]; [left|right]; eauto.
  - cbn [app]. rewrite (parse_quiet _ _ _ _ _ PDot) by (destruct (int_end_is neg i) as [-> | ->]; reflexivity).
    destruct q as [|c q]; [congruence|]. inversion Qd as [|? ? Dc Dq]; subst. cbn [app]. rewrite (parse_quiet _ _ _ _ _ PFraction) by (cbn [token_step]; rewrite (digit_is c Dc); reflexivity).
    rewrite (parse_same _ _ _ _ Dq) by (left; reflexivity). destruct x as [|e x'] eqn:Ex.
    + cbn [app]. apply parse_number_end; [reflexivity|exact D].
    + rewrite <- Ex in *. apply parse_exponent; [left; reflexivity|exact X|rewrite Ex; discriminate|exact D].
Qed.

(** Values. *)
Scheme value_ind' := Induction for value_text Sort Prop
with array_ind' := Induction for array_text Sort Prop
with elements_ind' := Induction for elements Sort Prop
with object_ind' := Induction for object_text Sort Prop
with members_ind' := Induction for members Sort Prop
with member_ind' := Induction for member Sort Prop.
Combined Scheme json_ind from value_ind', array_ind', elements_ind', object_ind', members_ind', member_ind'.

Definition within (lim : option nat) (n : N) : Prop := match lim with Some k => n < N.of_nat k | None => True end.
Definition depth {A} (l : list A) : N := N.of_nat (length l).
Lemma within_le lim a b : within lim a -> b <= a -> within lim b.
Proof. destruct lim as [k|]; cbn [within]; [lia|auto]. Qed.
Lemma may_open_within lim stk : within lim (depth stk + 1) -> may_open lim stk = true.
Proof. unfold may_open, depth. destruct lim as [k|]; cbn [within]; [|reflexivity]. intros W. apply Nat.ltb_lt. lia. Qed.
Definition nests (l : list doc) : N := fold_right N.max 0 (map nesting l).
Definition nests' (l : list (key * doc)) : N := fold_right N.max 0 (map (fun e => nesting (snd e)) l).
Lemma nesting_array l : nesting (JArray l) = 1 + nests l.
Proof. reflexivity. Qed.
Lemma nesting_object l : nesting (JObject l) = 1 + nests' l.
Proof. reflexivity. Qed.

Definition val_ok (d : doc) (q : list N) : Prop := forall lim stk m s, m = MValue \/ m = MFirst -> delim s -> within lim (depth stk + nesting d) ->
  parse_from lim (PNone, (m, stk)) (q ++ s) = parse_from lim (PNone, (MAfter d, stk)) s.
Definition arr_ok (l : list doc) (q : list N) : Prop := forall lim stk s, within lim (depth stk + 1 + nests l) ->
  parse_from lim (PNone, (MFirst, FArray [] :: stk)) (q ++ 93 :: s) = parse_from lim (PNone, (MAfter (JArray l), stk)) s.
Definition els_ok (l : list doc) (q : list N) : Prop := forall lim stk m done s, m = MValue \/ m = MFirst -> within lim (depth stk + 1 + nests l) ->
  parse_from lim (PNone, (m, FArray done :: stk)) (q ++ 93 :: s) = parse_from lim (PNone, (MAfter (JArray (rev done ++ l)), stk)) s.
Definition obj_ok (l : list (key * doc)) (q : list N) : Prop := forall lim stk s, within lim (depth stk + 1 + nests' l) ->
  parse_from lim (PNone, (MFirstName, FObject [] None :: stk)) (q ++ 125 :: s) = parse_from lim (PNone, (MAfter (JObject l), stk)) s.
Definition mems_ok (l : list (key * doc)) (q : list N) : Prop := forall lim stk m done s, m = MName \/ m = MFirstName -> within lim (depth stk + 1 + nests' l) ->
  parse_from lim (PNone, (m, FObject done None :: stk)) (q ++ 125 :: s) = parse_from lim (PNone, (MAfter (JObject (rev done ++ l)), stk)) s.
Definition mem_ok (e : key * doc) (q : list N) : Prop := forall lim stk m done s, m = MName \/ m = MFirstName -> delim s -> within lim (depth stk + 1 + nesting (snd e)) ->
  parse_from lim (PNone, (m, FObject done None :: stk)) (q ++ s) = parse_from lim (PNone, (MAfter (snd e), FObject done (Some (fst e)) :: stk)) s.

Lemma val_token d q t : (forall s, delim s -> reads q t s) ->
  (forall lim stk m, m = MValue \/ m = MFirst -> doc_step lim (m, stk) t = Some (MAfter d, stk)) -> val_ok d q.
Proof. intros R E lim stk m s M D _. rewrite (R s D), (E lim stk m M). reflexivity. Qed.
Lemma depth_cons {A} (x : A) l : depth (x :: l) = depth l + 1.
Proof. unfold depth. cbn [length]. lia. Qed.

Lemma grammar_reads :
  (forall d q, value_text d q -> val_ok d q) /\ (forall l q, array_text l q -> arr_ok l q) /\ (forall l q, elements l q -> els_ok l q) /\
  (forall l q, object_text l q -> obj_ok l q) /\ (forall l q, members l q -> mems_ok l q) /\ (forall e q, member e q -> mem_ok e q).
Proof.
  apply (json_ind (fun d q _ => val_ok d q) (fun l q _ => arr_ok l q) (fun l q _ => els_ok l q) (fun l q _ => obj_ok l q) (fun l q _ => mems_ok l q) (fun e q _ => mem_ok e q)).
  - apply (val_token _ _ TkNull); [intros; apply reads_null|]. intros lim stk m [-> | ->]; reflexivity.
  - apply (val_token _ _ TkOther); [intros; apply reads_true|]. intros lim stk m [-> | ->]; reflexivity.
  - apply (val_token _ _ TkOther); [intros; apply reads_false|]. intros lim stk m [-> | ->]; reflexivity.
  - intros q I. apply (val_token _ _ (TkNumber (value_of_digits q))); [intros; apply reads_int; assumption|]. intros lim stk m [-> | ->]; reflexivity.
  - intros m i f x M I F X NE. apply (val_token _ _ TkOther); [intros; apply reads_number; assumption|]. intros lim stk m' [-> | ->]; reflexivity.
  - intros s d q T Sv. apply string_value_iff in Sv. subst d. apply (val_token _ _ (TkString s)); [intros; apply reads_string; assumption|]. intros lim stk m [-> | ->]; reflexivity.
  - intros l q _ IH lim stk m s M D W. rewrite nesting_array in W. rewrite <- !app_assoc. cbn [app].
    rewrite (parse_token _ _ _ _ _ TkOpenArray PNone) by reflexivity.
    assert (E : doc_step lim (m, stk) TkOpenArray = Some (MFirst, FArray [] :: stk)).
    { assert (E : value_step lim stk TkOpenArray = Some (MFirst, FArray [] :: stk)); [|destruct M as [-> | ->]; exact E]. cbn [value_step].
      rewrite may_open_within; [reflexivity|]. eapply within_le; [exact W|lia]. }
    rewrite E. apply IH. eapply within_le; [exact W|lia].
  - intros l q _ IH lim stk m s M D W. rewrite nesting_object in W. rewrite <- !app_assoc. cbn [app].
    rewrite (parse_token _ _ _ _ _ TkOpen PNone) by reflexivity.
    assert (E : doc_step lim (m, stk) TkOpen = Some (MFirstName, FObject [] None :: stk)).
    { assert (E : value_step lim stk TkOpen = Some (MFirstName, FObject [] None :: stk)); [|destruct M as [-> | ->]; exact E]. cbn [value_step].
      rewrite may_open_within; [reflexivity|]. eapply within_le; [exact W|lia]. }
    rewrite E. apply IH. eapply within_le; [exact W|lia].
  - intros b B lim stk s W. rewrite parse_blank by exact B. rewrite (parse_token _ _ _ _ _ TkCloseArray PNone) by reflexivity. reflexivity.
  - intros l q _ IH lim stk s W. rewrite (IH lim stk MFirst []); [reflexivity|right; reflexivity|exact W].
  - intros a d q b Ba _ IH Bb lim stk m done s M W. cbn [nests map fold_right] in W. rewrite N.max_0_r in W. rewrite <- !app_assoc. rewrite parse_blank by exact Ba.
    rewrite IH; [|exact M| |].
    + rewrite parse_blank by exact Bb. rewrite (parse_token _ _ _ _ _ TkCloseArray PNone) by reflexivity. cbn [doc_step rev]. reflexivity.
    + apply delim_blank; [exact Bb|]. cbn. auto 10.
    + rewrite depth_cons. exact W.
  - intros a d q b l r Ba _ IH Bb _ IHl lim stk m done s M W. cbn [nests map fold_right] in W. fold (nests l) in W. rewrite <- !app_assoc. rewrite parse_blank by exact Ba.
    rewrite IH; [|exact M| |].
    + rewrite parse_blank by exact Bb. cbn [app]. rewrite (parse_token _ _ _ _ _ TkComma PNone) by reflexivity. cbn [doc_step].
      rewrite IHl; [|left; reflexivity|eapply within_le; [exact W|lia]]. cbn [rev]. rewrite <- app_assoc. reflexivity.
    + apply delim_blank; [exact Bb|]. cbn. auto 10.
    + rewrite depth_cons. eapply within_le; [exact W|lia].
  - intros b B lim stk s W. rewrite parse_blank by exact B. rewrite (parse_token _ _ _ _ _ TkClose PNone) by reflexivity. reflexivity.
  - intros l q _ IH lim stk s W. rewrite (IH lim stk MFirstName []); [reflexivity|right; reflexivity|exact W].
  - intros e q _ IH lim stk m done s M W. cbn [nests' map fold_right] in W. rewrite N.max_0_r in W.
    rewrite IH; [|exact M|cbn; auto 10|exact W]. rewrite (parse_token _ _ _ _ _ TkClose PNone) by reflexivity. cbn [doc_step rev]. destruct e. reflexivity.
  - intros e q l r _ IH _ IHl lim stk m done s M W. cbn [nests' map fold_right] in W. fold (nests' l) in W. rewrite <- !app_assoc.
    rewrite IH; [|exact M|cbn; auto 10|eapply within_le; [exact W|lia]]. cbn [app]. rewrite (parse_token _ _ _ _ _ TkComma PNone) by reflexivity. cbn [doc_step].
    rewrite IHl; [|left; reflexivity|eapply within_le; [exact W|lia]]. cbn [rev]. rewrite <- app_assoc. destruct e. reflexivity.
  - intros a s k n b c d q e Ba T Kv Bb Bc _ IH Be lim stk m done r M D W. apply key_value_iff in Kv. subst k. cbn [fst snd] in *. rewrite <- !app_assoc. rewrite parse_blank by exact Ba.
    rewrite (reads_string s n _ T). assert (E : doc_step lim (m, FObject done None :: stk) (TkString s) = Some (MColon, FObject done (Some (key_of s)) :: stk)) by (destruct M as [-> | ->]; reflexivity).
    rewrite E. rewrite parse_blank by exact Bb. cbn [app]. rewrite (parse_token _ _ _ _ _ TkColon PNone) by reflexivity. cbn [doc_step].
    rewrite parse_blank by exact Bc. rewrite IH; [|left; reflexivity|apply delim_blank; assumption|rewrite depth_cons; exact W].
    rewrite parse_blank by exact Be. reflexivity.
Qed.

Theorem parse_complete lim d s : json_text d s -> within lim (nesting d) -> parse lim s = Some d.
Proof.
  intros (a & q & b & Ba & V & Bb & ->) W. unfold parse. rewrite parse_blank by exact Ba.
  rewrite (proj1 grammar_reads d q V); [|left; reflexivity|rewrite <- (app_nil_r b); apply delim_blank; [exact Bb|exact I]|exact W].
  rewrite <- (app_nil_r b), parse_blank by exact Bb. reflexivity.
Qed.
