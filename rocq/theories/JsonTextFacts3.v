(** What serde_json writes is in the grammar of JSON texts (C62). *)
From Coq Require Import String.
From Verif Require Import Base Nibbles NibblesSpec NibblesFacts NibblesFacts2 Trie TrieFacts Cache CacheFacts Serde P_Serde Json JsonSpec JsonFacts Text TextSpec TextFacts JsonText JsonTextSpec JsonTextFacts JsonTextFacts2.
From Verif Require Import Json JsonSpec JsonText JsonTextSpec.
Open Scope N_scope.
Open Scope list_scope.

(** ** Strings *)
Lemma chars_escaped c : chars [c] (escaped c).
Proof.
  unfold escaped.
  destruct (N.eqb_spec c 34) as [->|N34]; [apply (ch_escape 34 34 [] []); [cbn [In]; auto 10|constructor]|].
  destruct (N.eqb_spec c 92) as [->|N92]; [apply (ch_escape 92 92 [] []); [cbn [In]; auto 10|constructor]|].
  destruct (N.eqb_spec c 8) as [->|_]; [apply (ch_escape 98 8 [] []); [cbn [In]; auto 10|constructor]|].
  destruct (N.eqb_spec c 9) as [->|_]; [apply (ch_escape 116 9 [] []); [cbn [In]; auto 10|constructor]|].
  destruct (N.eqb_spec c 10) as [->|_]; [apply (ch_escape 110 10 [] []); [cbn [In]; auto 10|constructor]|].
  destruct (N.eqb_spec c 12) as [->|_]; [apply (ch_escape 102 12 [] []); [cbn [In]; auto 10|constructor]|].
  destruct (N.eqb_spec c 13) as [->|_]; [apply (ch_escape 114 13 [] []); [cbn [In]; auto 10|constructor]|].
  destruct (N.ltb_spec c 32) as [L|L]; [|constructor; [exact L|exact N34|exact N92|constructor]].
  assert (D : c / 16 < 16) by (apply N.div_lt_upper_bound; lia). assert (M : c mod 16 < 16) by (apply N.mod_lt; lia).
  assert (F : four_hex (0 * 4096 + 0 * 256 + (c / 16) * 16 + c mod 16) [48; 48; hex_char false (c / 16); hex_char false (c mod 16)]).
  { constructor; apply hex_digit_val; [reflexivity|reflexivity|apply hex_val_char, D|apply hex_val_char, M]. }
  assert (E : 0 * 4096 + 0 * 256 + (c / 16) * 16 + c mod 16 = c) by (pose proof (N.div_mod c 16); lia). rewrite E in F.
  assert (U : [c] = utf8 c ++ []). { unfold utf8. destruct (N.ltb_spec c 128); [reflexivity|lia]. }
  rewrite U. replace [92; 117; 48; 48; hex_char false (c / 16); hex_char false (c mod 16)] with (92 :: 117 :: [48; 48; hex_char false (c / 16); hex_char false (c mod 16)] ++ []) by reflexivity.
  apply unicode_here; [exact F|unfold surrogate; lia|constructor].
Qed.
Lemma quoted_text s : string_text s (quoted s).
Proof.
  unfold quoted. constructor. induction s as [|c s IH]; [constructor|]. cbn [flat_map]. change (c :: s) with ([c] ++ s). apply chars_app; [apply chars_escaped|exact IH].
Qed.
Lemma name_string n : string_doc (name_text n) = JString (KName n) /\ key_of (name_text n) = KName n.
Proof. destruct n; vm_compute; split; reflexivity. Qed.
Lemma hex_string l : hexl l -> string_doc (txt "0x" ++ map (hex_char false) l) = JHex l.
Proof. intros H. unfold string_doc. change (txt "0x") with [48; 120]. cbn [app hex_part]. rewrite hex_vals_map by exact H. reflexivity. Qed.

(** ** Numbers *)
Lemma undec_value q : undec q = value_of_digits q.
Proof.
  unfold undec, value_of_digits. generalize 0. induction q as [|c q IH]; intros a; [reflexivity|]. cbn [fold_left]. rewrite IH. f_equal. lia.
Qed.
Lemma uint_digits u : Forall (fun c => 48 <= c /\ c <= 57) (uint_chars u).
Proof. induction u; cbn [uint_chars]; constructor; (assumption || lia). Qed.
Lemma dec_int n : int_text (dec n).
Proof.
  unfold dec. destruct (N.eq_dec n 0) as [->|N0]; [left; reflexivity|right].
  assert (U : Decimal.unorm (N.to_uint n) = N.to_uint n) by (rewrite <- DecimalN.Unsigned.to_of, DecimalN.Unsigned.of_to; reflexivity).
  assert (V : N.of_uint (N.to_uint n) = n) by apply DecimalN.Unsigned.of_to. revert U V. generalize (N.to_uint n). intros u U V.
  assert (Z : forall u', u = Decimal.D0 u' -> False).
  { intros u' ->. unfold Decimal.unorm in U. destruct (Decimal.nzhead (Decimal.D0 u')) eqn:E; try discriminate U.
    - injection U as <-. cbn in V. congruence.
    - exact (DecimalFacts.nzhead_nonzero _ _ E). }
  split; [split; [|apply uint_digits]|].
  - destruct u; try discriminate; cbn in V; congruence.
  - destruct u; cbn [uint_chars hd]; try discriminate; destruct (Z _ eq_refl).
Qed.
Lemma dec_value n : value_text (JNum n) (dec n).
Proof. rewrite <- (undec_dec n) at 1. rewrite undec_value. constructor. apply dec_int. Qed.

(** ** Documents *)
(** Documents that can be told from their texts: hex digits are digits, and other strings are not hex texts or names. *)
Fixpoint plain (d : doc) : Prop :=
  match d with
  | JNull | JNum _ | JOther => True
  | JHex l => hexl l
  | JString k => string_doc (key_chars k) = JString k
  | JArray l => (fix go l := match l with [] => True | d :: l' => plain d /\ go l' end) l
  | JObject l => (fix go l := match l with [] => True | (k, d) :: l' => key_of (key_chars k) = k /\ plain d /\ go l' end) l
  end.
Lemma plain_array l : plain (JArray l) <-> forall d, In d l -> plain d.
Proof.
  induction l as [|d l IH]; [split; [intros _ d []|intros _; exact I]|]. change (plain (JArray (d :: l))) with (plain d /\ plain (JArray l)). rewrite IH. split.
  - intros [A B] x [<-|X]; auto.
  - intros A. split; [apply A; left; reflexivity|]. intros x X. apply A. right. exact X.
Qed.
Lemma plain_object l : plain (JObject l) <-> forall k d, In (k, d) l -> key_of (key_chars k) = k /\ plain d.
Proof.
  induction l as [|[k d] l IH]; [split; [intros _ k d []|intros _; exact I]|]. change (plain (JObject ((k, d) :: l))) with (key_of (key_chars k) = k /\ plain d /\ plain (JObject l)). rewrite IH. split.
  - intros (A & B & C) k' d' [E|X]; [injection E as <- <-; auto|auto].
  - intros A. split; [apply (A k d); left; reflexivity|]. split; [apply (A k d); left; reflexivity|]. intros k' d' X. apply A. right. exact X.
Qed.

Lemma elements_text f x a b (sep : list N) : forall l d, blank a -> blank b -> blank sep -> (forall d, f d = a ++ x d) -> (forall e, In e (d :: l) -> value_text e (x e)) ->
  elements (d :: l) (f d ++ flat_map (fun e => [44] ++ f e) l ++ b).
Proof.
  intros l. induction l as [|e l IH]; intros d A B S E H.
  - cbn [flat_map app]. rewrite E, <- app_assoc. apply el_one; [exact A|apply H; left; reflexivity|exact B].
  - cbn [flat_map]. rewrite E, <- !app_assoc. cbn [app].
    assert (R : elements (e :: l) (f e ++ flat_map (fun e => [44] ++ f e) l ++ b)) by (apply IH; try assumption; intros y Y; apply H; right; exact Y).
    pose proof (el_more a d (x d) [] (e :: l) _ A (H d (or_introl eq_refl)) (Forall_nil _) R) as M. exact M.
Qed.
Lemma members_text f x b : forall (l : list (key * doc)) d, blank b -> (forall e, In e (d :: l) -> forall b', blank b' -> member (x e) (f e ++ b')) ->
  members (map x (d :: l)) (f d ++ flat_map (fun e => [44] ++ f e) l ++ b).
Proof.
  intros l. induction l as [|e l IH]; intros d B H; cbn [map].
  - cbn [flat_map app]. constructor. apply H; [left; reflexivity|exact B].
  - cbn [flat_map]. rewrite <- !app_assoc. apply me_more.
    + rewrite <- (app_nil_r (f d)). apply H; [left; reflexivity|constructor].
    + apply (IH e B). intros y Y. apply H. right. exact Y.
Qed.
Lemma flat_map_map {A B C} (f : B -> list C) (g : A -> B) l : flat_map f (map g l) = flat_map (fun x => f (g x)) l.
Proof. induction l as [|x l IH]; [reflexivity|]. cbn [map flat_map]. rewrite IH. reflexivity. Qed.
Lemma map_id' {A} (l : list A) : map (fun x => x) l = l.
Proof. apply map_id. Qed.

Lemma member_text (k : key) d a c q b : key_of (key_chars k) = k -> blank a -> blank c -> value_text d q -> blank b ->
  member (k, d) ((a ++ quoted (key_chars k) ++ [58] ++ c ++ q) ++ b).
Proof.
  intros K A C V B. rewrite <- K at 1. rewrite <- !app_assoc.
  exact (member_here a (key_chars k) (quoted (key_chars k)) [] c d q b A (quoted_text _) (Forall_nil _) C V B).
Qed.
Lemma doc_ind' (P : doc -> Prop) : P JNull -> (forall n, P (JNum n)) -> (forall l, P (JHex l)) -> (forall k, P (JString k)) ->
  (forall l, (forall d, In d l -> P d) -> P (JArray l)) -> (forall l, (forall k d, In (k, d) l -> P d) -> P (JObject l)) -> P JOther -> forall d, P d.
Proof.
  intros H1 H2 H3 H4 H5 H6 H7. fix IH 1. intros [|n|l|k|l|l|]; [exact H1|apply H2|apply H3|apply H4| | |exact H7].
  - apply H5. induction l as [|x l IHl]; [intros d []|]. pose proof (IH x) as X. intros d [<-|I]; [exact X|apply IHl, I].
  - apply H6. induction l as [|[k' x] l IHl]; [intros k d []|]. pose proof (IH x) as X. intros k d [E|I]; [injection E as _ <-; exact X|apply (IHl k d I)].
Qed.

Theorem compact_text d : plain d -> value_text d (compact d).
Proof.
  induction d as [|n|l|k|l IH|l IH|] using doc_ind'; intros P.
  - constructor.
  - apply dec_value.
  - cbn [compact]. rewrite <- (hex_string l P). apply string_here, quoted_text.
  - cbn [compact plain] in *. rewrite <- P at 1. apply string_here, quoted_text.
  - rewrite plain_array in P. cbn [compact]. constructor. destruct l as [|d l]; [constructor; constructor|]. apply at_some. cbn [map commas]. rewrite flat_map_map.
    rewrite <- (app_nil_r (flat_map _ l)). apply (elements_text compact compact [] [] []); try constructor. intros e I. apply IH; auto.
  - rewrite plain_object in P. cbn [compact]. constructor. destruct l as [|d l]; [constructor; constructor|]. apply ot_some. cbn [map commas]. rewrite flat_map_map.
    rewrite <- (app_nil_r (flat_map _ l)). rewrite <- (map_id' (d :: l)).
    apply (members_text (fun e => quoted (key_chars (fst e)) ++ [58] ++ compact (snd e)) (fun e => e) []); [constructor|].
    intros [k x] I b' B'. cbn [fst snd]. destruct (P k x I) as [K Px]. apply (member_text k x [] [] (compact x) b' K); try assumption; try constructor. apply (IH k x I Px).
  - exact vt_false.
Qed.
Lemma new_line_blank n : blank (new_line n).
Proof.
  unfold new_line. constructor; [cbn [In]; auto|]. generalize (2 * n)%nat. intros m. induction m; cbn [repeat]; constructor; [cbn [In]; auto|assumption].
Qed.
Theorem pretty_text d : plain d -> forall n, value_text d (pretty n d).
Proof.
  induction d as [|m|l|k|l IH|l IH|] using doc_ind'; intros P n; try apply (compact_text _ P).
  - rewrite plain_array in P. cbn [pretty]. constructor. destruct l as [|d l]; [constructor; constructor|]. apply at_some. cbn [map lines]. rewrite flat_map_map, app_assoc.
    apply (elements_text (fun e => new_line (S n) ++ pretty (S n) e) (pretty (S n)) (new_line (S n)) (new_line n) []); try apply new_line_blank; try constructor.
    intros e I. apply IH; auto.
  - rewrite plain_object in P. cbn [pretty]. constructor. destruct l as [|d l]; [constructor; constructor|]. apply ot_some. cbn [map lines]. rewrite flat_map_map, app_assoc.
    rewrite <- (map_id' (d :: l)).
    apply (members_text (fun e => new_line (S n) ++ quoted (key_chars (fst e)) ++ txt ": " ++ pretty (S n) (snd e)) (fun e => e) (new_line n)); [apply new_line_blank|].
    intros [k x] I b' B'. cbn [fst snd]. destruct (P k x I) as [K Px].
    apply (member_text k x (new_line (S n)) [32] (pretty (S n) x) b' K); try assumption; try apply new_line_blank; [constructor; [cbn [In]; auto|constructor]|]. apply (IH k x I Px).
Qed.

(** ** Tries *)
Lemma be_bytes_small k : forall n, Forall (fun b => b < 256) (be_bytes k n).
Proof. induction k as [|k IH]; intros n; cbn [be_bytes]; [constructor|]. apply Forall_app. split; [apply IH|]. constructor; [apply N.mod_lt; lia|constructor]. Qed.
Lemma u512_hexl n : hexl (u512_digits n).
Proof.
  unfold u512_digits. pose proof (drop_hexl _ (byte_digits_hexl _ (be_bytes_small 64 n))) as H. destruct (drop_zeros _); [|exact H]. repeat constructor.
Qed.
Lemma name_key n : key_of (key_chars (KName n)) = KName n.
Proof. apply name_string. Qed.
(** Two fields, and a variant around them. *)
Lemma plain_two a b x y : plain x -> plain y -> plain (JObject [(KName a, x); (KName b, y)]).
Proof. intros X Y. apply plain_object. intros k d [E|[E|[]]]; injection E as <- <-; (split; [apply name_key|assumption]). Qed.
Lemma plain_variant a x : plain x -> plain (JObject [(KName a, x)]).
Proof. intros X. apply plain_object. intros k d [E|[]]; injection E as <- <-. split; [apply name_key|assumption]. Qed.
Lemma plain_bytes v : plain (json (ser_bytes v)).
Proof. unfold ser_bytes. cbn [json]. apply plain_array. intros d I. rewrite map_map in I. apply in_map_iff in I as (b & <- & _). exact I. Qed.
Lemma plain_nibbles n : plain (json (ser_nibbles n)).
Proof. apply plain_two; [exact I|apply u512_hexl]. Qed.
Lemma plain_hash h : u8s h -> plain (json (DH256 h)).
Proof. intros H. apply byte_digits_hexl, H. Qed.
Lemma plain_trie t : node_type t -> plain (json (serialize t)).
Proof.
  intros T. induction T as [|h [_ H]|ch v L T IH V|n c K T IH|n v K V]; cbn [serialize json map fst snd].
  - apply name_string.
  - apply plain_variant, plain_hash, H.
  - apply plain_variant, plain_two; [|apply plain_bytes]. apply plain_array. intros d I. rewrite map_map in I. apply in_map_iff in I as (c & <- & I). apply IH, I.
  - apply plain_variant, plain_two; [apply plain_nibbles|exact IH].
  - apply plain_variant, plain_two; [apply plain_nibbles|apply plain_bytes].
Qed.
Lemma plain_cached o : (forall h, o = Some h -> u8s h) -> plain (json (ser_cached o)).
Proof. destruct o as [h|]; intros H; [apply plain_hash, H; reflexivity|exact I]. Qed.
Lemma plain_handle s t : node_type (erase t) -> (forall u h, In u (nodes t) -> s (cell u) = Some h -> h256 h) -> plain (json (saved s t)).
Proof.
  induction t as [c|c h|c ch v IH|c k t IH|c k v] using hnode_ind'; intros T C; cbn [erase] in T; cbn [saved json map fst snd]; (apply plain_two; [|apply plain_cached; intros h' E; refine (proj2 (C _ h' _ E)); rewrite nodes_below; left; reflexivity]).
  - apply name_string.
  - apply plain_variant, plain_hash. inversion T as [|? [_ H]| | |]. exact H.
  - inversion T as [| |? ? L Tc V| |]; subst. apply plain_variant, plain_two; [|apply plain_bytes]. apply plain_array. intros d I. rewrite map_map in I. apply in_map_iff in I as (x & <- & I).
    rewrite Forall_forall in IH. apply IH; [exact I|apply Tc, in_map, I|]. intros u h J. apply C. cbn [nodes]. right. apply in_flat_map. exists x. split; assumption.
  - inversion T as [| | |? ? K Tc|]; subst. apply plain_variant, plain_two; [apply plain_nibbles|]. apply IH; [exact Tc|]. intros u h J. apply C. cbn [nodes]. right. exact J.
  - apply plain_variant, plain_two; [apply plain_nibbles|apply plain_bytes].
Qed.

(** ** The characters that are written *)
Definition visible (c : N) : Prop := 33 <= c < 127.
Lemma dec_visible n : Forall visible (dec n).
Proof. eapply Forall_impl; [|apply uint_digits]. unfold visible. cbn beta. intros c [A B]. lia. Qed.
Lemma quoted_visible s : Forall visible s -> Forall visible (quoted s).
Proof.
  intros F. unfold quoted. apply Forall_app. split; [repeat constructor; unfold visible; lia|]. apply Forall_app. split; [|repeat constructor; unfold visible; lia].
  induction F as [|c s V F IH]; [constructor|]. cbn [flat_map]. apply Forall_app. split; [|exact IH]. unfold visible in V. unfold escaped.
  repeat match goal with |- context [if ?a =? ?b then _ else _] => destruct (N.eqb_spec a b) as [->|]; [try lia; repeat constructor; unfold visible; lia|] end.
  destruct (N.ltb_spec c 32); [lia|]. repeat constructor; unfold visible; lia.
Qed.
Lemma hex_visible l : hexl l -> Forall visible (map (hex_char false) l).
Proof.
  induction 1 as [|d l D F IH]; [constructor|]. cbn [map]. constructor; [|exact IH]. unfold hex_char, visible. destruct (N.ltb_spec d 10); lia.
Qed.
Lemma commas_visible l : (forall x, In x l -> Forall visible x) -> Forall visible (commas l).
Proof.
  destruct l as [|x l]; intros H; [constructor|]. cbn [commas]. apply Forall_app. split; [apply H; left; reflexivity|].
  assert (G : forall y, In y l -> Forall visible y) by (intros y I; apply H; right; exact I). clear H. induction l as [|y l IH]; [constructor|]. cbn [flat_map app].
  constructor; [unfold visible; lia|]. apply Forall_app. split; [apply G; left; reflexivity|]. apply IH. intros z I. apply G. right. exact I.
Qed.
(** All names are those of the types. *)
Fixpoint known (d : doc) : Prop :=
  match d with
  | JString (KOther _) => False
  | JArray l => (fix go l := match l with [] => True | d :: l' => known d /\ go l' end) l
  | JObject l => (fix go l := match l with [] => True | (KOther _, d) :: l' => False | (KName _, d) :: l' => known d /\ go l' end) l
  | _ => True
  end.
Lemma known_array l : known (JArray l) <-> forall d, In d l -> known d.
Proof.
  induction l as [|d l IH]; [split; [intros _ d []|intros _; exact I]|]. change (known (JArray (d :: l))) with (known d /\ known (JArray l)). rewrite IH. split.
  - intros [A B] x [<-|X]; auto.
  - intros A. split; [apply A; left; reflexivity|]. intros x X. apply A. right. exact X.
Qed.
Lemma known_object l : known (JObject l) -> forall k d, In (k, d) l -> (exists n, k = KName n) /\ known d.
Proof.
  induction l as [|[k d] l IH]; intros K k' d' []; destruct k as [n|s]; try destruct K.
  - injection H as <- <-. split; [eauto|assumption].
  - apply IH; assumption.
Qed.
Lemma json_known d : known (json d).
Proof.
  revert d. fix IH 1. intros [n|n|n|h| |d|l|l|d|fs|v|v d|v fs]; cbn [json]; try exact I; try apply IH.
  - induction l as [|d l IHl]; [exact I|]. split; [apply IH|exact IHl].
  - induction l as [|d l IHl]; [exact I|]. split; [apply IH|exact IHl].
  - induction fs as [|[f d] fs IHf]; [exact I|]. split; [apply IH|exact IHf].
  - split; [apply IH|exact I].
  - split; [|exact I]. induction fs as [|[f d] fs IHf]; [exact I|]. split; [apply IH|exact IHf].
Qed.
Lemma name_visible n : Forall visible (name_text n).
Proof. destruct n; repeat constructor; unfold visible; cbn; lia. Qed.
Lemma compact_visible d : plain d -> known d -> Forall visible (compact d).
Proof.
  induction d as [|n|l|k|l IH|l IH|] using doc_ind'; intros P K; cbn [compact].
  - repeat constructor; unfold visible; cbn; lia.
  - apply dec_visible.
  - apply quoted_visible. apply Forall_app. split; [repeat constructor; unfold visible; cbn; lia|apply hex_visible, P].
  - apply quoted_visible. destruct k as [n|]; [apply name_visible|destruct K].
  - rewrite plain_array in P. rewrite known_array in K. cbn [app]. constructor; [unfold visible; lia|]. apply Forall_app. split; [|repeat constructor; unfold visible; lia].
    apply commas_visible. intros x I. apply in_map_iff in I as (d & <- & I). auto.
  - rewrite plain_object in P. pose proof (known_object l K) as K'. cbn [app]. constructor; [unfold visible; lia|]. apply Forall_app. split; [|repeat constructor; unfold visible; lia].
    apply commas_visible. intros x I. apply in_map_iff in I as ([k d] & <- & I). cbn [fst snd]. destruct (K' k d I) as [[n ->] Kd]. destruct (P _ _ I) as [_ Pd].
    apply Forall_app. split; [apply quoted_visible, name_visible|]. cbn [app]. constructor; [unfold visible; lia|]. apply (IH _ _ I Pd Kd).
  - repeat constructor; unfold visible; cbn; lia.
Qed.

(** ** Without its blanks the pretty text is the compact one *)
Lemma nb_app a b : no_blanks (a ++ b) = no_blanks a ++ no_blanks b.
Proof. apply filter_app. Qed.
Lemma nb_visible s : Forall visible s -> no_blanks s = s.
Proof.
  induction 1 as [|c s V F IH]; [reflexivity|]. unfold no_blanks in *. cbn [filter]. unfold visible in V.
  replace ((c =? 32) || (c =? 9) || (c =? 10) || (c =? 13)) with false by lia. cbn [negb]. rewrite IH. reflexivity.
Qed.
Lemma nb_new_line n : no_blanks (new_line n) = [].
Proof. unfold new_line. generalize (2 * n)%nat. intros k. induction k as [|k IH]; [reflexivity|exact IH]. Qed.
Lemma nb_lines {A} (f g : A -> list N) n l : (forall x, In x l -> no_blanks (f x) = g x) -> no_blanks (lines n (map f l)) = commas (map g l).
Proof.
  destruct l as [|x l]; intros H; [reflexivity|]. cbn [map lines commas]. rewrite !nb_app, !nb_new_line, app_nil_r. cbn [app]. rewrite (H x) by (left; reflexivity). f_equal.
  assert (G : forall y, In y l -> no_blanks (f y) = g y) by (intros y I; apply H; right; exact I). clear H. induction l as [|y l IH]; [reflexivity|]. cbn [map flat_map].
  change (44 :: new_line (S n) ++ f y) with ([44] ++ new_line (S n) ++ f y). rewrite !nb_app, nb_new_line, (G y) by (left; reflexivity). rewrite IH; [reflexivity|]. intros z I. apply G. right. exact I.
Qed.
Lemma pretty_compact d : plain d -> known d -> forall n, no_blanks (pretty n d) = compact d.
Proof.
  induction d as [|n|l|k|l IH|l IH|] using doc_ind'; intros P K m; try (cbn [pretty]; apply nb_visible, compact_visible; assumption).
  - rewrite plain_array in P. rewrite known_array in K. cbn [pretty compact]. rewrite !nb_app, (nb_lines _ compact) by (intros x I; apply IH; auto). reflexivity.
  - rewrite plain_object in P. pose proof (known_object l K) as K'. cbn [pretty compact]. rewrite !nb_app, (nb_lines _ (fun e => quoted (key_chars (fst e)) ++ [58] ++ compact (snd e))); [reflexivity|].
    intros [k d] I. cbn [fst snd]. destruct (K' k d I) as [[n ->] Kd]. destruct (P _ _ I) as [_ Pd]. rewrite !nb_app, (IH _ _ I Pd Kd), (nb_visible (quoted _)); [reflexivity|].
    apply quoted_visible, name_visible.
Qed.

(** ** The pretty text is the layout of the compact one *)
Definition simple (c : N) : Prop := ~ In c [91; 93; 123; 125; 44; 58].
Lemma layout_simple n c s : simple c -> layout n (c :: s) = c :: layout n s.
Proof.
  intros S. unfold simple in S. cbn [In] in S. cbn [layout]. cbv zeta.
  destruct (N.eqb_spec c 91); [lia|]. destruct (N.eqb_spec c 123); [lia|]. destruct (N.eqb_spec c 93); [lia|]. destruct (N.eqb_spec c 125); [lia|].
  destruct (N.eqb_spec c 44); [lia|]. destruct (N.eqb_spec c 58); [lia|]. reflexivity.
Qed.
Lemma layout_simples n p s : Forall simple p -> layout n (p ++ s) = p ++ layout n s.
Proof. induction 1 as [|c p S F IH]; [reflexivity|]. cbn [app]. rewrite layout_simple, IH by exact S. reflexivity. Qed.
Lemma simple_forall p : forallb (fun c => negb (existsb (N.eqb c) [91; 93; 123; 125; 44; 58])) p = true -> Forall simple p.
Proof.
  intros H. rewrite forallb_forall in H. apply Forall_forall. intros c I J. specialize (H c I). apply negb_true_iff in H. apply not_true_iff_false in H. apply H.
  apply existsb_exists. exists c. split; [exact J|apply N.eqb_refl].
Qed.
Lemma simple_name n : Forall simple (quoted (name_text n)).
Proof. apply simple_forall. destruct n; vm_compute; reflexivity. Qed.
Lemma simple_hex l : hexl l -> Forall simple (quoted (txt "0x" ++ map (hex_char false) l)).
Proof.
  intros H. assert (P : forall p, Forall (fun c => 48 <= c < 58 \/ 97 <= c < 123) p -> Forall simple (quoted p)).
  { intros p F. unfold quoted. apply Forall_app. split; [apply simple_forall; reflexivity|]. apply Forall_app. split; [|apply simple_forall; reflexivity].
    induction F as [|c p R F IH]; [constructor|]. cbn [flat_map]. apply Forall_app. split; [|exact IH]. unfold escaped.
    destruct (N.eqb_spec c 34); [lia|]. destruct (N.eqb_spec c 92); [lia|]. destruct (N.eqb_spec c 8); [lia|]. destruct (N.eqb_spec c 9); [lia|].
    destruct (N.eqb_spec c 10); [lia|]. destruct (N.eqb_spec c 12); [lia|]. destruct (N.eqb_spec c 13); [lia|]. destruct (N.ltb_spec c 32); [lia|].
    constructor; [|constructor]. unfold simple. cbn [In]. lia. }
  apply P, Forall_app. split; [repeat constructor; cbn; lia|]. induction H as [|d l D F IH]; [constructor|]. cbn [map]. constructor; [|exact IH].
  unfold hex_char. destruct (N.ltb_spec d 10); lia.
Qed.
Lemma simple_dec n : Forall simple (dec n).
Proof. eapply Forall_impl; [|apply uint_digits]. intros c [A B]. unfold simple. cbn [In]. lia. Qed.
Lemma new_line_eq n : new_line n = 10 :: repeat 32 (n + n).
Proof. unfold new_line. replace (2 * n)%nat with (n + n)%nat by lia. reflexivity. Qed.
Lemma layout_open n o c s : In o [91; 123] -> ~ In c [93; 125] -> layout n (o :: c :: s) = o :: new_line (S n) ++ layout (S n) (c :: s).
Proof.
  intros O C. rewrite new_line_eq. cbn [In] in O, C.
  assert (U : forall s', layout n (o :: s') = if (o =? 91) || (o =? 123) then match s' with
      | e :: s'' => if (e =? 93) || (e =? 125) then o :: e :: layout n s'' else o :: (10 :: repeat 32 (S n + S n)) ++ layout (S n) s'
      | [] => [o] end else layout n (o :: s')).
  { intros s'. replace ((o =? 91) || (o =? 123)) with true by lia. cbn [layout]. cbv zeta. replace ((o =? 91) || (o =? 123)) with true by lia. reflexivity. }
  rewrite U. cbv beta iota. replace ((o =? 91) || (o =? 123)) with true by lia. replace ((c =? 93) || (c =? 125)) with false by lia. reflexivity.
Qed.
Lemma layout_close n c s : In c [93; 125] -> layout (S n) (c :: s) = new_line n ++ c :: layout n s.
Proof.
  intros C. rewrite new_line_eq. cbn [In] in C. cbn [layout pred]. cbv zeta. replace ((c =? 91) || (c =? 123)) with false by lia. replace ((c =? 93) || (c =? 125)) with true by lia. reflexivity.
Qed.
Lemma layout_comma n s : layout n (44 :: s) = 44 :: new_line n ++ layout n s.
Proof. rewrite new_line_eq. reflexivity. Qed.
(** The first character of a value does not close a bracket. *)
Lemma compact_first d : plain d -> known d -> exists c s, compact d = c :: s /\ ~ In c [93; 125].
Proof.
  intros P K. destruct d as [|n|l|k|l|l|]; cbn [compact]; try (eexists; eexists; split; [reflexivity|]; cbn [In]; lia); try (eexists; eexists; split; [vm_compute; reflexivity|]; cbn [In]; lia).
  destruct (dec n) as [|c s] eqn:E.
  - pose proof (dec_int n) as D. rewrite E in D. destruct D as [D|[[D _] _]]; congruence.
  - exists c, s. split; [reflexivity|]. pose proof (uint_digits (N.to_uint n)) as U. change (uint_chars (N.to_uint n)) with (dec n) in U. rewrite E in U. inversion U; subst. cbn [In]. lia.
Qed.
Lemma layout_list {A} (f g : A -> list N) n close : In close [93; 125] -> forall l x rest, 
  (forall y, In y (x :: l) -> forall r, layout (S n) (f y ++ r) = g y ++ layout (S n) r) ->
  layout (S n) ((f x ++ flat_map (fun y => [44] ++ y) (map f l)) ++ close :: rest) =
    g x ++ flat_map (fun y => [44] ++ new_line (S n) ++ y) (map g l) ++ new_line n ++ close :: layout n rest.
Proof.
  intros C l. induction l as [|y l IH]; intros x rest H; cbn [map flat_map].
  - rewrite app_nil_r, (H x) by (left; reflexivity). rewrite layout_close by exact C. reflexivity.
  - rewrite <- app_assoc, (H x) by (left; reflexivity). f_equal. rewrite <- !app_assoc. cbn [app]. rewrite layout_comma. f_equal.
    f_equal. rewrite app_assoc. apply (IH y rest). intros z I. apply H. right. exact I.
Qed.
Lemma layout_compact d : plain d -> known d -> forall n rest, layout n (compact d ++ rest) = pretty n d ++ layout n rest.
Proof.
  induction d as [|m|l|k|l IH|l IH|] using doc_ind'; intros P K n rest.
  - apply layout_simples, simple_forall. reflexivity.
  - apply layout_simples, simple_dec.
  - apply layout_simples, simple_hex, P.
  - apply layout_simples. destruct k as [m|]; [apply simple_name|destruct K].
  - rewrite plain_array in P. rewrite known_array in K. cbn [compact pretty]. destruct l as [|x l]; [reflexivity|]. cbn [map commas lines app].
    destruct (compact_first x (P x (or_introl eq_refl)) (K x (or_introl eq_refl))) as (c & s & E & N).
    rewrite <- !app_assoc. cbn [app]. rewrite E at 1. cbn [app]. rewrite layout_open by (cbn; tauto || exact N). f_equal. f_equal.
    match goal with |- layout _ (c :: s ++ ?z) = _ => change (c :: s ++ z) with ((c :: s) ++ z) end. rewrite <- E, app_assoc.
    rewrite (layout_list compact (pretty (S n)) n 93); [rewrite <- ?app_assoc; reflexivity|cbn; tauto|]. intros y I r. apply IH; auto.
  - rewrite plain_object in P. pose proof (known_object l K) as K'. cbn [compact pretty]. destruct l as [|[k x] l]; [reflexivity|]. 
    set (f := fun e : key * doc => quoted (key_chars (fst e)) ++ [58] ++ compact (snd e)). set (g := fun e : key * doc => quoted (key_chars (fst e)) ++ txt ": " ++ pretty (S n) (snd e)).
    cbn [map commas lines app].
    assert (E : exists s, f (k, x) = 34 :: s) by (eexists; reflexivity). destruct E as (s & E). rewrite E. cbn [app]. rewrite <- !app_assoc. cbn [app]. rewrite layout_open by (cbn; lia). f_equal. f_equal.
    change (34 :: s ++ flat_map (fun y => 44 :: y) (map f l) ++ 125 :: rest) with ((34 :: s) ++ flat_map (fun y => [44] ++ y) (map f l) ++ 125 :: rest). rewrite <- E, app_assoc.
    rewrite (layout_list f g n 125); [rewrite <- ?app_assoc; reflexivity|cbn; tauto|]. intros [k' y] I r. unfold f, g. cbn [fst snd].
    destruct (K' k' y I) as [[m ->] Ky]. destruct (P _ _ I) as [_ Py]. rewrite <- !app_assoc. rewrite layout_simples by apply simple_name. f_equal. cbn [app].
    change (layout (S n) (58 :: compact y ++ r)) with (58 :: 32 :: layout (S n) (compact y ++ r)). rewrite (IH _ _ I Py Ky). reflexivity.
  - apply layout_simples, simple_forall. reflexivity.
Qed.

(** ** The ends of the texts *)
Lemma last_compact d : closed d -> exists s, compact d = s ++ [34] \/ compact d = s ++ [93] \/ compact d = s ++ [125].
Proof.
  intros C. destruct d; try destruct C; cbn [compact]; unfold quoted; [rewrite app_assoc; eauto|rewrite app_assoc; eauto| |].
  - exists ([91] ++ commas (map compact l)). rewrite <- app_assoc. auto.
  - eexists. right. right. rewrite app_assoc. reflexivity.
Qed.
Lemma last_pretty d n : closed d -> exists s, pretty n d = s ++ [34] \/ pretty n d = s ++ [93] \/ pretty n d = s ++ [125].
Proof.
  intros C. destruct d; try destruct C; try (apply last_compact; exact I).
  - eexists. right. left. cbn [pretty]. rewrite app_assoc. reflexivity.
  - eexists. right. right. cbn [pretty]. rewrite app_assoc. reflexivity.
Qed.
Lemma first_closed d c q : value_text d (c :: q) -> In c [34; 91; 123] -> closed d.
Proof.
  intros V C. inversion V as [E|E|E|i I E|m i f x M I F X Ne E|s r St E|l r A E|l r O E]; subst; try exact Logic.I; try (exfalso; cbn in C; lia).
  - exfalso. destruct I as [I|[[_ I] _]]; [injection I as -> _; cbn in C; lia|]. inversion I; subst. cbn in C. lia.
  - exfalso. assert (G : exists c' r, m ++ i = c' :: r /\ (c' = 45 \/ 48 <= c' <= 57)).
    { destruct M as [-> | ->]; [|cbn; eauto]. cbn [app]. destruct I as [-> |[[I1 I2] _]]; [eexists; eexists; split; [reflexivity|lia]|]. destruct i as [|a i]; [congruence|]. inversion I2; subst. eauto. }
    destruct G as (c' & r & G & R). match goal with H : m ++ i ++ f ++ x = _ |- _ => rewrite app_assoc, G in H; cbn [app] in H; injection H as -> _ end. cbn in C. lia.
  - match goal with H : string_value _ d |- _ => destruct H; exact Logic.I end.
Qed.
Lemma first_text d c s : json_text d (c :: s) -> In c [34; 91; 123] -> closed d.
Proof.
  intros (a & q & b & A & V & B & E) C. destruct a as [|x a]; [|injection E as -> _; inversion A; subst; cbn in *; lia]. cbn [app] in E.
  destruct q as [|x q].
  - exfalso. cbn [app] in E. subst b. inversion B; subst. cbn in *; lia.
  - injection E as -> _. eapply first_closed; eassumption.
Qed.
Lemma value_some d q : value_text d q -> q <> [].
Proof.
  intros V E. destruct V as [| | |i I|m i f x M I F X Ne|s d r St Sv|l r A|l r O]; try discriminate.
  - destruct I as [I|[[I _] _]]; congruence.
  - apply app_eq_nil in E as [-> E]. apply app_eq_nil in E as [-> E]. destruct I as [I|[[I _] _]]; congruence.
  - destruct St; discriminate.
Qed.
(** A text that ends in a quote or bracket has no shorter text as a beginning. *)
Lemma no_prefix d p x z : json_text d (p ++ x ++ [z]) -> In (hd 0 (p ++ x ++ [z])) [34; 91; 123] -> In z [34; 93; 125] -> forall lim, parse lim p = None.
Proof.
  intros T H Z lim. destruct (parse lim p) as [d'|] eqn:E; [exfalso|reflexivity]. apply parse_sound in E. destruct p as [|c p].
  - destruct E as (a & q & b & _ & V & _ & E). symmetry in E. apply app_eq_nil in E as [_ E]. apply app_eq_nil in E as [E _]. exact (value_some _ _ V E).
  - cbn [app hd] in H. pose proof (first_text _ _ _ E H) as C. pose proof (parse_complete None _ _ E I) as E1.
    pose proof (parse_complete None _ _ T I) as E2. destruct (text_end _ _ _ _ None E1 C I E2) as [B _].
    apply Forall_app in B as [_ B]. inversion B; subst. cbn in *; lia.
Qed.
