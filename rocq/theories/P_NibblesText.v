(** Property C08 again, with the characters spelled out instead of the functions of the model. *)
From Coq Require Import ZifyBool ZifyN ZifyNat.
From Verif Require Import Base Nibbles NibblesSpec NibblesFacts NibblesFacts2 NibblesFacts3 P_Nibbles.
Open Scope N_scope.

(** ** Specification: the character [c] ('0'-'9', 'a'-'f' or 'A'-'F') writes the hex digit [d]. *)
Definition writes (c d : N) : Prop :=
  (48 <= c <= 57 /\ d = c - 48) \/ (97 <= c <= 102 /\ d = 10 + (c - 97)) \/ (65 <= c <= 70 /\ d = 10 + (c - 65)).
(** '0'-'9' or a letter of the wanted case. *)
Definition in_case (upper : bool) (c : N) : Prop := 48 <= c <= 57 \/ (if upper then 65 <= c <= 70 else 97 <= c <= 102).

Lemma writes_val c d : writes c d <-> hex_val c = Some d.
Proof.
  unfold writes, hex_val. destruct (N.leb_spec 48 c), (N.leb_spec c 57), (N.leb_spec 97 c), (N.leb_spec c 102), (N.leb_spec 65 c), (N.leb_spec c 70); cbn [andb]; try lia;
    split; intros H'; try discriminate; try lia; try (f_equal; lia); injection H' as <-; lia.
Qed.

Lemma writes_vals b : forall l, Forall2 writes b l <-> hex_vals b = Some l.
Proof.
  induction b as [|c b IH]; intros l; cbn [hex_vals].
  - split; intros H; [inversion H; reflexivity|injection H as <-; constructor].
  - split.
    + intros H. inversion H as [|? v ? l' Hc Hb]; subst. apply writes_val in Hc. apply IH in Hb. rewrite Hc, Hb. reflexivity.
    + destruct (hex_val c) as [v|] eqn:V; [|discriminate]. destruct (hex_vals b) as [l'|]; [|discriminate].
      intros H. injection H as <-. constructor; [apply writes_val, V|apply IH; reflexivity].
Qed.

Lemma writes_length b l : Forall2 writes b l -> length b = length l.
Proof. induction 1; cbn; congruence. Qed.

Lemma strip_cases s l : hex_vals (strip_0x s) = Some l <-> exists b, Forall2 writes b l /\ (s = b \/ s = [48; 120] ++ b).
Proof.
  split.
  - intros H. exists (strip_0x s). split; [apply writes_vals, H|]. unfold strip_0x.
    destruct s as [|a [|b s]]; auto. destruct (a =? 48) eqn:E1, (b =? 120) eqn:E2; cbn [andb]; auto.
    apply N.eqb_eq in E1, E2. subst. auto.
  - intros (b & F & [-> | ->]); apply writes_vals in F; [|exact F].
    unfold strip_0x. destruct b as [|x [|y b]]; try exact F.
    destruct (x =? 48), (y =? 120) eqn:E; cbn [andb]; try exact F.
    apply N.eqb_eq in E. subst y. cbn in F. destruct (hex_val x); discriminate F.
Qed.

(** Printing: "0x", then one character per nibble that writes it, in the wanted case. *)
Theorem C08_printed : forall pr upper n, packed n < 16 ^ count n -> count n <= 128 ->
  exists s, as_hex_str pr upper n = Ok ([48; 120] ++ s) /\ Forall2 writes s (nseq n) /\ Forall (in_case upper) s.
Proof.
  intros pr upper n W L. exists (map (hex_char upper) (nseq n)). split; [apply C08_format; assumption|].
  pose proof (nseq_hexl n) as H. split.
  - apply writes_vals, hex_vals_map, H.
  - apply Forall_map. eapply Forall_impl; [|exact H]. intros d Hd. cbn beta in *. unfold hex_char, in_case.
    destruct (N.ltb_spec d 10), upper; lia.
Qed.

(** Parsing: a text is accepted exactly if it consists of at most 128 hex digits of either case, after an optional "0x";
    the key then has exactly these digits as its nibbles. *)
Theorem C08_accepted : forall s n,
  nib_from_str s = ROk n <->
  exists b, Forall2 writes b (nseq n) /\ (s = b \/ s = [48; 120] ++ b) /\ (length b <= 128)%nat /\ packed n < 16 ^ count n.
Proof.
  intros s n. rewrite C08_parse. split.
  - destruct (hex_vals (strip_0x s)) as [ds|] eqn:E; [|discriminate]. destruct (Nat.leb_spec (length ds) 128) as [L|L]; [|discriminate].
    intros H. injection H as <-. pose proof (proj1 (hex_vals_hexl _ _ E)) as Hd. apply strip_cases in E as (b & F & C).
    exists b. rewrite nseq_enc by exact Hd. repeat split; auto.
    + rewrite (writes_length _ _ F). exact L.
    + apply undigits_lt, Hd.
  - intros (b & F & C & L & P).
    assert (E : hex_vals (strip_0x s) = Some (nseq n)) by (apply strip_cases; eauto).
    rewrite E, <- (writes_length _ _ F). destruct (Nat.leb_spec (length b) 128); [|lia]. rewrite enc_nseq by exact P. reflexivity.
Qed.

Theorem C08_rejected : forall s,
  nib_from_str s = RErr tt <-> ~ exists b l, Forall2 writes b l /\ (s = b \/ s = [48; 120] ++ b) /\ (length b <= 128)%nat.
Proof.
  intros s. rewrite C08_parse. split.
  - intros H (b & l & F & C & L). assert (E : hex_vals (strip_0x s) = Some l) by (apply strip_cases; eauto).
    rewrite E, <- (writes_length _ _ F) in H. destruct (Nat.leb_spec (length b) 128); [discriminate|lia].
  - intros H. destruct (hex_vals (strip_0x s)) as [ds|] eqn:E; [|reflexivity].
    destruct (Nat.leb_spec (length ds) 128) as [L|L]; [|reflexivity]. destruct H.
    apply strip_cases in E as (b & F & C). exists b, ds. rewrite (writes_length _ _ F). auto.
Qed.

(** "0x0123A" is accepted; "0xG" and "0x0x1" are not. *)
Example C08_text_example :
  nib_from_str [48; 120; 48; 49; 50; 51; 65] = ROk k0123a /\ Forall2 writes [48; 49; 50; 51; 65] (nseq k0123a) /\
  nib_from_str [48; 120; 71] = RErr tt /\ nib_from_str [48; 120; 48; 120; 49] = RErr tt /\ nib_from_str [] = ROk nib_default.
Proof. split; [reflexivity|]. split; [apply writes_vals; reflexivity|]. vm_compute. auto. Qed.

Print Assumptions C08_printed.
Print Assumptions C08_accepted.
Print Assumptions C08_rejected.
