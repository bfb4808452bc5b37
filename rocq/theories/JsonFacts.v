(** Saving and loading as JSON: proofs for C61. *)
From Coq Require Import Permutation.
From Verif Require Import Base Nibbles NibblesSpec NibblesFacts NibblesFacts2 Trie TrieFacts Cache CacheFacts Serde ReloadFacts P_Serde Json JsonSpec.
Open Scope N_scope.

(** ** Hex digits *)
Lemma undigits_drop l : undigits (drop_zeros l) = undigits l.
Proof.
  induction l as [|[|d] l IH]; cbn [drop_zeros]; [reflexivity| |reflexivity]. rewrite IH, undigits_cons. lia.
Qed.
Lemma drop_length l : (length (drop_zeros l) <= length l)%nat.
Proof. induction l as [|[|d] l IH]; cbn [drop_zeros length]; lia. Qed.
Lemma drop_hexl l : hexl l -> hexl (drop_zeros l).
Proof. induction 1 as [|d l H F IH]; cbn [drop_zeros]; [constructor|]. destruct d; [exact IH|constructor; assumption]. Qed.
Lemma hex_digits_iff l : hex_digits l = true <-> hexl l.
Proof. unfold hex_digits, hexl. rewrite forallb_forall, Forall_forall. split; intros H x I; specialize (H x I); lia. Qed.
Lemma byte_digits_hexl l : Forall (fun b => b < 256) l -> hexl (byte_digits l).
Proof. induction 1 as [|b l H F IH]; cbn [byte_digits flat_map app]; [constructor|]. repeat constructor; try lia. exact IH. Qed.
Lemma byte_digits_length l : length (byte_digits l) = (2 * length l)%nat.
Proof. induction l as [|b l IH]; cbn [byte_digits flat_map app length]; [reflexivity|]. unfold byte_digits in IH. rewrite IH. lia. Qed.
Lemma digit_bytes_digits l : digit_bytes (byte_digits l) = l.
Proof. induction l as [|b l IH]; cbn [byte_digits flat_map app digit_bytes]; [reflexivity|]. unfold byte_digits in IH. rewrite IH. f_equal. lia. Qed.
Lemma undigits_bytes k : forall n, n < 256 ^ N.of_nat k -> undigits (byte_digits (be_bytes k n)) = n.
Proof.
  induction k as [|k IH]; intros n H; cbn [be_bytes].
  - change (256 ^ N.of_nat 0) with 1 in H. cbn. lia.
  - unfold byte_digits in *. rewrite flat_map_app, undigits_app. rewrite IH.
    + cbn [flat_map app length]. rewrite !undigits_cons, undigits_nil. cbn [length]. change (16 ^ N.of_nat 2) with 256. change (16 ^ N.of_nat 1) with 16.
      change (16 ^ N.of_nat 0) with 1. lia.
    + rewrite Nat2N.inj_succ, N.pow_succ_r' in H. apply N.div_lt_upper_bound; lia.
Qed.
Lemma read_written_u512 n : n < 2 ^ 512 -> read_u512 (JHex (u512_digits n)) = Some n.
Proof.
  intros H. assert (B : hexl (byte_digits (be_bytes 64 n))) by apply byte_digits_hexl, be_bytes_bytesl.
  assert (V : undigits (u512_digits n) = n /\ hexl (u512_digits n) /\ (0 < length (u512_digits n) <= 128)%nat).
  { unfold u512_digits. pose proof (undigits_drop (byte_digits (be_bytes 64 n))) as D. rewrite undigits_bytes in D by exact H.
    pose proof (drop_length (byte_digits (be_bytes 64 n))) as L. rewrite byte_digits_length, be_bytes_length in L.
    pose proof (drop_hexl _ B) as X. destruct (drop_zeros _) as [|d l].
    - rewrite undigits_nil in D. subst n. repeat split; [repeat constructor; lia|cbn; lia|cbn; lia].
    - repeat split; [exact D|exact X|cbn; lia|exact L]. }
  destruct V as (V & X & L). apply hex_digits_iff in X. cbn [read_u512]. rewrite X.
  replace (Nat.eqb (length (u512_digits n)) 0) with false by (symmetry; apply Nat.eqb_neq; lia).
  replace (Nat.leb (length (u512_digits n)) 128) with true by (symmetry; apply Nat.leb_le; lia). cbn [andb negb]. f_equal. exact V.
Qed.
Lemma read_written_h256 h : h256 h -> read_h256 (JHex (byte_digits h)) = Some h.
Proof.
  intros [L B]. cbn [read_h256]. rewrite (proj2 (hex_digits_iff _) (byte_digits_hexl _ B)), byte_digits_length, L. cbn [Nat.mul Nat.add Nat.eqb andb].
  rewrite digit_bytes_digits. reflexivity.
Qed.
Lemma read_written_bytes v : u8s v -> read_bytes (json (ser_bytes v)) = Some v.
Proof.
  intros H. unfold ser_bytes. cbn [json read_bytes]. induction H as [|b v Hb H IH]; [reflexivity|]. cbn [map json]. cbn [read_all].
  replace (read_num 256 (JNum b)) with (Some b) by (cbn [read_num]; destruct (N.ltb_spec b 256); [reflexivity|lia]).
  fold (read_all (read_num 256)). rewrite IH. reflexivity.
Qed.
Lemma read_written_cached o : (forall h, o = Some h -> h256 h) -> read_cached (json (ser_cached o)) = Some o.
Proof.
  intros H. destruct o as [h|]; [|reflexivity]. cbn [ser_cached json]. pose proof (read_written_h256 h (H h eq_refl)) as R.
  unfold read_cached. rewrite R. reflexivity.
Qed.
Lemma read_written_nibbles n : key_type n -> read_nibbles (json (ser_nibbles n)) = Some n.
Proof.
  destruct n as [c p]. intros [C P]. cbn [count packed] in *. unfold read_nibbles, ser_nibbles. cbn [count packed json map fst snd].
  cbn [read_two is_key name_eqb].
  replace (read_num (2 ^ 64) (JNum c)) with (Some c) by (cbn [read_num]; destruct (N.ltb_spec c (2 ^ 64)); [reflexivity|lia]).
  rewrite read_written_u512 by exact P. reflexivity.
Qed.

(** ** Tries *)
Definition kids16 {A} (f : doc -> option A) (d : doc) : option (list A) := match d with JArray l => if sixteen l then read_all f l else None | _ => None end.
Lemma read_all_map {A} (f : doc -> option A) (g : A -> doc) l : (forall x, In x l -> f (g x) = Some x) -> read_all f (map g l) = Some l.
Proof.
  induction l as [|x l IH]; intros H; [reflexivity|]. cbn [map read_all]. rewrite (H x) by (left; reflexivity).
  fold (read_all f). rewrite IH by (intros y I; apply H; right; exact I). reflexivity.
Qed.
Lemma read_branch c : read_trie (JObject [(KName v_Branch, c)]) =
  match read_two f_children f_value (kids16 read_trie) read_bytes None c with Some (ch, v) => Some (Branch ch v) | None => None end.
Proof. reflexivity. Qed.
Lemma read_extension c : read_trie (JObject [(KName v_Extension, c)]) =
  match read_two f_nibbles f_child read_nibbles read_trie None c with Some (n, t) => Some (Extension n t) | None => None end.
Proof. reflexivity. Qed.
Lemma read_leaf c : read_trie (JObject [(KName v_Leaf, c)]) =
  match read_two f_nibbles f_value read_nibbles read_bytes None c with Some (n, v) => Some (Leaf n v) | None => None end.
Proof. reflexivity. Qed.
Lemma read_hash c : read_trie (JObject [(KName v_Hash, c)]) = match read_h256 c with Some h => Some (Hash h) | None => None end.
Proof. reflexivity. Qed.

Lemma two_fields {A B} fa fb (ra : doc -> option A) (rb : doc -> option B) m x y :
  name_eqb fa fb = false -> (forall a, name_eqb a a = true) -> name_eqb fb fa = false ->
  read_two fa fb ra rb m (JObject [(KName fa, x); (KName fb, y)]) = match ra x, rb y with Some a, Some b => Some (a, b) | _, _ => None end.
Proof.
  intros E R E'. cbn [read_two is_key]. rewrite R, E, R. destruct (ra x); [|reflexivity]. destruct (rb y); reflexivity.
Qed.
Lemma name_eqb_refl a : name_eqb a a = true.
Proof. destruct a; reflexivity. Qed.
Ltac two := rewrite two_fields by (try apply name_eqb_refl; reflexivity).

Lemma read_json t : node_type t -> read_trie (json (serialize t)) = Some t.
Proof.
  induction t as [|h|ch v IH|n c IH|n v] using node_ind'; intros T; inversion T; subst; cbn [serialize json map fst snd].
  - reflexivity.
  - rewrite read_hash, read_written_h256 by assumption. reflexivity.
  - rewrite read_branch. two. rewrite read_written_bytes by assumption. cbn [kids16]. unfold sixteen. rewrite !map_length. replace (length ch) with 16%nat by (symmetry; assumption). cbn [Nat.eqb].
    rewrite map_map, read_all_map; [reflexivity|]. intros x I. rewrite Forall_forall in IH. apply IH; auto.
  - rewrite read_extension. two. rewrite read_written_nibbles by assumption. rewrite IH by assumption. reflexivity.
  - rewrite read_leaf. two. rewrite read_written_nibbles, read_written_bytes by assumption. reflexivity.
Qed.

(** ** Caching tries *)
Definition hkids16 {A} (f : doc -> prog (option A)) (d : doc) : prog (option (list A)) :=
  match d with JArray l => if sixteen l then hread_all f l else Ret None | _ => Ret None end.
Definition hread_node (dn : doc) : prog (option (N -> hnode)) :=
  match dn with
  | JString (KName v_Empty) | JObject [(KName v_Empty, JNull)] => Ret (Some HEmpty)
  | JObject [(KName v_Hash, c)] => Ret (match read_h256 c with Some h => Some (fun n => HHash n h) | None => None end)
  | JObject [(KName v_Branch, c)] =>
      r <~ hread_two f_children f_value (hkids16 hread_trie) (fun d => Ret (read_bytes d)) (Ret None) c ;;
      Ret (match r with Some (ch, v) => Some (fun n => HBranch n ch v) | None => None end)
  | JObject [(KName v_Extension, c)] =>
      r <~ hread_two f_nibbles f_child (fun d => Ret (read_nibbles d)) hread_trie (Ret None) c ;;
      Ret (match r with Some (k, t) => Some (fun n => HExtension n k t) | None => None end)
  | JObject [(KName v_Leaf, c)] =>
      Ret (match read_two f_nibbles f_value read_nibbles read_bytes None c with Some (k, v) => Some (fun n => HLeaf n k v) | None => None end)
  | _ => Ret None
  end.
Lemma hread_eq d : hread_trie d =
  (r <~ hread_two f_node f_hash hread_node hread_cell missing_cell d ;; Ret (match r with Some (mk, c) => Some (mk c) | None => None end)).
Proof. destruct d; reflexivity. Qed.

Lemma exec_two {A B} fa fb (ra : doc -> prog (option A)) (rb : doc -> prog (option B)) m x y s n :
  name_eqb fa fb = false -> (forall a, name_eqb a a = true) -> name_eqb fb fa = false ->
  exec (hread_two fa fb ra rb m (JObject [(KName fa, x); (KName fb, y)])) s n =
  match exec (ra x) s n with
  | Ok (Some a, s1, n1) =>
      match exec (rb y) s1 n1 with
      | Ok (Some b, s2, n2) => Ok (Some (a, b), s2, n2)
      | Ok (None, s2, n2) => Ok (None, s2, n2)
      | Panic => Panic
      end
  | Ok (None, s1, n1) => Ok (None, s1, n1)
  | Panic => Panic
  end.
Proof.
  intros E R E'. cbn [hread_two is_key]. rewrite R, exec_bind. destruct (exec (ra x) s n) as [[[[a|] s1] n1]|]; try reflexivity.
  rewrite E, R, exec_bind. destruct (exec (rb y) s1 n1) as [[[[b|] s2] n2]|]; reflexivity.
Qed.
Ltac etwo := rewrite exec_two by (try apply name_eqb_refl; reflexivity).

Lemma hread_json s0 t : node_type (erase t) -> (forall u h, In u (nodes t) -> s0 (cell u) = Some h -> h256 h) ->
  forall s n, exec (hread_trie (json (saved s0 t))) s n = exec (hdeserialize (saved s0 t)) s n.
Proof.
  induction t as [c|c h|c ch v IH|c k t IH|c k v] using hnode_ind'; intros T C s n; cbn [erase] in T; inversion T; subst; rewrite hread_eq, exec_bind;
    cbn [saved json map fst snd]; etwo; cbn [hread_node hdeserialize cell];
    rewrite ?de_ser_cached, ?de_ser_bytes, ?de_ser_nibbles;
    match goal with |- context [ser_cached (s0 ?a)] => 
      assert (O : hread_cell (json (ser_cached (s0 a))) = Alloc (fun x => Write x (s0 a) (Ret (Some x))))
        by (unfold hread_cell; rewrite read_written_cached; [reflexivity|intros h0 E0; match type of C with forall u h, In u (nodes ?t) -> _ => apply (C t h0); [rewrite nodes_below; left; reflexivity|exact E0] end])
    end.
  - rewrite O. reflexivity.
  - rewrite read_written_h256 by assumption. rewrite O. reflexivity.
  - match goal with L : length (map erase ch) = _ |- _ => rewrite map_length in L; rename L into L16 end.
    rewrite exec_bind. etwo. cbn [hkids16]. unfold sixteen. rewrite !map_length, L16. cbn [Nat.eqb].
    assert (G : exec (hread_all hread_trie (map json (map (saved s0) ch))) s n =
      exec ((fix go (l : list data) : prog (option (list hnode)) :=
                 match l with
                 | [] => Ret (Some [])
                 | d :: l' =>
                     r <~ hdeserialize d ;;
                     match r with
                     | Some c => rs <~ go l' ;; Ret (match rs with Some ch => Some (c :: ch) | None => None end)
                     | None => Ret None
                     end
                 end) (map (saved s0) ch)) s n).
    { assert (H0 : forall t, In t ch -> forall s n, exec (hread_trie (json (saved s0 t))) s n = exec (hdeserialize (saved s0 t)) s n).
      { rewrite Forall_forall in IH. intros t I. apply IH; [exact I| |].
        - match goal with F : forall c, In c (map erase ch) -> _ |- _ => apply F, in_map, I end.
        - intros u h Iu. apply C. cbn [nodes]. right. apply in_flat_map. exists t. auto. }
      clear - H0. revert s n. induction ch as [|t ch IHl]; intros s n; [reflexivity|]. cbn [map hread_all]. rewrite !exec_bind.
      rewrite H0 by (left; reflexivity). destruct (exec (hdeserialize (saved s0 t)) s n) as [[[[u|] s1] n1]|]; try reflexivity.
      fold (@hread_all hnode hread_trie). rewrite !exec_bind. rewrite IHl by (intros x I; apply H0; right; exact I). reflexivity. }
    rewrite G. clear G. rewrite !exec_bind.
    match goal with |- context [exec ?p s n] => destruct (exec p s n) as [[[[us|] s1] n1]|] end; try reflexivity.
    cbn [exec]. rewrite read_written_bytes by assumption. cbn [exec]. rewrite O. reflexivity.
  - rewrite !exec_bind. etwo. rewrite read_written_nibbles by assumption. cbn [exec]. 
    rewrite IH by (try assumption; intros u h Iu; apply C; cbn [nodes]; right; exact Iu).
    destruct (exec (hdeserialize (saved s0 t)) s n) as [[[[u|] s1] n1]|]; try reflexivity.
    cbn [exec]. rewrite O. reflexivity.
  - two. rewrite read_written_nibbles, read_written_bytes by assumption. cbn [exec]. rewrite O. reflexivity.
Qed.

(** ** Two fields, in any order *)
Definition fields_of (f : name) (l : list (key * doc)) : list doc := map snd (filter (fun e => is_key f (fst e)) l).
Definition from_entries {A B} (ra : doc -> option A) (rb : doc -> option B) (m : option B) (la lb : list doc) : option (A * B) :=
  match la, lb with
  | [x], [y] => match ra x, rb y with Some a, Some b => Some (a, b) | _, _ => None end
  | [x], [] => match ra x, m with Some a, Some b => Some (a, b) | _, _ => None end
  | _, _ => None
  end.
Definition two_go {A B} (fa fb : name) (ra : doc -> option A) (rb : doc -> option B) (m : option B) : list (key * doc) -> option A -> option B -> option (A * B) :=
  fix go (l : list (key * doc)) (oa : option A) (ob : option B) {struct l} : option (A * B) :=
         match l with
         | [] => match oa, match ob with Some b => Some b | None => m end with Some a, Some b => Some (a, b) | _, _ => None end
         | (k, d) :: l' =>
             if is_key fa k then
               match oa with
               | Some _ => None
               | None => match ra d with Some a => go l' (Some a) ob | None => None end
               end
             else if is_key fb k then
               match ob with
               | Some _ => None
               | None => match rb d with Some b => go l' oa (Some b) | None => None end
               end
             else go l' oa ob
         end.
Lemma is_key_eq f k : is_key f k = true -> k = KName f.
Proof. destruct k as [m|s]; [|discriminate]. cbn [is_key]. destruct f, m; intros E; try discriminate; reflexivity. Qed.
Lemma two_go_eq {A B} fa fb (ra : doc -> option A) (rb : doc -> option B) m l : name_eqb fa fb = false -> forall oa ob,
  two_go fa fb ra rb m l oa ob =
  match match oa, fields_of fa l with Some a, [] => Some a | None, [x] => ra x | _, _ => None end,
        match ob, fields_of fb l with Some b, [] => Some b | None, [x] => rb x | None, [] => m | _, _ => None end with
  | Some a, Some b => Some (a, b)
  | _, _ => None
  end.
Proof.
  intros N. induction l as [|[k d] l IH]; intros oa ob; cbn [two_go].
  - cbn. destruct oa, ob; try reflexivity.
  - unfold fields_of. cbn [filter fst]. destruct (is_key fa k) eqn:Ka; [|destruct (is_key fb k) eqn:Kb].
    + apply is_key_eq in Ka. subst k. replace (is_key fb (KName fa)) with false by (cbn [is_key]; destruct fa, fb; try discriminate; reflexivity).
      cbn [map snd]. fold (fields_of fa l) (fields_of fb l). destruct oa as [a|]; [reflexivity|]. destruct (ra d) as [a|] eqn:E.
      * fold (two_go fa fb ra rb m). rewrite IH. destruct (fields_of fa l); [cbv beta iota; rewrite ?E; reflexivity|reflexivity].
      * destruct (fields_of fa l); [cbv beta iota; rewrite ?E; reflexivity|reflexivity].
    + cbn [map snd]. fold (fields_of fa l) (fields_of fb l). destruct ob as [b|].
      { destruct (match oa with Some _ => _ | None => _ end); reflexivity. }
      destruct (rb d) as [b|] eqn:E.
      * fold (two_go fa fb ra rb m). rewrite IH. destruct (fields_of fb l); [cbv beta iota; rewrite ?E; reflexivity|reflexivity].
      * destruct (match oa with Some _ => _ | None => _ end); [|reflexivity]. destruct (fields_of fb l); [cbv beta iota; rewrite ?E; reflexivity|reflexivity].
    + fold (fields_of fa l) (fields_of fb l). fold (two_go fa fb ra rb m). apply IH.
Qed.
Lemma two_object {A B} fa fb (ra : doc -> option A) (rb : doc -> option B) m l : name_eqb fa fb = false ->
  read_two fa fb ra rb m (JObject l) = from_entries ra rb m (fields_of fa l) (fields_of fb l).
Proof.
  intros N. change (read_two fa fb ra rb m (JObject l)) with (two_go fa fb ra rb m l None None). rewrite two_go_eq by exact N.
  unfold from_entries. destruct (fields_of fa l) as [|x [|x' la]]; try reflexivity. destruct (fields_of fb l) as [|y [|y' lb]]; try reflexivity.
  destruct (ra x); reflexivity.
Qed.

(** ** What a caching trie holds after loading *)
Definition load_cell (d : doc) : option data := match read_cached d with Some o => Some (ser_cached o) | None => None end.
Fixpoint load (d : doc) : option data :=
  match read_two f_node f_hash
    (fun dn => match dn with
       | JString (KName v_Empty) | JObject [(KName v_Empty, JNull)] => Some (DUnitVariant v_Empty)
       | JObject [(KName v_Hash, c)] => match read_h256 c with Some h => Some (DNewtypeVariant v_Hash (DH256 h)) | None => None end
       | JObject [(KName v_Branch, c)] =>
           match read_two f_children f_value
                   (fun d => match d with JArray l => if sixteen l then read_all load l else None | _ => None end) read_bytes None c with
           | Some (ds, v) => Some (DStructVariant v_Branch [(f_children, DTuple ds); (f_value, ser_bytes v)])
           | None => None
           end
       | JObject [(KName v_Extension, c)] =>
           match read_two f_nibbles f_child read_nibbles load None c with
           | Some (k, d) => Some (DStructVariant v_Extension [(f_nibbles, ser_nibbles k); (f_child, d)])
           | None => None
           end
       | JObject [(KName v_Leaf, c)] =>
           match read_two f_nibbles f_value read_nibbles read_bytes None c with
           | Some (k, v) => Some (DStructVariant v_Leaf [(f_nibbles, ser_nibbles k); (f_value, ser_bytes v)])
           | None => None
           end
       | _ => None
       end) load_cell (Some DNone) d with
  | Some (dn, dh) => Some (DStruct [(f_node, dn); (f_hash, dh)])
  | None => None
  end.
Definition load_node (dn : doc) : option data :=
  match dn with
  | JString (KName v_Empty) | JObject [(KName v_Empty, JNull)] => Some (DUnitVariant v_Empty)
  | JObject [(KName v_Hash, c)] => match read_h256 c with Some h => Some (DNewtypeVariant v_Hash (DH256 h)) | None => None end
  | JObject [(KName v_Branch, c)] =>
      match read_two f_children f_value (kids16 load) read_bytes None c with
      | Some (ds, v) => Some (DStructVariant v_Branch [(f_children, DTuple ds); (f_value, ser_bytes v)])
      | None => None
      end
  | JObject [(KName v_Extension, c)] =>
      match read_two f_nibbles f_child read_nibbles load None c with
      | Some (k, d) => Some (DStructVariant v_Extension [(f_nibbles, ser_nibbles k); (f_child, d)])
      | None => None
      end
  | JObject [(KName v_Leaf, c)] =>
      match read_two f_nibbles f_value read_nibbles read_bytes None c with
      | Some (k, v) => Some (DStructVariant v_Leaf [(f_nibbles, ser_nibbles k); (f_value, ser_bytes v)])
      | None => None
      end
  | _ => None
  end.
Lemma load_eq d : load d =
  match read_two f_node f_hash load_node load_cell (Some DNone) d with Some (dn, dh) => Some (DStruct [(f_node, dn); (f_hash, dh)]) | None => None end.
Proof. destruct d; reflexivity. Qed.

(** ** Other texts of the same trie *)
Section rewritten_ind.
  Variable P : doc -> doc -> Prop.
  Hypotheses (Hs : forall d, P d d) (Ht : forall a b c, P a b -> P b c -> P a c)
    (Ha : forall l l', Forall2 P l l' -> P (JArray l) (JArray l'))
    (Ho : forall ks ds ds', length ks = length ds -> Forall2 P ds ds' -> P (JObject (combine ks ds)) (JObject (combine ks ds')))
    (Hp : forall l l', Permutation l l' -> P (JObject l) (JObject l'))
    (He : forall l s d, has_field l -> P (JObject l) (JObject (l ++ [(KOther s, d)])))
    (Hne : forall l s d, P (JObject (l ++ [(KOther s, d)])) (JObject l))
    (Hn : forall l, (exists d, In (KName f_node, d) l) -> ~ (exists d, In (KName f_hash, d) l) -> P (JObject l) (JObject (l ++ [(KName f_hash, JNull)])))
    (Hnn : forall l, P (JObject (l ++ [(KName f_hash, JNull)])) (JObject l))
    (Hpos : forall a b x y, struct a b -> P (JObject [(KName a, x); (KName b, y)]) (JArray [x; y])).
  Fixpoint rewritten_ind' (d d' : doc) (R : rewritten d d') {struct R} : P d d' :=
    match R with
    | rw_same d => Hs d
    | rw_trans a b c R1 R2 => Ht a b c (rewritten_ind' a b R1) (rewritten_ind' b c R2)
    | rw_array l l' F =>
        Ha l l' ((fix go l l' (F : Forall2 rewritten l l') {struct F} : Forall2 P l l' :=
          match F with Forall2_nil _ => Forall2_nil _ | Forall2_cons x y R F' => Forall2_cons x y (rewritten_ind' x y R) (go _ _ F') end) l l' F)
    | rw_object ks ds ds' L F =>
        Ho ks ds ds' L ((fix go l l' (F : Forall2 rewritten l l') {struct F} : Forall2 P l l' :=
          match F with Forall2_nil _ => Forall2_nil _ | Forall2_cons x y R F' => Forall2_cons x y (rewritten_ind' x y R) (go _ _ F') end) ds ds' F)
    | rw_order l l' Q => Hp l l' Q
    | rw_extra l s d H => He l s d H
    | rw_no_extra l s d => Hne l s d
    | rw_null l A B => Hn l A B
    | rw_no_null l => Hnn l
    | rw_positions a b x y H => Hpos a b x y H
    end.
End rewritten_ind.

Definition simple {A} (f : doc -> option A) : Prop := (forall l, f (JArray l) = None) /\ (forall l, f (JObject l) = None).
Definition pair_with {P A} (g : P -> A) (o : option P) : option A := match o with Some p => Some (g p) | None => None end.
Definition to_branch (p : list node * list N) : node := Branch (fst p) (snd p).
Definition to_ext (p : nibbles * node) : node := Extension (fst p) (snd p).
Definition to_leaf (p : nibbles * list N) : node := Leaf (fst p) (snd p).
Definition to_dbranch (p : list data * list N) : data := DStructVariant v_Branch [(f_children, DTuple (fst p)); (f_value, ser_bytes (snd p))].
Definition to_dext (p : nibbles * data) : data := DStructVariant v_Extension [(f_nibbles, ser_nibbles (fst p)); (f_child, snd p)].
Definition to_dleaf (p : nibbles * list N) : data := DStructVariant v_Leaf [(f_nibbles, ser_nibbles (fst p)); (f_value, ser_bytes (snd p))].

Inductive reader : forall A, (doc -> option A) -> Prop :=
| r_simple A f : simple f -> reader A f
| r_bytes : reader _ read_bytes
| r_nibbles : reader _ read_nibbles
| r_trie : reader _ read_trie
| r_kids : reader _ (kids16 read_trie)
| r_branch : reader _ (fun d => pair_with to_branch (read_two f_children f_value (kids16 read_trie) read_bytes None d))
| r_ext : reader _ (fun d => pair_with to_ext (read_two f_nibbles f_child read_nibbles read_trie None d))
| r_leaf A (g : _ -> A) : reader _ (fun d => pair_with g (read_two f_nibbles f_value read_nibbles read_bytes None d))
| r_load : reader _ load
| r_node : reader _ load_node
| r_hkids : reader _ (kids16 load)
| r_hbranch : reader _ (fun d => pair_with to_dbranch (read_two f_children f_value (kids16 load) read_bytes None d))
| r_hext : reader _ (fun d => pair_with to_dext (read_two f_nibbles f_child read_nibbles load None d)).

Definition kind_array {A} (f : doc -> option A) : Prop :=
  (forall l, f (JObject l) = None) /\ exists B (g : doc -> option B) (h : list B -> A) (test : nat -> bool),
  reader _ g /\ forall l, f (JArray l) = if test (length l) then pair_with h (read_all g l) else None.
Definition kind_two {A} (f : doc -> option A) : Prop :=
  exists B C fa fb (ra : doc -> option B) (rb : doc -> option C) m (g : B * C -> A), struct fa fb /\ reader _ ra /\ reader _ rb /\
    ((fb <> f_hash /\ m = None) \/ (fb = f_hash /\ rb JNull = m)) /\ forall d, f d = pair_with g (read_two fa fb ra rb m d).
Definition kind_enum {A} (f : doc -> option A) : Prop :=
  (forall l, f (JArray l) = None) /\ (forall l x, f (JObject l) = Some x -> exists v c, l = [(KName v, c)] /\ ~ is_field (KName v)) /\
  forall k, exists g, reader _ g /\ forall c, f (JObject [(k, c)]) = g c.

Lemma none_reader A : reader A (fun _ => None).
Proof. apply r_simple. split; reflexivity. Qed.
Lemma pair_id {P} (o : option P) : pair_with (fun p => p) o = o.
Proof. destruct o; reflexivity. Qed.
Lemma kinds A f : reader A f -> simple f \/ kind_array f \/ kind_two f \/ kind_enum f.
Proof.
  assert (SN : forall b, reader _ (read_num b)) by (intros b; apply r_simple; split; reflexivity).
  assert (SU : reader _ read_u512) by (apply r_simple; split; reflexivity).
  assert (SC : reader _ load_cell) by (apply r_simple; split; reflexivity).
  assert (SH : forall A (g : _ -> A), reader _ (fun d => pair_with g (read_h256 d))) by (intros A' g; apply r_simple; split; reflexivity).
  assert (SE : forall A (x : A), reader _ (fun d => match d with JNull => Some x | _ => None end)) by (intros A' x; apply r_simple; split; reflexivity).
  intros R. destruct R; [left; assumption|right..].
  - left. split; [reflexivity|]. exists N, (read_num 256), (fun l => l), (fun _ => true). split; [apply SN|]. intros l. cbn [read_bytes]. rewrite pair_id. reflexivity.
  - right; left. eexists _, _, f_count, f_packed, _, _, None, (fun p => Nib (fst p) (snd p)). split; [unfold struct; cbn; tauto|].
    split; [apply (SN (2 ^ 64))|]. split; [apply SU|]. split; [left; split; [discriminate|reflexivity]|]. intros d. unfold read_nibbles, pair_with.
    destruct (read_two _ _ _ _ _ d) as [[]|]; reflexivity.
  - right; right. split; [reflexivity|]. split.
    + intros [|[[[]|] c] [|e l]] x E; try discriminate E; try (destruct c; discriminate E); eexists _, c; (split; [reflexivity|exact (fun F => F)]).
    + intros [[]|]; try (eexists; split; [apply none_reader|]; intros []; reflexivity).
      * eexists. split; [apply (SE node Empty)|]. intros []; reflexivity.
      * eexists. split; [apply (SH node Hash)|]. reflexivity.
      * eexists. split; [apply r_branch|]. intros c. rewrite read_branch. unfold pair_with, to_branch. destruct (read_two _ _ _ _ _ c) as [[]|]; reflexivity.
      * eexists. split; [apply r_ext|]. intros c. rewrite read_extension. unfold pair_with, to_ext. destruct (read_two _ _ _ _ _ c) as [[]|]; reflexivity.
      * eexists. split; [apply (r_leaf node to_leaf)|]. intros c. rewrite read_leaf. unfold pair_with, to_leaf. destruct (read_two _ _ _ _ _ c) as [[]|]; reflexivity.
  - left. split; [reflexivity|]. exists node, read_trie, (fun l => l), (fun n => Nat.eqb n 16). split; [apply r_trie|]. intros l. rewrite pair_id. reflexivity.
  - right; left. eexists _, _, f_children, f_value, _, _, None, to_branch. split; [unfold struct; cbn; tauto|]. split; [apply r_kids|]. split; [apply r_bytes|]. split; [left; split; [discriminate|reflexivity]|reflexivity].
  - right; left. eexists _, _, f_nibbles, f_child, _, _, None, to_ext. split; [unfold struct; cbn; tauto|]. split; [apply r_nibbles|]. split; [apply r_trie|]. split; [left; split; [discriminate|reflexivity]|reflexivity].
  - right; left. eexists _, _, f_nibbles, f_value, _, _, None, g. split; [unfold struct; cbn; tauto|]. split; [apply r_nibbles|]. split; [apply r_bytes|]. split; [left; split; [discriminate|reflexivity]|reflexivity].
  - right; left. eexists _, _, f_node, f_hash, _, _, (Some DNone), (fun p => DStruct [(f_node, fst p); (f_hash, snd p)]). split; [unfold struct; cbn; tauto|].
    split; [apply r_node|]. split; [apply SC|]. split; [right; split; reflexivity|]. intros d. rewrite load_eq. unfold pair_with.
    destruct (read_two _ _ _ _ _ d) as [[]|]; reflexivity.
  - right; right. split; [reflexivity|]. split.
    + intros [|[[[]|] c] [|e l]] x E; try discriminate E; try (destruct c; discriminate E); eexists _, c; (split; [reflexivity|exact (fun F => F)]).
    + intros [[]|]; try (eexists; split; [apply none_reader|]; intros []; reflexivity).
      * eexists. split; [apply (SE data (DUnitVariant v_Empty))|]. intros []; reflexivity.
      * eexists. split; [apply (SH data (fun h => DNewtypeVariant v_Hash (DH256 h)))|]. reflexivity.
      * eexists. split; [apply r_hbranch|]. intros c. cbn [load_node]. unfold pair_with, to_dbranch. destruct (read_two _ _ _ _ _ c) as [[]|]; reflexivity.
      * eexists. split; [apply r_hext|]. intros c. cbn [load_node]. unfold pair_with, to_dext. destruct (read_two _ _ _ _ _ c) as [[]|]; reflexivity.
      * eexists. split; [apply (r_leaf data to_dleaf)|]. intros c. cbn [load_node]. unfold pair_with, to_dleaf. destruct (read_two _ _ _ _ _ c) as [[]|]; reflexivity.
  - left. split; [reflexivity|]. exists data, load, (fun l => l), (fun n => Nat.eqb n 16). split; [apply r_load|]. intros l. rewrite pair_id. reflexivity.
  - right; left. eexists _, _, f_children, f_value, _, _, None, to_dbranch. split; [unfold struct; cbn; tauto|]. split; [apply r_hkids|]. split; [apply r_bytes|]. split; [left; split; [discriminate|reflexivity]|reflexivity].
  - right; left. eexists _, _, f_nibbles, f_child, _, _, None, to_dext. split; [unfold struct; cbn; tauto|]. split; [apply r_nibbles|]. split; [apply r_load|]. split; [left; split; [discriminate|reflexivity]|reflexivity].
Qed.

Definition good (d d' : doc) : Prop := forall A f, reader A f -> forall x, f d = Some x -> f d' = Some x.

Lemma struct_ne fa fb : struct fa fb -> name_eqb fa fb = false /\ fa <> f_hash.
Proof. unfold struct. cbn [In]. intros H. repeat (destruct H as [H|H]; [injection H as <- <-; split; [reflexivity|discriminate]|]). destruct H. Qed.
Lemma good_all {A} (g : doc -> option A) l l' : reader _ g -> Forall2 good l l' -> forall x, read_all g l = Some x -> read_all g l' = Some x.
Proof.
  intros R F. induction F as [|d d' l l' H F IH]; intros x; [auto|]. cbn [read_all]. fold (read_all g) in *. destruct (g d) as [y|] eqn:E; [|discriminate].
  rewrite (H _ _ R _ E). destruct (read_all g l) as [ys|]; [|discriminate]. rewrite (IH ys eq_refl). auto.
Qed.
Lemma good_entries f ks : forall ds ds', Forall2 good ds ds' -> Forall2 good (fields_of f (combine ks ds)) (fields_of f (combine ks ds')).
Proof.
  induction ks as [|k ks IH]; intros ds ds' F; [constructor|]. destruct F as [|d d' ds ds' H F]; [constructor|].
  unfold fields_of in *. cbn [combine filter fst]. destruct (is_key f k); [constructor; [exact H|]|]; apply IH, F.
Qed.
Lemma good_from {A B} (ra : doc -> option A) (rb : doc -> option B) m la la' lb lb' : reader _ ra -> reader _ rb -> Forall2 good la la' -> Forall2 good lb lb' ->
  forall x, from_entries ra rb m la lb = Some x -> from_entries ra rb m la' lb' = Some x.
Proof.
  intros Ra Rb Fa Fb x. destruct Fa as [|a a' la la' Ha Fa]; [discriminate|]. destruct Fa; [|discriminate].
  destruct Fb as [|b b' lb lb' Hb Fb]; cbn [from_entries].
  - destruct (ra a) as [y|] eqn:E; [|discriminate]. rewrite (Ha _ _ Ra _ E). auto.
  - destruct Fb; [|discriminate]. destruct (ra a) as [y|] eqn:E; [|discriminate]. rewrite (Ha _ _ Ra _ E).
    destruct (rb b) as [z|] eqn:E'; [|discriminate]. rewrite (Hb _ _ Rb _ E'). auto.
Qed.
Lemma entries_perm f l l' : Permutation l l' -> Permutation (fields_of f l) (fields_of f l').
Proof.
  intros P. unfold fields_of. apply Permutation_map. induction P as [|e l l' P IH|e e' l|l l' l'' P IH P' IH']; cbn [filter].
  - constructor.
  - destruct (is_key f (fst e)); [constructor|]; exact IH.
  - destruct (is_key f (fst e)), (is_key f (fst e')); first [apply perm_swap|apply Permutation_refl].
  - eapply Permutation_trans; eassumption.
Qed.
Lemma from_perm {A B} (ra : doc -> option A) (rb : doc -> option B) m la la' lb lb' : Permutation la la' -> Permutation lb lb' ->
  from_entries ra rb m la lb = from_entries ra rb m la' lb'.
Proof.
  intros Pa Pb. destruct la as [|a [|a2 la]].
  - apply Permutation_nil in Pa. subst la'. reflexivity.
  - apply Permutation_length_1_inv in Pa. subst la'. destruct lb as [|b [|b2 lb]].
    + apply Permutation_nil in Pb. subst lb'. reflexivity.
    + apply Permutation_length_1_inv in Pb. subst lb'. reflexivity.
    + pose proof (Permutation_length Pb) as L. destruct lb' as [|b' [|b2' lb']]; cbn [length] in L; try lia. reflexivity.
  - pose proof (Permutation_length Pa) as L. destruct la' as [|a' [|a2' la']]; cbn [length] in L; try lia. reflexivity.
Qed.
Lemma entries_app f l l' : fields_of f (l ++ l') = fields_of f l ++ fields_of f l'.
Proof. unfold fields_of. rewrite filter_app, map_app. reflexivity. Qed.
Lemma entries_none f l : ~ (exists d, In (KName f, d) l) -> fields_of f l = [].
Proof.
  intros H. unfold fields_of. assert (G : filter (fun e => is_key f (fst e)) l = []); [|rewrite G; reflexivity].
  induction l as [|[k d] l IH]; [reflexivity|]. cbn [filter fst]. destruct (is_key f k) eqn:E.
  - apply is_key_eq in E. subst k. destruct H. exists d. left. reflexivity.
  - apply IH. intros [d' I]. apply H. exists d'. right. exact I.
Qed.
Lemma pair_some {P A} (g : P -> A) o x : pair_with g o = Some x <-> exists p, o = Some p /\ g p = x.
Proof. destruct o as [p|]; cbn [pair_with]; split; [intros [= <-]; eauto|intros (q & [= ->] & <-); reflexivity|discriminate|intros (q & E & _); discriminate]. Qed.

Lemma F2_length {A B} (P : A -> B -> Prop) l l' : Forall2 P l l' -> length l = length l'.
Proof. induction 1; cbn [length]; congruence. Qed.
Lemma rewritten_good d d' : rewritten d d' -> good d d'.
Proof.
  intros R. induction R as [d|a b c H1 H2|l l' F|ks ds ds' L F|l l' P|l s d H|l s d|l H H'|l|a b u w S] using rewritten_ind'; intros A f R x E.
  - exact E.
  - apply (H2 _ _ R), (H1 _ _ R), E.
  - destruct (kinds _ _ R) as [K|[K|[K|K]]].
    + rewrite (proj1 K) in E. discriminate.
    + destruct K as (_ & B & g & h & test & Rg & K). rewrite K in *. rewrite (F2_length _ _ _ F) in E. destruct (test _); [|discriminate].
      rewrite pair_some in *. destruct E as (p & E & <-). exists p. split; [|reflexivity]. eapply good_all; eassumption.
    + destruct K as (B & C & fa & fb & ra & rb & m & g & S & Ra & Rb & _ & K). rewrite K in *. rewrite pair_some in *. destruct E as (p & E & <-).
      exists p. split; [|reflexivity]. clear K. destruct F as [|u u' l l' Hu F]; [discriminate|]. destruct F as [|w w' l l' Hw F]; [discriminate|].
      destruct F; [|discriminate]. cbn [read_two] in *. destruct (ra u) as [y|] eqn:Ea; [|discriminate]. rewrite (Hu _ _ Ra _ Ea).
      destruct (rb w) as [z|] eqn:Eb; [|discriminate]. rewrite (Hw _ _ Rb _ Eb). exact E.
    + rewrite (proj1 K) in E. discriminate.
  - destruct (kinds _ _ R) as [K|[K|[K|K]]].
    + rewrite (proj2 K) in E. discriminate.
    + rewrite (proj1 K) in E. discriminate.
    + destruct K as (B & C & fa & fb & ra & rb & m & g & S & Ra & Rb & _ & K). rewrite K in *. rewrite pair_some in *. destruct E as (p & E & <-).
      exists p. split; [|reflexivity]. destruct (struct_ne _ _ S) as [Ne _]. rewrite two_object in * by exact Ne. revert E. apply good_from; try assumption; apply good_entries, F.
    + destruct K as (_ & K1 & K2). destruct (K1 _ _ E) as (v & c & El & _). destruct ks as [|k [|k' ks]], ds as [|d [|d' ds]]; try discriminate.
      injection El as -> ->. inversion F as [|? d1 ? ? Hd F']; subst. inversion F'; subst. cbn [combine] in *. destruct (K2 (KName v)) as (g & Rg & K). rewrite K in *.
      eapply Hd; eassumption.
  - destruct (kinds _ _ R) as [K|[K|[K|K]]].
    + rewrite (proj2 K) in E. discriminate.
    + rewrite (proj1 K) in E. discriminate.
    + destruct K as (B & C & fa & fb & ra & rb & m & g & S & Ra & Rb & _ & K). rewrite K in *. destruct (struct_ne _ _ S) as [Ne _]. rewrite two_object in * by exact Ne.
      erewrite <- from_perm; [exact E|apply entries_perm, P..].
    + destruct (proj1 (proj2 K) _ _ E) as (v & c & -> & _). apply Permutation_length_1_inv in P. subst l'. exact E.
  - destruct (kinds _ _ R) as [K|[K|[K|K]]].
    + rewrite (proj2 K) in E. discriminate.
    + rewrite (proj1 K) in E. discriminate.
    + destruct K as (B & C & fa & fb & ra & rb & m & g & S & Ra & Rb & _ & K). rewrite K in *. destruct (struct_ne _ _ S) as [Ne _]. rewrite two_object in * by exact Ne.
      rewrite !entries_app. cbn [fields_of filter fst is_key map]. rewrite !app_nil_r. exact E.
    + destruct (proj1 (proj2 K) _ _ E) as (v & c & -> & N). destruct H as (e & [<-|[]] & H). contradiction.
  - destruct (kinds _ _ R) as [K|[K|[K|K]]].
    + rewrite (proj2 K) in E. discriminate.
    + rewrite (proj1 K) in E. discriminate.
    + destruct K as (B & C & fa & fb & ra & rb & m & g & S & Ra & Rb & _ & K). rewrite K in *. destruct (struct_ne _ _ S) as [Ne _]. rewrite two_object in * by exact Ne.
      rewrite !entries_app in E. cbn [fields_of filter fst is_key map] in E. rewrite !app_nil_r in E. exact E.
    + destruct (proj1 (proj2 K) _ _ E) as (v & c & El & N). destruct l as [|e [|]]; discriminate.
  - destruct (kinds _ _ R) as [K|[K|[K|K]]].
    + rewrite (proj2 K) in E. discriminate.
    + rewrite (proj1 K) in E. discriminate.
    + destruct K as (B & C & fa & fb & ra & rb & m & g & S & Ra & Rb & M & K). rewrite K in *. destruct (struct_ne _ _ S) as [Ne Nh]. rewrite two_object in * by exact Ne.
      rewrite !entries_app. replace (fields_of fa [(KName f_hash, JNull)]) with (@nil doc)
        by (symmetry; apply entries_none; intros [d [I|[]]]; injection I as <- _; contradiction). rewrite app_nil_r.
      destruct M as [[M ->]|[-> M]].
      * replace (fields_of fb [(KName f_hash, JNull)]) with (@nil doc)
          by (symmetry; apply entries_none; intros [d [I|[]]]; injection I as <- _; contradiction). rewrite app_nil_r. exact E.
      * rewrite (entries_none f_hash l H') in *. cbn [app fields_of filter fst is_key name_eqb map snd]. unfold from_entries in *. rewrite M. exact E.
    + destruct (proj1 (proj2 K) _ _ E) as (v & c & -> & N). destruct H as (d & [H|[]]). injection H as -> ->. destruct N. exact I.
  - destruct (kinds _ _ R) as [K|[K|[K|K]]].
    + rewrite (proj2 K) in E. discriminate.
    + rewrite (proj1 K) in E. discriminate.
    + destruct K as (B & C & fa & fb & ra & rb & m & g & S & Ra & Rb & M & K). rewrite K in *. destruct (struct_ne _ _ S) as [Ne Nh]. rewrite two_object in * by exact Ne.
      rewrite !entries_app in E. replace (fields_of fa [(KName f_hash, JNull)]) with (@nil doc) in E
        by (symmetry; apply entries_none; intros [d [I|[]]]; injection I as <- _; contradiction). rewrite app_nil_r in E.
      destruct M as [[M ->]|[-> M]].
      * replace (fields_of fb [(KName f_hash, JNull)]) with (@nil doc) in E
          by (symmetry; apply entries_none; intros [d [I|[]]]; injection I as <- _; contradiction). rewrite app_nil_r in E. exact E.
      * rewrite <- E. f_equal. cbn [app fields_of filter fst is_key name_eqb map snd] in *. unfold from_entries in *.
        destruct (fields_of fa l) as [|y [|]]; try reflexivity. destruct (fields_of f_hash l) as [|z zs]; [cbn [app]; rewrite M; reflexivity|].
        destruct zs; cbn [app pair_with] in E; discriminate.
    + destruct (proj1 (proj2 K) _ _ E) as (v & c & El & N). destruct l as [|e [|]]; [|discriminate|discriminate]. injection El as <- <-. destruct N. exact I.
  - destruct (kinds _ _ R) as [K|[K|[K|K]]].
    + rewrite (proj2 K) in E. discriminate.
    + rewrite (proj1 K) in E. discriminate.
    + destruct K as (B & C & fa & fb & ra & rb & m & g & S' & Ra & Rb & M & K). rewrite K in *. rewrite pair_some in *. destruct E as (p & E & <-).
      exists p. split; [|reflexivity]. destruct (struct_ne _ _ S') as [Ne Nh]. rewrite two_object in E by exact Ne. clear K.
      unfold struct in *. cbn [In] in S, S'.
      destruct S as [S|[S|[S|[S|[S|[]]]]]]; injection S as <- <-; destruct S' as [S'|[S'|[S'|[S'|[S'|[]]]]]]; injection S' as <- <-; cbn in E;
        first [discriminate E|exact E|destruct M as [[_ ->]|[M _]]; [destruct (ra u); discriminate E|discriminate M]].
    + destruct (proj1 (proj2 K) _ _ E) as (v & c & El & N). discriminate.
Qed.

(** ** Loading, step by step *)
(** [does p x cl rel]: [p] does not fail, touches only new cells, and gives [x] up to [rel], which depends on the cells [cl] of the result
    only; these are new, and different from each other. *)
Definition same_on (l : list N) (s s' : store) : Prop := forall c, In c l -> s c = s' c.
Definition does {A X} (p : prog (option A)) (x : option X) (cl : A -> list N) (rel : store -> A -> X -> Prop) : Prop :=
  forall s n, exists r s' n', exec p s n = Ok (r, s', n') /\ n <= n' /\ (forall c, c < n -> s' c = s c) /\
    ((forall c, n <= c -> s c = None) -> forall c, n' <= c -> s' c = None) /\
    match r, x with
    | Some a, Some y => NoDup (cl a) /\ (forall c, In c (cl a) -> n <= c < n') /\ forall s'', same_on (cl a) s'' s' -> rel s'' a y
    | None, None => True
    | _, _ => False
    end.

Lemma does_ret {A X} (r : option A) (x : option X) (cl : A -> list N) (rel : store -> A -> X -> Prop) :
  match r, x with Some a, Some y => cl a = [] /\ forall s, rel s a y | None, None => True | _, _ => False end -> does (Ret r) x cl rel.
Proof.
  intros H s n. exists r, s, n. split; [reflexivity|]. split; [lia|]. split; [auto|]. split; [auto|]. destruct r as [a|], x as [y|]; try exact H.
  destruct H as [-> H]. split; [constructor|]. split; [intros c []|]. auto.
Qed.
Lemma does_map {A X A' X'} (p : prog (option A)) (x : option X) cl rel (f : A -> A') (g : X -> X') (x' : option X') cl' (rel' : store -> A' -> X' -> Prop) :
  does p x cl rel -> x' = pair_with g x -> (forall a, Permutation (cl a) (cl' (f a))) -> (forall s a y, rel s a y -> rel' s (f a) (g y)) ->
  does (r <~ p ;; Ret (pair_with f r)) x' cl' rel'.
Proof.
  intros D -> P R s n. destruct (D s n) as (r & s' & n' & E & L & F & N & H). exists (pair_with f r), s', n'.
  split; [rewrite exec_bind, E; reflexivity|]. split; [exact L|]. split; [exact F|]. split; [exact N|].
  destruct r as [a|], x as [y|]; cbn [pair_with]; try exact H. destruct H as (H1 & H2 & H3). split; [|split].
  - eapply Permutation_NoDup; [apply P|exact H1].
  - intros c I. apply H2. eapply Permutation_in; [apply Permutation_sym, P|exact I].
  - intros s'' S. apply R, H3. intros c I. apply S. eapply Permutation_in; [apply P|exact I].
Qed.

Lemma NoDup_ranges (l l' : list N) a b c : NoDup l -> NoDup l' -> (forall x, In x l -> a <= x < b) -> (forall x, In x l' -> b <= x < c) -> NoDup (l ++ l').
Proof.
  intros N N' H H'. induction N as [|x l I N IH]; [exact N'|]. cbn [app]. constructor.
  - rewrite in_app_iff. intros [J|J]; [exact (I J)|]. specialize (H x (or_introl eq_refl)). specialize (H' x J). lia.
  - apply IH. intros y J. apply H. right. exact J.
Qed.

Lemma does_all {A X} (f : doc -> prog (option A)) (g : doc -> option X) cl rel l :
  (forall d, In d l -> does (f d) (g d) cl rel) ->
  does (hread_all f l) (read_all g l) (flat_map cl) (fun s => Forall2 (rel s)).
Proof.
  induction l as [|d l IH]; intros H.
  - apply does_ret. split; [reflexivity|]. constructor.
  - specialize (IH (fun x I => H x (or_intror I))). intros s n. cbn [hread_all read_all]. fold (hread_all f) (read_all g).
    destruct (H d (or_introl eq_refl) s n) as (r & s1 & n1 & E & L & F & Fr & R). rewrite exec_bind, E.
    destruct r as [a|], (g d) as [y|]; try destruct R.
    2: { exists None, s1, n1. cbn [exec]. auto 10. }
    rename H0 into R1. destruct H1 as [R2 R3]. rewrite exec_bind. destruct (IH s1 n1) as (r & s2 & n2 & -> & L' & F' & Fr' & R').
    eexists _, s2, n2. split; [reflexivity|]. split; [lia|]. split; [intros c C; rewrite F', F by lia; reflexivity|]. split; [auto|].
    destruct r as [l1|], (read_all g l) as [l2|]; try exact R'. destruct R' as (R1' & R2' & R3'). cbn [flat_map]. split; [|split].
    + eapply NoDup_ranges; eauto.
    + intros c I. apply in_app_or in I. destruct I as [I|I]; [apply R2 in I|apply R2' in I]; lia.
    + intros s'' S. constructor.
      * apply R3. intros c I. rewrite S by (apply in_or_app; left; exact I). apply F'. apply R2 in I. lia.
      * apply R3'. intros c I. apply S, in_or_app. right. exact I.
Qed.

Definition htwo_go {A B} (fa fb : name) (ra : doc -> prog (option A)) (rb : doc -> prog (option B)) (missing : prog (option B))
  : list (key * doc) -> option A -> option B -> prog (option (A * B)) :=
  fix go (l : list (key * doc)) (oa : option A) (ob : option B) {struct l} : prog (option (A * B)) :=
         match l with
         | [] =>
             match oa with
             | None => Ret None
             | Some a =>
                 r <~ match ob with Some b => Ret (Some b) | None => missing end ;;
                 Ret (match r with Some b => Some (a, b) | None => None end)
             end
         | (k, d) :: l' =>
             if is_key fa k then
               match oa with
               | Some _ => Ret None
               | None => r <~ ra d ;; match r with Some a => go l' (Some a) ob | None => Ret None end
               end
             else if is_key fb k then
               match ob with
               | Some _ => Ret None
               | None => r <~ rb d ;; match r with Some b => go l' oa (Some b) | None => Ret None end
               end
             else go l' oa ob
         end.

Section Two.
Context {A B X Y : Type}.
Variables (fa fb : name) (ra : doc -> prog (option A)) (rb : doc -> prog (option B)) (m : prog (option B)).
Variables (pa : doc -> option X) (pb : doc -> option Y) (pm : option Y).
Variables (ca : A -> list N) (cb : B -> list N) (rela : store -> A -> X -> Prop) (relb : store -> B -> Y -> Prop).
Hypothesis Hm : does m pm cb relb.

Definition ocl {C} (c : C -> list N) (o : option C) : list N := match o with Some a => c a | None => [] end.
Definition orel {C Z} (rel : store -> C -> Z -> Prop) (s : store) (o : option C) (z : option Z) : Prop :=
  match o, z with Some a, Some y => rel s a y | None, None => True | _, _ => False end.

Lemma orel_mono {C Z} (c : C -> list N) (rel : store -> C -> Z -> Prop) s s' o z :
  (forall s'', same_on (ocl c o) s'' s -> orel rel s'' o z) -> same_on (ocl c o) s' s -> (forall s'', same_on (ocl c o) s'' s' -> orel rel s'' o z).
Proof. intros H S s'' S'. apply H. intros x I. rewrite S', S by exact I. reflexivity. Qed.

Lemma does_go l : (forall d, In d (map snd l) -> does (ra d) (pa d) ca rela) -> (forall d, In d (map snd l) -> does (rb d) (pb d) cb relb) ->
  forall oa ob xa xb n0 s n, n0 <= n -> NoDup (ocl ca oa ++ ocl cb ob) -> (forall c, In c (ocl ca oa ++ ocl cb ob) -> n0 <= c < n) ->
  (forall s', same_on (ocl ca oa) s' s -> orel rela s' oa xa) -> (forall s', same_on (ocl cb ob) s' s -> orel relb s' ob xb) ->
  exists r s' n', exec (htwo_go fa fb ra rb m l oa ob) s n = Ok (r, s', n') /\ n <= n' /\ (forall c, c < n -> s' c = s c) /\
    ((forall c, n <= c -> s c = None) -> forall c, n' <= c -> s' c = None) /\
    match r, two_go fa fb pa pb pm l xa xb with
    | Some (a, b), Some (x, y) => NoDup (ca a ++ cb b) /\ (forall c, In c (ca a ++ cb b) -> n0 <= c < n') /\
        forall s'', same_on (ca a ++ cb b) s'' s' -> rela s'' a x /\ relb s'' b y
    | None, None => True
    | _, _ => False
    end.
Proof.
  assert (AG : forall oa ob, (forall s s' : store, same_on (ocl ca oa ++ ocl cb ob) s s' -> same_on (ocl ca oa) s s' /\ same_on (ocl cb ob) s s')).
  { intros oa ob s s' S. split; intros c I; apply S, in_or_app; auto. }
  induction l as [|[k d] l IH]; intros Ha Hb oa ob xa xb n0 s n L N R Oa Ob; cbn [htwo_go two_go].
  - destruct oa as [a|].
    2: { exists None, s, n. split; [reflexivity|]. split; [lia|]. split; [auto|]. split; [auto|].
         specialize (Oa s (fun c I => eq_refl)). destruct xa; [destruct Oa|]. exact I. }
    destruct xa as [x|]; [|destruct (Oa s (fun c I => eq_refl))].
    rewrite exec_bind. destruct ob as [b|].
    + destruct xb as [y|]; [|destruct (Ob s (fun c I => eq_refl))]. exists (Some (a, b)), s, n. split; [reflexivity|]. split; [lia|]. split; [auto|]. split; [auto|].
      cbn [ocl] in *. split; [exact N|]. split; [exact R|]. intros s'' S. destruct (AG (Some a) (Some b) s'' s S) as [S1 S2].
      split; [apply Oa, S1|apply Ob, S2].
    + destruct xb as [y|]; [destruct (Ob s (fun c I => eq_refl))|]. destruct (Hm s n) as (r & s' & n' & -> & L' & F & Fr & H). cbn [exec].
      eexists _, s', n'. split; [reflexivity|]. split; [lia|]. split; [exact F|]. split; [exact Fr|]. cbn [ocl] in *. rewrite app_nil_r in *.
      destruct r as [b|], pm as [y|]; try exact H. destruct H as (H1 & H2 & H3). split; [|split].
      * eapply NoDup_ranges; eauto.
      * intros c I. apply in_app_or in I. destruct I as [I|I]; [apply R in I|apply H2 in I]; lia.
      * intros s'' S. split.
        -- apply Oa. intros c I. rewrite S by (apply in_or_app; left; exact I). apply F. apply R in I. lia.
        -- apply H3. intros c I. apply S, in_or_app. right. exact I.
  - fold (htwo_go fa fb ra rb m) (two_go fa fb pa pb pm).
    assert (IH' := IH (fun x I => Ha x (or_intror I)) (fun x I => Hb x (or_intror I))). clear IH.
    destruct (is_key fa k); [|destruct (is_key fb k)].
    + destruct oa as [a|].
      { destruct xa as [x|]; [|destruct (Oa s (fun c I => eq_refl))]. exists None, s, n. split; [reflexivity|]. split; [lia|]. auto. }
      destruct xa as [x|]; [destruct (Oa s (fun c I => eq_refl))|].
      rewrite exec_bind. destruct (Ha d (or_introl eq_refl) s n) as (r & s1 & n1 & -> & L1 & F1 & Fr1 & H1).
      destruct r as [a|], (pa d) as [x|]; try (destruct H1; fail).
      2: { exists None, s1, n1. split; [reflexivity|]. auto. }
      destruct H1 as (H1 & H2 & H3). cbn [ocl app] in N, R.
      edestruct (IH' (Some a) ob (Some x) xb n0 s1 n1) as (r & s' & n' & E & L' & F' & Fr' & H'); [lia| | | | |].
      * cbn [ocl]. eapply Permutation_NoDup; [apply Permutation_app_comm|]. eapply NoDup_ranges; eauto.
      * cbn [ocl]. intros c I. apply in_app_or in I. destruct I as [I|I]; [apply H2 in I|apply R in I]; lia.
      * cbn [ocl orel]. exact H3.
      * apply (orel_mono _ _ s); [exact Ob|]. intros c I. apply F1. apply R in I. lia.
      * exists r, s', n'. split; [exact E|]. split; [lia|]. split; [intros c C; rewrite F', F1 by lia; reflexivity|]. split; [auto|exact H'].
    + destruct ob as [b|].
      { destruct xb as [y|]; [|destruct (Ob s (fun c I => eq_refl))]. exists None, s, n. split; [reflexivity|]. split; [lia|]. auto. }
      destruct xb as [y|]; [destruct (Ob s (fun c I => eq_refl))|].
      rewrite exec_bind. destruct (Hb d (or_introl eq_refl) s n) as (r & s1 & n1 & -> & L1 & F1 & Fr1 & H1).
      destruct r as [b|], (pb d) as [y|]; try (destruct H1; fail).
      2: { exists None, s1, n1. split; [reflexivity|]. auto. }
      destruct H1 as (H1 & H2 & H3). cbn [ocl] in N, R. rewrite app_nil_r in N, R.
      edestruct (IH' oa (Some b) xa (Some y) n0 s1 n1) as (r & s' & n' & E & L' & F' & Fr' & H'); [lia| | | | |].
      * cbn [ocl]. eapply NoDup_ranges; eauto.
      * cbn [ocl]. intros c I. apply in_app_or in I. destruct I as [I|I]; [apply R in I|apply H2 in I]; lia.
      * apply (orel_mono _ _ s); [exact Oa|]. intros c I. apply F1. apply R in I. lia.
      * cbn [ocl orel]. exact H3.
      * exists r, s', n'. split; [exact E|]. split; [lia|]. split; [intros c C; rewrite F', F1 by lia; reflexivity|]. split; [auto|exact H'].
    + apply IH'; assumption.
Qed.

Definition parts (d : doc) : list doc := match d with JObject l => map snd l | JArray l => l | _ => [] end.
Lemma does_two d : (forall x, In x (parts d) -> does (ra x) (pa x) ca rela) -> (forall x, In x (parts d) -> does (rb x) (pb x) cb relb) ->
  does (hread_two fa fb ra rb m d) (read_two fa fb pa pb pm d) (fun p => ca (fst p) ++ cb (snd p)) (fun s p q => rela s (fst p) (fst q) /\ relb s (snd p) (snd q)).
Proof.
  intros Ha Hb. destruct d as [|?|?|?|l|l|]; try (apply does_ret; exact I).
  - destruct l as [|d1 [|d2 [|]]]; try (apply does_ret; exact I). cbn [parts In] in *. intros s n. cbn [hread_two read_two]. rewrite exec_bind.
    destruct (Ha d1 (or_introl eq_refl) s n) as (r & s1 & n1 & -> & L1 & F1 & Fr1 & H1).
    destruct r as [a|], (pa d1) as [x|]; try (destruct H1; fail).
    2: { exists None, s1, n1. split; [reflexivity|]. auto. }
    destruct H1 as (H1 & H2 & H3). rewrite exec_bind.
    destruct (Hb d2 (or_intror (or_introl eq_refl)) s1 n1) as (r & s2 & n2 & -> & L2 & F2 & Fr2 & G). cbn [exec].
    eexists _, s2, n2. split; [reflexivity|]. split; [lia|]. split; [intros c C; rewrite F2, F1 by lia; reflexivity|]. split; [auto|].
    destruct r as [b|], (pb d2) as [y|]; try exact G. destruct G as (G1 & G2 & G3). cbn [fst snd]. split; [|split].
    + eapply NoDup_ranges; eauto.
    + intros c I. apply in_app_or in I. destruct I as [I|I]; [apply H2 in I|apply G2 in I]; lia.
    + intros s'' S. split.
      * apply H3. intros c I. rewrite S by (apply in_or_app; left; exact I). apply F2. apply H2 in I. lia.
      * apply G3. intros c I. apply S, in_or_app. right. exact I.
  - intros s n. change (hread_two fa fb ra rb m (JObject l)) with (htwo_go fa fb ra rb m l None None).
    change (read_two fa fb pa pb pm (JObject l)) with (two_go fa fb pa pb pm l None None).
    edestruct (does_go l Ha Hb None None None None n s n) as (r & s' & n' & E & L' & F' & Fr' & H'); [lia|constructor|intros c []| | |].
    { intros; exact I. } { intros; exact I. }
    exists r, s', n'. split; [exact E|]. split; [exact L'|]. split; [exact F'|]. split; [exact Fr'|].
    destruct r as [[a b]|], (two_go _ _ _ _ _ _ _ _) as [[x y]|]; exact H'.
Qed.
End Two.

Fixpoint dsize (d : doc) : nat :=
  match d with
  | JArray l => S (list_sum (map dsize l))
  | JObject l => S (list_sum (map (fun e => dsize (snd e)) l))
  | _ => 0
  end.
Lemma parts_size d x : In x (parts d) -> (dsize x < dsize d)%nat.
Proof.
  destruct d; cbn [parts]; intros H; try (destruct H; fail); cbn [dsize].
  - apply in_split in H. destruct H as (a & b & ->). rewrite map_app. cbn [map]. rewrite list_sum_app. cbn [list_sum fold_right]. lia.
  - apply in_map_iff in H. destruct H as (e & <- & H). apply in_split in H. destruct H as (a & b & ->). rewrite map_app. cbn [map]. rewrite list_sum_app. cbn [list_sum fold_right]. lia.
Qed.

Lemma does_cell d : does (hread_cell d) (load_cell d) (fun c => [c]) (fun s c x => ser_cached (s c) = x).
Proof.
  intros s n. unfold hread_cell, load_cell. destruct (read_cached d) as [o|].
  - cbn [exec]. eexists _, _, _. split; [reflexivity|]. split; [lia|]. split; [|split; [|split; [|split]]].
    + intros c C. unfold update. destruct (N.eqb_spec c n); [lia|reflexivity].
    + intros H c C. unfold update. destruct (N.eqb_spec c n); [lia|]. apply H. lia.
    + repeat constructor. intros [].
    + intros c [<-|[]]. lia.
    + intros s'' S. rewrite (S n (or_introl eq_refl)). unfold update. rewrite N.eqb_refl. reflexivity.
  - exists None, s, n. cbn [exec]. auto using N.le_refl.
Qed.
Lemma does_missing : does missing_cell (Some DNone) (fun c => [c]) (fun s c x => ser_cached (s c) = x).
Proof.
  intros s n. unfold missing_cell. cbn [exec]. eexists _, _, _. split; [reflexivity|]. split; [lia|]. split; [|split; [|split; [|split]]].
  - intros c C. unfold update. destruct (N.eqb_spec c n); [lia|reflexivity].
  - intros H c C. unfold update. destruct (N.eqb_spec c n); [lia|]. apply H. lia.
  - repeat constructor. intros [].
  - intros c [<-|[]]. lia.
  - intros s'' S. rewrite (S n (or_introl eq_refl)). unfold update. rewrite N.eqb_refl. reflexivity.
Qed.
Lemma does_pure {A} (o : option A) : does (Ret o) o (fun _ => []) (fun _ a b => a = b).
Proof. apply does_ret. destruct o; [split; [reflexivity|]; reflexivity|exact I]. Qed.
Lemma does_none {A X} (cl : A -> list N) (rel : store -> A -> X -> Prop) : does (Ret None) None cl rel.
Proof. apply does_ret. exact I. Qed.

Definition cells (u : hnode) : list N := map cell (nodes u).
Definition holds (s : store) (u : hnode) (d : data) : Prop := saved s u = d.
Definition node_rel (s : store) (mk : N -> hnode) (x : data) : Prop :=
  forall c, cell (mk c) = c /\ below (mk c) = below (mk 0) /\ saved s (mk c) = DStruct [(f_node, x); (f_hash, ser_cached (s c))].
Definition does_trie (d : doc) : Prop := does (hread_trie d) (load d) cells holds.

Lemma holds_all s us ds : Forall2 (holds s) us ds -> map (saved s) us = ds.
Proof. induction 1 as [|u d us ds H F IH]; [reflexivity|]. cbn [map]. unfold holds in H. congruence. Qed.
Lemma flat_cells us : flat_map cells us = map cell (flat_map nodes us).
Proof. induction us as [|u us IH]; [reflexivity|]. cbn [flat_map]. rewrite map_app, IH. reflexivity. Qed.

Lemma does_kids d : (forall x, In x (parts d) -> does_trie x) -> does (hkids16 hread_trie d) (kids16 load d) (flat_map cells) (fun s => Forall2 (holds s)).
Proof.
  intros H. destruct d; try apply does_none. cbn [hkids16 kids16]. destruct (sixteen l); [|apply does_none]. apply does_all. exact H.
Qed.
Lemma map_ret {A B} (p : prog (option A)) (f g : option A -> option B) : (forall o, f o = g o) ->
  forall s n, exec (r <~ p ;; Ret (f r)) s n = exec (r <~ p ;; Ret (g r)) s n.
Proof. intros H s n. rewrite !exec_bind. destruct (exec p s n) as [[[r s'] n']|]; [|reflexivity]. cbn [exec]. rewrite H. reflexivity. Qed.
Lemma does_exec {A X} (p q : prog (option A)) (x y : option X) cl rel : (forall s n, exec p s n = exec q s n) -> x = y -> does q y cl rel -> does p x cl rel.
Proof. intros E -> D s n. rewrite E. apply D. Qed.

Lemma does_node d : (forall x, (dsize x < dsize d)%nat -> does_trie x) -> does (hread_node d) (load_node d) (fun mk => map cell (below (mk 0))) node_rel.
Proof.
  intros H. destruct d as [|?|?|k|l|l|]; try apply does_none.
  - destruct k as [[]|]; try apply does_none. apply does_ret. split; [reflexivity|]. intros s c. repeat split.
  - destruct l as [|[[k|] c] l']; try apply does_none. destruct l' as [|e l']; [|destruct k; try destruct c; apply does_none].
    destruct k; try apply does_none.
    + destruct c; try apply does_none. apply does_ret. split; [reflexivity|]. intros s c. repeat split.
    + cbn [hread_node load_node]. destruct (read_h256 c) as [h|]; [|apply does_none]. apply does_ret. split; [reflexivity|]. intros s c'. repeat split.
    + cbn [hread_node load_node]. eapply does_exec; [apply map_ret with (g := pair_with (fun p n => HBranch n (fst p) (snd p))); intros [[]|]; reflexivity| |].
      { instantiate (1 := pair_with to_dbranch (read_two f_children f_value (kids16 load) read_bytes None c)). unfold pair_with, to_dbranch.
        destruct (read_two _ _ _ _ _ c) as [[]|]; reflexivity. }
      eapply does_map; [apply (does_two f_children f_value (hkids16 hread_trie) (fun d => Ret (read_bytes d)) (Ret None) (kids16 load) read_bytes None
        (flat_map cells) (fun _ => []) (fun s => Forall2 (holds s)) (fun _ a b => a = b))|reflexivity| |].
      * apply does_none.
      * intros x I. apply does_kids. intros y J. apply H. apply parts_size in I, J. cbn [dsize map snd list_sum fold_right]. lia.
      * intros x I. apply does_pure.
      * intros [ch v]. cbn [fst snd below nodes tl]. rewrite app_nil_r, flat_cells. apply Permutation_refl.
      * intros s [ch v] [ds v'] [R1 R2] c'. cbn [fst snd] in *. subst v'. apply holds_all in R1. subst ds. repeat split.
    + cbn [hread_node load_node]. eapply does_exec; [apply map_ret with (g := pair_with (fun p n => HExtension n (fst p) (snd p))); intros [[]|]; reflexivity| |].
      { instantiate (1 := pair_with to_dext (read_two f_nibbles f_child read_nibbles load None c)). unfold pair_with, to_dext.
        destruct (read_two _ _ _ _ _ c) as [[]|]; reflexivity. }
      eapply does_map; [apply (does_two f_nibbles f_child (fun d => Ret (read_nibbles d)) hread_trie (Ret None) read_nibbles load None
        (fun _ => []) cells (fun _ a b => a = b) holds)|reflexivity| |].
      * apply does_none.
      * intros x I. apply does_pure.
      * intros x I. apply H. apply parts_size in I. cbn [dsize map snd list_sum fold_right]. lia.
      * intros [k t]. cbn [fst snd below nodes tl app]. apply Permutation_refl.
      * intros s [k t] [k' d] [R1 R2] c'. cbn [fst snd] in *. subst k'. unfold holds in R2. subst d. repeat split.
    + cbn [hread_node load_node]. destruct (read_two _ _ _ _ _ c) as [[k v]|]; [|apply does_none]. apply does_ret. split; [reflexivity|]. intros s c'. repeat split.
Qed.
Lemma does_hread d : does_trie d.
Proof.
  remember (dsize d) as n eqn:E. revert d E. induction n as [n IH] using (well_founded_induction lt_wf). intros d ->. unfold does_trie.
  eapply does_exec with (q := (r <~ hread_two f_node f_hash hread_node hread_cell missing_cell d ;; Ret (pair_with (fun p => (fst p) (snd p)) r))).
  { intros s n. rewrite hread_eq. apply map_ret. intros [[]|]; reflexivity. }
  { instantiate (1 := pair_with (fun p => DStruct [(f_node, fst p); (f_hash, snd p)]) (read_two f_node f_hash load_node load_cell (Some DNone) d)).
    rewrite load_eq. unfold pair_with. destruct (read_two _ _ _ _ _ d) as [[]|]; reflexivity. }
  assert (G : does (hread_two f_node f_hash hread_node hread_cell missing_cell d) (read_two f_node f_hash load_node load_cell (Some DNone) d)
    (fun p => map cell (below (fst p 0)) ++ [snd p]) (fun s p q => node_rel s (fst p) (fst q) /\ ser_cached (s (snd p)) = snd q)).
  { apply (does_two f_node f_hash hread_node hread_cell missing_cell load_node load_cell (Some DNone)
      (fun mk => map cell (below (mk 0))) (fun c => [c]) node_rel (fun s c x => ser_cached (s c) = x)).
    - apply does_missing.
    - intros x I. apply does_node. intros y L. apply parts_size in I. eapply IH; [|reflexivity]. lia.
    - intros x I. apply does_cell. }
  intros s n. destruct (G s n) as (r & s' & n' & E & L & F & Fr & R). rewrite exec_bind, E. cbn [exec].
  eexists _, s', n'. split; [reflexivity|]. split; [exact L|]. split; [exact F|]. split; [exact Fr|].
  destruct r as [[mk c]|], (read_two _ _ _ _ _ d) as [[dn dh]|]; cbn [pair_with fst snd] in *; try exact R. destruct R as (R1 & R2 & R3).
  assert (P : Permutation (map cell (below (mk 0)) ++ [c]) (cells (mk c))).
  { destruct (R3 s' (fun x I => eq_refl)) as [R _]. destruct (R c) as (C1 & C2 & _). unfold cells. rewrite nodes_below. cbn [map]. rewrite C1, C2.
    apply Permutation_sym, Permutation_cons_append. }
  split; [|split].
  - eapply Permutation_NoDup; [exact P|exact R1].
  - intros x I. apply R2. eapply Permutation_in; [apply Permutation_sym, P|exact I].
  - intros s'' S. destruct (R3 s'') as [R4 R5]; [intros x I; apply S; eapply Permutation_in; [exact P|exact I]|].
    destruct (R4 c) as (_ & _ & R6). unfold holds. rewrite R6, R5. reflexivity.
Qed.

Lemma saved_erase s s' u : forall u', saved s u = saved s' u' -> erase u = erase u'.
Proof.
  assert (BI : forall v v', ser_bytes v = ser_bytes v' -> v = v').
  { intros v v' E. assert (H := de_ser_bytes v). rewrite E, de_ser_bytes in H. congruence. }
  assert (NI : forall v v', ser_nibbles v = ser_nibbles v' -> v = v').
  { intros v v' E. assert (H := de_ser_nibbles v). rewrite E, de_ser_nibbles in H. congruence. }
  induction u as [c|c h|c ch v IH|c k t IH|c k v] using hnode_ind'; intros [c'|c' h'|c' ch' v'|c' k' t'|c' k' v'] E; cbn [saved] in E; try discriminate; cbn [erase].
  - reflexivity.
  - injection E as -> _. reflexivity.
  - injection E as E Ev _. assert (Ev' : v = v') by (apply BI; unfold ser_bytes; congruence). subst v'. f_equal. revert ch' E. induction IH as [|t ch Ht F IHF]; intros [|t' ch'] E; try discriminate; [reflexivity|].
    cbn [map] in *. injection E as E1 E2. f_equal; [apply Ht, E1|apply IHF, E2].
  - injection E as Ec Ep Et _. f_equal; [destruct k, k'; cbn in *; congruence|apply IH, Et].
  - injection E as Ec Ep Ev _. f_equal; [destruct k, k'; cbn in *; congruence|apply BI; unfold ser_bytes; congruence].
Qed.

(** ** Without cached hashes *)
Inductive nohash : data -> Prop :=
| nohash_struct dn : nohash_node dn -> nohash (DStruct [(f_node, dn); (f_hash, DNone)])
with nohash_node : data -> Prop :=
| nohash_empty : nohash_node (DUnitVariant v_Empty)
| nohash_hash h : nohash_node (DNewtypeVariant v_Hash (DH256 h))
| nohash_branch ds dv : (forall d, In d ds -> nohash d) -> nohash_node (DStructVariant v_Branch [(f_children, DTuple ds); (f_value, dv)])
| nohash_ext dk d : nohash d -> nohash_node (DStructVariant v_Extension [(f_nibbles, dk); (f_child, d)])
| nohash_leaf dk dv : nohash_node (DStructVariant v_Leaf [(f_nibbles, dk); (f_value, dv)]).

Lemma entries_in f l x : In x (fields_of f l) -> In (KName f, x) l.
Proof.
  unfold fields_of. intros I. apply in_map_iff in I. destruct I as ([k d] & <- & I). apply filter_In in I. destruct I as [I K]. cbn [fst snd] in *.
  apply is_key_eq in K. subst k. exact I.
Qed.
Lemma two_inv {A B} fa fb (ra : doc -> option A) (rb : doc -> option B) m d a b : name_eqb fa fb = false -> read_two fa fb ra rb m d = Some (a, b) ->
  (exists l x, d = JObject l /\ In (KName fa, x) l /\ ra x = Some a /\ (m = Some b \/ exists y, In (KName fb, y) l /\ rb y = Some b)) \/
  (exists x y, d = JArray [x; y] /\ ra x = Some a /\ rb y = Some b).
Proof.
  intros Ne E. destruct d as [|?|?|?|l|l|]; try discriminate.
  - right. destruct l as [|x [|y [|]]]; try discriminate. cbn [read_two] in E. exists x, y. destruct (ra x); [|discriminate]. destruct (rb y); [|discriminate].
    injection E as -> ->. auto.
  - left. rewrite two_object in E by exact Ne. unfold from_entries in E. pose proof (entries_in fa l) as Ia. pose proof (entries_in fb l) as Ib.
    destruct (fields_of fa l) as [|x [|]]; try discriminate.
    exists l, x. split; [reflexivity|]. split; [apply Ia; left; reflexivity|]. destruct (fields_of fb l) as [|y [|]]; try discriminate.
    + destruct (ra x); [|discriminate]. destruct m; [|discriminate]. injection E as -> ->. auto.
    + destruct (ra x); [|discriminate]. destruct (rb y) eqn:Ey; [|discriminate]. injection E as -> ->. split; [reflexivity|]. right. exists y. split; [apply Ib; left; reflexivity|exact Ey].
Qed.
Lemma two_parts {A B} fa fb (ra : doc -> option A) (rb : doc -> option B) d a b : name_eqb fa fb = false -> read_two fa fb ra rb None d = Some (a, b) ->
  exists x y, In x (parts d) /\ In y (parts d) /\ ra x = Some a /\ rb y = Some b.
Proof.
  intros Ne E. apply two_inv in E; [|exact Ne]. destruct E as [(l & x & -> & I & Ea & [?|(y & J & Eb)])|(x & y & -> & Ea & Eb)]; [discriminate| |].
  - exists x, y. cbn [parts]. split; [|split; [|auto]].
    + apply in_map_iff. exists (KName fa, x). auto.
    + apply in_map_iff. exists (KName fb, y). auto.
  - exists x, y. cbn [parts In]. auto.
Qed.
Lemma bare_parts d x : bare d -> In x (parts d) -> bare x.
Proof.
  intros H I. inversion H; subst; cbn [parts] in I; try (destruct I; fail).
  - match goal with F : forall d, In d l -> _ |- _ => apply (F x I) end.
  - apply in_map_iff in I. destruct I as ([k y] & <- & I). match goal with F : forall k d, In (k, d) l -> _ |- _ => apply (F k y I) end.
Qed.
Lemma read_all_in {A} (g : doc -> option A) l xs : read_all g l = Some xs -> forall x, In x xs -> exists d, In d l /\ g d = Some x.
Proof.
  revert xs. induction l as [|d l IH]; intros xs E x I; cbn [read_all] in E; fold (read_all g) in E; [injection E as <-; destruct I|].
  destruct (g d) as [y|] eqn:Ed; [|discriminate]. destruct (read_all g l) as [ys|]; [|discriminate]. injection E as <-. destruct I as [<-|I].
  - exists d. split; [left; reflexivity|exact Ed].
  - destruct (IH ys eq_refl x I) as (d' & I' & E'). exists d'. split; [right; exact I'|exact E'].
Qed.
Lemma bare_node d : (forall x, (dsize x < dsize d)%nat -> forall y, bare x -> load x = Some y -> nohash y) -> bare d -> forall y, load_node d = Some y -> nohash_node y.
Proof.
  intros H Bd y E. destruct d as [|?|?|k|l|l|]; try discriminate.
  - destruct k as [[]|]; try discriminate. injection E as <-. constructor.
  - destruct l as [|[[k|] c] [|e l]]; try discriminate; try (destruct k; try discriminate E; destruct c; discriminate E).
    assert (Bc : bare c) by (apply (bare_parts (JObject [(KName k, c)])); [exact Bd|left; reflexivity]).
    assert (Sc : (dsize c < dsize (JObject [(KName k, c)]))%nat) by (apply parts_size; left; reflexivity).
    destruct k; try discriminate; cbn [load_node] in E.
    + destruct c; try discriminate. injection E as <-. constructor.
    + destruct (read_h256 c); [|discriminate]. injection E as <-. constructor.
    + destruct (read_two _ _ _ _ _ c) as [[ds v]|] eqn:E2; [|discriminate]. injection E as <-. apply two_parts in E2; [|reflexivity].
      destruct E2 as (x & z & I & _ & Ex & _). unfold kids16 in Ex. destruct x; try discriminate. destruct (sixteen l); [|discriminate].
      constructor. intros d J. destruct (read_all_in _ _ _ Ex d J) as (d' & J' & E').
      assert (Bl : bare (JArray l)) by (apply (bare_parts c); assumption). pose proof (parts_size _ _ I) as S1. pose proof (parts_size (JArray l) d' J') as S2.
      apply (H d'); [lia|apply (bare_parts (JArray l)); assumption|exact E'].
    + destruct (read_two _ _ _ _ _ c) as [[ds v]|] eqn:E2; [|discriminate]. injection E as <-. apply two_parts in E2; [|reflexivity].
      destruct E2 as (x & z & _ & I & _ & Ex). constructor. pose proof (parts_size _ _ I) as S1. apply (H z); [lia|apply (bare_parts c); assumption|exact Ex].
    + destruct (read_two _ _ _ _ _ c) as [[ds v]|] eqn:E2; [|discriminate]. injection E as <-. constructor.
Qed.
Lemma bare_load d : bare d -> forall y, load d = Some y -> nohash y.
Proof.
  remember (dsize d) as n eqn:En. revert d En. induction n as [n IH] using (well_founded_induction lt_wf). intros d -> Bd y E.
  rewrite load_eq in E. destruct (read_two _ _ _ _ _ d) as [[dn dh]|] eqn:E2; [|discriminate]. injection E as <-.
  apply two_inv in E2; [|reflexivity].
  assert (G : exists x, In x (parts d) /\ load_node x = Some dn /\ dh = DNone).
  { destruct E2 as [(l & x & -> & I & Ea & Eb)|(x & z & -> & Ea & Eb)].
    - exists x. split; [cbn [parts]; apply in_map_iff; exists (KName f_node, x); auto|]. split; [exact Ea|].
      destruct Eb as [[= <-]|(z & J & Eb)]; [reflexivity|]. inversion Bd as [| | | | | |l' F]; subst. destruct (F _ _ J) as [_ Z]. rewrite (Z eq_refl) in Eb.
      injection Eb as <-. reflexivity.
    - exists x. split; [left; reflexivity|]. split; [exact Ea|]. inversion Bd as [| | | | |l' F|]; subst.
      destruct (F z (or_intror (or_introl eq_refl))) as [_ Z]. destruct z; try discriminate; [injection Eb as <-; reflexivity|]. destruct (Z _ eq_refl). }
  destruct G as (x & I & Ex & ->). constructor. eapply bare_node; [|apply (bare_parts d); eassumption|exact Ex].
  intros z S y Bz Ez. apply parts_size in I. eapply IH; [|reflexivity|exact Bz|exact Ez]. lia.
Qed.
Lemma nohash_cells s u : nohash (saved s u) -> forall t, In t (nodes u) -> s (cell t) = None.
Proof.
  assert (C : forall o, DNone = ser_cached o -> o = None) by (intros [h|]; [discriminate|reflexivity]).
  induction u as [c|c h|c ch v IH|c k u IH|c k v] using hnode_ind'; intros H t I; cbn [saved nodes cell] in *;
    inversion H as [dn Hn [E1 E2]]; subst; symmetry in E2; destruct I as [<-|I]; try (apply C; congruence); try (destruct I; fail).
  all: try (cbn [cell]; destruct (s c); [discriminate|reflexivity]).
  - inversion Hn; subst. apply in_flat_map in I. destruct I as (x & Ix & I). rewrite Forall_forall in IH. apply (IH x Ix); [|exact I].
    match goal with F : forall d, In d _ -> nohash d |- _ => apply F, in_map, Ix end.
  - inversion Hn; subst. apply IH; assumption.
Qed.
