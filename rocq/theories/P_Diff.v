(** Property C36: differences between tries. [keccak] is any function with 32-byte outputs. *)
From Verif Require Import Base Nibbles NibblesSpec NibblesFacts NibblesFacts2 NibblesFacts3 Trie TrieSpec TrieHistSpec TrieFacts TrieHist TrieGet P_Trie
  Rlp YellowPaper Hashing HashSpec HashFacts Cache CacheFacts2 Query Diff.
Open Scope N_scope.

(** What an entry about the node [t], found under the key [key], has to say. *)
Definition describes (keccak : list N -> list N) (pr : profile) (i : node_info) (key : nibbles) (t : node) : Prop :=
  kwf (i_key i) /\ nseq (i_key i) = nseq key ++ nseq (key_piece_of t) /\
  i_value i = match t with Branch _ v | Leaf _ v => Some v | _ => None end /\
  i_type i = type_of t /\ hash_trie keccak pr t = Ok (i_hash i).
(** A reported difference: at [key] and [path] the first trie has [a] and the second one [b]. *)
Definition reports (keccak : list N -> list N) (pr : profile) (p : diff_point) (key : nibbles) (path : list segment) (a b : node) : Prop :=
  d_key p = key /\ d_path p = path /\ describes keccak pr (a_info p) key a /\ describes keccak pr (b_info p) key b.

Lemma type_eqb_spec a b : reflect (a = b) (type_eqb a b).
Proof. destruct a, b; cbn; constructor; congruence. Qed.

Lemma piece_ex t L : wf L t -> exists l, key_piece_of t = enc l /\ hexl l /\ (length l <= L)%nat.
Proof. intros W. destruct W; cbn; try (exists []; split; [reflexivity|split; [constructor|cbn; lia]]); eexists; split; try reflexivity; split; try assumption; lia. Qed.

Ltac beq := match goal with |- context [bytes_eqb ?x ?y] => destruct (bytes_eqb_spec x y) end.
Ltac teq := match goal with |- context [type_eqb ?x ?y] => destruct (type_eqb_spec x y) end.
Ltac neq := match goal with |- context [nib_eqb ?x ?y] => destruct (nib_eqb_spec x y) end.

Section Proofs.
Variable keccak : list N -> list N.
Hypothesis K32 : hash32 keccak.
Variable pr : profile.

Lemma point_ok a b l path : wf 64 a -> wf 64 b -> fits a -> fits b -> hexl l ->
  (length l + length (nseq (key_piece_of a)) <= 64)%nat -> (length l + length (nseq (key_piece_of b)) <= 64)%nat ->
  exists p, diff_point_new keccak pr a b (enc l) path = Ok p /\ reports keccak pr p (enc l) path a b.
Proof.
  intros Wa Wb Fa Fb Hl Ha' Hb'. destruct (piece_ex a 64 Wa) as (la & Ea & Ha & La). destruct (piece_ex b 64 Wb) as (lb & Eb & Hb & Lb).
  rewrite Ea, nseq_enc in Ha' by assumption. rewrite Eb, nseq_enc in Hb' by assumption.
  unfold diff_point_new, node_info_new. rewrite Ea, Eb. rewrite !merge_nibbles_enc by (assumption || lia).
  cbn [bind]. rewrite (hash_trie_ok keccak K32 pr a Wa Fa), (hash_trie_ok keccak K32 pr b Wb Fb).
  cbn [bind]. eexists. split; [reflexivity|].
  assert (Hm : forall x, hexl x -> nseq (enc (l ++ x)) = nseq (enc l) ++ nseq (enc x)).
  { intros x Hx. rewrite !nseq_enc; [reflexivity|assumption|assumption|apply Forall_app; split; assumption]. }
  assert (Hw : forall x, hexl x -> (length l + length x <= 64)%nat -> kwf (enc (l ++ x))).
  { intros x Hx Lx. apply kwf_enc; [apply Forall_app; split; assumption|rewrite app_length; lia]. }
  split; [reflexivity|]. split; [reflexivity|]. unfold describes. cbn [d_key d_path a_info b_info i_key i_value i_type i_hash]. rewrite ?Ea, ?Eb.
  split; (split; [apply Hw; assumption|]); repeat split; auto using (hash_trie_ok keccak K32 pr).
Qed.

(** One step, at a position without earlier findings. *)
Notation none := (Longest None None).
Lemma rec_eq a b st ds : wf 64 a -> wf 64 b -> fits a -> fits b -> root keccak a = root keccak b ->
  find_latest_rec keccak pr a b st ds = Ok (NoDiffDetected, ds).
Proof.
  intros Wa Wb Fa Fb E. destruct a; cbn [find_latest_rec]; rewrite (hash_trie_ok keccak K32 pr _ Wa Fa), (hash_trie_ok keccak K32 pr _ Wb Fb); cbn [bind];
    (beq; [reflexivity|congruence]).
Qed.
Lemma rec_ne a b st ds : wf 64 a -> wf 64 b -> fits a -> fits b -> root keccak a <> root keccak b ->
  type_of a = type_of b -> key_piece_of a = key_piece_of b ->
  find_latest_rec keccak pr a b st ds = (ds <- update_node keccak pr ds a b st ;; Ok (NodeTypesDiffer, ds)).
Proof.
  intros Wa Wb Fa Fb E T P. destruct a; cbn [find_latest_rec]; rewrite (hash_trie_ok keccak K32 pr _ Wa Fa), (hash_trie_ok keccak K32 pr _ Wb Fb); cbn [bind];
    (beq; [congruence|]); rewrite <- T, <- P;
    (teq; [|congruence]); (neq; [|congruence]); reflexivity.
Qed.
Lemma rec_types a b st ds : wf 64 a -> wf 64 b -> fits a -> fits b -> root keccak a <> root keccak b ->
  type_of a <> type_of b -> find_latest_rec keccak pr a b st ds = Panic.
Proof.
  intros Wa Wb Fa Fb E T. destruct a; cbn [find_latest_rec]; rewrite (hash_trie_ok keccak K32 pr _ Wa Fa), (hash_trie_ok keccak K32 pr _ Wb Fb); cbn [bind];
    (beq; [congruence|]);
    (teq; [congruence|]); cbn [andb]; destruct b; cbn [type_of] in *; congruence.
Qed.
Lemma rec_leaves n v m w st : let a := Leaf n v in let b := Leaf m w in wf 64 a -> wf 64 b -> fits a -> fits b -> root keccak a <> root keccak b -> n <> m ->
  find_latest_rec keccak pr a b st none = (p <- diff_point_new keccak pr a b (curr_key st) (curr_path st) ;; Ok (HashDiffDetected, Longest None (Some p))).
Proof.
  intros a b Wa Wb Fa Fb E T. unfold a, b in *. cbn [find_latest_rec]. unfold from_gen_hashes, from_hashes.
  rewrite (hash_trie_ok keccak K32 pr _ Wa Fa), (hash_trie_ok keccak K32 pr _ Wb Fb). cbn [bind key_piece_of type_of type_eqb andb].
  destruct (bytes_eqb_spec (root keccak (Leaf n v)) (root keccak (Leaf m w))); [congruence|]. destruct (nib_eqb_spec n m); [congruence|].
  unfold update_hash, replace_longest. cbn [hash_diff node_diff]. destruct (diff_point_new _ _ _ _ _ _); reflexivity.
Qed.
Lemma rec_exts n c m d st ds : let a := Extension n c in let b := Extension m d in wf 64 a -> wf 64 b -> fits a -> fits b -> root keccak a <> root keccak b -> n <> m ->
  find_latest_rec keccak pr a b st ds = (st <- new_from_parent pr st a n ;; find_latest_rec keccak pr c d st ds).
Proof.
  intros a b Wa Wb Fa Fb E T. unfold a, b in *. cbn [find_latest_rec].
  rewrite (hash_trie_ok keccak K32 pr _ Wa Fa), (hash_trie_ok keccak K32 pr _ Wb Fb). cbn [bind key_piece_of type_of type_eqb andb].
  destruct (bytes_eqb_spec (root keccak (Extension n c)) (root keccak (Extension m d))); [congruence|]. destruct (nib_eqb_spec n m); [congruence|]. reflexivity.
Qed.
Lemma node_step a b l path d : wf 64 a -> wf 64 b -> fits a -> fits b -> root keccak a <> root keccak b -> hexl l ->
  (length l + length (nseq (key_piece_of a)) <= 64)%nat -> type_of a = type_of b -> key_piece_of a = key_piece_of b ->
  exists p, find_latest_rec keccak pr a b (Call (enc l) d path) none = Ok (NodeTypesDiffer, Longest (Some p) None) /\ reports keccak pr p (enc l) path a b.
Proof.
  intros Wa Wb Fa Fb E Hl HL T P. rewrite rec_ne by assumption. unfold update_node, replace_longest. cbn [node_diff hash_diff curr_key curr_path].
  destruct (point_ok a b l path Wa Wb Fa Fb Hl HL ltac:(rewrite <- P; exact HL)) as (p & -> & R). exists p. split; [reflexivity|exact R].
Qed.
Lemma piece_len t : wf 64 t -> (length (@nil N) + length (nseq (key_piece_of t)) <= 64)%nat.
Proof. intros W. destruct (piece_ex t 64 W) as (l & -> & H & L). rewrite nseq_enc by assumption. exact L. Qed.
End Proofs.

(** * What holds *)

(** No difference is reported between tries with the same root hash. *)
Theorem C36_equal : forall keccak pr a b,
  hash32 keccak -> wf 64 a -> wf 64 b -> fits a -> fits b -> hash_trie keccak pr a = hash_trie keccak pr b ->
  create_diff keccak pr a b = Ok None.
Proof.
  intros keccak pr a b K Wa Wb Fa Fb E. rewrite (hash_trie_ok keccak K pr a Wa Fa), (hash_trie_ok keccak K pr b Wb Fb) in E. injection E as E.
  unfold create_diff. rewrite rec_eq by assumption. reflexivity.
Qed.

(** Tries with different root hashes, case by case. *)

(** Roots of different types: panic. *)
Theorem C36_types_refuted : forall keccak pr a b,
  hash32 keccak -> wf 64 a -> wf 64 b -> fits a -> fits b -> hash_trie keccak pr a <> hash_trie keccak pr b ->
  type_of a <> type_of b -> create_diff keccak pr a b = Panic.
Proof.
  intros keccak pr a b K Wa Wb Fa Fb E T. rewrite (hash_trie_ok keccak K pr a Wa Fa), (hash_trie_ok keccak K pr b Wb Fb) in E.
  unfold create_diff. rewrite rec_types by (assumption || congruence). reflexivity.
Qed.

(** Roots of the same type, not both extensions with different nibbles: the roots are reported. *)
Theorem C36_root_partial : forall keccak pr a b,
  hash32 keccak -> wf 64 a -> wf 64 b -> fits a -> fits b -> hash_trie keccak pr a <> hash_trie keccak pr b ->
  type_of a = type_of b -> (type_of a = TExtension -> key_piece_of a = key_piece_of b) ->
  exists p, create_diff keccak pr a b = Ok (Some p) /\ reports keccak pr p nib_default [] a b.
Proof.
  intros keccak pr a b K Wa Wb Fa Fb E T P. rewrite (hash_trie_ok keccak K pr a Wa Fa), (hash_trie_ok keccak K pr b Wb Fb) in E.
  assert (E' : root keccak a <> root keccak b) by congruence. unfold create_diff. change nib_default with (enc []).
  destruct (nib_eqb_spec (key_piece_of a) (key_piece_of b)) as [Q|Q].
  - destruct (node_step keccak K pr a b [] [] 0) as (p & -> & R); try assumption; [constructor|apply piece_len; assumption|]. exists p. split; [reflexivity|exact R].
  - destruct a, b; cbn [type_of key_piece_of] in *; try congruence.
    + exfalso. auto.
    + rewrite rec_leaves by assumption. cbn [curr_key curr_path].
      destruct (point_ok keccak K pr _ _ [] [] Wa Wb Fa Fb) as (p & -> & R); [constructor|apply (piece_len _ Wa)|apply (piece_len _ Wb)|]. exists p. split; [reflexivity|exact R].
Qed.

(** Two extensions with different nibbles, in tries as the operations build them: only the children are compared. If they have the
    same hash, no difference is reported; if they are of different types, panic. *)
Theorem C36_extensions_partial : forall keccak pr n c m d,
  let a := Extension n c in let b := Extension m d in
  hash32 keccak -> wf 64 a -> wf 64 b -> shape a -> shape b -> fits a -> fits b -> hash_trie keccak pr a <> hash_trie keccak pr b -> n <> m ->
  (hash_trie keccak pr c = hash_trie keccak pr d -> create_diff keccak pr a b = Ok None) /\
  (hash_trie keccak pr c <> hash_trie keccak pr d -> type_of c = type_of d ->
     exists p, create_diff keccak pr a b = Ok (Some p) /\ reports keccak pr p n [SExtension n] c d) /\
  (hash_trie keccak pr c <> hash_trie keccak pr d -> type_of c <> type_of d -> create_diff keccak pr a b = Panic).
Proof.
  intros keccak pr n c m d a b K Wa Wb Sa Sb Fa Fb E NM. unfold a, b in *.
  rewrite (hash_trie_ok keccak K pr _ Wa Fa), (hash_trie_ok keccak K pr _ Wb Fb) in E.
  inversion Wa as [| | |La la ? Ha Wc|]; subst. inversion Wb as [| | |Lb lb ? Hb Wd|]; subst. cbn [fits] in Fa, Fb.
  assert (Wc' : wf 64 c) by (apply (wf_weaken La); [assumption|lia]). assert (Wd' : wf 64 d) by (apply (wf_weaken Lb); [assumption|lia]).
  rewrite (hash_trie_ok keccak K pr c Wc' Fa), (hash_trie_ok keccak K pr d Wd' Fb).
  unfold create_diff. rewrite rec_exts by (assumption || congruence). unfold new_from_parent. cbn [get_segment type_of bind curr_key curr_depth curr_path].
  change nib_default with (enc []). rewrite merge_nibbles_enc by (assumption || (cbn [length]; lia) || constructor). cbn [bind app].
  rewrite uadd_ok by lia. cbn [bind].
  repeat split.
  - intros [= E']. rewrite rec_eq by assumption. reflexivity.
  - intros E' T. assert (P : key_piece_of c = key_piece_of d /\ key_piece_of c = enc []).
    { inversion Sa as [| | |? ? ? Bc ?|]; inversion Sb as [| | |? ? ? Bd ?|]; subst. destruct c, d; cbn in *; try contradiction; split; reflexivity. }
    destruct P as [P P0].
    destruct (node_step keccak K pr c d la [SExtension (enc la)] (0 + 1)) as (p & -> & R); try assumption; try congruence.
    + rewrite P0. cbn. lia.
    + exists p. split; [reflexivity|exact R].
  - intros E' T. rewrite rec_types by (assumption || congruence). reflexivity.
Qed.

(** So a reported difference is real ... *)
Theorem C36_sound_partial : forall keccak pr a b p,
  hash32 keccak -> wf 64 a -> wf 64 b -> fits a -> fits b -> create_diff keccak pr a b = Ok (Some p) ->
  hash_trie keccak pr a <> hash_trie keccak pr b.
Proof. intros keccak pr a b p K Wa Wb Fa Fb E H. rewrite C36_equal in E by assumption. discriminate. Qed.

(** ... and in tries as the operations build them, no difference is reported exactly when the root hashes are equal or the roots are
    extensions with different nibbles over children with equal hashes. *)
Theorem C36_none_iff_partial : forall keccak pr a b,
  hash32 keccak -> wf 64 a -> wf 64 b -> shape a -> shape b -> fits a -> fits b ->
  (create_diff keccak pr a b = Ok None <->
   hash_trie keccak pr a = hash_trie keccak pr b \/
   exists n c m d, a = Extension n c /\ b = Extension m d /\ n <> m /\ hash_trie keccak pr c = hash_trie keccak pr d).
Proof.
  intros keccak pr a b K Wa Wb Sa Sb Fa Fb.
  assert (D : hash_trie keccak pr a = hash_trie keccak pr b \/ hash_trie keccak pr a <> hash_trie keccak pr b).
  { rewrite (hash_trie_ok keccak K pr a Wa Fa), (hash_trie_ok keccak K pr b Wb Fb).
    destruct (bytes_eqb_spec (root keccak a) (root keccak b)); [left; congruence|right; congruence]. }
  destruct D as [E|E]; [split; intros; [left; exact E|apply C36_equal; assumption]|].
  split.
  - intros N. right. destruct (type_eqb_spec (type_of a) (type_of b)) as [T|T].
    2: { rewrite C36_types_refuted in N by assumption. discriminate. }
    destruct (nib_eqb_spec (key_piece_of a) (key_piece_of b)) as [P|P].
    { destruct (C36_root_partial keccak pr a b K Wa Wb Fa Fb E T (fun _ => P)) as (p & X & _). congruence. }
    assert (X : type_of a = TExtension \/ type_of a <> TExtension) by (destruct a; cbn; auto; right; discriminate).
    destruct X as [X|X].
    2: { destruct (C36_root_partial keccak pr a b K Wa Wb Fa Fb E T) as (p & Y & _); [intros Z; contradiction|]. congruence. }
    destruct a as [| | |n c|]; try discriminate. destruct b as [| | |m d|]; try discriminate. cbn [key_piece_of] in P.
    exists n, c, m, d. repeat split; try assumption.
    destruct (C36_extensions_partial keccak pr n c m d K Wa Wb Sa Sb Fa Fb E P) as (A & B & C).
    assert (Wc : wf 64 c) by (inversion Wa as [| | |La la ? Ha Wc|]; subst; apply (wf_weaken La); [assumption|lia]).
    assert (Wd : wf 64 d) by (inversion Wb as [| | |Lb lb ? Hb Wd|]; subst; apply (wf_weaken Lb); [assumption|lia]).
    rewrite (hash_trie_ok keccak K pr c Wc Fa), (hash_trie_ok keccak K pr d Wd Fb) in *.
    destruct (bytes_eqb_spec (root keccak c) (root keccak d)) as [R|R]; [congruence|]. exfalso.
    destruct (type_eqb_spec (type_of c) (type_of d)) as [Q|Q].
    + destruct (B ltac:(congruence) Q) as (p & Y & _). congruence.
    + rewrite C in N by congruence. discriminate.
  - intros [H|(n & c & m & d & -> & -> & NM & H)]; [contradiction|].
    destruct (C36_extensions_partial keccak pr n c m d K Wa Wb Sa Sb Fa Fb E NM) as (A & _). apply A, H.
Qed.

(** ** C36 is false *)

Ltac reach_tac l := apply reach_start; apply (extend_canon Debug l Empty); try constructor; try (vm_compute; reflexivity);
    repeat constructor; cbn; try (vm_compute; (reflexivity || (intro; discriminate))).

(** Comparing a trie of one entry with the empty trie panics unless their hashes collide ... *)
Theorem C36_panic_refuted : forall keccak pr, hash32 keccak -> exists a b x y,
  reach pr a /\ reach pr b /\ hash_trie keccak pr a = Ok (keccak x) /\ hash_trie keccak pr b = Ok (keccak y) /\ x <> y /\
  (keccak x <> keccak y -> create_diff keccak pr a b = Panic).
Proof.
  intros keccak pr H32. set (l := [(K 4 0x1234, Val [1])]). exists (okn (from_iter Debug l)), Empty, (RLP (item keccak (okn (from_iter Debug l)))), (RLP (item keccak Empty)).
  assert (R : reach pr (okn (from_iter Debug l))) by (unfold l; reach_tac l).
  assert (W : wf 64 (okn (from_iter Debug l))) by (apply (reach_valid pr _ R)).
  assert (F : fits (okn (from_iter Debug l))) by (split; [repeat constructor|reflexivity]).
  split; [exact R|]. split; [apply reach_start; constructor|].
  split; [rewrite (hash_trie_ok keccak H32 pr _ W F); reflexivity|]. split; [rewrite (hash_trie_ok keccak H32 pr Empty (wf_empty _) I); reflexivity|].
  split; [vm_compute; discriminate|]. intros H. apply C36_types_refuted; try assumption; [constructor|exact I| |discriminate].
  rewrite (hash_trie_ok keccak H32 pr _ W F), (hash_trie_ok keccak H32 pr Empty (wf_empty _) I). unfold root. intros X. apply H. injection X as X. exact X.
Qed.
(** ... and comparing it with a hash node of another hash always does. *)
Theorem C36_panic_hash_refuted : forall keccak pr, hash32 keccak -> exists a b,
  reach pr a /\ reach pr b /\ hash_trie keccak pr a <> hash_trie keccak pr b /\ create_diff keccak pr a b = Panic.
Proof.
  intros keccak pr H32. set (l := [(K 4 0x1234, Val [1])]). set (a := okn (from_iter Debug l)).
  assert (R : reach pr a) by (unfold a; reach_tac l).
  assert (W : wf 64 a) by (apply (reach_valid pr _ R)).
  assert (F : fits a) by (split; [repeat constructor|reflexivity]).
  assert (X : exists h, root keccak a <> h /\ bytesl h /\ len h = 32).
  { destruct (bytes_eqb_spec (root keccak a) (repeat 0 32)) as [E|E].
    - exists (repeat 1 32). rewrite E. split; [discriminate|]. split; [repeat constructor|reflexivity].
    - exists (repeat 0 32). split; [exact E|]. split; [repeat constructor|reflexivity]. }
  destruct X as (h & X & Hb & Hl). exists a, (Hash h). split; [exact R|]. split; [apply reach_start; constructor|].
  assert (E : hash_trie keccak pr a <> hash_trie keccak pr (Hash h)).
  { rewrite (hash_trie_ok keccak H32 pr _ W F), (hash_trie_ok keccak H32 pr (Hash h) (wf_hash _ _) (conj Hb Hl)). cbn [root]. congruence. }
  split; [exact E|]. apply C36_types_refuted; try assumption; [constructor|split; assumption|discriminate].
Qed.

(** Two tries without a common key: no difference reported, whatever the hash function. *)
Theorem C36_missed_refuted : forall keccak pr, hash32 keccak -> exists a b x y,
  reach pr a /\ reach pr b /\ (forall k, stored a k -> ~ stored b k) /\ stored a [1; 2; 3; 4] /\ stored b [1; 3; 3; 4] /\
  hash_trie keccak pr a = Ok (keccak x) /\ hash_trie keccak pr b = Ok (keccak y) /\ x <> y /\ create_diff keccak pr a b = Ok None.
Proof.
  intros keccak pr H32. set (la := [(K 4 0x1234, Val [1]); (K 4 0x1256, Val [2])]). set (lb := [(K 4 0x1334, Val [1]); (K 4 0x1356, Val [2])]).
  set (a := okn (from_iter Debug la)). set (b := okn (from_iter Debug lb)). exists a, b, (RLP (item keccak a)), (RLP (item keccak b)).
  assert (Ra : reach pr a) by (unfold a; reach_tac la). assert (Rb : reach pr b) by (unfold b; reach_tac lb).
  destruct (reach_valid pr a Ra) as [Wa Sa]. destruct (reach_valid pr b Rb) as [Wb Sb].
  assert (Fa : fits a) by (vm_compute; repeat split; repeat constructor). assert (Fb : fits b) by (vm_compute; repeat split; repeat constructor).
  split; [exact Ra|]. split; [exact Rb|].
  assert (Ea : a = Extension (K 2 0x12) (match a with Extension _ c => c | _ => Empty end)) by (vm_compute; reflexivity).
  assert (Eb : b = Extension (K 2 0x13) (match a with Extension _ c => c | _ => Empty end)) by (vm_compute; reflexivity).
  split.
  { unfold stored. intros k A B. rewrite Ea in A. rewrite Eb in B. cbn [lk] in A, B.
    change (nseq (K 2 0x12)) with [1; 2] in A. change (nseq (K 2 0x13)) with [1; 3] in B. destruct k as [|d [|e k]]; cbn [strip] in A, B;
      [contradiction|destruct (1 =? d); contradiction|].
    destruct (1 =? d); [|contradiction]. destruct (N.eqb_spec 2 e) as [<-|]; [|contradiction]. cbn in B. contradiction. }
  split; [vm_compute; discriminate|]. split; [vm_compute; discriminate|].
  split; [rewrite (hash_trie_ok keccak H32 pr _ Wa Fa); reflexivity|]. split; [rewrite (hash_trie_ok keccak H32 pr _ Wb Fb); reflexivity|].
  split; [vm_compute; discriminate|]. apply C36_none_iff_partial; try assumption. right.
  exists (K 2 0x12), (match a with Extension _ c => c | _ => Empty end), (K 2 0x13), (match a with Extension _ c => c | _ => Empty end).
  split; [exact Ea|split; [exact Eb|split; [discriminate|reflexivity]]].
Qed.

(** * C41: the reported depth is always 0, also below the root. *)
Definition depth0 (ds : longest) : Prop := forall p, node_diff ds = Some p \/ hash_diff ds = Some p -> d_depth p = 0.
Lemma rec_depth keccak pr : forall a b st ds r ds',
  depth0 ds -> find_latest_rec keccak pr a b st ds = Ok (r, ds') ->
  depth0 ds'.
Proof.
  assert (N : forall a b k path q, diff_point_new keccak pr a b k path = Ok q -> d_depth q = 0).
  { intros a b k path q E. unfold diff_point_new in E. repeat match type of E with bind ?m _ = _ => destruct m; [|discriminate]; cbn [bind] in E end. injection E as <-. reflexivity. }
  assert (R : forall f a b st g, replace_longest keccak pr f a b st = Ok g -> (forall p, f = Some p -> d_depth p = 0) -> forall p, g = Some p -> d_depth p = 0).
  { intros f a b st g E H p Ep. unfold replace_longest in E. destruct (match f with None => true | Some p => _ end).
    - destruct (diff_point_new keccak pr a b (curr_key st) (curr_path st)) as [q|] eqn:Eq; [|discriminate]. cbn in E. injection E as <-. injection Ep as <-. eapply N; eauto.
    - injection E as <-. auto. }
  assert (UN : forall ds a b st ds', depth0 ds -> update_node keccak pr ds a b st = Ok ds' ->
     depth0 ds').
  { intros ds a b st ds' H E. unfold update_node in E. destruct (replace_longest keccak pr (node_diff ds) a b st) as [f|] eqn:Ef; [|discriminate].
    cbn [bind] in E. injection E as <-. cbn [node_diff hash_diff]. intros p [X|X]; [|auto]. apply (R _ _ _ _ _ Ef); auto. }
  assert (UH : forall ds a b st ds', depth0 ds -> update_hash keccak pr ds a b st = Ok ds' ->
     depth0 ds').
  { intros ds a b st ds' H E. unfold update_hash in E. destruct (replace_longest keccak pr (hash_diff ds) a b st) as [f|] eqn:Ef; [|discriminate].
    cbn [bind] in E. injection E as <-. cbn [node_diff hash_diff]. intros p [X|X]; [auto|]. apply (R _ _ _ _ _ Ef); auto. }
  assert (FH : forall ha hb a b st ds r ds', depth0 ds -> from_hashes keccak pr ha hb a b st ds = Ok (r, ds') ->
     depth0 ds').
  { intros ha hb a b st ds r ds' H E. unfold from_hashes in E. destruct (bytes_eqb ha hb); [injection E as _ <-; exact H|].
    destruct (update_hash keccak pr ds a b st) eqn:Eu; [|discriminate]. cbn [bind] in E. injection E as _ <-. eapply UH; eauto. }
  assert (GH : forall a b st ds r ds', depth0 ds -> from_gen_hashes keccak pr a b st ds = Ok (r, ds') ->
     depth0 ds').
  { intros a b st ds r ds' H E. unfold from_gen_hashes in E. destruct (hash_trie keccak pr a); [|discriminate]. cbn [bind] in E.
    destruct (hash_trie keccak pr b); [|discriminate]. cbn [bind] in E. eapply FH; eauto. }
  induction a as [|h|ch w IH|n c IH|n w] using node_ind'; intros b st ds r ds' H E; cbn [find_latest_rec] in E;
    (destruct (hash_trie keccak pr _); [|discriminate]; cbn [bind] in E; destruct (hash_trie keccak pr b); [|discriminate]; cbn [bind] in E);
    (destruct (bytes_eqb _ _); [injection E as _ <-; exact H|]);
    (destruct (_ && _); [destruct (update_node keccak pr ds _ b st) eqn:Eu; [|discriminate]; cbn [bind] in E; injection E as _ <-; eapply UN; eauto|]);
    destruct b; try discriminate.
  - injection E as _ <-. exact H.
  - destruct (new_from_parent _ _ _ _); [|discriminate]. cbn [bind] in E. eapply FH; eauto.
  - match type of E with bind ?m _ = _ => destruct m as [[f ds1]|] eqn:El; [|discriminate] end. cbn [bind] in E.
    assert (H1 : depth0 ds1).
    { clear E. revert children El H. generalize 0 as i. generalize NoDiffDetected as f0. generalize (Branch ch w) as whole. revert ds.
      induction ch as [|ca ch IHc]; intros ds whole f0 i [|cb cbs] El H; try (injection El as _ <-; exact H).
      inversion IH as [|? ? IHa IHr]; subst. destruct (from_nibble i) as [n|]; [|discriminate]. cbn [bind] in El.
      destruct (new_from_parent pr st whole n) as [st1|]; [|discriminate]. cbn [bind] in El.
      destruct (find_latest_rec keccak pr ca cb st1 ds) as [[r1 ds2]|] eqn:Er; [|discriminate]. cbn [bind] in El.
      eapply (IHc IHr); [exact El|]. eapply IHa; eauto. }
    destruct f; [eapply GH; eauto|eapply GH; eauto|injection E as _ <-; exact H1].
  - destruct (new_from_parent _ _ _ _); [|discriminate]. cbn [bind] in E. eapply IH; eauto.
  - eapply GH; eauto.
Qed.
Theorem C41_depth_always_zero : forall keccak pr a b p, create_diff keccak pr a b = Ok (Some p) -> d_depth p = 0.
Proof.
  intros keccak pr a b p E. unfold create_diff in E. destruct (find_latest_rec keccak pr a b (Call nib_default 0 []) (Longest None None)) as [[r ds]|] eqn:Er; [|discriminate].
  cbn [bind] in E. injection E as E. eapply (rec_depth keccak pr a b _ _ r ds); [|exact Er|].
  - cbn. intros q [X|X]; discriminate.
  - destruct (node_diff ds); [left; congruence|right; congruence].
Qed.

Theorem C41_depth_refuted : forall keccak pr, hash32 keccak -> exists a b x y,
  reach pr a /\ reach pr b /\ hash_trie keccak pr a = Ok (keccak x) /\ hash_trie keccak pr b = Ok (keccak y) /\ x <> y /\
  (keccak x <> keccak y -> exists p, create_diff keccak pr a b = Ok (Some p) /\ length (d_path p) = 1%nat /\ d_depth p = 0).
Proof.
  intros keccak pr H32. set (a := Extension (K 1 1) (Hash (repeat 1 32))). set (b := Extension (K 1 2) (Hash (repeat 2 32))).
  exists a, b, (RLP (item keccak a)), (RLP (item keccak b)).
  assert (Wa : wf 64 a) by (change (wf (length [1] + 63) (Extension (enc [1]) (Hash (repeat 1 32)))); constructor; [repeat constructor|constructor]).
  assert (Wb : wf 64 b) by (change (wf (length [2] + 63) (Extension (enc [2]) (Hash (repeat 2 32)))); constructor; [repeat constructor|constructor]).
  assert (Ca : canon a) by (constructor; [discriminate|exact I|constructor]). assert (Cb : canon b) by (constructor; [discriminate|exact I|constructor]).
  assert (Fa : fits a) by (split; [repeat constructor|reflexivity]). assert (Fb : fits b) by (split; [repeat constructor|reflexivity]).
  assert (Ea : hash_trie keccak pr a = Ok (keccak (RLP (item keccak a)))) by (rewrite (hash_trie_ok keccak H32 pr _ Wa Fa); reflexivity).
  assert (Eb : hash_trie keccak pr b = Ok (keccak (RLP (item keccak b)))) by (rewrite (hash_trie_ok keccak H32 pr _ Wb Fb); reflexivity).
  split; [apply reach_start; assumption|]. split; [apply reach_start; assumption|]. split; [exact Ea|]. split; [exact Eb|]. split; [vm_compute; discriminate|].
  intros H. destruct (C36_extensions_partial keccak pr (K 1 1) (Hash (repeat 1 32)) (K 1 2) (Hash (repeat 2 32)) H32 Wa Wb) as (_ & B & _);
    try assumption; try (apply canon_shape; assumption); [intros X; apply H; fold a b in X; congruence|discriminate|].
  destruct B as (p & Ep & R).
  - rewrite (hash_trie_ok keccak H32 pr _ (wf_hash _ _) (Fa : fits (Hash _))), (hash_trie_ok keccak H32 pr _ (wf_hash _ _) (Fb : fits (Hash _))). discriminate.
  - reflexivity.
  - exists p. split; [exact Ep|]. destruct R as (_ & -> & _). split; [reflexivity|]. eapply C41_depth_always_zero; eauto.
Qed.

(** The hypotheses are met. With a hash function that keeps the first 32 bytes: leaves that differ in their key, reported at the
    root; and extensions over different branches, reported below the first extension. *)
Definition toy (b : list N) : list N := map (fun x => x mod 256) (firstn 32 (b ++ repeat 0 32)).
Lemma toy_32 : hash32 toy.
Proof.
  intros b. unfold toy. split.
  - apply Forall_forall. intros x Hx. apply in_map_iff in Hx. destruct Hx as (y & <- & _). apply N.mod_lt. discriminate.
  - unfold len. rewrite map_length, firstn_length, app_length, repeat_length. lia.
Qed.
Example C36_example :
  (exists p, create_diff toy Debug (Leaf (K 2 0x12) [7]) (Leaf (K 2 0x13) [7]) = Ok (Some p) /\ d_path p = [] /\ i_key (a_info p) = K 2 0x12 /\ i_key (b_info p) = K 2 0x13) /\
  (let a := okn (from_iter Debug [(K 4 0x1234, Val [1]); (K 4 0x1256, Val [2])]) in let b := okn (from_iter Debug [(K 4 0x1334, Val [1]); (K 4 0x1357, Val [2])]) in
   exists p, create_diff toy Debug a b = Ok (Some p) /\ d_path p = [SExtension (K 2 0x12)] /\ i_type (a_info p) = TBranch /\ d_key p = K 2 0x12).
Proof. split; eexists; repeat match goal with |- _ /\ _ => split end; vm_compute; reflexivity. Qed.
Print Assumptions C36_equal.
Print Assumptions C36_types_refuted.
Print Assumptions C36_root_partial.
Print Assumptions C36_extensions_partial.
Print Assumptions C36_sound_partial.
Print Assumptions C36_none_iff_partial.
Print Assumptions C36_panic_refuted.
Print Assumptions C36_panic_hash_refuted.
Print Assumptions C36_missed_refuted.
Print Assumptions C41_depth_always_zero.
Print Assumptions C41_depth_refuted.
