(** Saving and loading as JSON: hashes of what was loaded, and the nesting of what was saved. *)
From Verif Require Import Base Nibbles Trie TrieFacts Hashing Cache CacheFacts Serde ReloadFacts P_Serde Json JsonSpec JsonFacts.
Open Scope N_scope.

(** ** A handle with new, empty cells *)
Section Fresh.
Variable keccak : list N -> list N.
Variable pr : profile.
Definition ghost_of (u : hnode) (s : store) : ghost := fun c =>
  match find (fun t => cell t =? c) (nodes u) with Some t => (hashed_of keccak pr (erase t), false) | None => (s c, true) end.

Lemma find_cell u t s : NoDup (cells u) -> In t (nodes u) -> ghost_of u s (cell t) = (hashed_of keccak pr (erase t), false).
Proof.
  unfold cells, ghost_of. generalize (nodes u). intros l N I. induction l as [|x l IH]; [destruct I|]. cbn [map] in N. inversion N; subst.
  cbn [find]. destruct (N.eqb_spec (cell x) (cell t)) as [E|E].
  - destruct I as [->|I]; [reflexivity|]. match goal with H : ~ In _ _ |- _ => destruct H end. rewrite E. apply in_map, I.
  - destruct I as [->|I]; [destruct E; reflexivity|]. auto.
Qed.
Lemma fresh_hash u s n h : NoDup (cells u) -> (forall c, In c (cells u) -> c < n) -> (forall t, In t (nodes u) -> s (cell t) = None) ->
  (forall c, n <= c -> s c = None) -> hash_trie keccak pr (erase u) = Ok h -> exists s' n', exec (hhash_of keccak pr u) s n = Ok (h, s', n').
Proof.
  intros N B E F H.
  assert (K : Forall (fun t => cell t < n /\ right_hash keccak pr (erase t) (ghost_of u s (cell t))) (nodes u)).
  { apply Forall_forall. intros t I. split; [apply B; unfold cells; apply in_map, I|apply find_cell; assumption]. }
  assert (C : coh (right_hash keccak pr) n (ghost_of u s) u) by exact K.
  assert (W : wp (hhash_of keccak pr u) n (ghost_of u s) (fun x _ _ => x = h)).
  { apply (wp_hhash_of keccak pr u h).
    - apply coh_kids, C.
    - apply B. unfold cells. rewrite nodes_below. left. reflexivity.
    - rewrite (find_cell u u s N) by (rewrite nodes_below; left; reflexivity). auto.
    - exact H.
    - reflexivity. }
  assert (KS : keeps n (ghost_of u s) s).
  { intros c. destruct (N.ltb_spec c n); [|apply F; assumption]. unfold allowed, ghost_of. destruct (find (fun t => cell t =? c) (nodes u)) as [t|] eqn:Ef.
    - left. apply find_some in Ef. destruct Ef as [I Ec]. apply N.eqb_eq in Ec. subst c. apply E, I.
    - right. reflexivity. }
  destruct (exec_wp _ _ _ _ _ W KS) as (x & s' & n' & V' & Ex & _ & _ & ->). eauto.
Qed.
End Fresh.

(** ** Nesting *)
Lemma max_all {A} (f : A -> N) (b : N) l : (forall x, In x l -> f x <= b) -> fold_right N.max 0 (map f l) <= b.
Proof. induction l as [|x l IH]; intros H; cbn [map fold_right]; [lia|]. specialize (H x) as H1. specialize (IH (fun y I => H y (or_intror I))). specialize (H1 (or_introl eq_refl)). lia. Qed.
Lemma max_in {A} (f : A -> N) l x : In x l -> f x <= fold_right N.max 0 (map f l).
Proof. induction l as [|y l IH]; intros I; [destruct I|]. cbn [map fold_right]. destruct I as [->|I]; [lia|]. specialize (IH I). lia. Qed.
Lemma nesting_bytes v : nesting (json (ser_bytes v)) = 1.
Proof.
  unfold ser_bytes. cbn [json nesting]. assert (H : fold_right N.max 0 (map nesting (map json (map DU8 v))) <= 0); [|lia].
  rewrite !map_map. apply max_all. intros x _. cbn. lia.
Qed.
Lemma nesting_nibbles n : nesting (json (ser_nibbles n)) = 1.
Proof. reflexivity. Qed.
Lemma nesting_trie t : nesting (json (serialize t)) <= 3 * height t.
Proof.
  induction t as [|h|ch v IH|n c IH|n v] using node_ind'; cbn [serialize json map fst snd nesting height fold_right].
  - lia.
  - cbn. lia.
  - rewrite nesting_bytes. assert (G : fold_right N.max 0 (map nesting (map json (map serialize ch))) <= 3 * fold_right N.max 0 (map height ch)).
    { rewrite !map_map. apply max_all. intros x I. rewrite Forall_forall in IH. specialize (IH x I). pose proof (max_in height ch x I). lia. }
    lia.
  - rewrite nesting_nibbles. assert (H : height c = 0 \/ 1 <= height c) by lia. lia.
  - rewrite nesting_nibbles, nesting_bytes. lia.
Qed.
Lemma nesting_handle s t : nesting (json (saved s t)) <= 4 * height (erase t) + 1.
Proof.
  assert (C : forall o, nesting (json (ser_cached o)) = 0) by (intros []; reflexivity).
  induction t as [c|c h|c ch v IH|c k t IH|c k v] using hnode_ind'; cbn [saved json map fst snd nesting erase height fold_right]; rewrite C.
  - cbn. lia.
  - cbn. lia.
  - rewrite nesting_bytes. assert (G : fold_right N.max 0 (map nesting (map json (map (saved s) ch))) <= 4 * fold_right N.max 0 (map height (map erase ch)) + 1).
    { rewrite !map_map. apply max_all. intros x I. rewrite Forall_forall in IH. specialize (IH x I). pose proof (max_in (fun x => height (erase x)) ch x I). lia. }
    lia.
  - rewrite nesting_nibbles. lia.
  - rewrite nesting_nibbles, nesting_bytes. lia.
Qed.
Lemma nesting_brackets t : nesting (json (serialize t)) = brackets 0 t.
Proof.
  induction t as [|h|ch v IH|n c IH|n v] using node_ind'; cbn [serialize json map fst snd nesting brackets fold_right]; try reflexivity.
  - rewrite nesting_bytes. rewrite !map_map. rewrite (map_ext_in _ (brackets 0) ch); [lia|]. intros x I. rewrite Forall_forall in IH. apply IH, I.
  - rewrite nesting_nibbles, IH. lia.
  - rewrite nesting_nibbles, nesting_bytes. lia.
Qed.
Lemma nesting_brackets_handle s t : nesting (json (saved s t)) = brackets 1 (erase t).
Proof.
  assert (C : forall o, nesting (json (ser_cached o)) = 0) by (intros []; reflexivity).
  induction t as [c|c h|c ch v IH|c k t IH|c k v] using hnode_ind'; cbn [saved json map fst snd nesting erase brackets fold_right]; rewrite C; try reflexivity.
  - rewrite nesting_bytes. rewrite !map_map. rewrite (map_ext_in _ (fun x => brackets 1 (erase x)) ch); [lia|]. intros x I. rewrite Forall_forall in IH. apply IH, I.
  - rewrite nesting_nibbles, IH. lia.
  - rewrite nesting_nibbles, nesting_bytes. lia.
Qed.

(** ** What is loaded is of the Rust types *)
Lemma fold_undigits0 l : fold_left (fun a d => a * 16 + d) l 0 = NibblesSpec.undigits l.
Proof. reflexivity. Qed.
Lemma u512_type d n : read_u512 d = Some n -> n < 2 ^ 512.
Proof.
  destruct d; try discriminate. cbn [read_u512]. destruct (hex_digits digits) eqn:H; [|discriminate]. cbn [andb].
  destruct (Nat.eqb (length digits) 0); [discriminate|]. cbn [negb andb]. destruct (Nat.leb_spec (length digits) 128); [|discriminate].
  intros [= <-]. apply hex_digits_iff in H. apply NibblesFacts.undigits_lt in H. rewrite fold_undigits0.
  eapply N.lt_le_trans; [exact H|]. change 16 with (2 ^ 4). rewrite <- N.pow_mul_r. apply N.pow_le_mono_r; lia.
Qed.
Lemma digit_bytes_u8s k : forall l, NibblesSpec.hexl l -> length l = (2 * k)%nat -> u8s (digit_bytes l) /\ length (digit_bytes l) = k.
Proof.
  induction k as [|k IH]; intros l H L.
  - destruct l; [|discriminate]. split; [constructor|reflexivity].
  - destruct l as [|a [|b l]]; try (cbn [length] in L; lia). inversion H as [|? ? Ha H']; subst. inversion H' as [|? ? Hb H'']; subst. cbn [length digit_bytes] in *.
    destruct (IH l H'' ltac:(lia)) as [B E]. split; [constructor; [lia|exact B]|lia].
Qed.
Lemma h256_type d h : read_h256 d = Some h -> h256 h.
Proof.
  destruct d; try discriminate. cbn [read_h256]. destruct (hex_digits digits) eqn:H; [|discriminate]. cbn [andb].
  destruct (Nat.eqb_spec (length digits) 64) as [L|]; [|discriminate]. intros [= <-]. apply hex_digits_iff in H.
  destruct (digit_bytes_u8s 32 digits H L) as [B E]. split; assumption.
Qed.
Lemma num_type b d n : read_num b d = Some n -> n < b.
Proof. destruct d; try discriminate. cbn [read_num]. destruct (N.ltb_spec n0 b); [|discriminate]. intros [= <-]. assumption. Qed.
Lemma bytes_type d v : read_bytes d = Some v -> u8s v.
Proof. destruct d; try discriminate. cbn [read_bytes]. intros E. apply Forall_forall. intros x I. destruct (read_all_in _ _ _ E x I) as (d & _ & Ed). eapply num_type, Ed. Qed.
Lemma nibbles_type d n : read_nibbles d = Some n -> key_type n.
Proof.
  unfold read_nibbles. destruct (read_two _ _ _ _ _ d) as [[c p]|] eqn:E; [|discriminate]. intros [= <-]. apply two_parts in E; [|reflexivity].
  destruct E as (x & y & _ & _ & Ec & Ep). split; [eapply num_type, Ec|eapply u512_type, Ep].
Qed.
Lemma read_all_length {A} (g : doc -> option A) l : forall xs, read_all g l = Some xs -> length xs = length l.
Proof.
  induction l as [|d l IH]; intros xs E; cbn [read_all] in E; fold (read_all g) in E; [injection E as <-; reflexivity|].
  destruct (g d); [|discriminate]. destruct (read_all g l); [|discriminate]. injection E as <-. cbn [length]. f_equal. apply IH. reflexivity.
Qed.
Lemma read_type d : forall t, read_trie d = Some t -> node_type t.
Proof.
  remember (dsize d) as n eqn:En. revert d En. induction n as [n IH] using (well_founded_induction Nat.lt_wf_0). intros d -> t E.
  destruct d as [|?|?|k|l|l|]; try discriminate.
  - destruct k as [[]|]; try discriminate. injection E as <-. constructor.
  - destruct l as [|[[k|] c] [|e l]]; try discriminate; try (destruct k; try discriminate E; destruct c; discriminate E).
    assert (Sc : (dsize c < dsize (JObject [(KName k, c)]))%nat) by (apply parts_size; left; reflexivity).
    destruct k; try discriminate.
    + destruct c; try discriminate. injection E as <-. constructor.
    + rewrite read_hash in E. destruct (read_h256 c) eqn:Eh; [|discriminate]. injection E as <-. constructor. eapply h256_type, Eh.
    + rewrite read_branch in E. destruct (read_two _ _ _ _ _ c) as [[ch v]|] eqn:E2; [|discriminate]. injection E as <-. apply two_parts in E2; [|reflexivity].
      destruct E2 as (x & z & I & _ & Ex & Ez). unfold kids16 in Ex. destruct x; try discriminate. destruct (sixteen l) eqn:E16; [|discriminate].
      constructor; [| |eapply bytes_type, Ez].
      * rewrite (read_all_length _ _ _ Ex). apply Nat.eqb_eq, E16.
      * intros u J. destruct (read_all_in _ _ _ Ex u J) as (d' & J' & E'). pose proof (parts_size _ _ I) as S1. pose proof (parts_size (JArray l) d' J') as S2.
        eapply IH; [|reflexivity|exact E']. lia.
    + rewrite read_extension in E. destruct (read_two _ _ _ _ _ c) as [[k u]|] eqn:E2; [|discriminate]. injection E as <-. apply two_parts in E2; [|reflexivity].
      destruct E2 as (x & z & _ & I & Ex & Ez). pose proof (parts_size _ _ I) as S1. constructor; [eapply nibbles_type, Ex|]. eapply IH; [|reflexivity|exact Ez]. lia.
    + rewrite read_leaf in E. destruct (read_two _ _ _ _ _ c) as [[k u]|] eqn:E2; [|discriminate]. injection E as <-. apply two_parts in E2; [|reflexivity].
      destruct E2 as (x & z & _ & I & Ex & Ez). constructor; [eapply nibbles_type, Ex|eapply bytes_type, Ez].
Qed.
