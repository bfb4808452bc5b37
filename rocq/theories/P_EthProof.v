(** Property C71: proofs about the Ethereum state. *)
From Verif Require Import Base Nibbles NibblesSpec NibblesFacts Trie TrieSpec TrieHistSpec TrieFacts TrieGet TrieHist Hashing YellowPaper HashSpec HashFacts Keccak HideSpec HideFacts Subset SubsetSpec ReplaySpec ReplayFacts
  HideDelete TypeFacts2 Serde Json JsonSpec JsonText JsonTextSpec TypeSpec TypeFacts WitnessSpec P_Trie P_Hash P_Json P_Partial P_Subset P_JsonText P_Witness EthSpec EthFacts P_Eth P_EthPart EthProofSpec.
Open Scope N_scope.

Lemma find_entry {A} (l : list (list N * A)) a k : find a l = Some k -> In (a, k) l.
Proof. induction l as [|[j z] l IH]; cbn [find]; [discriminate|]. destruct (key_eqb_spec j a) as [->|]; [intros [= ->]; left; reflexivity|intros E; right; auto]. Qed.

Section Proofs.
Variable keccak : list N -> list N.
Hypothesis H32 : hash32 keccak.
Variable pr : profile.

Lemma vouched_ok limit text r t : vouched keccak pr limit text r t -> wf 64 t /\ fits t /\ shape t /\ hash_trie keccak pr t = Ok r.
Proof. intros (L & C & Sh & E). destruct (C66_check limit text t L) as [A B]. apply A in C as [W F]. apply B in Sh. auto. Qed.

(** One trie: what a vouched trie says is what the table says. *)
Lemma says_sound {A} S (f : A -> list N) t l limit text t' a v : no_clash keccak S -> keeps keccak S f t l ->
  vouched keccak pr limit text (yp_root keccak (map (fun e => (key keccak (fst e), f (snd e))) l)) t' -> says keccak pr t' a v ->
  v = option_map f (find a l) \/ collision keccak (map fst l ++ encodings keccak t) (a :: encodings keccak t').
Proof.
  intros NC K V Sy. destruct (vouched_ok _ _ _ _ V) as (W' & F' & Sh' & E'). pose proof K as (ND & IS & F & m & I & M1 & M2). pose proof I as (W & Cn & H & U).
  pose proof (keeps_hash_free keccak S f t l K) as HF. destruct (key_ok keccak H32 a) as (_ & Kw & Ks & Fl).
  assert (E : hash_trie keccak pr t = hash_trie keccak pr t') by (rewrite E'; apply (keeps_hash keccak H32 S NC f pr t l K)).
  assert (G : m (key keccak a) = v \/ collision keccak (encodings keccak t) (encodings keccak t')).
  { destruct v as [v|]; cbn [says] in Sy.
    - destruct (C40_get_sound keccak pr pr pr t t' _ v H32 W W' F F' HF E Sy) as [G|G]; [left|right; exact G].
      rewrite (inv_get pr full t m _ (fixed_pf 64) I Kw) in G; rewrite Ks in *; [congruence|exact Fl|]. intros j Hj. unfold full in *. lia.
    - destruct Sy as [t1 Sy]. pose proof (tdelete pr t' (from_h256_be (keccak a)) W' Sh' Kw) as P. rewrite Sy, Ks in P. destruct P as (_ & P1 & P2 & P3).
      destruct (C40_contents keccak pr pr t t' (key keccak a) H32 W W' F F' HF E) as [G|[(p & h & G1 & G2)|G]]; [left| |right; exact G].
      + rewrite P3, H in G. destruct (m (key keccak a)); [discriminate|reflexivity].
      + destruct (P1 (hop_prefix t' (key keccak a) p h G1 G2)). }
  destruct G as [G|(x & y & X & Y & D)]; [|right; exists x, y; split; [apply in_app_iff; right; exact X|]; split; [right; exact Y|exact D]].
  destruct (find a l) as [x|] eqn:Fx; cbn [option_map].
  - left. rewrite <- G, (M1 a); [rewrite Fx; reflexivity|]. apply IS, find_names. congruence.
  - destruct v as [v|]; [|left; reflexivity]. destruct (M2 (key keccak a) ltac:(congruence)) as (b & Hb & Eb). right. exists b, a.
    split; [apply in_app_iff; left; exact Hb|]. split; [left; reflexivity|]. split; [intros ->; apply find_names in Hb; contradiction|]. symmetry. apply key_inj, Eb.
Qed.
End Proofs.

(** Whatever a vouched state trie says about an account is so in the state with that root, or two different byte strings with the same hash
    are known: one of those hashed for the state, one of those that the reader hashes. *)
Theorem C71_account : forall keccak pr ops w xs c limit text t' a v,
  hash32 keccak -> no_clash keccak (names ops) -> Forall world_op_ok ops -> world_run keccak [] ops = (w, xs) -> client_run keccak pr new_client ops = Ok (c, xs) ->
  vouched keccak pr limit text (state_root keccak w) t' -> says keccak pr t' a v ->
  v = option_map (account_rlp keccak) (find a w) \/ collision keccak (preimages (encodings keccak) w c) (a :: encodings keccak t').
Proof.
  intros keccak pr ops w xs c limit text t' a v H32 NC O E R V Sy.
  destruct (run_ok keccak pr (names ops) ops H32 NC (incl_refl _) O new_client [] (new_ok keccak _)) as (c' & R' & KS & F). rewrite E in *. cbn [fst snd] in *. assert (c' = c) by congruence. subst c'.
  destruct (says_sound keccak H32 pr (names ops) _ _ _ limit text t' a v NC KS V Sy) as [G|G]; [left; exact G|right].
  eapply collision_incl; [exact G| |apply incl_refl]. unfold preimages. intros x Hx. rewrite !in_app_iff in *. tauto.
Qed.
Print Assumptions C71_account.

(** The same for a slot: the reader takes the storage root from the entry of the account in a vouched state trie and has a vouched storage
    trie with that root. *)
Theorem C71_slot : forall keccak pr ops w xs c limit text t' a n b r code limit2 text2 s' s v,
  hash32 keccak -> no_clash keccak (names ops) -> Forall world_op_ok ops -> world_run keccak [] ops = (w, xs) -> client_run keccak pr new_client ops = Ok (c, xs) ->
  n < 2 ^ 256 -> b < 2 ^ 256 -> length r = 32%nat -> length code = 32%nat ->
  vouched keccak pr limit text (state_root keccak w) t' -> says keccak pr t' a (Some (entry_rlp n b r code)) ->
  vouched keccak pr limit2 text2 r s' -> says keccak pr s' s v ->
  (exists l, find a w = Some (Account n b code l) /\ v = option_map word_rlp (find s l)) \/
  collision keccak (preimages (encodings keccak) w c) (a :: s :: encodings keccak t' ++ encodings keccak s').
Proof.
  intros keccak pr ops w xs c limit text t' a n b r code limit2 text2 s' s v H32 NC O E R Ln Lb Lr Lc V Sy V2 Sy2.
  destruct (run_ok keccak pr (names ops) ops H32 NC (incl_refl _) O new_client [] (new_ok keccak _)) as (c' & R' & KS & F). rewrite E in *. cbn [fst snd] in *. assert (c' = c) by congruence. subst c'.
  destruct (C71_account keccak pr ops w xs c limit text t' a _ H32 NC O E R V Sy) as [G|G].
  2: { right. eapply collision_incl; [exact G|apply incl_refl|]. intros x [->|Hx]; [left; reflexivity|]. right. right. apply in_app_iff. left. exact Hx. }
  pose proof (kept_find keccak _ _ _ a F) as Q. destruct (find a w) as [x|] eqn:Fx; [|discriminate G]. destruct (find a (accounts c)) as [k|] eqn:Fk; [|contradiction].
  destruct Q as (_ & _ & _ & _ & KT & (A1 & A2 & A3 & A4 & A5)). cbn [fst snd option_map] in *. injection G as G. unfold account_rlp in G.
  destruct (yp_root_ok keccak H32 (map (fun e => (unpair (keccak (fst e)), word_rlp (snd e))) (slots x))) as [_ R2].
  apply entry_inj in G; try assumption; try (unfold len; lia). destruct G as (-> & -> & -> & ->).
  destruct (says_sound keccak H32 pr (names ops) _ _ _ limit2 text2 s' s v NC KT V2 Sy2) as [G|G]; [left|right].
  - exists (slots x). split; [destruct x; reflexivity|exact G].
  - eapply collision_incl; [exact G| |].
    + intros y Hy. unfold preimages. apply in_app_iff in Hy as [Hy|Hy]; rewrite !in_app_iff.
      * right. left. apply in_flat_map. exists (a, x). split; [apply find_in; [apply KS|exact Fx]|exact Hy].
      * right. right. right. apply in_flat_map. exists (a, k). split; [apply find_entry, Fk|exact Hy].
    + intros y [->|Hy]; [right; left; reflexivity|]. right. right. apply in_app_iff. right. exact Hy.
Qed.
Print Assumptions C71_slot.

(** The texts of an excerpt are vouched for by the roots, so they are accepted, and they say about the names of the excerpt what is so. *)
Theorem C71_honest : forall keccak pr ops ns w xs c p,
  hash32 keccak -> no_clash keccak (names ops ++ ns) -> Forall world_op_ok ops -> world_run keccak [] ops = (w, xs) -> client_run keccak pr new_client ops = Ok (c, xs) ->
  excerpt keccak pr ns c p ->
  (vouched keccak pr None (to_string (serialize (state p))) (state_root keccak w) (state p) /\
   vouched keccak pr None (to_string_pretty (serialize (state p))) (state_root keccak w) (state p) /\
   forall a, In a ns -> says keccak pr (state p) a (option_map (account_rlp keccak) (find a w))) /\
  (forall a x, In a ns -> find a w = Some x -> exists k, find a (accounts p) = Some k /\
     vouched keccak pr None (to_string (serialize (storage k))) (storage_root keccak (slots x)) (storage k) /\
     vouched keccak pr None (to_string_pretty (serialize (storage k))) (storage_root keccak (slots x)) (storage k) /\
     forall s, In s ns -> says keccak pr (storage k) s (option_map word_rlp (find s (slots x)))).
Proof.
  intros keccak pr ops ns w xs c p H32 NC O E R EX. set (S := names ops ++ ns) in *.
  destruct (run_ok keccak pr S ops H32 NC ltac:(apply incl_appl, incl_refl) O new_client [] (new_ok keccak _)) as (c' & R' & C). rewrite E in *. cbn [fst snd] in *.
  assert (c' = c) by congruence. subst c'. pose proof (excerpt_sim keccak H32 pr ns S c w p C EX) as [SS SA]. destruct C as [KS F].
  assert (T : forall A (f : A -> list N) t s l, keeps keccak S f t l -> sim keccak ns t s ->
    vouched keccak pr None (to_string (serialize s)) (yp_root keccak (map (fun e => (key keccak (fst e), f (snd e))) l)) s /\
    vouched keccak pr None (to_string_pretty (serialize s)) (yp_root keccak (map (fun e => (key keccak (fst e), f (snd e))) l)) s /\
    forall a, In a ns -> says keccak pr s a (option_map f (find a l))).
  { intros A f t s l K Sm. pose proof (sim_hash keccak H32 pr ns t s Sm) as Eh. rewrite (keeps_hash keccak H32 S NC f pr t l K) in Eh.
    pose proof Sm as (L & Ft & H). pose proof K as (_ & _ & _ & m & (W & Cn & _) & _). pose proof (hides_wf keccak t 64 s H W) as Ws. pose proof (hides_fits keccak H32 t s H Ft) as Fs.
    pose proof (wf_type s 64 Ws (le_n _) Fs) as Ts. destruct (C62_roundtrip s Ts) as [T1 T2].
    assert (Ck : checked 64 s = true) by (apply (checked_wf s 64 (le_n _) Ts); auto).
    assert (Sh : shaped s = true) by (apply shaped_shape, (hides_shape keccak t s H), canon_shape, Cn).
    split; [repeat (split; [assumption|]); assumption|]. split; [repeat (split; [assumption|]); assumption|].
    intros a Ha. assert (HS : In a S) by (apply in_app_iff; right; exact Ha). destruct (find a l) as [x|] eqn:Fx; cbn [option_map says].
    - apply (sim_get keccak H32 pr ns t s a _ Sm Ha). rewrite (keeps_get keccak H32 S f pr t l a K HS), Fx. reflexivity.
    - destruct (keeps_delete keccak H32 S NC f pr t l a K HS) as (t1 & Et & _). rewrite Fx in Et. cbn [option_map] in Et.
      destruct (sim_delete keccak H32 pr ns S f l t s a t1 None NC K HS ltac:(left; exact Fx) Sm Ha Et) as (s1 & Es & _). eauto. }
  split; [exact (T _ _ _ _ _ KS SS)|]. intros a x Ha Fx. pose proof (SA a Ha) as Q. pose proof (kept_find keccak _ _ _ a F) as G. rewrite Fx in G.
  destruct (find a (accounts c)) as [k|]; [|contradiction]. destruct (find a (accounts p)) as [k'|]; [|contradiction]. exists k'. split; [reflexivity|].
  destruct Q as (_ & _ & _ & Q). destruct G as (_ & _ & _ & _ & KT & _). exact (T _ _ _ _ _ KT Q).
Qed.
Print Assumptions C71_honest.

(** [get] alone does not tell that there is no account: for every state with an account there is a trie with the right root in which [get]
    finds none, the excerpt for nothing at all (and it is accepted). *)
Theorem C71_get_is_not_enough : forall keccak pr ops w xs c a x,
  hash32 keccak -> no_clash keccak (names ops) -> Forall world_op_ok ops -> world_run keccak [] ops = (w, xs) -> client_run keccak pr new_client ops = Ok (c, xs) ->
  find a w = Some x -> exists text t', vouched keccak pr None text (state_root keccak w) t' /\ trie_get pr t' (from_h256_be (keccak a)) = Ok None.
Proof.
  intros keccak pr ops w xs c a x H32 NC O E R Fx.
  destruct (C69_state keccak pr ops w xs H32 NC O E) as (c' & R' & Eh & _). assert (c' = c) by congruence. subst c'.
  exists (to_string (serialize (Hash (state_root keccak w)))), (Hash (state_root keccak w)).
  destruct (yp_root_ok keccak H32 (map (fun e => (unpair (keccak (fst e)), account_rlp keccak (snd e))) w)) as [B L]. split; [|reflexivity].
  assert (T : node_type (Hash (state_root keccak w))) by (constructor; split; [unfold len in L; unfold state_root; lia|exact B]).
  split; [apply (C62_roundtrip _ T)|]. split; [reflexivity|]. split; [reflexivity|]. reflexivity.
Qed.
Print Assumptions C71_get_is_not_enough.

(** Checking that a trie is vouched for, by computation. The names are those of C70_example. *)
Definition ex_part : client := cut_client ex_client (names ex_more_ops).
Example C71_example :
  world_run keccak256 [] ex_first_ops = (fst (world_run keccak256 [] ex_first_ops), snd (world_run keccak256 [] ex_first_ops)) /\
  (exists xs, client_run keccak256 Debug new_client ex_first_ops = Ok (ex_client, xs)) /\
  vouched keccak256 Debug default_limit (to_string (serialize (state ex_part))) (state_root keccak256 (fst (world_run keccak256 [] ex_first_ops))) (state ex_part) /\
  says keccak256 Debug (state ex_part) (ex_address 3) None /\
  says keccak256 Debug (state ex_part) (ex_address 2) (Some (entry_rlp 7 0 (storage_root keccak256 [(ex_slot 1, 1)]) ex_code)) /\
  trie_delete Debug (state ex_part) (from_h256_be (keccak256 (ex_address 1))) = Panic.
Proof.
  split; [destruct (world_run keccak256 [] ex_first_ops); reflexivity|]. split; [exists [ODone; ODone; ODone]; vm_compute; reflexivity|].
  split; [|split; [|split; vm_compute; reflexivity]].
  - split; [vm_compute; reflexivity|]. split; [vm_compute; reflexivity|]. split; [vm_compute; reflexivity|]. vm_compute. reflexivity.
  - exists (state ex_part). vm_compute. reflexivity.
Qed.
