(** Running a program on an excerpt of the Ethereum state that somebody else has made. Specification vocabulary for C84. *)
From Verif Require Import Base Nibbles NibblesSpec Trie TrieSpec TrieHistSpec Hashing YellowPaper HashSpec EthSpec EthProofSpec PartialSpec.
Open Scope N_scope.

(** What the receiver checks, who knows the state root [r] and wants to run a program that only uses the names [ns]: the state trie is vouched for by the root
    (EthProofSpec.v) and says about each name that there is no account, and there is none in the table, or that there is the account of the table, with the root
    hash of its storage trie, which in turn is vouched for by that root hash and says something about each name. *)
Definition received (keccak : list N -> list N) (pr : profile) (ns : list (list N)) (r : list N) (p : client) : Prop :=
  (exists limit text, vouched keccak pr limit text r (state p)) /\
  forall a, In a ns ->
  match find a (accounts p) with
  | None => says keccak pr (state p) a None
  | Some k =>
      k_nonce k < 2 ^ 256 /\ k_balance k < 2 ^ 256 /\ length (k_code k) = 32%nat /\
      exists limit text r', length r' = 32%nat /\ vouched keccak pr limit text r' (storage k) /\
        says keccak pr (state p) a (Some (entry_rlp (k_nonce k) (k_balance k) r' (k_code k))) /\
        forall s, In s ns -> exists v, says keccak pr (storage k) s v
  end.

(** What the receiver can check whenever the program removes an account or clears a slot: no branch with just one other child, a hash node, is left over. *)
Definition removal_seen (keccak : list N -> list N) (p : client) (o : world_op) : Prop :=
  match o with
  | Destroy a => collapse_visible (state p) (unpair (keccak a))
  | SetSlot a s v => v = 0 -> forall k, find a (accounts p) = Some k -> collapse_visible (storage k) (unpair (keccak s))
  | _ => True
  end.
Fixpoint removals_seen (keccak : list N -> list N) (pr : profile) (p : client) (ops : list world_op) : Prop :=
  match ops with
  | [] => True
  | o :: ops' => removal_seen keccak p o /\ forall p1 x, client_step keccak pr p o = Ok (p1, x) -> removals_seen keccak pr p1 ops'
  end.

(** Everything that the receiver hashes to check it. *)
Definition received_bytes (enc : node -> list (list N)) (ns : list (list N)) (p : client) : list (list N) :=
  ns ++ enc (state p) ++ flat_map (fun e => enc (storage (snd e))) (accounts p).

(** Following a chain of blocks from one root hash: for every block an excerpt is received, checked against the last root hash, the block's program runs on it, and
    its root hash afterwards is the next one. Nothing else is kept from block to block. *)
Record block : Type := Block { b_names : list (list N); b_ops : list world_op; b_client : client }.
Inductive follows_chain (keccak : list N -> list N) (pr : profile) : list N -> list block -> list out -> list N -> Prop :=
| fc_nil r : follows_chain keccak pr r [] [] r
| fc_cons r ns ops p p' xs r1 bs ys r2 :
    received keccak pr ns r p -> incl (names ops) ns -> removals_seen keccak pr p ops ->
    client_run keccak pr p ops = Ok (p', xs) -> hash_trie keccak pr (state p') = Ok r1 -> follows_chain keccak pr r1 bs ys r2 ->
    follows_chain keccak pr r (Block ns ops p :: bs) (xs ++ ys) r2.
