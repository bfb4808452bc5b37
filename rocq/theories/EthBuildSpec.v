(** Building the tries of a given Ethereum state at once, as examples/ethereum_trie.rs:39-90 does. For C69. *)
From Verif Require Import Base Nibbles NibblesSpec Trie TrieSpec Hashing YellowPaper EthSpec.
Open Scope N_scope.

Section Build.
Variable keccak : list N -> list N.
(** ethereum_trie.rs:85-94 [generate_fake_account_storage_trie]. *)
Definition build_storage (pr : profile) (l : list (list N * N)) : res node :=
  from_iter pr (map (fun e => (from_h256_be (keccak (fst e)), Val (word_rlp (snd e)))) l).
(** ethereum_trie.rs:42-44 and 57-83: the entries of the state trie, and the storage tries by address. *)
Fixpoint build_entries (pr : profile) (w : world) : res (list (nibbles * val_or_hash) * list (list N * node)) :=
  match w with
  | [] => Ok ([], [])
  | (a, x) :: w' =>
      t <- build_storage pr (slots x) ;;
      r <- hash_trie keccak pr t ;;
      '(es, ts) <- build_entries pr w' ;;
      Ok ((from_h256_be (keccak a), Val (entry_rlp (nonce x) (balance x) r (code_hash x))) :: es, (a, t) :: ts)
  end.
(** ethereum_trie.rs:39-52 [main]. *)
Definition build (pr : profile) (w : world) : res (node * list (list N * node)) :=
  '(es, ts) <- build_entries pr w ;;
  t <- from_iter pr es ;;
  Ok (t, ts).
End Build.

(** A state: every address and every slot of an account once, 256 bit numbers, 32 byte code hashes. *)
Definition account_good (x : account) : Prop :=
  nonce x < 2 ^ 256 /\ balance x < 2 ^ 256 /\ bytesl (code_hash x) /\ length (code_hash x) = 32%nat /\ NoDup (map fst (slots x)) /\ Forall (fun e => snd e < 2 ^ 256) (slots x).
Definition world_good (w : world) : Prop := NoDup (map fst w) /\ Forall (fun e => account_good (snd e)) w.
Definition world_names (w : world) : list (list N) := map fst w ++ flat_map (fun e => map fst (slots (snd e))) w.
