(** The state of Ethereum as it is kept in tries (examples/ethereum_trie.rs): a state trie with an entry for every account, and for every
    account a storage trie whose root hash is part of that entry. Specification vocabulary for C69, and the calls of the API that a
    program makes to keep its tries up to date. *)
From Verif Require Import Base Nibbles NibblesSpec Trie TrieSpec TrieHistSpec Hashing YellowPaper Subset.
Open Scope N_scope.

(** ** Tables: names (byte strings) with their contents *)
Section Table.
Context {A : Type}.
Fixpoint find (k : list N) (l : list (list N * A)) : option A :=
  match l with [] => None | (j, x) :: l' => if key_eqb j k then Some x else find k l' end.
Fixpoint assign (k : list N) (x : A) (l : list (list N * A)) : list (list N * A) :=
  match l with [] => [(k, x)] | (j, y) :: l' => if key_eqb j k then (j, x) :: l' else (j, y) :: assign k x l' end.
Fixpoint remove (k : list N) (l : list (list N * A)) : list (list N * A) :=
  match l with [] => [] | (j, y) :: l' => if key_eqb j k then remove k l' else (j, y) :: remove k l' end.
End Table.

(** ** The world state (Yellow Paper, 4.1): accounts by address; the storage of an account has its non-zero words by slot *)
Record account : Type := Account { nonce : N; balance : N; code_hash : list N; slots : list (list N * N) }.
Definition world : Type := list (list N * account).

(** The roots that the Yellow Paper defines: storage entries (KEC(slot), RLP(value)), accounts (KEC(address), RLP(nonce, balance, storage
    root, code hash)). *)
Section Roots.
Variable keccak : list N -> list N.
Definition word_rlp (v : N) : list N := RLP (RStr (BE v)).
Definition storage_root (l : list (list N * N)) : list N :=
  yp_root keccak (map (fun e => (unpair (keccak (fst e)), word_rlp (snd e))) l).
Definition entry_rlp (nonce balance : N) (root code : list N) : list N := RLP (RList [RStr (BE nonce); RStr (BE balance); RStr root; RStr code]).
Definition account_rlp (a : account) : list N := entry_rlp (nonce a) (balance a) (storage_root (slots a)) (code_hash a).
Definition state_root (w : world) : list N := yp_root keccak (map (fun e => (unpair (keccak (fst e)), account_rlp (snd e))) w).

(** ** What a program does with the state *)
Inductive world_op : Type :=
| SetAccount (a : list N) (nonce balance : N) (code : list N)
| SetSlot (a s : list N) (v : N)
| Destroy (a : list N)
| ReadAccount (a : list N)
| ReadSlot (a s : list N).

Definition put_slot (l : list (list N * N)) (s : list N) (v : N) : list (list N * N) := if v =? 0 then remove s l else assign s v l.
Definition world_step (w : world) (o : world_op) : world * out :=
  match o with
  | SetAccount a n b c => (assign a (Account n b c (match find a w with Some x => slots x | None => [] end)) w, ODone)
  | SetSlot a s v =>
      match find a w with
      | Some x => (assign a (Account (nonce x) (balance x) (code_hash x) (put_slot (slots x) s v)) w, ODone)
      | None => (w, ODone)
      end
  | Destroy a => (remove a w, ODone)
  | ReadAccount a => (w, OValue (option_map account_rlp (find a w)))
  | ReadSlot a s => (w, OValue (match find a w with Some x => option_map word_rlp (find s (slots x)) | None => None end))
  end.
Fixpoint world_run (w : world) (ops : list world_op) : world * list out :=
  match ops with
  | [] => (w, [])
  | o :: ops' => let '(w1, x) := world_step w o in let '(w2, xs) := world_run w1 ops' in (w2, x :: xs)
  end.

(** 256 bit numbers, 32 byte code hashes. *)
Definition world_op_ok (o : world_op) : Prop :=
  match o with
  | SetAccount _ n b c => n < 2 ^ 256 /\ b < 2 ^ 256 /\ bytesl c /\ length c = 32%nat
  | SetSlot _ _ v => v < 2 ^ 256
  | _ => True
  end.
(** The names (addresses and slots) in a program. *)
Definition names (ops : list world_op) : list (list N) :=
  flat_map (fun o => match o with SetAccount a _ _ _ | Destroy a | ReadAccount a => [a] | SetSlot a s _ | ReadSlot a s => [a; s] end) ops.
(** No two of them have the same hash. *)
Definition no_clash (l : list (list N)) : Prop := forall x y, In x l -> In y l -> keccak x = keccak y -> x = y.

(** ** The same with tries: the program has the state trie, and for every account its fields and its storage trie. The keys are
    [Nibbles::from_h256_be] of the hashes; the values are made by the caller (ethereum_trie.rs:41-50, 59-90). *)
Record kept : Type := Kept { k_nonce : N; k_balance : N; k_code : list N; storage : node }.
Record client : Type := Client { state : node; accounts : list (list N * kept) }.

Definition write_account (pr : profile) (c : client) (a : list N) (x : kept) : res (client * out) :=
  r <- hash_trie keccak pr (storage x) ;;
  t <- trie_insert pr (state c) (from_h256_be (keccak a)) (Val (entry_rlp (k_nonce x) (k_balance x) r (k_code x))) ;;
  Ok (Client t (assign a x (accounts c)), ODone).
Definition client_step (pr : profile) (c : client) (o : world_op) : res (client * out) :=
  match o with
  | SetAccount a n b code =>
      write_account pr c a (Kept n b code (match find a (accounts c) with Some x => storage x | None => Empty end))
  | SetSlot a s v =>
      match find a (accounts c) with
      | Some x =>
          t <- (if v =? 0 then '(t, _) <- trie_delete pr (storage x) (from_h256_be (keccak s)) ;; Ok t
                else trie_insert pr (storage x) (from_h256_be (keccak s)) (Val (word_rlp v))) ;;
          write_account pr c a (Kept (k_nonce x) (k_balance x) (k_code x) t)
      | None => Ok (c, ODone)
      end
  | Destroy a => '(t, _) <- trie_delete pr (state c) (from_h256_be (keccak a)) ;; Ok (Client t (remove a (accounts c)), ODone)
  | ReadAccount a => v <- trie_get pr (state c) (from_h256_be (keccak a)) ;; Ok (c, OValue v)
  | ReadSlot a s =>
      match find a (accounts c) with
      | Some x => v <- trie_get pr (storage x) (from_h256_be (keccak s)) ;; Ok (c, OValue v)
      | None => Ok (c, OValue None)
      end
  end.
Fixpoint client_run (pr : profile) (c : client) (ops : list world_op) : res (client * list out) :=
  match ops with
  | [] => Ok (c, [])
  | o :: ops' => '(c1, x) <- client_step pr c o ;; '(c2, xs) <- client_run pr c1 ops' ;; Ok (c2, x :: xs)
  end.
Definition new_client : client := Client Empty [].

(** ** The part of the state that a program needs: the state trie restricted to the given names, and the accounts among them with their
    storage tries restricted in the same way ([create_trie_subset], trie_subsets.rs:212-223) *)
Definition name_keys (ns : list (list N)) : list nibbles := map (fun a => from_h256_be (keccak a)) ns.
Definition excerpt (pr : profile) (ns : list (list N)) (c p : client) : Prop :=
  create_trie_subset keccak pr (state c) (name_keys ns) = Ok (ROk (state p)) /\
  Forall2 (fun e e' => fst e' = fst e /\ k_nonce (snd e') = k_nonce (snd e) /\ k_balance (snd e') = k_balance (snd e) /\ k_code (snd e') = k_code (snd e) /\
                       create_trie_subset keccak pr (storage (snd e)) (name_keys ns) = Ok (ROk (storage (snd e'))))
    (filter (fun e => existsb (key_eqb (fst e)) ns) (accounts c)) (accounts p).
(** The name is not in the table, or it is the only one, or the list has one whose hash has the longest common prefix (in nibbles) with the
    hash of the name, of all others in the table. *)
Definition has_next {A} (l : list (list N * A)) (ns : list (list N)) (a : list N) : Prop :=
  find a l = None \/ (forall b, find b l <> None -> b = a) \/
  exists b, In b ns /\ b <> a /\ find b l <> None /\
    forall j, find j l <> None -> j <> a -> (lcp (unpair (keccak j)) (unpair (keccak a)) <= lcp (unpair (keccak b)) (unpair (keccak a)))%nat.
(** Whenever the program removes an account or clears a slot, the list has that name. *)
Fixpoint removals_covered (ns : list (list N)) (w : world) (ops : list world_op) : Prop :=
  match ops with
  | [] => True
  | o :: ops' =>
      match o with
      | Destroy a => has_next w ns a
      | SetSlot a s v => v = 0 -> forall x, find a w = Some x -> has_next (slots x) ns s
      | _ => True
      end /\ removals_covered ns (fst (world_step w o)) ops'
  end.
(** Programs that remove nothing. *)
Definition removes_nothing (o : world_op) : Prop := match o with SetSlot _ _ v => v <> 0 | Destroy _ => False | _ => True end.

(** Everything that is hashed for the root of a state: addresses, slots, and the encodings of all nodes. *)
Definition preimages (enc : node -> list (list N)) (w : world) (c : client) : list (list N) :=
  map fst w ++ flat_map (fun e => map fst (slots (snd e))) w ++ enc (state c) ++ flat_map (fun e => enc (storage (snd e))) (accounts c).
End Roots.

(** The same accounts with the same storage. *)
Definition same_account (x y : account) : Prop :=
  nonce x = nonce y /\ balance x = balance y /\ code_hash x = code_hash y /\ forall s, find s (slots x) = find s (slots y).
Definition same_world (w w' : world) : Prop :=
  forall a, match find a w, find a w' with Some x, Some y => same_account x y | None, None => True | _, _ => False end.
