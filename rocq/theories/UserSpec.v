(** Programs that use handles of [HashedPartialTrie] and decide what to do next from what they have seen. Specification vocabulary for C72. *)
From Verif Require Import Base Nibbles Trie TrieHistSpec Hashing Cache CacheSpec EthSpec.
Open Scope N_scope.

(** A program makes calls of the API (CacheSpec.v), each chosen from the answers so far, and ends with a result. *)
Inductive user (A : Type) : Type :=
| Return (a : A)
| Call (o : op) (k : obs -> user A).
Arguments Return {A} a.
Arguments Call {A} o k.
Fixpoint ubind {A B} (u : user A) (f : A -> user B) : user B :=
  match u with Return a => f a | Call o k => Call o (fun x => ubind (k x) f) end.

Section Play.
Variable keccak : list N -> list N.
Variable pr : profile.

(** On tries as plain values, where every hash is computed from the contents. *)
Fixpoint vplay {A} (ts : list node) (u : user A) : res (list node * A) :=
  match u with Return a => Ok (ts, a) | Call o k => '(ts', x) <- vstep keccak pr ts o ;; vplay ts' (k x) end.
(** On handles with their caches. *)
Fixpoint hplay {A} (ts : list hnode) (u : user A) : prog (list hnode * A) :=
  match u with Return a => Ret (ts, a) | Call o k => '(ts', x) <~ hstep keccak pr ts o ;; hplay ts' (k x) end.
(** From the start: no handles, no cells. *)
Definition play {A} (u : user A) : res (list hnode * A) := rmap (fun r => fst (fst r)) (exec (hplay [] u) (fun _ => None) 0).

(** Threads: each has its own clones of some handles and its own program; the cells are shared (CacheSpec.v, [pool]). *)
Definition threads_of {A} (jobs : list (list hnode * user A)) (s : store) (n : N) : pool (list hnode * A) :=
  Pool (map (fun job => hplay (fst job) (snd job)) jobs) s n.

(** Every call that the program may make. *)
Fixpoint every {A} (P : op -> Prop) (u : user A) : Prop := match u with Return _ => True | Call o k => P o /\ forall x, every P (k x) end.
(** The calls that it does make keep to the discipline [K]. *)
Fixpoint obeys {A} (K : nat -> kind) (ts : list node) (u : user A) : Prop :=
  match u with
  | Return _ => True
  | Call o k => legal K (length ts) o /\ match vstep keccak pr ts o with Ok (ts', x) => obeys K ts' (k x) | Panic => True end
  end.

(** ** The Ethereum state in handles: handle 0 is the state trie, the program has the number of handles made, and for every account its
    fields and the handle of its storage trie (examples/ethereum_trie.rs:39-82 with [HashedPartialTrie] for all tries). It asks for roots
    at any time. *)
Record hkept : Type := HKept { h_nonce : N; h_balance : N; h_code : list N; h_storage : nat }.
Record hclient : Type := HClient { made : nat; holds : list (list N * hkept) }.
Inductive request : Type := Do (o : world_op) | AskRoot | AskStorage (a : list N).
Inductive answer : Type := Said (x : out) | Root (h : list N) | NoAccount.

Definition hwrite (c : hclient) (a : list N) (x : hkept) : user (hclient * answer) :=
  Call (HashOf (h_storage x)) (fun d =>
    match d with
    | Digest r =>
        Call (Insert 0 (from_h256_be (keccak a)) (Val (entry_rlp (h_nonce x) (h_balance x) r (h_code x))))
          (fun _ => Return (HClient (made c) (assign a x (holds c)), Said ODone))
    | _ => Return (c, NoAccount)
    end).
Definition value_of (d : obs) : answer := match d with Value v => Said (OValue v) | _ => NoAccount end.
Definition root_of (d : obs) : answer := match d with Digest h => Root h | _ => NoAccount end.
Definition hserve (c : hclient) (q : request) : user (hclient * answer) :=
  match q with
  | Do (SetAccount a n b code) =>
      match find a (holds c) with
      | Some x => hwrite c a (HKept n b code (h_storage x))
      | None => Call (New []) (fun _ => hwrite (HClient (S (made c)) (holds c)) a (HKept n b code (made c)))
      end
  | Do (SetSlot a s v) =>
      match find a (holds c) with
      | Some x =>
          Call (if v =? 0 then Delete (h_storage x) (from_h256_be (keccak s)) else Insert (h_storage x) (from_h256_be (keccak s)) (Val (word_rlp v)))
            (fun _ => hwrite c a x)
      | None => Return (c, Said ODone)
      end
  | Do (Destroy a) => Call (Delete 0 (from_h256_be (keccak a))) (fun _ => Return (HClient (made c) (remove a (holds c)), Said ODone))
  | Do (ReadAccount a) => Call (Get 0 (from_h256_be (keccak a))) (fun d => Return (c, value_of d))
  | Do (ReadSlot a s) =>
      match find a (holds c) with
      | Some x => Call (Get (h_storage x) (from_h256_be (keccak s))) (fun d => Return (c, value_of d))
      | None => Return (c, Said (OValue None))
      end
  | AskRoot => Call (HashOf 0) (fun d => Return (c, root_of d))
  | AskStorage a =>
      match find a (holds c) with
      | Some x => Call (HashOf (h_storage x)) (fun d => Return (c, root_of d))
      | None => Return (c, NoAccount)
      end
  end.
Fixpoint hserve_all (c : hclient) (qs : list request) : user (hclient * list answer) :=
  match qs with
  | [] => Return (c, [])
  | q :: qs' => ubind (hserve c q) (fun r => ubind (hserve_all (fst r) qs') (fun r' => Return (fst r', snd r :: snd r')))
  end.
Definition node_program (qs : list request) : user (hclient * list answer) := Call (New []) (fun _ => hserve_all (HClient 1 []) qs).

(** What they should be answered: the roots of the Yellow Paper for the state at that time. *)
Definition world_serve (w : world) (q : request) : world * answer :=
  match q with
  | Do o => (fst (world_step keccak w o), Said (snd (world_step keccak w o)))
  | AskRoot => (w, Root (state_root keccak w))
  | AskStorage a => (w, match find a w with Some x => Root (storage_root keccak (slots x)) | None => NoAccount end)
  end.
Fixpoint world_answers (w : world) (qs : list request) : list answer :=
  match qs with [] => [] | q :: qs' => snd (world_serve w q) :: world_answers (fst (world_serve w q)) qs' end.
Fixpoint world_after (w : world) (qs : list request) : world :=
  match qs with [] => w | q :: qs' => world_after (fst (world_serve w q)) qs' end.
Definition asked (qs : list request) : list world_op := flat_map (fun q => match q with Do o => [o] | AskRoot => [] | AskStorage a => [ReadAccount a] end) qs.
End Play.
