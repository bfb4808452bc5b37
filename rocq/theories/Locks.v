(** The lock of every cell ([parking_lot::RwLock], partial_trie.rs:10, 290), one step for each of taking it, accessing the cell and
    releasing it. Cache.v has one atomic step for the three together. *)
From Verif Require Import Base Cache CacheSpec.
Open Scope N_scope.

(** Programs that take and release locks: [write] says which of [lock.write()] and [lock.read()]. *)
Inductive lprog (A : Type) : Type :=
| LRet (a : A)
| LFail
| LLock (write : bool) (c : N) (p : lprog A)
| LGet (c : N) (k : option (list N) -> lprog A)
| LPut (c : N) (o : option (list N)) (p : lprog A)
| LUnlock (write : bool) (c : N) (p : lprog A)
| LAlloc (k : N -> lprog A).
Arguments LRet {A}. Arguments LFail {A}. Arguments LLock {A}. Arguments LGet {A}. Arguments LPut {A}. Arguments LUnlock {A}.
Arguments LAlloc {A}.

(** The accesses to the cells in the code. partial_trie.rs:297 [let hash = *self.hash.read();], 373 [if let Some(h) = *self.hash.read()]
    (the guard lives to the end of this statement, which encodes no node), and the derived [Serialize] (287; [RwLock] takes the read
    lock and writes out the [Option<H256>]): the value is copied under a read lock. 307 [*self.hash.write() = v;]: the value is set
    under the write lock. A new cell has a new lock (315): here every cell has its lock, free, from the start. No panic happens under a lock, and no lock is taken under
    another one. *)
Fixpoint locked {A} (p : prog A) : lprog A :=
  match p with
  | Ret a => LRet a
  | Fail => LFail
  | Read c k => LLock false c (LGet c (fun o => LUnlock false c (locked (k o))))
  | Write c o p' => LLock true c (LPut c o (LUnlock true c (locked p')))
  | Alloc k => LAlloc (fun c => locked (k c))
  end.

(** The state of a lock: held by a writer, or by a number of readers. *)
Record lock : Type := Lock { writer : bool; readers : nat }.
Definition free : lock := Lock false 0.
Definition locks : Type := N -> lock.
Definition set_lock (L : locks) (c : N) (l : lock) : locks := fun x => if x =? c then l else L x.

(** [read()] waits for a writer to release, [write()] for everyone. [None]: the thread has to wait. *)
Definition acquire (write : bool) (l : lock) : option lock :=
  if writer l then None
  else if write then match readers l with O => Some (Lock true 0) | S _ => None end
  else Some (Lock false (S (readers l))).
Definition release (write : bool) (l : lock) : lock :=
  if write then Lock false (readers l) else Lock (writer l) (pred (readers l)).

(** The threads, the contents of the cells, the next free cell, the locks. *)
Record lpool (A : Type) : Type := LPool { lthreads : list (lprog A); lcells : store; lnext : N; llocks : locks }.
Arguments LPool {A}. Arguments lthreads {A}. Arguments lcells {A}. Arguments lnext {A}. Arguments llocks {A}.

(** One step of one thread. [None]: it waits for a lock, or has ended. *)
Definition lstep {A} (p : lprog A) (s : store) (n : N) (L : locks) : option (lprog A * store * N * locks) :=
  match p with
  | LRet _ | LFail => None
  | LLock write c p' => match acquire write (L c) with Some l => Some (p', s, n, set_lock L c l) | None => None end
  | LGet c k => Some (k (s c), s, n, L)
  | LPut c o p' => Some (p', update s c o, n, L)
  | LUnlock write c p' => Some (p', s, n, set_lock L c (release write (L c)))
  | LAlloc k => Some (k n, update s n None, n + 1, L)
  end.

(** A lock may keep a reader waiting although no writer holds it: [refuses w j]. A polite one does so only while a thread waits to
    write. [parking_lot] is of this kind. *)
Definition polite {A} (refuses : lpool A -> nat -> bool) : Prop :=
  forall w j, refuses w j = true ->
  exists c p i q, nth_error (lthreads w) j = Some (LLock false c p) /\ nth_error (lthreads w) i = Some (LLock true c q).

(** The scheduler lets thread [j] try a step. *)
Definition lsched_try {A} (refuses : lpool A -> nat -> bool) (w : lpool A) (j : nat) : option (lpool A) :=
  if refuses w j then None
  else match nth_error (lthreads w) j with
       | None => None
       | Some p => match lstep p (lcells w) (lnext w) (llocks w) with
                   | None => None
                   | Some (p', s', n', L') => Some (LPool (replace (lthreads w) j p') s' n' L')
                   end
       end.
Definition lsched_step {A} (refuses : lpool A -> nat -> bool) (w : lpool A) (j : nat) : lpool A :=
  match lsched_try refuses w j with Some w' => w' | None => w end.
Definition lsched_run {A} (refuses : lpool A -> nat -> bool) (w : lpool A) (js : list nat) : lpool A := fold_left (lsched_step refuses) js w.
(** The states of an infinite interleaving. *)
Definition lstates {A} (refuses : lpool A -> nat -> bool) (w : lpool A) (sched : nat -> nat) (m : nat) : lpool A :=
  lsched_run refuses w (map sched (seq 0 m)).

(** A pool of threads before the first step: all locks are free. *)
Definition lstart {A} (w : pool A) : lpool A := LPool (map locked (threads w)) (cells w) (next_cell w) (fun _ => free).

(** What the properties talk about. *)
Definition lfinished {A} (p : lprog A) : Prop := match p with LRet _ | LFail => True | _ => False end.
(** The thread is about to read or write the contents of the cell. *)
Definition about_to_read {A} (p : lprog A) (c : N) : Prop := match p with LGet c' _ => c' = c | _ => False end.
Definition about_to_write {A} (p : lprog A) (c : N) : Prop := match p with LPut c' _ _ => c' = c | _ => False end.
