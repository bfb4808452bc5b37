(** The transactions of TxSpec.v with [HashedPartialTrie]: every version is a handle, and a program runs on a clone of its version. Specification vocabulary. *)
From Verif Require Import Base Nibbles NibblesSpec Trie TrieSpec Hashing Cache CacheSpec UserSpec TrieHistSpec FreeSpec RollSpec NetSpec TxSpec.
Open Scope N_scope.

Definition heard (x : obs) : out := match x with Value w => OValue w | _ => ODone end.
(** The program with handle [h], and a list of operations with it. *)
Fixpoint tx_user (h : nat) (p : tx) : user (list (op * out)) :=
  match p with
  | Finish => Return []
  | Do o next => Call (on h o) (fun x => ubind (tx_user h (next (heard x))) (fun l => Return ((o, heard x) :: l)))
  end.
Fixpoint ops_user (h : nat) (l : list op) : user unit :=
  match l with [] => Return tt | o :: l' => Call (on h o) (fun _ => ops_user h l') end.

(** [n] is the number of handles made so far: the next clone gets this number. *)
Definition commit_user (n : nat) (vs : list (nat * list nibbles)) (p : tx) (back : nat) : user (nat * list (nat * list nibbles) * option (list out)) :=
  match nth_error vs back, vs with
  | Some (old, _), (now, _) :: _ =>
      Call (Clone old) (fun _ =>
        ubind (tx_user n p) (fun l =>
          if clash (flat_map asked (map fst l)) (flat_map snd (firstn back vs)) then Return (S n, vs, None)
          else
            let w := compact (map fst l) in
            Call (Clone now) (fun _ => ubind (ops_user (S n) w) (fun _ => Return (S (S n), (S n, flat_map touched w) :: vs, Some (map snd l))))))
  | _, _ => Return (n, vs, None)
  end.
Fixpoint commits_user (n : nat) (vs : list (nat * list nibbles)) (cs : list (tx * nat)) : user (list (nat * list nibbles) * list (option (list out))) :=
  match cs with
  | [] => Return (vs, [])
  | (p, back) :: cs' => ubind (commit_user n vs p back) (fun r => ubind (commits_user (fst (fst r)) (snd (fst r)) cs') (fun q => Return (fst q, snd r :: snd q)))
  end.
(** All of it: build the first version, commit, ask for the root hash of the newest version. *)
Definition server (l : list (nibbles * val_or_hash)) (cs : list (tx * nat)) : user (list (option (list out)) * obs) :=
  Call (New l) (fun _ => ubind (commits_user 1 [(0%nat, [])] cs) (fun r => Call (HashOf (match fst r with (h, _) :: _ => h | [] => 0%nat end)) (fun d => Return (snd r, d)))).
