(** A program that follows a trie of which it knows only the root hash, made of calls of the crate and of walks over nodes ([Node] is a public type, so a user can write them). It computes
    what FollowSpec.v and FollowAnySpec.v only state. Specification vocabulary for C92. *)
From Verif Require Import Base Nibbles NibblesSpec Trie TrieSpec Hashing JsonText WitnessSpec TxSpec TrieHistSpec FollowSpec.
Open Scope N_scope.

Definition is_hash (t : node) : bool := match t with Hash _ => true | _ => false end.

(** Along the key there is a hash node. *)
Fixpoint meets_hash (t : node) (k : list N) {struct t} : bool :=
  match t with
  | Hash _ => true
  | Branch ch _ => match k with [] => false | d :: k' => at_child (fun c => meets_hash c k') false ch (N.to_nat d) end
  | Extension n c => match strip (nseq n) k with Some k' => meets_hash c k' | None => false end
  | _ => false
  end.

(** The key ends within an extension node, or is shorter than what is left of it. *)
Fixpoint ends_early (t : node) (k : list N) {struct t} : bool :=
  match t with
  | Branch ch _ => match k with [] => false | d :: k' => at_child (fun c => ends_early c k') false ch (N.to_nat d) end
  | Extension n c => (length k <? length (nseq n))%nat || match strip (nseq n) k with Some k' => ends_early c k' | None => false end
  | _ => false
  end.

(** A delete of the key does not leave a hash node over as the only child of a branch. *)
Fixpoint delete_ok (t : node) (k : list N) {struct t} : bool :=
  match t with
  | Branch ch _ =>
      match k with
      | [] => true
      | d :: k' =>
          at_child (fun c => delete_ok c k') true ch (N.to_nat d) &&
          match nth (N.to_nat d) ch Empty with
          | Leaf n _ => negb (key_eqb (nseq n) k') || (2 <? occupied ch [])%nat || negb (existsb is_hash ch)
          | _ => true
          end
      end
  | Extension n c => match strip (nseq n) k with Some k' => delete_ok c k' | None => true end
  | _ => true
  end.

(** The checks before an operation, when keys have one length; and for any keys, with the answer. *)
Definition check (s : node) (o : op) : bool :=
  match o with OGet k => negb (meets_hash s (nseq k)) | ODelete k => delete_ok s (nseq k) | _ => true end.
Definition check_any (s : node) (o : op) (x : out) : bool :=
  match o with
  | OGet k => match x with OValue None => negb (ends_early s (nseq k)) && negb (meets_hash s (nseq k)) | _ => true end
  | ODelete k => delete_ok s (nseq k)
  | _ => true
  end.

(** One program on one trie; [None] if it is refused or panics. *)
Fixpoint checked_run (fine : node -> op -> out -> bool) (pr : profile) (s : node) (p : tx) : option (node * list out) :=
  match p with
  | Finish => Some (s, [])
  | Do o next =>
      match trie_op pr s o with
      | Ok (s1, x) =>
          if fine s o x then match checked_run fine pr s1 (next x) with Some (s2, xs) => Some (s2, x :: xs) | None => None end else None
      | Panic => None
      end
  end.

(** One round: read the text, check it and its root hash, run the program, compute the next root hash. *)
Definition one_round (fine : node -> op -> out -> bool) (keccak : list N -> list N) (pr : profile) (limit : option nat) (r : list N) (R : round) : option (list out * list N) :=
  match load_text limit (received R) with
  | None => None
  | Some s =>
      if checked 64 s then
        match hash_trie keccak pr s with
        | Ok r0 =>
            if key_eqb r0 r then
              match checked_run fine pr s (program R) with
              | Some (s', xs) => match hash_trie keccak pr s' with Ok r1 => Some (xs, r1) | Panic => None end
              | None => None
              end
            else None
        | Panic => None
        end
      else None
  end.
Fixpoint follower (fine : node -> op -> out -> bool) (keccak : list N -> list N) (pr : profile) (limit : option nat) (r : list N) (rs : list round) : option (list (list out) * list N) :=
  match rs with
  | [] => Some ([], r)
  | R :: rs' =>
      match one_round fine keccak pr limit r R with
      | Some (xs, r1) => match follower fine keccak pr limit r1 rs' with Some (xss, r2) => Some (xs :: xss, r2) | None => None end
      | None => None
      end
  end.
(** For keys of one length; for any keys. *)
Definition follow := follower (fun s o _ => check s o).
Definition follow_any := follower check_any.
