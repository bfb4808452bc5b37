(** Specification: RLP (Yellow Paper appendix B) and the Merkle Patricia trie root (appendix D) of a set of key/value pairs.
    Nothing in this file refers to the model of the code. Hex-prefix encoding (appendix C) is [yp_hp] in NibblesSpec.v. *)
From Verif Require Import Base NibblesSpec.
Open Scope N_scope.

(** ** Appendix B *)
Inductive rlp : Type :=
| RStr (b : list N)
| RList (l : list rlp).

(** Big-endian representation without leading zeros. *)
Definition BE (x : N) : list N := be_bytes (N.to_nat ((N.size x + 7) / 8)) x.

Definition len {A} (l : list A) : N := N.of_nat (length l).

Definition Rb (b : list N) : list N :=
  match b with
  | [x] => if x <? 128 then [x] else [128 + 1; x]
  | _ => if len b <? 56 then (128 + len b) :: b else (183 + len (BE (len b))) :: BE (len b) ++ b
  end.

Definition Rl (s : list N) : list N :=
  if len s <? 56 then (192 + len s) :: s else (247 + len (BE (len s))) :: BE (len s) ++ s.

Fixpoint RLP (x : rlp) : list N :=
  match x with
  | RStr b => Rb b
  | RList l => Rl (concat (map RLP l))
  end.

(** ** Appendix D: [J] is a list of pairs (rest of the key, value); the index [i] of the Yellow Paper is represented by
    removing the first [i] nibbles of every key. *)
Definition pairs : Type := list (list N * list N).

Fixpoint common (a b : list N) : list N :=
  match a, b with
  | x :: a', y :: b' => if x =? y then x :: common a' b' else []
  | _, _ => []
  end.

(** The longest common prefix of all keys. *)
Fixpoint common_all (J : pairs) : list N :=
  match J with
  | [] => []
  | [(k, _)] => k
  | (k, _) :: J' => common k (common_all J')
  end.

(** [{I in J : I0[i] = d}], with that nibble removed. *)
Fixpoint sub (d : N) (J : pairs) : pairs :=
  match J with
  | [] => []
  | (x :: k, v) :: J' => if x =? d then (k, v) :: sub d J' else sub d J'
  | ([], _) :: J' => sub d J'
  end.

(** The value of the pair whose key ends here, or the empty string. *)
Fixpoint val_at (J : pairs) : list N :=
  match J with
  | [] => []
  | ([], v) :: _ => v
  | _ :: J' => val_at J'
  end.

Definition drop (n : nat) (J : pairs) : pairs := map (fun e => (skipn n (fst e), snd e)) J.

Section Root.
Variable KEC : list N -> list N.

(** [n(J, i)] given [c(J, i)]. *)
Definition yp_n (c : pairs -> rlp) (J : pairs) : rlp :=
  match J with
  | [] => RStr []
  | _ => if len (RLP (c J)) <? 32 then c J else RStr (KEC (RLP (c J)))
  end.

(** [c(J, i)]; every recursive call has shorter keys, [fuel] bounds their length. *)
Fixpoint yp_c (fuel : nat) (J : pairs) : rlp :=
  match fuel with
  | O => RStr []
  | S f =>
      match J with
      | [(k, v)] => RList [RStr (yp_hp k true); RStr v]
      | _ =>
          match common_all J with
          | [] => RList (map (fun d => yp_n (yp_c f) (sub d J)) [0;1;2;3;4;5;6;7;8;9;10;11;12;13;14;15] ++ [RStr (val_at J)])
          | p => RList [RStr (yp_hp p false); yp_n (yp_c f) (drop (length p) J)]
          end
      end
  end.

Definition max_len (J : pairs) : nat := list_max (map (fun e => length (fst e)) J).

(** [TRIE(J)]. *)
Definition yp_root (J : pairs) : list N :=
  match J with
  | [] => KEC (RLP (RStr []))
  | _ => KEC (RLP (yp_c (S (max_len J)) J))
  end.
End Root.
