(** Model of /repo/src/nibbles.rs and the two helpers it uses from /repo/src/utils.rs. *)
From Verif Require Import Base.
Open Scope N_scope.

(** utils.rs:50-52 [is_even] (file-local line numbers of src/utils.rs). *)
Definition is_even (n : N) : bool := N.land n 1 =? 0.

(** utils.rs:54-56 [create_mask_of_1s]: [(1 << amt) - 1] on [U512]; panics for [amt >= 512] because [0 - 1] does. *)
Definition create_mask_of_1s (amt : N) : res N := u512_sub (u512_shl 1 amt) 1.

(** nibbles.rs:151-157 [struct Nibbles]. [count : usize], [packed : U512]. *)
Record nibbles : Type := Nib { count : N; packed : N }.

(** nibbles.rs:107 derived [Default]. *)
Definition nib_default : nibbles := Nib 0 0.

(** nibbles.rs:107 derived [PartialEq]: both fields. *)
Definition nib_eqb (a b : nibbles) : bool := (count a =? count b) && (packed a =? packed b).

(** nibbles.rs:107 derived [Ord]: lexicographic on the fields, [count] first. *)
Definition nib_compare (a b : nibbles) : comparison :=
  match count a ?= count b with
  | Eq => packed a ?= packed b
  | c => c
  end.

(** ** Conversions *)

(** nibbles.rs:81-97 [impl_to_nibbles!]: [to_nibbles] for an unsigned integer type of [width] bits;
    [leading_zeros] is [width - bits]. *)
Definition to_nibbles (width v : N) : nibbles :=
  let leading_zeros := width - N.size v in
  Nib ((width - leading_zeros + 3) / 4) v.

(** nibbles.rs:37-45 [to_nibbles_byte_padded]. *)
Definition to_nibbles_byte_padded (width v : N) : nibbles :=
  let n := to_nibbles width v in
  Nib (((count n + 1) / 2) * 2) (packed n).

(** nibbles.rs:720-722 [get_num_nibbles_in_key]. *)
Definition get_num_nibbles_in_key (k : N) : N := (u512_size k + 3) / 4.

(** nibbles.rs:48-55. *)
Inductive bytes_err : Type := ZeroSizedKey | TooManyBytes (len : N).

(** nibbles.rs:225-243 [from_bytes]. *)
Definition from_bytes (bytes : list N) (conv_f : list N -> N) : result nibbles bytes_err :=
  match bytes with
  | [] => RErr ZeroSizedKey
  | _ =>
      if 33 <? N.of_nat (length bytes) then RErr (TooManyBytes (N.of_nat (length bytes)))
      else ROk (Nib (N.of_nat (length bytes) * 2) (conv_f bytes))
  end.

(** nibbles.rs:213-215 [from_bytes_be]. *)
Definition from_bytes_be (bytes : list N) := from_bytes bytes from_be.

(** nibbles.rs:221-223 [from_bytes_le]. *)
Definition from_bytes_le (bytes : list N) := from_bytes bytes from_le.

(** nibbles.rs:733-748 [from_h256_be], [from_h256_le], [from_h256_common]; an [H256] is its 32 bytes. *)
Definition from_h256_be (h : list N) : nibbles := Nib 64 (from_be h).
Definition from_h256_le (h : list N) : nibbles := Nib 64 (from_le h).

(** nibbles.rs:249-256 [from_nibble]. *)
Definition from_nibble (n : N) : res nibbles :=
  _ <- assert (n <=? 15) ;;
  Ok (Nib 1 n).

(** ** Reading and popping *)

(** nibbles.rs:262-270 [get_nibble]. *)
Definition get_nibble (pr : profile) (n : nibbles) (idx : N) : res N :=
  c1 <- usub pr (count n) idx ;;
  nib_idx <- usub pr c1 1 ;;
  byte <- u512_byte (packed n) (nib_idx / 2) ;;
  Ok (if is_even nib_idx then N.land byte 15 else N.shiftr (N.land byte 240) 4).

(** nibbles.rs:370-381 [get_nibble_range]. *)
Definition get_nibble_range (pr : profile) (n : nibbles) (start end_ : N) : res nibbles :=
  range_count <- usub pr end_ start ;;
  d <- usub pr (count n) end_ ;;
  shift_amt <- umul pr d 4 ;;
  rc4 <- umul pr range_count 4 ;;
  ones <- create_mask_of_1s rc4 ;;
  let mask := u512_shl ones shift_amt in
  Ok (Nib range_count (u512_shr (N.land (packed n) mask) shift_amt)).

(** nibbles.rs:297-299 [get_next_nibbles]. *)
Definition get_next_nibbles (pr : profile) (n : nibbles) (k : N) : res nibbles :=
  get_nibble_range pr n 0 k.

(** nibbles.rs:433-438 [get_min_truncate_amount_to_prevent_over_truncating]. *)
Definition min_truncate (n : nibbles) (k : N) : N := if k <=? count n then k else count n.

(** nibbles.rs:409-417 [truncate_n_nibbles_front_mut] (and 387-392, the non-mutating wrapper).
    [self.count - n] cannot underflow after the clamp. *)
Definition truncate_n_nibbles_front (pr : profile) (n : nibbles) (k : N) : res nibbles :=
  let k := min_truncate n k in
  mask_shift <- umul pr (count n - k) 4 ;;
  k4 <- umul pr k 4 ;;
  ones <- create_mask_of_1s k4 ;;
  let truncate_mask := u512_not (u512_shl ones mask_shift) in
  Ok (Nib (count n - k) (N.land (packed n) truncate_mask)).

(** nibbles.rs:423-431 [truncate_n_nibbles_back_mut] (and 398-403, the non-mutating wrapper). *)
Definition truncate_n_nibbles_back (pr : profile) (n : nibbles) (k : N) : res nibbles :=
  let k := min_truncate n k in
  shift_amt <- umul pr k 4 ;;
  ones <- create_mask_of_1s shift_amt ;;
  let truncate_mask := u512_not ones in
  Ok (Nib (count n - k) (u512_shr (N.land (packed n) truncate_mask) shift_amt)).

(** nibbles.rs:276-281 [pop_next_nibble_front]: the popped nibble and the updated [self]. *)
Definition pop_next_nibble_front (pr : profile) (n : nibbles) : res (N * nibbles) :=
  x <- get_nibble pr n 0 ;;
  n' <- truncate_n_nibbles_front pr n 1 ;;
  Ok (x, n').

(** nibbles.rs:287-292 [pop_next_nibble_back]. *)
Definition pop_next_nibble_back (pr : profile) (n : nibbles) : res (N * nibbles) :=
  i <- usub pr (count n) 1 ;;
  x <- get_nibble pr n i ;;
  n' <- truncate_n_nibbles_back pr n 1 ;;
  Ok (x, n').

(** nibbles.rs:305-310 [pop_nibbles_front]. *)
Definition pop_nibbles_front (pr : profile) (n : nibbles) (k : N) : res (nibbles * nibbles) :=
  r <- get_nibble_range pr n 0 k ;;
  n' <- truncate_n_nibbles_front pr n k ;;
  Ok (r, n').

(** nibbles.rs:538-545, the loop of [reverse]; [i * 4] cannot overflow in any feasible run. *)
Fixpoint reverse_loop (iters : nat) (i mask pk acc : N) : N :=
  match iters with
  | O => acc
  | S iters' =>
      let acc := u512_shl acc 4 in
      let nib := u512_shr (N.land pk mask) (i * 4) in
      reverse_loop iters' (i + 1) (u512_shl mask 4) pk (N.lor acc nib)
  end.

(** nibbles.rs:534-551 [reverse]. *)
Definition reverse (n : nibbles) : nibbles :=
  Nib (count n) (reverse_loop (N.to_nat (count n)) 0 15 (packed n) 0).

(** nibbles.rs:316-323 [pop_nibbles_back]. *)
Definition pop_nibbles_back (pr : profile) (n : nibbles) (k : N) : res (nibbles * nibbles) :=
  s <- usub pr (count n) k ;;
  r <- get_nibble_range pr n s (count n) ;;
  n' <- truncate_n_nibbles_back pr n k ;;
  Ok (reverse r, n').

(** ** Pushing and merging *)

(** nibbles.rs:750-753 [nibble_append_safety_asserts]. *)
Definition nibble_append_safety_asserts (n : nibbles) (x : N) : res unit :=
  _ <- assert (count n <? 64) ;;
  assert (x <? 16).

(** nibbles.rs:330-337 [push_nibble_front]; [count < 64] so [4 * count] and [count + 1] cannot overflow. *)
Definition push_nibble_front (n : nibbles) (x : N) : res nibbles :=
  _ <- nibble_append_safety_asserts n x ;;
  let shift_amt := 4 * count n in
  Ok (Nib (count n + 1) (N.lor (packed n) (u512_shl x shift_amt))).

(** nibbles.rs:344-349 [push_nibble_back]. *)
Definition push_nibble_back (n : nibbles) (x : N) : res nibbles :=
  _ <- nibble_append_safety_asserts n x ;;
  Ok (Nib (count n + 1) (N.lor (u512_shl (packed n) 4) x)).

(** nibbles.rs:356-364 [push_nibbles_front]. *)
Definition push_nibbles_front (pr : profile) (n m : nibbles) : res nibbles :=
  new_count <- uadd pr (count n) (count m) ;;
  _ <- assert (new_count <=? 64) ;;
  shift_amt <- umul pr 4 (count n) ;;
  Ok (Nib new_count (N.lor (packed n) (u512_shl (packed m) shift_amt))).

(** nibbles.rs:509-516 [merge_nibble]. *)
Definition merge_nibble (n : nibbles) (post : N) : res nibbles :=
  _ <- nibble_append_safety_asserts n post ;;
  Ok (Nib (count n + 1) (N.lor (u512_shl (packed n) 4) post)).

(** nibbles.rs:522-530 [merge_nibbles]. *)
Definition merge_nibbles (pr : profile) (n post : nibbles) : res nibbles :=
  new_count <- uadd pr (count n) (count post) ;;
  _ <- assert (new_count <=? 64) ;;
  sh <- umul pr (count post) 4 ;;
  Ok (Nib new_count (N.lor (u512_shl (packed n) sh) (packed post))).

(** ** Splitting *)

(** nibbles.rs:458-475 [split_at_idx]. *)
Definition split_at_idx (pr : profile) (n : nibbles) (idx : N) : res (nibbles * nibbles) :=
  post_count <- usub pr (count n) idx ;;
  pc4 <- umul pr post_count 4 ;;
  post_mask <- create_mask_of_1s pc4 ;;
  let post := Nib post_count (N.land (packed n) post_mask) in
  let pre_mask := u512_not post_mask in
  let pre := Nib idx (u512_shr (N.land (packed n) pre_mask) pc4) in
  Ok (pre, post).

(** nibbles.rs:481-489 [split_at_idx_prefix]. *)
Definition split_at_idx_prefix (pr : profile) (n : nibbles) (idx : N) : res nibbles :=
  d <- usub pr (count n) idx ;;
  shift_amt <- umul pr d 4 ;;
  i4 <- umul pr idx 4 ;;
  ones <- create_mask_of_1s i4 ;;
  let pre_mask := u512_shl ones shift_amt in
  Ok (Nib idx (u512_shr (N.land (packed n) pre_mask) shift_amt)).

(** nibbles.rs:495-503 [split_at_idx_postfix]. *)
Definition split_at_idx_postfix (pr : profile) (n : nibbles) (idx : N) : res nibbles :=
  postfix_count <- usub pr (count n) idx ;;
  pc4 <- umul pr postfix_count 4 ;;
  mask <- create_mask_of_1s pc4 ;;
  Ok (Nib postfix_count (N.land (packed n) mask)).

(** ** Comparing *)

(** nibbles.rs:442-444 [is_empty]. *)
Definition is_empty (n : nibbles) : bool := count n =? 0.

(** nibbles.rs:450: [(i..i+iters).all(|i| self.get_nibble(i) == other.get_nibble(i))], short-circuiting. *)
Fixpoint identical_loop (pr : profile) (iters : nat) (i : N) (a b : nibbles) : res bool :=
  match iters with
  | O => Ok true
  | S iters' =>
      x <- get_nibble pr a i ;;
      y <- get_nibble pr b i ;;
      if x =? y then identical_loop pr iters' (i + 1) a b else Ok false
  end.

(** nibbles.rs:448-451 [nibbles_are_identical_up_to_smallest_count]. *)
Definition identical_up_to_smallest (pr : profile) (a b : nibbles) : res bool :=
  identical_loop pr (N.to_nat (N.min (count a) (count b))) 0 a b.

(** nibbles.rs:587-593, the loop of the next function. *)
Fixpoint find_diff_loop (iters : nat) (i mask pa pb : N) : option N :=
  match iters with
  | O => None
  | S iters' =>
      if N.land pa mask =? N.land pb mask
      then find_diff_loop iters' (i + 1) (u512_shr mask 4) pa pb
      else Some i
  end.

(** nibbles.rs:573-596 [find_nibble_idx_that_differs_between_nibbles_equal_lengths]. *)
Definition find_diff_equal (pr : profile) (a b : nibbles) : res N :=
  _ <- assert (count a =? count b) ;;
  if count a =? 0 then Ok (count a)
  else
    sh <- umul pr (count a - 1) 4 ;;
    match find_diff_loop (N.to_nat (count a)) 0 (u512_shl 15 sh) (packed a) (packed b) with
    | Some i => Ok i
    | None => Ok (count a)
    end.

(** nibbles.rs:556-566 [find_nibble_idx_that_differs_between_nibbles_different_lengths]. *)
Definition find_diff (pr : profile) (a b : nibbles) : res N :=
  let m := N.min (count a) (count b) in
  a' <- get_nibble_range pr a 0 m ;;
  b' <- get_nibble_range pr b 0 m ;;
  find_diff_equal pr a' b'.

(** ** Bytes, hex text and hex-prefix encoding *)

(** nibbles.rs:715-717 [min_bytes]. *)
Definition min_bytes (pr : profile) (n : nibbles) : res N :=
  c <- uadd pr (count n) 1 ;; Ok (c / 2).

(** nibbles.rs:726-731 [bytes_be]; [64 - min_bytes()] underflows (Debug) or gives a bad slice range (Release):
    a panic in both profiles. *)
Definition bytes_be (pr : profile) (n : nibbles) : res (list N) :=
  mb <- min_bytes pr n ;;
  if 64 <? mb then Panic
  else Ok (skipn (64 - N.to_nat mb) (be_bytes 64 (packed n))).

(** Crate [hex]: [hex::encode] / [hex::encode_upper], as ASCII codes. *)
Definition hex_char (upper : bool) (d : N) : N :=
  if d <? 10 then 48 + d else if upper then 55 + d else 87 + d.
Definition hex_encode (upper : bool) (bytes : list N) : list N :=
  flat_map (fun b => [hex_char upper (b / 16); hex_char upper (b mod 16)]) bytes.

(** nibbles.rs:599-619 [as_hex_str] ([LowerHex]/[Display]/[UpperHex], 159-206); text as ASCII codes, 48 120 is "0x". *)
Definition as_hex_str (pr : profile) (upper : bool) (n : nibbles) : res (list N) :=
  mb <- min_bytes pr n ;;
  if 64 <? mb then Panic
  else
    let raw := hex_encode upper (skipn (64 - N.to_nat mb) (be_bytes 64 (packed n))) in
    Ok ([48; 120] ++ (if is_even (count n) then raw else skipn 1 raw)).

(** nibbles.rs:756-764 [try_into_u256]: [U512 -> U256] [try_into().unwrap()] panics if it does not fit. The error is a message with the
    [Debug] text of the key (nibbles.rs:167-174); here it is the count and the hex text that are put into the message (Errors.v). *)
Definition try_into_u256 (pr : profile) (n : nibbles) : res (result N (N * list N)) :=
  if count n <=? 64 then
    if packed n <? 2 ^ 256 then Ok (ROk (packed n)) else Panic
  else
    hex <- as_hex_str pr false n ;; Ok (RErr (count n, hex)).

(** Crate [hex]/[uint]: value of one hex digit character. *)
Definition hex_val (c : N) : option N :=
  if (48 <=? c) && (c <=? 57) then Some (c - 48)
  else if (97 <=? c) && (c <=? 102) then Some (c - 87)
  else if (65 <=? c) && (c <=? 70) then Some (c - 55)
  else None.

Fixpoint hex_vals (s : list N) : option (list N) :=
  match s with
  | [] => Some []
  | c :: s' =>
      match hex_val c, hex_vals s' with
      | Some d, Some ds => Some (d :: ds)
      | _, _ => None
      end
  end.

(** [str::strip_prefix("0x").unwrap_or(s)]. *)
Definition strip_0x (s : list N) : list N :=
  match s with
  | a :: b :: s' => if (a =? 48) && (b =? 120) then s' else s
  | _ => s
  end.

(** Crate [uint]: [U512::from_str]: optional "0x", at most 128 hex digits. *)
Definition u512_from_str (s : list N) : result N unit :=
  let s := strip_0x s in
  if 128 <? N.of_nat (length s) then RErr tt
  else match hex_vals s with
       | Some ds => ROk (fold_left (fun a d => a * 16 + d) ds 0)
       | None => RErr tt
       end.

(** [chars().position(|c| c != '0').unwrap_or(len)]. *)
Fixpoint leading_zero_chars (s : list N) : N :=
  match s with
  | c :: s' => if c =? 48 then 1 + leading_zero_chars s' else 0
  | [] => 0
  end.

(** nibbles.rs:181-193 [from_str]; ASCII text only. *)
Definition nib_from_str (s : list N) : result nibbles unit :=
  let stripped := strip_0x s in
  let leading_zeros := leading_zero_chars stripped in
  match u512_from_str s with
  | ROk pk => ROk (Nib (leading_zeros + get_num_nibbles_in_key pk) pk)
  | RErr e => RErr e
  end.

(** nibbles.rs:624-648 [to_hex_prefix_encoding]. An out-of-range [flag_byte_idx] underflows in Debug and is an
    out-of-bounds index in Release: a panic in both. *)
Definition to_hex_prefix_encoding (pr : profile) (n : nibbles) (is_leaf : bool) : res (list N) :=
  num_nibbles <- uadd pr (count n) 1 ;;
  nn1 <- uadd pr num_nibbles 1 ;;
  let num_bytes := nn1 / 2 in
  if (65 <? num_bytes) || (num_bytes =? 0) then Panic
  else
    let flag_byte_idx := (65 - N.to_nat num_bytes)%nat in
    let odd_bit := if is_even (count n) then 0 else 1 in
    let term_bit := if is_leaf then 1 else 0 in
    let flags := N.shiftl (N.lor odd_bit (N.shiftl term_bit 1)) 4 in
    let bytes := 0 :: be_bytes 64 (packed n) in
    match skipn flag_byte_idx bytes with
    | b :: rest => Ok (N.lor b flags :: rest)
    | [] => Panic
    end.

(** nibbles.rs:57-64; [TooLong] carries the hex text of the input and its length. *)
Inductive hp_err : Type := InvalidFlags (flags : N) | TooLong (hex : list N) (len : N).

(** nibbles.rs:707-712 [write_byte_iter_to_byte_buf]: writes consecutive bytes from index [i]; the index never leaves
    the 64 byte buffer (at most 1 + 32 + 1 bytes are written). Returns the buffer and the new index. *)
Definition write_bytes (buf : list N) (bytes : list N) (i : nat) : list N * nat :=
  (firstn i buf ++ bytes ++ skipn (i + length bytes) buf, (i + length bytes)%nat).

(** nibbles.rs:651-705 [from_hex_prefix_encoding]; the empty input panics on [hex_prefix_bytes[0]]. *)
Definition from_hex_prefix_encoding (hp : list N) : res (result nibbles hp_err) :=
  if 33 <? N.of_nat (length hp) then Ok (RErr (TooLong (hex_encode false hp) (N.of_nat (length hp))))
  else
    match hp with
    | [] => Panic
    | b0 :: rest =>
        let flag_bits := N.shiftr (N.land b0 240) 4 in
        let dispatch :=
          (* (is_leaf, count), count = len * 2 + tot_nib_modifier *)
          let len2 := N.of_nat (length hp) * 2 in
          if flag_bits =? 0 then Some (false, len2 - 2)
          else if flag_bits =? 1 then Some (false, len2 - 1)
          else if flag_bits =? 2 then Some (true, len2)
          else if flag_bits =? 3 then Some (true, len2 + 1)
          else None in
        match dispatch with
        | None => Ok (RErr (InvalidFlags flag_bits))
        | Some (is_leaf, cnt) =>
            let odd_nib_count := N.land cnt 1 =? 1 in
            let buf0 := repeat 0 64 in
            let '(buf1, i1) := if odd_nib_count then write_bytes buf0 [N.land b0 15] 0 else (buf0, O) in
            let '(buf2, i2) := write_bytes buf1 (firstn 32 rest) i1 in
            let '(buf3, _) := if is_leaf then write_bytes buf2 [16] i2 else (buf2, i2) in
            let tot_bytes := (cnt + 1) / 2 in
            Ok (ROk (Nib cnt (from_be (firstn (N.to_nat tot_bytes) buf3))))
        end
    end.
