(** * Model of [dcdf/src/bitmap.rs]. *)
From Verif Require Import Base.

(** [u32::count_ones] (called at bitmap.rs 101, 200 and 208). *)
Fixpoint pos_popcount (p : positive) : nat :=
  match p with
  | xH => 1
  | xO q => pos_popcount q
  | xI q => S (pos_popcount q)
  end.
Definition popcount (n : N) : nat :=
  match n with N0 => 0 | Npos p => pos_popcount p end.

(** [div_ceil], bitmap.rs 221-231. *)
Definition div_ceil (a b : nat) : nat := if a mod b =? 0 then a / b else a / b + 1.

(** [struct BitMapBuilder], bitmap.rs 29-32. Bytes are [N]. *)
Record builder := mkBuilder { b_length : nat; b_bytes : list N }.

(** [BitMapBuilder::new], bitmap.rs 36-41. *)
Definition builder_new : builder := mkBuilder 0 [].

(** [BitMapBuilder::push], bitmap.rs 44-62.
    [removelast]/[last] stand for [self.bitmap[last] += ...]; the Vec is not
    empty there because [position <> 0]. *)
Definition builder_push (b : builder) (bit : bool) : builder :=
  let position := b_length b mod 8 in
  let shift := 7 - position in
  let bytes :=
    if position =? 0 then b_bytes b ++ [if bit then N.shiftl 1 (N.of_nat shift) else 0%N]
    else if bit
    then removelast (b_bytes b) ++ [(last (b_bytes b) 0 + N.shiftl 1 (N.of_nat shift))%N]
    else b_bytes b in
  mkBuilder (S (b_length b)) bytes.

(** [struct BitMap], bitmap.rs 117-122. *)
Record bitmap := mkBitmap
  { bm_length : nat; bm_k : nat; bm_index : list N; bm_words : list N }.

(** Body of the loop converting bytes to words, bitmap.rs 80-94. State:
    [(bitmap32, shift, word_index)]. *)
Definition words_step (st : list N * nat * nat) (byte : N) : res (list N * nat * nat) :=
  let '(w, shift, wi) := st in
  let w := if shift =? 24 then w ++ [0%N] else w in
  old <- nth_res w wi ;;
  let word := (N.shiftl byte (N.of_nat shift) mod 2 ^ 32)%N in
  let w := list_set w wi (N.lor old word) in
  Ok (if shift =? 0 then (w, 24, S wi) else (w, shift - 8, wi)).

(** Index generation, bitmap.rs 97-104. [count] is a u32 in the code; here it
    is not truncated (it cannot exceed the number of bits). *)
Fixpoint index_loop (words : list N) (k : nat) (blocks : list nat) (count : N) : res (list N) :=
  match blocks with
  | [] => Ok []
  | i :: rest =>
      ws <- mapM (fun j => nth_res words (i * k + j)) (seq 0 k) ;;
      let count := (count + N.of_nat (sum_nat (map popcount ws)))%N in
      tl <- index_loop words k rest count ;;
      Ok (count :: tl)
  end.

(** [BitMapBuilder::finish], bitmap.rs 66-112. *)
Definition builder_finish (b : builder) : res bitmap :=
  let k := 4 in
  let blocks := b_length b / 32 / k in
  let nwords := div_ceil (b_length b) 32 in
  words <- (if 0 <? nwords
            then st <- foldM words_step ([], 24, 0) (b_bytes b) ;; Ok (fst (fst st))
            else Ok []) ;;
  index <- index_loop words k (seq 0 blocks) 0 ;;
  Ok (mkBitmap (b_length b) k index words).

(** [BitMap::get], bitmap.rs 176-183. *)
Definition bm_get (m : bitmap) (i : nat) : res bool :=
  let word_index := i / 32 in
  let bit_index := i mod 32 in
  let shift := 31 - bit_index in
  word <- nth_res (bm_words m) word_index ;;
  Ok (N.testbit word (N.of_nat shift)).

(** [BitMap::rank], bitmap.rs 186-212. *)
Definition bm_rank (m : bitmap) (i : nat) : res nat :=
  if bm_length m <? i then Panic
  else
    block <- udiv (i / 32) (bm_k m) ;;
    count <- (if 0 <? block then nth_res (bm_index m) (block - 1) else Ok 0%N) ;;
    let start := block * bm_k m in
    let end_ := i / 32 in
    ws <- slice_res (bm_words m) start end_ ;;
    let count := N.to_nat count + sum_nat (map popcount ws) in
    let leftover := i - end_ * 32 in
    if 0 <? leftover then
      word <- nth_res (bm_words m) end_ ;;
      Ok (count + popcount (N.shiftr word (N.of_nat (32 - leftover))))
    else Ok count.

(** [BitMap::rank0], bitmap.rs 215-217. *)
Definition bm_rank0 (m : bitmap) (i : nat) : res nat :=
  r <- bm_rank m i ;; usub i r.

(** Building a bitmap from a sequence of pushes (the pattern
    [let mut b = BitMapBuilder::new(); b.push(..); ...; b.finish()]). *)
Definition bitmap_of (bits : list bool) : res bitmap :=
  builder_finish (fold_left builder_push bits builder_new).
