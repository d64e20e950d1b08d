(** * Model of the arrays of [dcdf/src/mmarray.rs] (the types [MMArray3I32],
    [MMArray3I64], [MMArray3F32], [MMArray3F64]) and of the buffers of
    [dcdf/src/mmbuffer.rs] that their reads write to. *)
From Verif Require Import Base GeomModel BitmapModel DacModel StreamModel ChunkModel NodeModel SuperModel.

(** ** Element types *)

(** [value as i32] for an i64 [value]. *)
Definition as_i32 (z : Z) : Z := ((z + 2 ^ 31) mod 2 ^ 32 - 2 ^ 31)%Z.

(** How an array type reads: the encoding it accepts, the value that fills a new
    array, and what [set] stores for a raw value when the buffer has the given
    number of fractional bits. *)
Record reader (A : Type) := mkReader { rd_enc : encoding; rd_zero : A; rd_set : nat -> Z -> A }.
Arguments mkReader {A}. Arguments rd_enc {A}. Arguments rd_zero {A}. Arguments rd_set {A}.

(** [MMBuffer0::set], mmbuffer.rs 19-34; [MMBuffer1I32::set], 173-175;
    [MMBuffer1I64::set], 155-157; [MMBuffer3I32::set], 504-506;
    [MMBuffer3I64::set], 530-532: the integer arms. *)
Definition reader_i32 : reader Z := mkReader EncI32 0%Z (fun _ v => as_i32 v).
Definition reader_i64 : reader Z := mkReader EncI64 0%Z (fun _ v => v).

Definition encoding_eqb (a b : encoding) : bool := (encoding_code a =? encoding_code b)%N.

(** ** Arrays of the ndarray crate, as far as they are used: indexing outside panics. *)
Record array1 (A : Type) := mkArray1 { a1_len : nat; a1_at : nat -> A }.
Record array3 (A : Type) := mkArray3 { a3_shape : nat * nat * nat; a3_at : nat -> nat -> nat -> A }.
Arguments mkArray1 {A}. Arguments a1_len {A}. Arguments a1_at {A}.
Arguments mkArray3 {A}. Arguments a3_shape {A}. Arguments a3_at {A}.

Definition write1 {A} (a : array1 A) (i : nat) (v : A) : res (array1 A) :=
  if i <? a1_len a then Ok (mkArray1 (a1_len a) (fun i' => if i' =? i then v else a1_at a i')) else Panic.
Definition write3 {A} (a : array3 A) (t r c : nat) (v : A) : res (array3 A) :=
  let '(n, h, w) := a3_shape a in
  if (t <? n) && (r <? h) && (c <? w) then
    Ok (mkArray3 (a3_shape a)
      (fun t' r' c' => if (t' =? t) && (r' =? r) && (c' =? c) then v else a3_at a t' r' c'))
  else Panic.

(** What the calls of a read leave in the array. *)
Definition run1 {A} (R : reader A) (a : array1 A) (l : list (nat * (Z * nat))) : res (array1 A) :=
  foldM (fun a '(i, (v, bits)) => write1 a i (rd_set R bits v)) a l.
Definition run3 {A} (R : reader A) (a : array3 A) (l : list call) : res (array3 A) :=
  foldM (fun a '(t, r, c, (v, bits)) => write3 a t r c (rd_set R bits v)) a l.

(** ** [MMArray3*], mmarray.rs 135-537 *)
Section Array.
  Context {A : Type}.
  Variables (R : reader A) (st : store) (fuel : nat).

  (** [new], mmarray.rs 140-146, 238-244, 337-348, 441-452. *)
  Definition arr_new (m : mmstruct) : res mmstruct :=
    if encoding_eqb (mm_encoding m) (rd_enc R) then Ok m else Panic.

  (** [check_bounds], mmarray.rs 218-229. *)
  Definition check_bounds (m : mmstruct) (instant row col : nat) : res unit :=
    s <- mm_shape m ;;
    let '(instants, rows, cols) := s in
    if (instants <=? instant) || (rows <=? row) || (cols <=? col) then Panic else Ok tt.

  (** [get], mmarray.rs 156-163; the float arrays give the buffer the number of
      fractional bits of the data, 357-364. *)
  Definition arr_get (m : mmstruct) (instant row col : nat) : res A :=
    _ <- check_bounds m instant row col ;;
    x <- mm_get st fuel m instant row col (mm_fbits m) ;;
    Ok (rd_set R (snd x) (fst x)).

  (** [cell], mmarray.rs 167-182. *)
  Definition arr_cell (m : mmstruct) (start end_ row col : nat) : res (array1 A) :=
    last <- usub end_ 1 ;;
    _ <- check_bounds m last row col ;;
    n <- usub end_ start ;;
    l <- mm_fill_cell st fuel m start end_ row col (mm_fbits m) ;;
    run1 R (mkArray1 n (fun _ => rd_zero R)) l.

  (** The check that starts [window] and [search]. *)
  Definition check_cube (m : mmstruct) (b : cube) : res unit :=
    t <- usub (c_end b) 1 ;; r <- usub (c_bottom b) 1 ;; c <- usub (c_right b) 1 ;; check_bounds m t r c.

  (** [window], mmarray.rs 186-199. [order] is the order in which the concurrent
      reads make their calls on the buffer: any rearrangement of them. *)
  Definition arr_window (order : list call -> list call) (m : mmstruct) (b : cube) : res (array3 A) :=
    _ <- check_cube m b ;;
    n <- usub (c_end b) (c_start b) ;;
    h <- usub (c_bottom b) (c_top b) ;;
    w <- usub (c_right b) (c_left b) ;;
    l <- mm_fill_window st fuel m b (mm_fbits m) ;;
    run3 R (mkArray3 (n, h, w) (fun _ _ _ => rd_zero R)) (order l).

  (** [search] of the integer arrays, mmarray.rs 206-215 and 304-313. *)
  Definition arr_search (m : mmstruct) (b : cube) (lower upper : Z) : res (list item) :=
    _ <- check_cube m b ;; mm_search st fuel m b lower upper.

  (** [search] of the float arrays, mmarray.rs 407-417 and 511-521, is [todo!()]. *)
End Array.
