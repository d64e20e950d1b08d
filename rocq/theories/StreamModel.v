(** * Model of [dcdf/src/extio.rs] and of the [Serialize]/[Cacheable]
    implementations of bitmaps, compressed arrays, snapshots and logs.

    A stream being read is the list of its remaining bytes; a byte is an [N]
    below 256.  Writing returns the bytes written (writing to a stream that
    fails is not modelled). *)
From Verif Require Import Base BitmapModel DacModel SnapshotModel LogModel.

Definition bytes := list N.
Definition reader (A : Type) := bytes -> res (A * bytes).

Definition rret {A} (a : A) : reader A := fun s => Ok (a, s).
Definition rbind {A B} (r : reader A) (f : A -> reader B) : reader B :=
  fun s => x <- r s ;; f (fst x) (snd x).
Definition rfail {A} (x : res A) : reader A := fun s => a <- x ;; Ok (a, s).
Declare Scope rd_scope.
Delimit Scope rd_scope with rd.
Notation "x <~ e ;; f" := (rbind e (fun x => f))
  (at level 61, e at next level, right associativity) : rd_scope.

(** [for _ in 0..n { v.push(read()?) }]. *)
Fixpoint rmany {A} (n : nat) (r : reader A) : reader (list A) :=
  match n with
  | 0 => rret []
  | S n' => rbind r (fun x => rbind (rmany n' r) (fun xs => rret (x :: xs)))
  end.

(** [AsyncReadExt::read_exact]: fails on a short stream. *)
Definition read_exact (n : nat) : reader bytes :=
  fun s => if n <=? length s then Ok (firstn n s, skipn n s) else Err EIo.

(** [stream.take(n).read_to_end(&mut bytes)]: a short stream is not an error. *)
Definition read_take (n : nat) : reader bytes := fun s => Ok (firstn n s, skipn n s).

(** [u32::to_be_bytes] and friends; [u32::from_be_bytes]. *)
Fixpoint le_bytes (n : nat) (v : N) : bytes :=
  match n with
  | 0 => []
  | S n' => (v mod 256)%N :: le_bytes n' (v / 256)%N
  end.
Definition be_bytes (n : nat) (v : N) : bytes := rev (le_bytes n v).
Definition be_value (b : bytes) : N := fold_left (fun acc x => (acc * 256 + x)%N) b 0%N.

(** [read_byte], extio.rs 57-62; [read_u16] 65-70; [read_u32] 89-94. Unsigned
    integers are [N]. *)
Definition read_byte : reader N := rbind (read_exact 1) (fun b => rret (be_value b)).
Definition read_u16 : reader N := rbind (read_exact 2) (fun b => rret (be_value b)).
Definition read_u32 : reader N := rbind (read_exact 4) (fun b => rret (be_value b)).

(** Two's complement. *)
Definition to_u (bits : Z) (z : Z) : N := Z.to_N (z mod 2 ^ bits).
Definition of_u (bits : Z) (n : N) : Z :=
  ((Z.of_N n + 2 ^ (bits - 1)) mod 2 ^ bits - 2 ^ (bits - 1))%Z.

(** [read_i32], extio.rs 73-78; [read_i64], extio.rs 81-86. *)
Definition read_i32 : reader Z := rbind (read_exact 4) (fun b => rret (of_u 32 (be_value b))).
Definition read_i64 : reader Z := rbind (read_exact 8) (fun b => rret (of_u 64 (be_value b))).

(** [read_f32], extio.rs 97-102; [read_f64], 105-110. Floats are given by their
    IEEE bit patterns. *)
Definition read_f32 : reader N := rbind (read_exact 4) (fun b => rret (be_value b)).
Definition read_f64 : reader N := rbind (read_exact 8) (fun b => rret (be_value b)).

(** [write_byte], extio.rs 196-201, [write_u16] 204-209, [write_i32] 212-217,
    [write_i64] 220-225, [write_u32] 228-233, [write_f32] 236-241, [write_f64]
    244-249. The argument is already of the machine type: [be_bytes] keeps the
    low bytes, which is what the callers' [as u8]/[as u32] casts do. *)
Definition write_byte (v : N) : bytes := be_bytes 1 v.
Definition write_u16 (v : N) : bytes := be_bytes 2 v.
Definition write_u32 (v : N) : bytes := be_bytes 4 v.
Definition write_i32 (z : Z) : bytes := be_bytes 4 (to_u 32 z).
Definition write_i64 (z : Z) : bytes := be_bytes 8 (to_u 64 z).
Definition write_f32 (v : N) : bytes := be_bytes 4 v.
Definition write_f64 (v : N) : bytes := be_bytes 8 v.

(** [x as u32] / [x as u8] of a usize, and back [as usize]. *)
Definition write_usize32 (n : nat) : bytes := write_u32 (N.of_nat n).
Definition write_usize8 (n : nat) : bytes := write_byte (N.of_nat n).
Definition read_usize32 : reader nat := rbind read_u32 (fun v => rret (N.to_nat v)).
Definition read_usize8 : reader nat := rbind read_byte (fun v => rret (N.to_nat v)).

(** ** Bitmaps *)

(** [BitMap::write_to], bitmap.rs 128-138. *)
Definition bitmap_write (m : bitmap) : bytes :=
  write_usize32 (bm_length m) ++ write_usize32 (bm_k m) ++
  flat_map write_u32 (bm_index m) ++ flat_map write_u32 (bm_words m).

(** [BitMap::read_from], bitmap.rs 142-164. *)
Definition bitmap_read : reader bitmap := (
  length <~ read_usize32 ;;
  k <~ read_usize32 ;;
  blocks <~ rfail (udiv (length / 32) k) ;;
  index <~ rmany blocks read_u32 ;;
  words <~ rmany (div_ceil length 32) read_u32 ;;
  rret (mkBitmap length k index words))%rd.

(** [BitMap::size], bitmap.rs 169-171. *)
Definition bitmap_size (m : bitmap) : nat := 4 + 4 + length (bm_index m) * 4 + length (bm_words m) * 4.

(** ** Compressed arrays *)

(** Body of the writing loop, dac.rs 39-42. *)
Definition dac_level_write (l : bitmap * list N) : bytes := bitmap_write (fst l) ++ snd l.

(** [Dac::write_to], dac.rs 37-44. *)
Definition dac_write (d : dac) : bytes :=
  write_usize8 (length d) ++ flat_map dac_level_write d.

(** Body of the reading loop, dac.rs 51-60. *)
Definition dac_level_read : reader (bitmap * list N) := (
  bm <~ bitmap_read ;;
  bs <~ read_take (bm_length bm) ;;
  rret (bm, bs))%rd.

(** [Dac::read_from], dac.rs 48-63. *)
Definition dac_read : reader dac := (
  n <~ read_usize8 ;;
  rmany n dac_level_read)%rd.

(** [Dac::size], dac.rs 68-74. *)
Definition dac_size (d : dac) : nat :=
  1 + sum_nat (map (fun l => bitmap_size (fst l) + length (snd l)) d).

(** ** Snapshots *)

(** [Snapshot::write_to], snapshot.rs 48-58. *)
Definition snapshot_write (s : snapshot) : bytes :=
  write_usize8 (s_k s) ++ write_usize32 (s_rows s) ++ write_usize32 (s_cols s) ++
  write_usize32 (s_sidelen s) ++ bitmap_write (s_nodemap s) ++ dac_write (s_max s) ++
  dac_write (s_min s).

(** [Snapshot::read_from], snapshot.rs 62-81. *)
Definition snapshot_read : reader snapshot := (
  k <~ read_usize8 ;;
  rows <~ read_usize32 ;;
  cols <~ read_usize32 ;;
  sidelen <~ read_usize32 ;;
  nodemap <~ bitmap_read ;;
  max <~ dac_read ;;
  min <~ dac_read ;;
  rret (mkSnapshot nodemap max min k rows cols sidelen))%rd.

(** [Snapshot::size], snapshot.rs 87-92. *)
Definition snapshot_size (s : snapshot) : nat :=
  1 + 4 + 4 + 4 + bitmap_size (s_nodemap s) + dac_size (s_max s) + dac_size (s_min s).

(** ** Logs *)

(** [Log::write_to], log.rs 53-64. *)
Definition log_write (l : log) : bytes :=
  write_usize8 (l_k l) ++ write_usize32 (l_rows l) ++ write_usize32 (l_cols l) ++
  write_usize32 (l_sidelen l) ++ bitmap_write (l_nodemap l) ++ bitmap_write (l_equal l) ++
  dac_write (l_max l) ++ dac_write (l_min l).

(** [Log::read_from], log.rs 68-89. *)
Definition log_read : reader log := (
  k <~ read_usize8 ;;
  rows <~ read_usize32 ;;
  cols <~ read_usize32 ;;
  sidelen <~ read_usize32 ;;
  nodemap <~ bitmap_read ;;
  equal <~ bitmap_read ;;
  max <~ dac_read ;;
  min <~ dac_read ;;
  rret (mkLog nodemap equal max min k rows cols sidelen))%rd.

(** [Log::size], log.rs 95-97. *)
Definition log_size (l : log) : nat :=
  1 + 4 + 4 + 4 + bitmap_size (l_nodemap l) + bitmap_size (l_equal l) + dac_size (l_max l) +
  dac_size (l_min l).

(** ** Strings and content identifiers *)

(** [String]s are their UTF-8 bytes. [read_to_string] checks this (the
    standard library's validation, following the table of the Unicode
    standard). *)
Definition cont (b : N) : bool := ((128 <=? b) && (b <=? 191))%N.
Definition byte_in (a b x : N) : bool := ((a <=? x) && (x <=? b))%N.
Fixpoint utf8_valid_f (fuel : nat) (s : bytes) : bool :=
  match fuel with
  | 0 => match s with [] => true | _ => false end
  | S fuel' =>
    match s with
    | [] => true
    | a :: s1 =>
      if (a <? 128)%N then utf8_valid_f fuel' s1
      else if byte_in 194 223 a then
        match s1 with b :: s2 => cont b && utf8_valid_f fuel' s2 | _ => false end
      else if byte_in 224 239 a then
        match s1 with
        | b :: c :: s2 =>
            (if (a =? 224)%N then byte_in 160 191 b else if (a =? 237)%N then byte_in 128 159 b else cont b)
            && cont c && utf8_valid_f fuel' s2
        | _ => false end
      else if byte_in 240 244 a then
        match s1 with
        | b :: c :: d :: s2 =>
            (if (a =? 240)%N then byte_in 144 191 b else if (a =? 244)%N then byte_in 128 143 b else cont b)
            && cont c && cont d && utf8_valid_f fuel' s2
        | _ => false end
      else false
    end
  end.
Definition utf8_valid (s : bytes) : bool := utf8_valid_f (length s) s.

(** [write_str], extio.rs 260-265. *)
Definition write_str (s : bytes) : bytes := write_usize8 (length s) ++ s.

(** [read_str], extio.rs 154-160. *)
Definition read_str : reader bytes := (
  len <~ read_usize8 ;;
  s <~ read_take len ;;
  if utf8_valid s then rret s else rfail (Err EUtf8))%rd.

(** LEB128 of the unsigned-varint crate: [encode::u64] and [aio::read_u64]
    (at most ten bytes; a final zero byte is not minimal and refused). *)
Fixpoint varint_enc (fuel : nat) (n : N) : bytes :=
  match fuel with
  | 0 => [N.land n 127]
  | S fuel' => if (n <? 128)%N then [n] else N.lor (N.land n 127) 128 :: varint_enc fuel' (N.shiftr n 7)
  end.
Definition varint_encode (n : N) : bytes := varint_enc 9 n.
Fixpoint varint_dec (fuel : nat) (i : N) (acc : N) : reader N :=
  match fuel with
  | 0 => rfail (Err ECid)
  | S fuel' =>
      rbind read_byte (fun b =>
        let n := N.lor acc (N.shiftl (N.land b 127) (7 * i) mod 2 ^ 64) in
        if (b <? 128)%N then
          if ((b =? 0) && (0 <? i))%N then rfail (Err ECid) else rret n
        else varint_dec fuel' (i + 1)%N n)
  end.
Definition varint_read : reader N := varint_dec 10 0 0.

(** The cid crate's [Cid] with its [to_bytes]: version 0 is a bare sha2-256
    multihash, version 1 is version, codec, multihash. *)
Inductive cid :=
| CidV0 (digest : bytes)
| CidV1 (codec code : N) (digest : bytes).

Definition cid_bytes (c : cid) : bytes :=
  match c with
  | CidV0 d => [18; 32]%N ++ d
  | CidV1 codec code d =>
      varint_encode 1 ++ varint_encode codec ++ varint_encode code ++
      varint_encode (N.of_nat (length d)) ++ d
  end.

(** [Cid::try_from(bytes)] ([Cid::read_bytes] of the cid crate, 64 byte
    multihashes; bytes after the CID are ignored there). *)
Definition cid_parse (b : bytes) : res cid :=
  x <- varint_read b ;; let '(version, s) := x in
  x <- varint_read s ;; let '(codec, s) := x in
  if ((version =? 18) && (codec =? 32))%N then
    if 32 <=? length s then Ok (CidV0 (firstn 32 s)) else Err ECid
  else if (version =? 1)%N then
    x <- varint_read s ;; let '(code, s) := x in
    x <- varint_read s ;; let '(size, s) := x in
    if (size <=? 64)%N && (N.to_nat size <=? length s)
    then Ok (CidV1 codec code (firstn (N.to_nat size) s)) else Err ECid
  else Err ECid.

(** [write_cid], extio.rs 252-257. *)
Definition write_cid (c : cid) : bytes := cid_bytes c.

(** [read_cid], extio.rs 113-151. *)
Definition read_cid : reader cid := (
  version <~ varint_read ;;
  codec <~ varint_read ;;
  if ((version =? 18) && (codec =? 32))%N then
    d <~ read_take 32 ;;
    rfail (cid_parse ([18; 32]%N ++ d))
  else
    code <~ varint_read ;;
    size <~ varint_read ;;
    d <~ read_take (N.to_nat size) ;;
    rfail (cid_parse (varint_encode version ++ varint_encode codec ++ varint_encode code ++
                      varint_encode size ++ d)))%rd.
