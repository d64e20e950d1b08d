(** * Objects that arrive in pieces: the streams of [Mapper::load] and [Mapper::store].

    The readers of StreamModel.v, ChunkModel.v and NodeModel.v read from a list of
    bytes that is there as a whole. Here the same code reads from a stream as a transport
    delivers it. *)
From Verif Require Import Base BitmapModel DacModel SnapshotModel LogModel StreamModel ChunkModel NodeModel.

(** What [AsyncRead::poll_read] of a stream answers, poll after poll: some bytes (of
    which a poll takes at most what its buffer has room for; the rest comes with the next
    poll), not ready, or an I/O error. After the last one the stream is at its end. This is
    [IntoAsyncRead] of the futures crate over the [bytes_stream] of
    dcdf-ipfs/src/lib.rs 88-99 (an empty piece is skipped), and the [Cursor] of
    testing.rs 109-113. *)
Inductive delivery := Piece (b : bytes) | Pending | Broken.
Definition stream := list delivery.

(** [AsyncReadExt::read_exact] of the futures crate: polls until the buffer is full; the
    end of the stream is an error. *)
Fixpoint take_exact (s : stream) (n : nat) : res (bytes * stream) :=
  match n with
  | 0 => Ok ([], s)
  | S _ =>
      match s with
      | [] => Err EIo
      | Broken :: _ => Err EIo
      | Pending :: s' => take_exact s' n
      | Piece b :: s' =>
          if n <=? length b then Ok (firstn n b, Piece (skipn n b) :: s')
          else x <- take_exact s' (n - length b) ;; Ok (b ++ fst x, snd x)
      end
  end.

(** [stream.take(n).read_to_end(..)]: polls until [n] bytes are there or the stream ends. *)
Fixpoint take_most (s : stream) (n : nat) : res (bytes * stream) :=
  match n with
  | 0 => Ok ([], s)
  | S _ =>
      match s with
      | [] => Ok ([], [])
      | Broken :: _ => Err EIo
      | Pending :: s' => take_most s' n
      | Piece b :: s' =>
          if n <=? length b then Ok (firstn n b, Piece (skipn n b) :: s')
          else x <- take_most s' (n - length b) ;; Ok (b ++ fst x, snd x)
      end
  end.

(** [stream.read_to_end(..)]. *)
Fixpoint take_all (s : stream) : res bytes :=
  match s with
  | [] => Ok []
  | Broken :: _ => Err EIo
  | Pending :: s' => take_all s'
  | Piece b :: s' => x <- take_all s' ;; Ok (b ++ x)
  end.

(** A function that reads from a stream: what it asks of the stream, and what it does
    with the answers. *)
Inductive prog (A : Type) :=
| PDone (x : res A)
| PExact (n : nat) (k : bytes -> prog A)
| PMost (n : nat) (k : bytes -> prog A)
| PAll (k : bytes -> prog A).
Arguments PDone {A}. Arguments PExact {A}. Arguments PMost {A}. Arguments PAll {A}.

Fixpoint pbind {A B} (p : prog A) (f : A -> prog B) : prog B :=
  match p with
  | PDone (Ok a) => f a
  | PDone (Err e) => PDone (Err e)
  | PDone Panic => PDone Panic
  | PDone Diverge => PDone Diverge
  | PExact n k => PExact n (fun b => pbind (k b) f)
  | PMost n k => PMost n (fun b => pbind (k b) f)
  | PAll k => PAll (fun b => pbind (k b) f)
  end.
Definition pret {A} (a : A) : prog A := PDone (Ok a).
Definition pfail {A} (x : res A) : prog A := PDone x.
Declare Scope pg_scope.
Delimit Scope pg_scope with pg.
Notation "x <~ e ;; f" := (pbind e (fun x => f))
  (at level 61, e at next level, right associativity) : pg_scope.
Fixpoint pmany {A} (n : nat) (r : prog A) : prog (list A) :=
  match n with
  | 0 => pret []
  | S n' => pbind r (fun x => pbind (pmany n' r) (fun xs => pret (x :: xs)))
  end.

(** To run it over a stream. *)
Fixpoint prun {A} (p : prog A) (s : stream) : res (A * stream) :=
  match p with
  | PDone x => a <- x ;; Ok (a, s)
  | PExact n k => x <- take_exact s n ;; prun (k (fst x)) (snd x)
  | PMost n k => x <- take_most s n ;; prun (k (fst x)) (snd x)
  | PAll k => b <- take_all s ;; prun (k b) []
  end.

(** ** The functions that read, once more *)
Definition p_exact (n : nat) : prog bytes := PExact n pret.
Definition p_take (n : nat) : prog bytes := PMost n pret.

(** extio.rs 57-110. *)
Definition p_byte : prog N := pbind (p_exact 1) (fun b => pret (be_value b)).
Definition p_u16 : prog N := pbind (p_exact 2) (fun b => pret (be_value b)).
Definition p_u32 : prog N := pbind (p_exact 4) (fun b => pret (be_value b)).
Definition p_i32 : prog Z := pbind (p_exact 4) (fun b => pret (of_u 32 (be_value b))).
Definition p_i64 : prog Z := pbind (p_exact 8) (fun b => pret (of_u 64 (be_value b))).
Definition p_f32 : prog N := pbind (p_exact 4) (fun b => pret (be_value b)).
Definition p_f64 : prog N := pbind (p_exact 8) (fun b => pret (be_value b)).
Definition p_usize32 : prog nat := pbind p_u32 (fun v => pret (N.to_nat v)).
Definition p_usize8 : prog nat := pbind p_byte (fun v => pret (N.to_nat v)).

(** bitmap.rs 142-164; dac.rs 48-63; snapshot.rs 62-81; log.rs 68-89. *)
Definition p_bitmap : prog bitmap := (
  length <~ p_usize32 ;;
  k <~ p_usize32 ;;
  blocks <~ pfail (udiv (length / 32) k) ;;
  index <~ pmany blocks p_u32 ;;
  words <~ pmany (div_ceil length 32) p_u32 ;;
  pret (mkBitmap length k index words))%pg.
Definition p_dac_level : prog (bitmap * list N) := (
  bm <~ p_bitmap ;;
  bs <~ p_take (bm_length bm) ;;
  pret (bm, bs))%pg.
Definition p_dac : prog dac := (
  n <~ p_usize8 ;;
  pmany n p_dac_level)%pg.
Definition p_snapshot : prog snapshot := (
  k <~ p_usize8 ;;
  rows <~ p_usize32 ;;
  cols <~ p_usize32 ;;
  sidelen <~ p_usize32 ;;
  nodemap <~ p_bitmap ;;
  max <~ p_dac ;;
  min <~ p_dac ;;
  pret (mkSnapshot nodemap max min k rows cols sidelen))%pg.
Definition p_log : prog log := (
  k <~ p_usize8 ;;
  rows <~ p_usize32 ;;
  cols <~ p_usize32 ;;
  sidelen <~ p_usize32 ;;
  nodemap <~ p_bitmap ;;
  equal <~ p_bitmap ;;
  max <~ p_dac ;;
  min <~ p_dac ;;
  pret (mkLog nodemap equal max min k rows cols sidelen))%pg.

(** block.rs 99-109; chunk.rs 247-266. *)
Definition p_block : prog block := (
  n_instants <~ p_usize8 ;;
  s <~ p_snapshot ;;
  n <~ pfail (usub n_instants 1) ;;
  logs <~ pmany n p_log ;;
  pret (mkBlock s logs))%pg.
Definition p_chunk : prog chunk := (
  b <~ p_byte ;;
  enc <~ pfail (encoding_of b) ;;
  fbits <~ p_usize8 ;;
  n_blocks <~ p_usize32 ;;
  blocks <~ pmany n_blocks p_block ;;
  pret (mkChunk blocks (index_of blocks 0) enc fbits))%pg.

(** Strings and identifiers, extio.rs 113-160, with the unsigned-varint crate. *)
Definition p_str : prog bytes := (
  len <~ p_usize8 ;;
  s <~ p_take len ;;
  if utf8_valid s then pret s else pfail (Err EUtf8))%pg.
Fixpoint p_varint_dec (fuel : nat) (i : N) (acc : N) : prog N :=
  match fuel with
  | 0 => pfail (Err ECid)
  | S fuel' =>
      pbind p_byte (fun b =>
        let n := N.lor acc (N.shiftl (N.land b 127) (7 * i) mod 2 ^ 64) in
        if (b <? 128)%N then
          if ((b =? 0) && (0 <? i))%N then pfail (Err ECid) else pret n
        else p_varint_dec fuel' (i + 1)%N n)
  end.
Definition p_varint : prog N := p_varint_dec 10 0 0.
Definition p_cid : prog cid := (
  version <~ p_varint ;;
  codec <~ p_varint ;;
  if ((version =? 18) && (codec =? 32))%N then
    d <~ p_take 32 ;;
    pfail (cid_parse ([18; 32]%N ++ d))
  else
    code <~ p_varint ;;
    size <~ p_varint ;;
    d <~ p_take (N.to_nat size) ;;
    pfail (cid_parse (varint_encode version ++ varint_encode codec ++ varint_encode code ++
                      varint_encode size ++ d)))%pg.

(** span.rs 307-330; superchunk.rs 860-869, 713-764; mmstruct.rs 229-245. The fuel bounds
    the nesting, as in NodeModel.v. *)
Definition p_span : prog span := (
  b <~ p_byte ;;
  enc <~ pfail (encoding_of b) ;;
  instants <~ p_usize32 ;;
  rows <~ p_usize32 ;;
  cols <~ p_usize32 ;;
  stride <~ p_usize32 ;;
  n <~ p_usize32 ;;
  spans <~ pmany n p_cid ;;
  pret (mkSpan instants rows cols stride spans enc))%pg.
Definition p_reference : prog reference := (
  b <~ p_byte ;;
  if (b =? 0)%N then pret RElided
  else if (b =? 1)%N then i <~ p_usize32 ;; pret (RLocal i)
  else if (b =? 2)%N then i <~ p_usize32 ;; pret (RExternal i)
  else pfail Panic)%pg.
Definition p_super (sub : prog mmstruct) : prog mmstruct := (
  instants <~ p_usize32 ;;
  rows <~ p_usize32 ;;
  cols <~ p_usize32 ;;
  sidelen <~ p_usize32 ;;
  levels <~ p_usize8 ;;
  chunks_sidelen <~ p_usize32 ;;
  subsidelen <~ p_usize32 ;;
  fbits <~ p_usize8 ;;
  b <~ p_byte ;;
  enc <~ pfail (encoding_of b) ;;
  n_refs <~ p_usize32 ;;
  refs <~ pmany n_refs p_reference ;;
  external <~ p_cid ;;
  n_local <~ p_usize32 ;;
  local <~ pmany n_local sub ;;
  max <~ p_dac ;;
  min <~ p_dac ;;
  pret (MSuper (mkSuper instants rows cols sidelen levels refs max min external fbits enc
                        chunks_sidelen subsidelen) local))%pg.
Fixpoint p_mm (fuel : nat) : prog mmstruct :=
  match fuel with
  | 0 => PDone Diverge
  | S fuel' => (
      b <~ p_byte ;;
      if (b =? 4)%N then c <~ p_chunk ;; pret (MSub c)
      else if (b =? 3)%N then s <~ p_span ;; pret (MSpan s)
      else if (b =? 5)%N then p_super (p_mm fuel')
      else pfail Panic)%pg
  end.

(** links.rs 46-64: the rest of the stream is read into memory and decoded there. *)
Definition p_links : prog (list cid) := (
  n <~ p_usize32 ;;
  PAll (fun b => pfail (x <- rmany n cid_read_bytes b ;; Ok (fst x))))%pg.

(** dataset.rs 775-818, 681-702, 1041-1071, 439-471. *)
Definition p_kind : prog coord_kind := (
  b <~ p_byte ;;
  enc <~ pfail (encoding_of b) ;;
  match enc with
  | EncTime => start <~ p_i64 ;; step <~ p_i64 ;; pret (KTime start step)
  | EncI32 => start <~ p_i32 ;; step <~ p_i32 ;; n <~ p_usize32 ;; pret (KI32 start step n)
  | EncI64 => start <~ p_i64 ;; step <~ p_i64 ;; n <~ p_usize32 ;; pret (KI64 start step n)
  | EncF32 => start <~ p_f32 ;; step <~ p_f32 ;; n <~ p_usize32 ;; pret (KF32 start step n)
  | EncF64 => start <~ p_f64 ;; step <~ p_f64 ;; n <~ p_usize32 ;; pret (KF64 start step n)
  end)%pg.
Definition p_coord : prog coordinate := (
  name <~ p_str ;;
  kind <~ p_kind ;;
  pret (mkCoord name kind))%pg.
Definition p_variable : prog variable := (
  name <~ p_str ;;
  b <~ p_byte ;;
  round <~ (if (b =? 1)%N then bits <~ p_usize8 ;; pret (Some bits) else pret None) ;;
  span_size <~ p_usize32 ;;
  chunk_size <~ p_usize32 ;;
  n <~ p_usize8 ;;
  levels <~ pmany n p_usize32 ;;
  e <~ p_byte ;;
  enc <~ pfail (encoding_of e) ;;
  c <~ p_cid ;;
  pret (mkVar name round span_size chunk_size levels enc c))%pg.
Definition p_dataset : prog dataset := (
  c1 <~ p_coord ;;
  c2 <~ p_coord ;;
  c3 <~ p_coord ;;
  n <~ p_usize8 ;;
  vars <~ pmany n p_variable ;;
  rows <~ p_usize32 ;;
  cols <~ p_usize32 ;;
  b <~ p_byte ;;
  prev <~ (if (b =? 1)%N then c <~ p_cid ;; pret (Some c) else pret None) ;;
  pret (mkDataset (c1, c2, c3) vars rows cols None prev))%pg.

(** resolver.rs 167-179 and 145-163. *)
Definition p_header : prog N := (
  magic <~ p_u16 ;;
  if negb (magic =? magic_number)%N then pfail Panic else
  version <~ p_u32 ;;
  if negb (version =? format_version)%N then pfail Panic else
  p_byte)%pg.
Definition p_node (fuel : nat) (c : cid) : prog node := (
  t <~ p_header ;;
  if (t =? 0)%N then
    d <~ p_dataset ;;
    pret (NDataset (mkDataset (ds_coords d) (ds_vars d) (ds_rows d) (ds_cols d) (Some c) (ds_prev d)))
  else if (t =? 1)%N then l <~ p_links ;; pret (NLinks l)
  else if (t =? 2)%N then m <~ p_mm fuel ;; pret (NMM m)
  else pfail Panic)%pg.

(** The bytes that a stream delivers before it ends or breaks. *)
Fixpoint delivered (s : stream) : bytes :=
  match s with
  | [] => []
  | Broken :: _ => []
  | Pending :: s' => delivered s'
  | Piece b :: s' => b ++ delivered s'
  end.

(** [Resolver::retrieve], resolver.rs 142-165, from what the mapper's [load] answers. *)
Definition load_stream (c : cid) (s : stream) : res node :=
  x <- prun (p_node (S (length (delivered s))) c) s ;; Ok (fst x).
Definition retrieve_from (c : cid) (answer : option stream) : res node :=
  match answer with None => Err ENotFound | Some s => load_stream c s end.

(** ** Writing *)

(** What [AsyncWrite::poll_write] answers, poll after poll: how many of the bytes offered
    it has taken (at most all; 0 is an error for [write_all]), not ready, or an I/O error.
    After the last one it takes all that is offered: what the [Vec<u8>] of
    dcdf-ipfs/src/lib.rs 196-203 and testing.rs always does. *)
Inductive acceptance := Takes (n : nat) | Later | Fails.

(** [AsyncWriteExt::write_all] of the futures crate: what has been written, and whether it
    succeeded. *)
Fixpoint write_all (w : list acceptance) (b : bytes) : bytes * res (list acceptance) :=
  match b with
  | [] => ([], Ok w)
  | _ :: _ =>
      match w with
      | [] => (b, Ok [])
      | Fails :: _ => ([], Err EIo)
      | Later :: w' => write_all w' b
      | Takes 0 :: _ => ([], Err EIo)
      | Takes n :: w' => let '(x, r) := write_all w' (skipn n b) in (firstn n b ++ x, r)
      end
  end.
(** The writes of [save_to], one after the other ([?] ends at the first error). *)
Fixpoint write_each (w : list acceptance) (l : list bytes) : bytes * res (list acceptance) :=
  match l with
  | [] => ([], Ok w)
  | b :: l' =>
      let '(x, r) := write_all w b in
      match r with
      | Ok w' => let '(y, r') := write_each w' l' in (x ++ y, r')
      | e => (x, e)
      end
  end.
(** [Resolver::save], resolver.rs 126-138, with the writes [l]. The bytes are kept in the
    writer until [finish] (dcdf-ipfs/src/lib.rs 132-136, 215-220; testing.rs 150-180), so
    that nothing is stored if a write fails. *)
Definition save_through (hash : bytes -> cid) (w : list acceptance) (l : list bytes) (st : store) : store * res cid :=
  let '(b, r) := write_each w l in
  match r with
  | Ok _ => (st ++ [(hash b, b)], Ok (hash b))
  | Err e => (st, Err e)
  | Panic => (st, Panic)
  | Diverge => (st, Diverge)
  end.

(** ** The mapper of dcdf-ipfs *)

(** What the node answers to [cat] of an object that it does not find: a message. *)
Record ipfs := mkIpfs { ip_objects : store; ip_message : cid -> bytes }.
(** [IpfsClient::cat], 88-99, and [IpfsMapper::load], 171-183. The status of the HTTP
    response is not looked at ([send] only fails if there is no response; then [expect]
    panics, which is not modelled). *)
Definition ipfs_load (d : ipfs) (c : cid) : option stream :=
  Some [Piece (match store_get (ip_objects d) c with Some b => b | None => ip_message d c end)].
