(** * Model of [dcdf/src/block.rs], [dcdf/src/chunk.rs]
    and of the encoding tag of [dcdf/src/mmstruct.rs]. *)
From Verif Require Import Base GeomModel BitmapModel DacModel SnapshotModel LogModel StreamModel.

(** ** Blocks *)

(** [struct Block], block.rs 15-21. *)
Record block := mkBlock { bl_snapshot : snapshot; bl_logs : list log }.

(** [Block::new], block.rs 26-38. *)
Definition block_new (s : snapshot) (logs : list log) : res block :=
  if 254 <? length logs then Panic else Ok (mkBlock s logs).

(** [Block::get], block.rs 42-47. *)
Definition block_get (b : block) (instant row col : nat) : res Z :=
  match instant with
  | 0 => snap_get (bl_snapshot b) row col
  | S i => l <- nth_res (bl_logs b) i ;; log_get l (bl_snapshot b) row col
  end.

(** [Block::fill_window], block.rs 56-64. *)
Definition block_fill_window (b : block) (instant : nat) (w : rect) : res (list (nat * nat * Z)) :=
  match instant with
  | 0 => snap_fill_window (bl_snapshot b) w
  | S i => l <- nth_res (bl_logs b) i ;; log_fill_window l (bl_snapshot b) w
  end.

(** [Block::search_window], block.rs 70-81. *)
Definition block_search_window (b : block) (instant : nat) (w : rect) (lower upper : Z)
  : res (list (nat * nat)) :=
  match instant with
  | 0 => snap_search_window (bl_snapshot b) w lower upper
  | S i => l <- nth_res (bl_logs b) i ;; log_search_window l (bl_snapshot b) w lower upper
  end.

(** [Block::write_to], block.rs 88-95. *)
Definition block_write (b : block) : bytes :=
  write_usize8 (length (bl_logs b) + 1) ++ snapshot_write (bl_snapshot b) ++
  flat_map log_write (bl_logs b).

(** [Block::read_from], block.rs 99-109. *)
Definition block_read : reader block := (
  n_instants <~ read_usize8 ;;
  s <~ snapshot_read ;;
  n <~ rfail (usub n_instants 1) ;;
  logs <~ rmany n log_read ;;
  rret (mkBlock s logs))%rd.

(** [Block::size], block.rs 114-118. *)
Definition block_size (b : block) : nat :=
  1 + snapshot_size (bl_snapshot b) + sum_nat (map log_size (bl_logs b)).

(** ** Encoding tags *)

(** [enum MMEncoding], mmstruct.rs 37-43. *)
Inductive encoding := EncTime | EncI32 | EncI64 | EncF32 | EncF64.

Definition encoding_code (e : encoding) : N :=
  match e with EncTime => 0 | EncI32 => 4 | EncI64 => 8 | EncF32 => 32 | EncF64 => 64 end%N.

(** [MMEncoding::try_from], mmstruct.rs 48-59. *)
Definition encoding_of (b : N) : res encoding :=
  if (b =? 0)%N then Ok EncTime else if (b =? 4)%N then Ok EncI32
  else if (b =? 8)%N then Ok EncI64 else if (b =? 32)%N then Ok EncF32
  else if (b =? 64)%N then Ok EncF64 else Panic.

(** ** Chunks *)

(** [struct Chunk], chunk.rs 24-39. *)
Record chunk := mkChunk
  { ch_blocks : list block; ch_index : list nat; ch_encoding : encoding; ch_fbits : nat }.

(** The loop filling [index], chunk.rs 102-106. *)
Fixpoint index_of (blocks : list block) (count : nat) : list nat :=
  match blocks with
  | [] => []
  | b :: rest => let count := count + (length (bl_logs b) + 1) in count :: index_of rest count
  end.

(** [Chunk::new], chunk.rs 100-114. *)
Definition chunk_new (blocks : list block) (enc : encoding) (fbits : nat) : chunk :=
  mkChunk blocks (index_of blocks 0) enc fbits.

(** State of the loop of [Chunk::build]: (blocks, snapshot, snapshot_index,
    logs, count_snapshots, count_logs). *)
Definition build_state := (list block * snapshot * nat * list log * nat * nat)%type.

(** Body of the loop of [Chunk::build], chunk.rs 55-74. [get] is
    [buffer.get(instant, row, col)]; [e] is the tree depth (see
    [snapshot_build_e]). *)
Definition chunk_build_step (get : nat -> nat -> nat -> Z) (rows cols k e : nat)
  (st : build_state) (i : nat) : res build_state :=
  let '(blocks, snap, snapshot_index, logs, cs, cl) := st in
  new_snapshot <- snapshot_build_e (get i) rows cols k e ;;
  new_log <- log_build_e (get snapshot_index) (get i) rows cols k e ;;
  if (length logs =? 254) || (snapshot_size new_snapshot <=? log_size new_log) then
    b <- block_new snap logs ;;
    Ok (blocks ++ [b], new_snapshot, i, [], cs + 1, cl + length logs)
  else Ok (blocks, snap, snapshot_index, logs ++ [new_log], cs, cl).

(** The counters of [MMStruct3Build] filled in by [Chunk::build]. *)
Record chunk_built := mkBuilt { cb_data : chunk; cb_snapshots : nat; cb_logs : nat }.

(** [Chunk::build], chunk.rs 42-96. An array without instants panics at the
    first [buffer.get(0, ..)]. The [size] field is [chunk_size + 1]
    (mmstruct.rs 187-197). *)
Definition chunk_build_e (get : nat -> nat -> nat -> Z) (instants rows cols k e : nat)
  (enc : encoding) (fbits : nat) : res chunk_built :=
  if instants =? 0 then Panic else
  snap <- snapshot_build_e (get 0) rows cols k e ;;
  st <- foldM (chunk_build_step get rows cols k e) ([], snap, 0, [], 0, 0) (range 1 instants) ;;
  let '(blocks, snap, _, logs, cs, cl) := st in
  b <- block_new snap logs ;;
  Ok (mkBuilt (chunk_new (blocks ++ [b]) enc fbits) (cs + 1) (cl + length logs)).

Definition chunk_build (get : nat -> nat -> nat -> Z) (instants rows cols k : nat)
  (enc : encoding) (fbits : nat) : res chunk_built :=
  chunk_build_e get instants rows cols k (log_ceil k (Nat.max rows cols)) enc fbits.

(** [Chunk::shape], chunk.rs 119-123. *)
Definition chunk_shape (c : chunk) : res (nat * nat * nat) :=
  b <- nth_res (ch_blocks c) 0 ;;
  Ok (sum_nat (map (fun b => 1 + length (bl_logs b)) (ch_blocks c)),
      s_rows (bl_snapshot b), s_cols (bl_snapshot b)).

(** The binary search of [Chunk::find_block], chunk.rs 173-188. *)
Fixpoint find_block_loop (fuel : nat) (idx : list nat) (instant lower upper index : nat) : res nat :=
  match fuel with
  | 0 => Diverge
  | S fuel' =>
      here <- nth_res idx index ;;
      if here =? instant then Ok (index + 1)
      else if here <? instant then
        find_block_loop fuel' idx instant index upper ((index + upper) / 2)
      else
        p <- usub index 1 ;;
        prev <- nth_res idx p ;;
        if prev <=? instant then Ok index
        else find_block_loop fuel' idx instant lower index ((lower + index) / 2)
  end.

(** [Chunk::find_block], chunk.rs 164-191. *)
Definition find_block_fuel (fuel : nat) (c : chunk) (instant : nat) : res (nat * nat) :=
  first <- nth_res (ch_index c) 0 ;;
  if instant <? first then Ok (0, instant)
  else
    let upper := length (ch_blocks c) in
    index <- find_block_loop fuel (ch_index c) instant 0 upper (upper / 2) ;;
    p <- usub index 1 ;;
    prev <- nth_res (ch_index c) p ;;
    off <- usub instant prev ;;
    Ok (index, off).
Definition find_block (c : chunk) (instant : nat) : res (nat * nat) :=
  find_block_fuel (S (length (ch_blocks c))) c instant.

(** [Chunk::get], chunk.rs 127-131 (the value passed to [buffer.set]). *)
Definition chunk_get (c : chunk) (instant row col : nat) : res Z :=
  x <- find_block c instant ;;
  b <- nth_res (ch_blocks c) (fst x) ;;
  block_get b (snd x) row col.

(** [struct ChunkIter], chunk.rs 284-289, and [next], chunk.rs 294-312. *)
Record chunk_iter := mkIter { it_block : nat; it_instant : nat; it_remaining : nat }.
Definition chunk_iter_next (c : chunk) (it : chunk_iter) : res (option (nat * nat) * chunk_iter) :=
  match it_remaining it with
  | 0 => Ok (None, it)
  | S r =>
      b <- nth_res (ch_blocks c) (it_block it) ;;
      let '(bi, ii) :=
        if it_instant it =? length (bl_logs b) then (it_block it + 1, 0)
        else (it_block it, it_instant it + 1) in
      Ok (Some (it_block it, it_instant it), mkIter bi ii r)
  end.

(** [Chunk::iter], chunk.rs 197-206. *)
Definition chunk_iter_new (c : chunk) (start end_ : nat) : res chunk_iter :=
  x <- find_block c start ;;
  n <- usub end_ start ;;
  Ok (mkIter (fst x) (snd x) n).

(** A [for (i, (block, instant)) in self.iter(..).enumerate()] loop whose body
    emits a list of calls. *)
Fixpoint iter_loop {A} (fuel : nat) (c : chunk) (it : chunk_iter) (i : nat)
  (body : nat -> block -> nat -> res (list A)) : res (list A) :=
  match fuel with
  | 0 => Diverge
  | S fuel' =>
      x <- chunk_iter_next c it ;;
      match fst x with
      | None => Ok []
      | Some (bi, ii) =>
          b <- nth_res (ch_blocks c) bi ;;
          out <- body i b ii ;;
          rest <- iter_loop fuel' c (snd x) (i + 1) body ;;
          Ok (out ++ rest)
      end
  end.

(** [Chunk::fill_cell], chunk.rs 135-148: the calls to [buffer.set(i, value)]. *)
Definition chunk_fill_cell (c : chunk) (start end_ row col : nat) : res (list (nat * Z)) :=
  it <- chunk_iter_new c start end_ ;;
  iter_loop (S (it_remaining it)) c it 0
    (fun i b ii => v <- block_get b ii row col ;; Ok [(i, v)]).

(** [Chunk::fill_window], chunk.rs 152-158: the calls to
    [buffer.set(i, row, col, value)]. *)
Definition chunk_fill_window (c : chunk) (bounds : cube) : res (list (nat * nat * nat * Z)) :=
  it <- chunk_iter_new c (c_start bounds) (c_end bounds) ;;
  iter_loop (S (it_remaining it)) c it 0
    (fun i b ii =>
       out <- block_fill_window b ii (cube_rect bounds) ;;
       Ok (map (fun '(r, c, v) => (i, r, c, v)) out)).

(** [CellIter], chunk.rs 315-334, is not modelled: nothing makes one. *)

(** [struct SearchIter], chunk.rs 336-344. *)
Record search_iter := mkSearch
  { se_iter : chunk_iter; se_bounds : rect; se_lower : Z; se_upper : Z;
    se_instant : nat; se_results : option (list (nat * nat)) }.

(** [SearchIter::next_results], chunk.rs 347-358. *)
Definition next_results (c : chunk) (s : search_iter) : res search_iter :=
  x <- chunk_iter_next c (se_iter s) ;;
  match fst x with
  | Some (bi, ii) =>
      b <- nth_res (ch_blocks c) bi ;;
      results <- block_search_window b ii (se_bounds s) (se_lower s) (se_upper s) ;;
      Ok (mkSearch (snd x) (se_bounds s) (se_lower s) (se_upper s) (se_instant s + 1) (Some results))
  | None =>
      Ok (mkSearch (snd x) (se_bounds s) (se_lower s) (se_upper s) (se_instant s) None)
  end.

(** The [while result == None] loop of [SearchIter::next], chunk.rs 367-380,
    entered with [results = Some _]. *)
Fixpoint search_next_loop (fuel : nat) (c : chunk) (s : search_iter)
  : res (option (nat * nat) * search_iter) :=
  match fuel with
  | 0 => Diverge
  | S fuel' =>
      match se_results s with
      | Some (x :: rest) =>
          Ok (Some x, mkSearch (se_iter s) (se_bounds s) (se_lower s) (se_upper s) (se_instant s) (Some rest))
      | Some [] => s' <- next_results c s ;; search_next_loop fuel' c s'
      | None => Ok (None, s)
      end
  end.

(** [SearchIter::next], chunk.rs 364-382. *)
Definition search_next (c : chunk) (s : search_iter) : res (option (nat * nat * nat) * search_iter) :=
  match se_results s with
  | Some _ =>
      x <- search_next_loop (it_remaining (se_iter s) + 2) c s ;;
      match fst x with
      | Some (row, col) => i <- usub (se_instant (snd x)) 1 ;; Ok (Some (i, row, col), snd x)
      | None => Ok (None, snd x)
      end
  | None => Ok (None, s)
  end.

(** [Chunk::iter_search], chunk.rs 213-228. *)
Definition iter_search (c : chunk) (bounds : cube) (lower upper : Z) : res search_iter :=
  let '(lower, upper) := rearrangeZ lower upper in
  it <- chunk_iter_new c (c_start bounds) (c_end bounds) ;;
  next_results c (mkSearch it (cube_rect bounds) lower upper (c_start bounds) None).

(** Collecting the iterator (mmstruct.rs 175-181). *)
Fixpoint search_collect (fuel : nat) (c : chunk) (s : search_iter) : res (list (nat * nat * nat)) :=
  match fuel with
  | 0 => Diverge
  | S fuel' =>
      x <- search_next c s ;;
      match fst x with
      | Some r => rest <- search_collect fuel' c (snd x) ;; Ok (r :: rest)
      | None => Ok []
      end
  end.

(** [MMStruct3::search] on a chunk, mmstruct.rs 175-181. The fuel is the
    number of cells of the cube plus one: a search cannot return more. *)
Definition chunk_search (c : chunk) (bounds : cube) (lower upper : Z) : res (list (nat * nat * nat)) :=
  s <- iter_search c bounds lower upper ;;
  search_collect (S ((c_end bounds - c_start bounds) * ((c_bottom bounds - c_top bounds) *
                     (c_right bounds - c_left bounds)))) c s.

(** [Chunk::write_to], chunk.rs 235-243. *)
Definition chunk_write (c : chunk) : bytes :=
  write_byte (encoding_code (ch_encoding c)) ++ write_usize8 (ch_fbits c) ++
  write_usize32 (length (ch_blocks c)) ++ flat_map block_write (ch_blocks c).

(** [Chunk::read_from], chunk.rs 247-266. *)
Definition chunk_read : reader chunk := (
  b <~ read_byte ;;
  enc <~ rfail (encoding_of b) ;;
  fbits <~ read_usize8 ;;
  n_blocks <~ read_usize32 ;;
  blocks <~ rmany n_blocks block_read ;;
  rret (mkChunk blocks (index_of blocks 0) enc fbits))%rd.

(** [Chunk::size], chunk.rs 272-277. *)
Definition chunk_size (c : chunk) : nat :=
  1 + 1 + 4 + sum_nat (map block_size (ch_blocks c)).
