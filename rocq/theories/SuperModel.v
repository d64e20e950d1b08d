(** * Model of [dcdf/src/superchunk.rs] (building and reading), of the reading
    half of [dcdf/src/span.rs] and [dcdf/src/mmstruct.rs], and of what they use
    of [dcdf/src/mmbuffer.rs].

    Loading goes through the store (NodeModel.v). Reads are given as the list of
    the calls they make on the buffer ([set], [fill_instant]): position, raw
    value, and the number of fractional bits in force in the buffer at that
    moment (integer buffers ignore it). Futures that the code runs concurrently
    are run one after the other in the order they are created; C21 shows that
    the order does not matter. *)
From Verif Require Import Base GeomModel BitmapModel DacModel StreamModel ChunkModel NodeModel.

(** ** Elements: what a buffer does with values of the element type.

    [el_fixed b x] is [MMBuffer3::get], mmbuffer.rs 301-308: the raw value of
    [x] with [b] fractional bits. [el_minmax b l] is one entry of
    [MMBuffer3::min_max], mmbuffer.rs 366-396, where [l] are the values of the
    subarray at one instant, row by row. [el_bits b l] is the number of
    fractional bits after [MMBuffer3::compute_fractional_bits], mmbuffer.rs
    425-431, on a buffer that has [b]. [el_enc] is [MMBuffer3::encoding],
    mmbuffer.rs 405-412. *)
Record elem (A : Type) := mkElem
  { el_enc : encoding; el_fixed : nat -> A -> res Z;
    el_minmax : nat -> list A -> res (Z * Z); el_bits : nat -> list A -> res nat }.
Arguments mkElem {A}. Arguments el_enc {A}. Arguments el_fixed {A}.
Arguments el_minmax {A}. Arguments el_bits {A}.

(** [min_max], mmbuffer.rs 434-463, on the values of one instant. *)
Definition int_minmax (l : list Z) : res (Z * Z) :=
  match l with
  | [] => Panic
  | v :: _ =>
      Ok (fold_left (fun '(mn, mx) x => (if x <? mn then x else mn, if mx <? x then x else mx)%Z) l (v, v))
  end.

(** Integer buffers, [MMBuffer3::I32] and [MMBuffer3::I64]: the elements are
    given as integers of the type's range. *)
Definition int_elem (enc : encoding) : elem Z :=
  mkElem enc (fun _ x => Ok x) (fun _ l => int_minmax l) (fun b _ => Ok b).
Definition elem_i32 : elem Z := int_elem EncI32.
Definition elem_i64 : elem Z := int_elem EncI64.

(** ** Building *)

(** What [MMStruct3Build], mmstruct.rs 24-34, holds ([local] is always 0). *)
Record built := mkMM
  { mb_data : mmstruct; mb_size : nat; mb_elided : nat; mb_external : nat;
    mb_snapshots : nat; mb_logs : nat }.

(** [buffer.slice(0, instants, top, bottom, left, right)], mmbuffer.rs 263-282:
    a view of the same data. *)
Definition tile_of {A} (g : nat -> nat -> nat -> A) (top lft : nat) : nat -> nat -> nat -> A :=
  fun t r c => g t (top + r) (lft + c).

(** Values of a subarray at an instant, in the order of [subarray.iter()]. *)
Definition instant_values {A} (g : nat -> nat -> nat -> A) (t rows cols : nat) : list A :=
  map (fun rc => g t (fst rc) (snd rc)) (list_prod (seq 0 rows) (seq 0 cols)).

(** [buffer.min_max()], mmbuffer.rs 366-396. *)
Definition minmax_of {A} (E : elem A) (bits : nat) (g : nat -> nat -> nat -> A) (instants rows cols : nat)
  : res (list (Z * Z)) :=
  mapM (fun t => el_minmax E bits (instant_values g t rows cols)) (range 0 instants).

(** All the values of a subarray, as [suggest_fraction] sees them. *)
Definition all_values {A} (g : nat -> nat -> nat -> A) (instants rows cols : nat) : list A :=
  flat_map (fun t => instant_values g t rows cols) (range 0 instants).

(** [Chunk::build] on a buffer: every cell is read through [buffer.get], and any
    of these reads can panic; then the integers are encoded (ChunkModel.v). *)
Definition raw_of {A} (E : elem A) (b : nat) (x : A) : Z := match el_fixed E b x with Ok z => z | _ => 0%Z end.
Definition leaf_build {A} (E : elem A) (k e : nat) (g : nat -> nat -> nat -> A) (instants rows cols b : nat) : res built :=
  _ <- mapM (el_fixed E b) (all_values g instants rows cols) ;;
  c <- chunk_build_e (fun t r c => raw_of E b (g t r c)) instants rows cols k e (el_enc E) b ;;
  Ok (mkMM (MSub (cb_data c)) (mm_size (MSub (cb_data c))) 0 0 (cb_snapshots c) (cb_logs c)).

(** The position of an identifier in the links, [external_references.get(&cid)]. *)
Fixpoint link_index (c : cid) (l : list cid) : option nat :=
  match l with
  | [] => None
  | x :: rest => if cid_eqb c x then Some 0 else option_map S (link_index c rest)
  end.

(** One subarray after the first loop of [Superchunk::build]: its minima and
    maxima, and the built subchunk unless it is elided. *)
Notation tile := (list (Z * Z) * option built)%type.

(** State of the third loop of [Superchunk::build], superchunk.rs 193-231. *)
Record save_state := mkSave
  { ss_store : store; ss_links : list cid; ss_refs : list reference; ss_sizes : nat;
    ss_elided : nat; ss_snapshots : nat; ss_logs : nat }.

(** Its body. The code tests once more whether the subarray is uniform (lines
    207-214), on the numbers on which it has already decided to build it: this
    cannot succeed and is left out. *)
Definition save_tile (hash : bytes -> cid) (s : save_state) (x : tile) : save_state :=
  match snd x with
  | None => mkSave (ss_store s) (ss_links s) (ss_refs s ++ [RElided]) (ss_sizes s) (ss_elided s + 1)
                   (ss_snapshots s) (ss_logs s)
  | Some b =>
      let '(c, st) := save hash (ss_store s) (NMM (mb_data b)) in
      let '(i, links) := match link_index c (ss_links s) with
                         | Some i => (i, ss_links s)
                         | None => (length (ss_links s), ss_links s ++ [c])
                         end in
      mkSave st links (ss_refs s ++ [RExternal i]) (ss_sizes s + mm_size (mb_data b)) (ss_elided s)
             (ss_snapshots s + mb_snapshots b) (ss_logs s + mb_logs b)
  end.

(** The numbers given to [Dac::from], superchunk.rs 183-190: instant by instant,
    the value of each subarray. *)
Definition by_instant (instants : nat) (l : list (list (Z * Z))) (pick : Z * Z -> Z) : res (list Z) :=
  flat_mapM (fun t => mapM (fun mm => p <- nth_res mm t ;; Ok (pick p)) l) (range 0 instants).

Section Build.
  Context {A : Type}.
  Variables (hash : bytes -> cid) (E : elem A) (k : nat).
  (** [(side as f64).log(k as f64).ceil() as u32] *)
  Variable lc : nat -> nat.

  (** The condition at superchunk.rs 148-159. *)
  Definition build_subchunk (sublevels : list nat) (rows cols : nat) : res bool :=
    if length sublevels =? 1 then Ok true
    else x <- nth_res sublevels 0 ;; Ok (lc (Nat.max rows cols) <=? x).

  (** One subarray of the first loop, superchunk.rs 121-175; [rec] builds a
      superchunk with the sublevels. *)
  Definition build_tile (rec : (nat -> nat -> nat -> A) -> nat -> nat -> nat -> store -> res (store * built))
    (sublevels : list nat) (g : nat -> nat -> nat -> A) (instants rows cols bits chunks_sidelen : nat)
    (acc : store * list tile) (rc : nat * nat) : res (store * list tile) :=
    let '(st, tiles) := acc in
    let top := fst rc * chunks_sidelen in
    let lft := snd rc * chunks_sidelen in
    let bottom := Nat.min (top + chunks_sidelen) rows in
    let rgt := Nat.min (lft + chunks_sidelen) cols in
    if (rows <=? top) || (cols <=? lft) then
      Ok (st, tiles ++ [(repeat (0, 0)%Z instants, None)])
    else
      let g' := tile_of g top lft in
      let h := bottom - top in
      let w := rgt - lft in
      mm <- minmax_of E bits g' instants h w ;;
      if forallb (fun p => (fst p =? snd p)%Z) mm then Ok (st, tiles ++ [(mm, None)])
      else
        leaf <- build_subchunk sublevels h w ;;
        b <- el_bits E bits (all_values g' instants h w) ;;
        x <- (if leaf : bool then y <- leaf_build E k (lc (Nat.max h w)) g' instants h w b ;; Ok (st, y)
              else rec g' h w b st) ;;
        Ok (fst x, tiles ++ [(mm, Some (snd x))]).

  (** [Superchunk::build], superchunk.rs 88-270, on a buffer with [bits]
      fractional bits. [k.pow(..)] is taken not to overflow an i32. *)
  Fixpoint super_build (levels : list nat) (g : nat -> nat -> nat -> A) (instants rows cols bits : nat)
    (st : store) : res (store * built) :=
    let total := lc (Nat.max rows cols) in
    if negb (sum_nat levels =? total) then Panic else
    match levels with
    | [] => Panic
    | level :: sublevels =>
        let sidelen := k ^ total in
        let subsidelen := k ^ level in
        chunks_sidelen <- udiv sidelen subsidelen ;;
        acc <- foldM (build_tile (fun g' h w b s => super_build sublevels g' instants h w b s)
                        sublevels g instants rows cols bits chunks_sidelen)
                     (st, []) (grid subsidelen) ;;
        let '(st, tiles) := acc in
        max <- by_instant instants (map fst tiles) snd ;;
        min <- by_instant instants (map fst tiles) fst ;;
        let s := fold_left (save_tile hash) tiles (mkSave st [] [] 0 0 0 0) in
        let '(external, st) := save hash (ss_store s) (NLinks (ss_links s)) in
        max <- dac_of max ;;
        min <- dac_of min ;;
        let data := MSuper (mkSuper instants rows cols sidelen level (ss_refs s) max min external bits
                                    (el_enc E) chunks_sidelen subsidelen) [] in
        Ok (st, mkMM data (mm_size data - 1 + links_size (ss_links s) + ss_sizes s) (ss_elided s)
                     (length (ss_links s)) (ss_snapshots s) (ss_logs s))
    end.
End Build.

(** ** Reading *)

(** [&self.external().await?[index]] and [resolver.get_mmstruct3(cid)],
    superchunk.rs 342-345 and 635-649. *)
Definition super_external (st : store) (s : super) (i : nat) : res mmstruct :=
  links <- get_links st (su_external s) ;;
  c <- nth_res links i ;;
  get_mm st c.

(** [Span::find_span], span.rs 277-279. *)
Definition find_span (s : span) (instant : nat) : res (nat * nat) :=
  a <- udiv instant (sp_stride s) ;; b <- umod instant (sp_stride s) ;; Ok (a, b).

(** [MMStruct3::get], mmstruct.rs 103-125: [Chunk::get]; [Superchunk::get],
    superchunk.rs 313-351; [Span::get], span.rs 121-134. The fuel bounds the
    depth of nested objects. *)
Fixpoint mm_get (st : store) (fuel : nat) (m : mmstruct) (instant row col bits : nat) : res (Z * nat) :=
  match fuel with
  | 0 => Diverge
  | S fuel' =>
      match m with
      | MSub c => v <- chunk_get c instant row col ;; Ok (v, bits)
      | MSuper s local =>
          chunk_row <- udiv row (su_chunks_sidelen s) ;;
          local_row <- umod row (su_chunks_sidelen s) ;;
          chunk_col <- udiv col (su_chunks_sidelen s) ;;
          local_col <- umod col (su_chunks_sidelen s) ;;
          let chunk := chunk_row * su_subsidelen s + chunk_col in
          ref <- nth_res (su_refs s) chunk ;;
          match ref with
          | RElided =>
              v <- dac_get (su_max s) (chunk + instant * (su_subsidelen s * su_subsidelen s)) ;; Ok (v, bits)
          | RLocal i => m' <- nth_res local i ;; mm_get st fuel' m' instant local_row local_col (mm_fbits m')
          | RExternal i =>
              m' <- super_external st s i ;; mm_get st fuel' m' instant local_row local_col (mm_fbits m')
          end
      | MSpan s =>
          x <- find_span s instant ;;
          c <- nth_res (sp_spans s) (fst x) ;;
          m' <- get_mm st c ;;
          mm_get st fuel' m' (snd x) row col (mm_fbits m')
      end
  end.

(** The loop of [Span::fill_cell], span.rs 147-167, of [Span::fill_window],
    189-214, and of [Span::search], 237-272: for each piece its sub-span, the
    first instant inside it, its length and its offset in the request. *)
Fixpoint span_pieces (fuel stride instants span instant start : nat) : res (list (nat * nat * nat * nat)) :=
  if start <? instants then
    match fuel with
    | 0 => Diverge
    | S fuel' =>
        left_in <- usub stride instant ;;
        let span_len := Nat.min left_in (instants - start) in
        rest <- span_pieces fuel' stride instants (span + 1) 0 (start + span_len) ;;
        Ok ((span, instant, span_len, start) :: rest)
    end
  else Ok [].
Definition span_pieces_for (s : span) (start instants : nat) : res (list (nat * nat * nat * nat)) :=
  x <- find_span s start ;; span_pieces (S instants) (sp_stride s) instants (fst x) (snd x) 0.

(** [MMStruct3::fill_cell], mmstruct.rs 128-144: [Superchunk::fill_cell],
    superchunk.rs 356-398, with [SuperCellIter], 787-825; [Span::fill_cell],
    span.rs 139-178. *)
Fixpoint mm_fill_cell (st : store) (fuel : nat) (m : mmstruct) (start end_ row col bits : nat)
  : res (list (nat * (Z * nat))) :=
  match fuel with
  | 0 => Diverge
  | S fuel' =>
      match m with
      | MSub c => l <- chunk_fill_cell c start end_ row col ;; Ok (map (fun '(i, v) => (i, (v, bits))) l)
      | MSuper s local =>
          chunk_row <- udiv row (su_chunks_sidelen s) ;;
          local_row <- umod row (su_chunks_sidelen s) ;;
          chunk_col <- udiv col (su_chunks_sidelen s) ;;
          local_col <- umod col (su_chunks_sidelen s) ;;
          let chunk := chunk_row * su_subsidelen s + chunk_col in
          ref <- nth_res (su_refs s) chunk ;;
          match ref with
          | RElided =>
              let stride := su_subsidelen s * su_subsidelen s in
              remaining <- usub end_ start ;;
              mapM (fun i => v <- dac_get (su_max s) (chunk + start * stride + i * stride) ;; Ok (i, (v, bits)))
                   (seq 0 remaining)
          | RLocal i => m' <- nth_res local i ;; mm_fill_cell st fuel' m' start end_ local_row local_col (mm_fbits m')
          | RExternal i =>
              m' <- super_external st s i ;; mm_fill_cell st fuel' m' start end_ local_row local_col (mm_fbits m')
          end
      | MSpan s =>
          instants <- usub end_ start ;;
          pieces <- span_pieces_for s start instants ;;
          flat_mapM (fun '(sp, instant, len, off) =>
            c <- nth_res (sp_spans s) sp ;;
            m' <- get_mm st c ;;
            l <- mm_fill_cell st fuel' m' instant (instant + len) row col (mm_fbits m') ;;
            Ok (map (fun '(i, v) => (off + i, v)) l)) pieces
      end
  end.

(** [struct WindowSubchunk], superchunk.rs 773-785. *)
Record subwindow := mkSub { sw_index : nat; sw_chunk : rect; sw_local : rect; sw_slice : rect }.

(** [Superchunk::subchunks_for], superchunk.rs 589-633. The subtractions whose
    first argument is a maximum with the second cannot underflow. *)
Definition subchunks_for (s : super) (w : rect) : res (list subwindow) :=
  let cs := su_chunks_sidelen s in
  b1 <- usub (r_bottom w) 1 ;; r1 <- usub (r_right w) 1 ;;
  t0 <- udiv (r_top w) cs ;; b0 <- udiv b1 cs ;; l0 <- udiv (r_left w) cs ;; r0 <- udiv r1 cs ;;
  let chunks := rect_new t0 b0 l0 r0 in
  flat_mapM (fun row =>
    let chunk_top := row * cs in
    let window_top := Nat.max chunk_top (r_top w) in
    let local_top := window_top - chunk_top in
    let slice_top := window_top - r_top w in
    let chunk_bottom := chunk_top + cs in
    let window_bottom := Nat.min chunk_bottom (r_bottom w) in
    local_bottom <- usub window_bottom chunk_top ;;
    slice_bottom <- usub window_bottom (r_top w) ;;
    mapM (fun col =>
      let chunk_left := col * cs in
      let window_left := Nat.max chunk_left (r_left w) in
      let local_left := window_left - chunk_left in
      let slice_left := window_left - r_left w in
      let chunk_right := chunk_left + cs in
      let window_right := Nat.min chunk_right (r_right w) in
      local_right <- usub window_right chunk_left ;;
      slice_right <- usub window_right (r_left w) ;;
      Ok (mkSub (row * su_subsidelen s + col)
                (rect_new chunk_top chunk_bottom chunk_left chunk_right)
                (rect_new local_top local_bottom local_left local_right)
                (rect_new slice_top slice_bottom slice_left slice_right)))
      (range_incl (r_left chunks) (r_right chunks)))
    (range_incl (r_top chunks) (r_bottom chunks)).

(** A call on the buffer: instant, row, column, raw value and fractional bits. *)
Definition call := (nat * nat * nat * (Z * nat))%type.

(** [buffer.slice(..)] moves the origin. *)
Definition moved (dt dr dc : nat) (l : list call) : list call :=
  map (fun '(t, r, c, v) => (dt + t, dr + r, dc + c, v)) l.

(** [buffer.fill_instant(i, value)], mmbuffer.rs 343-364, on a buffer of
    [rows] rows and [cols] columns. *)
Definition fill_instant (i rows cols : nat) (v : Z * nat) : list call :=
  map (fun rc => (i, fst rc, snd rc, v)) (list_prod (seq 0 rows) (seq 0 cols)).

(** What [join_all(futures).await;] keeps of a future's result: an error is
    dropped (superchunk.rs 453). The errors of the futures all come from loading,
    before anything is written. *)
Definition swallow {A} (x : res (list A)) : res (list A) :=
  match x with Err _ => Ok [] | _ => x end.

(** [MMStruct3::fill_window], mmstruct.rs 148-160: [Superchunk::fill_window],
    superchunk.rs 403-457; [Span::fill_window], span.rs 183-224. The buffer
    handed over has the shape of the bounds, as it has for every caller
    (mmarray.rs, dataset.rs, and the slices taken here: C21). *)
Fixpoint mm_fill_window (st : store) (fuel : nat) (m : mmstruct) (bounds : cube) (bits : nat) : res (list call) :=
  match fuel with
  | 0 => Diverge
  | S fuel' =>
      match m with
      | MSub c => l <- chunk_fill_window c bounds ;; Ok (map (fun '(t, r, c, v) => (t, r, c, (v, bits))) l)
      | MSuper s local =>
          instants <- usub (c_end bounds) (c_start bounds) ;;
          subs <- subchunks_for s (cube_rect bounds) ;;
          flat_mapM (fun sw =>
            let lo := sw_local sw in
            let b := cube_new (c_start bounds) (c_end bounds) (r_top lo) (r_bottom lo) (r_left lo) (r_right lo) in
            calls <- swallow (
              ref <- nth_res (su_refs s) (sw_index sw) ;;
              match ref with
              | RElided =>
                  let stride := su_subsidelen s * su_subsidelen s in
                  n <- cube_instants b ;;
                  flat_mapM (fun i =>
                    v <- dac_get (su_max s) (sw_index sw + c_start b * stride + i * stride) ;;
                    Ok (fill_instant i (r_bottom (sw_slice sw) - r_top (sw_slice sw))
                                       (r_right (sw_slice sw) - r_left (sw_slice sw)) (v, bits))) (seq 0 n)
              | RLocal i => m' <- nth_res local i ;; mm_fill_window st fuel' m' b (mm_fbits m')
              | RExternal i => m' <- super_external st s i ;; mm_fill_window st fuel' m' b (mm_fbits m')
              end) ;;
            Ok (moved 0 (r_top (sw_slice sw)) (r_left (sw_slice sw)) calls)) subs
      | MSpan s =>
          instants <- cube_instants bounds ;;
          pieces <- span_pieces_for s (c_start bounds) instants ;;
          flat_mapM (fun '(sp, instant, len, off) =>
            c <- nth_res (sp_spans s) sp ;;
            m' <- get_mm st c ;;
            l <- mm_fill_window st fuel' m'
                   (cube_new instant (instant + len) (c_top bounds) (c_bottom bounds) (c_left bounds) (c_right bounds))
                   (mm_fbits m') ;;
            Ok (moved off 0 0 l)) pieces
      end
  end.

(** ** Searching *)

(** An item of the stream: an error, or a cell. *)
Definition item := (err + nat * nat * nat)%type.
Definition shift_item (dt dr dc : nat) (x : item) : item :=
  match x with inl e => inl e | inr (t, r, c) => inr (dt + t, r + dr, c + dc) end.

(** A stream that is one error. *)
Definition or_error (x : res (list item)) : res (list item) :=
  match x with Err e => Ok [inl e] | _ => x end.

(** [has_cells], superchunk.rs 481-494. *)
Fixpoint has_cells (s : super) (index lower_n : nat) (lower upper : Z) : res bool :=
  match lower_n with
  | 0 => Ok false
  | S n =>
      min <- dac_get (su_min s) index ;;
      max <- dac_get (su_max s) index ;;
      if ((min <=? upper) && (lower <=? max))%Z then Ok true
      else has_cells s (index + su_subsidelen s * su_subsidelen s) n lower upper
  end.

(** [MMStruct3::search], mmstruct.rs 167-184: [Superchunk::search],
    superchunk.rs 464-514, with [search_subchunk], 516-585; [Span::search],
    span.rs 231-275. The stream is given as the list of its items; the order in
    which the code produces them depends on the schedule. *)
Fixpoint mm_search (st : store) (fuel : nat) (m : mmstruct) (bounds : cube) (lower upper : Z) : res (list item) :=
  match fuel with
  | 0 => Diverge
  | S fuel' =>
      match m with
      | MSub c => l <- chunk_search c bounds lower upper ;; Ok (map inr l)
      | MSuper s local =>
          let '(lower, upper) := rearrangeZ lower upper in
          subs <- subchunks_for s (cube_rect bounds) ;;
          flat_mapM (fun sw =>
            let stride := su_subsidelen s * su_subsidelen s in
            some <- has_cells s (sw_index sw + c_start bounds * stride) (c_end bounds - c_start bounds) lower upper ;;
            if some : bool then
              let lo := sw_local sw in
              let top := r_top (sw_chunk sw) in
              let lft := r_left (sw_chunk sw) in
              let b := cube_new (c_start bounds) (c_end bounds) (r_top lo) (r_bottom lo) (r_left lo) (r_right lo) in
              or_error (
                ref <- nth_res (su_refs s) (sw_index sw) ;;
                match ref with
                | RElided =>
                    n <- cube_instants b ;;
                    if stride =? 0 then Panic else
                    flat_mapM (fun i =>
                      v <- dac_get (su_max s) (sw_index sw + stride * c_start b + i * stride) ;;
                      Ok (if ((lower <=? v) && (v <=? upper))%Z then
                            map (fun rc => inr (i + c_start b, fst rc + top, snd rc + lft))
                                (list_prod (range (c_top b) (c_bottom b)) (range (c_left b) (c_right b)))
                          else [])) (seq 0 n)
                | RLocal i =>
                    m' <- nth_res local i ;;
                    l <- mm_search st fuel' m' b lower upper ;; Ok (map (shift_item 0 top lft) l)
                | RExternal i =>
                    m' <- super_external st s i ;;
                    l <- mm_search st fuel' m' b lower upper ;; Ok (map (shift_item 0 top lft) l)
                end)
            else Ok []) subs
      | MSpan s =>
          instants <- cube_instants bounds ;;
          pieces <- span_pieces_for s (c_start bounds) instants ;;
          flat_mapM (fun '(sp, instant, len, off) =>
            c <- nth_res (sp_spans s) sp ;;
            or_error (
              m' <- get_mm st c ;;
              l <- mm_search st fuel' m'
                     (cube_new instant (instant + len) (c_top bounds) (c_bottom bounds) (c_left bounds) (c_right bounds))
                     lower upper ;;
              Ok (map (shift_item (sp * sp_stride s) 0 0) l))) pieces
      end
  end.
