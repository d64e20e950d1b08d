(** * Model of the stored objects: [dcdf/src/span.rs], [superchunk.rs],
    [mmstruct.rs], [links.rs], [dataset.rs] (data types, serialization, sizes,
    listing), of [dcdf/src/node.rs] and of [dcdf/src/resolver.rs] over a content
    store.  Building and reading them is in SuperModel.v and DatasetModel.v. *)
From Verif Require Import Base BitmapModel DacModel StreamModel ChunkModel.

(** ** Content identifiers as keys *)
Definition bytes_eqb (a b : bytes) : bool :=
  (length a =? length b) && forallb (fun p => (fst p =? snd p)%N) (combine a b).
Definition cid_eqb (a b : cid) : bool :=
  match a, b with
  | CidV0 d, CidV0 d' => bytes_eqb d d'
  | CidV1 co c d, CidV1 co' c' d' => ((co =? co')%N && (c =? c')%N) && bytes_eqb d d'
  | _, _ => false
  end.

(** ** Spans *)

(** [struct Span], span.rs 26-32. The [resolver] handle is left out: the store
    is an argument of every operation. *)
Record span := mkSpan
  { sp_instants : nat; sp_rows : nat; sp_cols : nat; sp_stride : nat;
    sp_spans : list cid; sp_enc : encoding }.

(** [Span::save_to], span.rs 288-305. *)
Definition span_write (s : span) : bytes :=
  write_byte (encoding_code (sp_enc s)) ++ write_usize32 (sp_instants s) ++
  write_usize32 (sp_rows s) ++ write_usize32 (sp_cols s) ++ write_usize32 (sp_stride s) ++
  write_usize32 (length (sp_spans s)) ++ flat_map write_cid (sp_spans s).

(** [Span::load_from], span.rs 307-330. *)
Definition span_read : reader span := (
  b <~ read_byte ;;
  enc <~ rfail (encoding_of b) ;;
  instants <~ read_usize32 ;;
  rows <~ read_usize32 ;;
  cols <~ read_usize32 ;;
  stride <~ read_usize32 ;;
  n <~ read_usize32 ;;
  spans <~ rmany n read_cid ;;
  rret (mkSpan instants rows cols stride spans enc))%rd.

(** ** Superchunks *)

(** [enum Reference], superchunk.rs 827-836. *)
Inductive reference := RElided | RLocal (index : nat) | RExternal (index : nat).

(** [Reference::write_to], superchunk.rs 841-857. *)
Definition reference_write (r : reference) : bytes :=
  match r with
  | RElided => write_byte 0
  | RLocal i => write_byte 1 ++ write_usize32 i
  | RExternal i => write_byte 2 ++ write_usize32 i
  end.

(** [Reference::read_from], superchunk.rs 860-869. *)
Definition reference_read : reader reference := (
  b <~ read_byte ;;
  if (b =? 0)%N then rret RElided
  else if (b =? 1)%N then i <~ read_usize32 ;; rret (RLocal i)
  else if (b =? 2)%N then i <~ read_usize32 ;; rret (RExternal i)
  else rfail Panic)%rd.

(** [Reference::size], superchunk.rs 873-880. *)
Definition reference_size (r : reference) : nat :=
  match r with RElided => 1 | RLocal _ => 1 + 4 | RExternal _ => 1 + 4 end.

(** [struct Superchunk], superchunk.rs 38-83, without the resolver handle, the
    weak pointer to the loaded links and the local subchunks (see [MSuper]). *)
Record super := mkSuper
  { su_instants : nat; su_rows : nat; su_cols : nat; su_sidelen : nat; su_levels : nat;
    su_refs : list reference; su_max : dac; su_min : dac; su_external : cid;
    su_fbits : nat; su_enc : encoding; su_chunks_sidelen : nat; su_subsidelen : nat }.

(** [enum MMStruct3], mmstruct.rs 61-65. *)
Inductive mmstruct :=
| MSpan (s : span)
| MSub (c : chunk)
| MSuper (s : super) (local : list mmstruct).

(** What [Superchunk::save_to], superchunk.rs 678-710, writes before and after
    the local subchunks. *)
Definition super_write_front (s : super) : bytes :=
  write_usize32 (su_instants s) ++ write_usize32 (su_rows s) ++ write_usize32 (su_cols s) ++
  write_usize32 (su_sidelen s) ++ write_usize8 (su_levels s) ++
  write_usize32 (su_chunks_sidelen s) ++ write_usize32 (su_subsidelen s) ++
  write_usize8 (su_fbits s) ++ write_byte (encoding_code (su_enc s)) ++
  write_usize32 (length (su_refs s)) ++ flat_map reference_write (su_refs s) ++
  write_cid (su_external s).
Definition super_write_back (s : super) : bytes := dac_write (su_max s) ++ dac_write (su_min s).

(** [MMStruct3::save_to], mmstruct.rs 203-226, with [Superchunk::save_to]. *)
Fixpoint mm_write (m : mmstruct) : bytes :=
  match m with
  | MSpan s => write_byte 3 ++ span_write s
  | MSub c => write_byte 4 ++ chunk_write c
  | MSuper s local =>
      write_byte 5 ++ super_write_front s ++ write_usize32 (length local) ++
      flat_map mm_write local ++ super_write_back s
  end.

(** [Superchunk::load_from], superchunk.rs 713-764; [sub] loads a local subchunk. *)
Definition super_read (sub : reader mmstruct) : reader mmstruct := (
  instants <~ read_usize32 ;;
  rows <~ read_usize32 ;;
  cols <~ read_usize32 ;;
  sidelen <~ read_usize32 ;;
  levels <~ read_usize8 ;;
  chunks_sidelen <~ read_usize32 ;;
  subsidelen <~ read_usize32 ;;
  fbits <~ read_usize8 ;;
  b <~ read_byte ;;
  enc <~ rfail (encoding_of b) ;;
  n_refs <~ read_usize32 ;;
  refs <~ rmany n_refs reference_read ;;
  external <~ read_cid ;;
  n_local <~ read_usize32 ;;
  local <~ rmany n_local sub ;;
  max <~ dac_read ;;
  min <~ dac_read ;;
  rret (MSuper (mkSuper instants rows cols sidelen levels refs max min external fbits enc
                        chunks_sidelen subsidelen) local))%rd.

(** [MMStruct3::load_from], mmstruct.rs 229-245. The fuel bounds the nesting
    of local subchunks, which cannot exceed the length of the stream. *)
Fixpoint mm_read_f (fuel : nat) : reader mmstruct :=
  match fuel with
  | 0 => fun _ => Diverge
  | S fuel' => (
      b <~ read_byte ;;
      if (b =? 4)%N then c <~ chunk_read ;; rret (MSub c)
      else if (b =? 3)%N then s <~ span_read ;; rret (MSpan s)
      else if (b =? 5)%N then super_read (mm_read_f fuel')
      else rfail Panic)%rd
  end.
Definition mm_read : reader mmstruct := fun s => mm_read_f (S (length s)) s.

(** [Resolver::HEADER_SIZE], resolver.rs 58. *)
Definition header_size : nat := 2 + 4 + 1.

(** [Cid::encoded_len] of the cid crate. *)
Definition cid_len (c : cid) : nat := length (cid_bytes c).

(** [Span::size], span.rs 341-350. *)
Definition span_size (s : span) : nat :=
  header_size + 1 + 4 * 3 + 4 + 4 + sum_nat (map cid_len (sp_spans s)).

(** [MMStruct3::size], mmstruct.rs 187-197, with [Superchunk::size],
    superchunk.rs 654-669. *)
Fixpoint mm_size (m : mmstruct) : nat :=
  match m with
  | MSpan s => span_size s
  | MSub c => chunk_size c
  | MSuper s local =>
      header_size + 4 * 3 + 4 + 1 + 4 + 4 + 1 + 4 + sum_nat (map reference_size (su_refs s)) +
      cid_len (su_external s) + 4 + sum_nat (map mm_size local) + dac_size (su_max s) +
      dac_size (su_min s)
  end + 1.

(** [MMStruct3::encoding], [fractional_bits], [shape], mmstruct.rs 70-98. *)
Definition mm_encoding (m : mmstruct) : encoding :=
  match m with MSpan s => sp_enc s | MSub c => ch_encoding c | MSuper s _ => su_enc s end.
Definition mm_fbits (m : mmstruct) : nat :=
  match m with MSpan _ => 0 | MSub c => ch_fbits c | MSuper s _ => su_fbits s end.
Definition mm_shape (m : mmstruct) : res (nat * nat * nat) :=
  match m with
  | MSpan s => Ok (sp_instants s, sp_rows s, sp_cols s)
  | MSub c => chunk_shape c
  | MSuper s _ => Ok (su_instants s, su_rows s, su_cols s)
  end.

(** ** Links *)

(** [Links::save_to], links.rs 66-77. *)
Definition links_write (l : list cid) : bytes := write_usize32 (length l) ++ flat_map write_cid l.

(** [Cid::read_bytes] of the cid crate, on a cursor. *)
Definition cid_read_bytes : reader cid := (
  version <~ varint_read ;;
  codec <~ varint_read ;;
  if ((version =? 18) && (codec =? 32))%N then
    d <~ read_exact 32 ;; rret (CidV0 d)
  else if (version =? 1)%N then
    code <~ varint_read ;;
    size <~ varint_read ;;
    if (size <=? 64)%N then d <~ read_exact (N.to_nat size) ;; rret (CidV1 codec code d)
    else rfail (Err ECid)
  else rfail (Err ECid))%rd.

(** [Links::load_from], links.rs 46-64: the rest of the stream is consumed. *)
Definition links_read : reader (list cid) := (
  n <~ read_usize32 ;;
  l <~ rmany n cid_read_bytes ;;
  (fun _ => Ok (l, [])))%rd.

(** [Links::size], links.rs 90-92. *)
Definition links_size (l : list cid) : nat := header_size + 4 + sum_nat (map cid_len l).

(** ** Datasets *)

(** [enum CoordinateKind], dataset.rs 72-79. Floats are bit patterns; the
    [External] variants (never built, [todo!()] everywhere) are left out. *)
Inductive coord_kind :=
| KTime (start step : Z)
| KI32 (start step : Z) (steps : nat)
| KI64 (start step : Z) (steps : nat)
| KF32 (start step : N) (steps : nat)
| KF64 (start step : N) (steps : nat).

(** [struct Coordinate], dataset.rs 39-43. *)
Record coordinate := mkCoord { co_name : bytes; co_kind : coord_kind }.

(** [CoordinateKind::write_to], dataset.rs 706-773. *)
Definition kind_write (k : coord_kind) : bytes :=
  match k with
  | KTime a b => write_byte (encoding_code EncTime) ++ write_i64 a ++ write_i64 b
  | KI32 a b n => write_byte (encoding_code EncI32) ++ write_i32 a ++ write_i32 b ++ write_usize32 n
  | KI64 a b n => write_byte (encoding_code EncI64) ++ write_i64 a ++ write_i64 b ++ write_usize32 n
  | KF32 a b n => write_byte (encoding_code EncF32) ++ write_f32 a ++ write_f32 b ++ write_usize32 n
  | KF64 a b n => write_byte (encoding_code EncF64) ++ write_f64 a ++ write_f64 b ++ write_usize32 n
  end.

(** [CoordinateKind::read_from], dataset.rs 775-818. *)
Definition kind_read : reader coord_kind := (
  b <~ read_byte ;;
  enc <~ rfail (encoding_of b) ;;
  match enc with
  | EncTime => start <~ read_i64 ;; step <~ read_i64 ;; rret (KTime start step)
  | EncI32 => start <~ read_i32 ;; step <~ read_i32 ;; n <~ read_usize32 ;; rret (KI32 start step n)
  | EncI64 => start <~ read_i64 ;; step <~ read_i64 ;; n <~ read_usize32 ;; rret (KI64 start step n)
  | EncF32 => start <~ read_f32 ;; step <~ read_f32 ;; n <~ read_usize32 ;; rret (KF32 start step n)
  | EncF64 => start <~ read_f64 ;; step <~ read_f64 ;; n <~ read_usize32 ;; rret (KF64 start step n)
  end)%rd.

(** [CoordinateKind::size], dataset.rs 821-831. *)
Definition kind_size (k : coord_kind) : nat :=
  match k with KTime _ _ => 16 | KI32 _ _ _ => 12 | KI64 _ _ _ => 20 | KF32 _ _ _ => 12 | KF64 _ _ _ => 20 end.

(** [Coordinate::write_to/read_from/size], dataset.rs 681-702. *)
Definition coord_write (c : coordinate) : bytes := write_str (co_name c) ++ kind_write (co_kind c).
Definition coord_read : reader coordinate := (
  name <~ read_str ;;
  kind <~ kind_read ;;
  rret (mkCoord name kind))%rd.
Definition coord_size (c : coordinate) : nat := 1 + length (co_name c) + kind_size (co_kind c).

(** [struct Variable], dataset.rs 45-70. *)
Record variable := mkVar
  { va_name : bytes; va_round : option nat; va_span_size : nat; va_chunk_size : nat;
    va_levels : list nat; va_enc : encoding; va_cid : cid }.

(** [Variable::save_to], dataset.rs 1017-1039. *)
Definition variable_write (v : variable) : bytes :=
  write_str (va_name v) ++
  match va_round v with Some bits => write_byte 1 ++ write_usize8 bits | None => write_byte 0 end ++
  write_usize32 (va_span_size v) ++ write_usize32 (va_chunk_size v) ++
  write_usize8 (length (va_levels v)) ++ flat_map write_usize32 (va_levels v) ++
  write_byte (encoding_code (va_enc v)) ++ write_cid (va_cid v).

(** [Variable::load_from], dataset.rs 1041-1071. *)
Definition variable_read : reader variable := (
  name <~ read_str ;;
  b <~ read_byte ;;
  round <~ (if (b =? 1)%N then bits <~ read_usize8 ;; rret (Some bits) else rret None) ;;
  span_size <~ read_usize32 ;;
  chunk_size <~ read_usize32 ;;
  n <~ read_usize8 ;;
  levels <~ rmany n read_usize32 ;;
  e <~ read_byte ;;
  enc <~ rfail (encoding_of e) ;;
  c <~ read_cid ;;
  rret (mkVar name round span_size chunk_size levels enc c))%rd.

(** [Variable::size], dataset.rs 1080-1090. *)
Definition variable_size (v : variable) : nat :=
  1 + length (va_name v) + 1 + match va_round v with Some _ => 1 | None => 0 end + 4 + 4 +
  4 * length (va_levels v) + 1 + cid_len (va_cid v).

(** [struct Dataset], dataset.rs 28-37; the array of three coordinates is a triple. *)
Record dataset := mkDataset
  { ds_coords : coordinate * coordinate * coordinate; ds_vars : list variable;
    ds_rows : nat; ds_cols : nat; ds_cid : option cid; ds_prev : option cid }.

(** [Dataset::save_to], dataset.rs 413-437. The dataset's own [cid] is not written. *)
Definition dataset_write (d : dataset) : bytes :=
  let '(c1, c2, c3) := ds_coords d in
  coord_write c1 ++ coord_write c2 ++ coord_write c3 ++
  write_usize8 (length (ds_vars d)) ++ flat_map variable_write (ds_vars d) ++
  write_usize32 (ds_rows d) ++ write_usize32 (ds_cols d) ++
  match ds_prev d with Some c => write_byte 1 ++ write_cid c | None => write_byte 0 end.

(** [Dataset::load_from], dataset.rs 439-471. *)
Definition dataset_read : reader dataset := (
  c1 <~ coord_read ;;
  c2 <~ coord_read ;;
  c3 <~ coord_read ;;
  n <~ read_usize8 ;;
  vars <~ rmany n variable_read ;;
  rows <~ read_usize32 ;;
  cols <~ read_usize32 ;;
  b <~ read_byte ;;
  prev <~ (if (b =? 1)%N then c <~ read_cid ;; rret (Some c) else rret None) ;;
  rret (mkDataset (c1, c2, c3) vars rows cols None prev))%rd.

(** [Dataset::size], dataset.rs 486-496. *)
Definition dataset_size (d : dataset) : nat :=
  let '(c1, c2, c3) := ds_coords d in
  header_size + (coord_size c1 + coord_size c2 + coord_size c3) +
  sum_nat (map variable_size (ds_vars d)) + 8 + 1 +
  match ds_prev d with Some c => cid_len c | None => 0 end.

(** ** Nodes and the resolver *)

(** [enum CacheItem], resolver.rs 31-35: what can be stored and loaded. *)
Inductive node := NDataset (d : dataset) | NLinks (l : list cid) | NMM (m : mmstruct).

(** [NODE_TYPE] of each, node.rs 9-15. *)
Definition node_type (n : node) : N :=
  match n with NDataset _ => 0 | NLinks _ => 1 | NMM _ => 2 end%N.

(** [save_to] of each. *)
Definition node_body (n : node) : bytes :=
  match n with
  | NDataset d => dataset_write d
  | NLinks l => links_write l
  | NMM m => mm_write m
  end.

(** [CacheItem::size], resolver.rs 47-54. *)
Definition node_size (n : node) : nat :=
  match n with
  | NDataset d => dataset_size d
  | NLinks l => links_size l
  | NMM m => mm_size m
  end.

(** [MAGIC_NUMBER] and [FORMAT_VERSION], resolver.rs 17-18. *)
Definition magic_number : N := 56544%N.
Definition format_version : N := 1%N.

(** What [Resolver::save] writes, resolver.rs 126-138. *)
Definition node_bytes (n : node) : bytes :=
  write_u16 magic_number ++ write_u32 format_version ++ write_byte (node_type n) ++ node_body n.

(** [Resolver::read_header], resolver.rs 167-179. *)
Definition read_header : reader N := (
  magic <~ read_u16 ;;
  if negb (magic =? magic_number)%N then rfail Panic else
  version <~ read_u32 ;;
  if negb (version =? format_version)%N then rfail Panic else
  read_byte)%rd.

(** The loading part of [Resolver::retrieve], resolver.rs 145-163. Bytes left
    over in the stream are ignored, as in the code. *)
Definition node_read (c : cid) : reader node := (
  t <~ read_header ;;
  if (t =? 0)%N then
    d <~ dataset_read ;;
    rret (NDataset (mkDataset (ds_coords d) (ds_vars d) (ds_rows d) (ds_cols d) (Some c) (ds_prev d)))
  else if (t =? 1)%N then l <~ links_read ;; rret (NLinks l)
  else if (t =? 2)%N then m <~ mm_read ;; rret (NMM m)
  else rfail Panic)%rd.

(** The store behind a [Mapper] (mapper.rs 9-31): the objects written so far,
    oldest first. *)
Definition store := list (cid * bytes).

(** [Mapper::load], mapper.rs 21-25. *)
Definition store_get (st : store) (c : cid) : option bytes :=
  match find (fun p => cid_eqb c (fst p)) st with Some p => Some (snd p) | None => None end.

(** [Resolver::retrieve], resolver.rs 142-165. *)
Definition retrieve (st : store) (c : cid) : res node :=
  match store_get st c with
  | None => Err ENotFound
  | Some b => x <- node_read c b ;; Ok (fst x)
  end.

(** [Resolver::get_dataset/get_mmstruct3/get_links], resolver.rs 82-116. The
    cache is transparent (CacheModel.v), so it is left out here. *)
Definition get_dataset (st : store) (c : cid) : res dataset :=
  n <- retrieve st c ;; match n with NDataset d => Ok d | _ => Panic end.
Definition get_mm (st : store) (c : cid) : res mmstruct :=
  n <- retrieve st c ;; match n with NMM m => Ok m | _ => Panic end.
Definition get_links (st : store) (c : cid) : res (list cid) :=
  n <- retrieve st c ;; match n with NLinks l => Ok l | _ => Panic end.

(** [Resolver::save], resolver.rs 126-138; [hash] is what the mapper computes
    in [StoreWrite::finish]. Errors of the mapper are not modelled. *)
Definition save (hash : bytes -> cid) (st : store) (n : node) : cid * store :=
  let b := node_bytes n in (hash b, st ++ [(hash b, b)]).

(** ** Listing *)

(** The names of listed children: an index in decimal, or a string. *)
Inductive ls_name := LIndex (i : nat) | LName (s : bytes).

(** "subchunks" and "prev". *)
Definition str_subchunks : bytes := [115; 117; 98; 99; 104; 117; 110; 107; 115]%N.
Definition str_prev : bytes := [112; 114; 101; 118]%N.

Definition enum_ls (l : list cid) : list (ls_name * cid) :=
  map (fun p => (LIndex (fst p), snd p)) (combine (seq 0 (length l)) l).

(** [Node::ls]: resolver.rs 38-44 and mmstruct.rs 247-253 dispatch to span.rs
    332-338, chunk.rs 160-162, superchunk.rs 765-767, links.rs 79-86 and
    dataset.rs 473-483. *)
Definition node_ls (n : node) : list (ls_name * cid) :=
  match n with
  | NMM (MSpan s) => enum_ls (sp_spans s)
  | NMM (MSub _) => []
  | NMM (MSuper s _) => [(LName str_subchunks, su_external s)]
  | NLinks l => enum_ls l
  | NDataset d =>
      map (fun v => (LName (va_name v), va_cid v)) (ds_vars d) ++
      match ds_prev d with Some c => [(LName str_prev, c)] | None => [] end
  end.

(** The kinds named by [node_type_of]. *)
Inductive kind_name := IsDataset | IsLinks | IsSubchunk | IsSuperchunk | IsSpan.

(** [Resolver::node_type_of], resolver.rs 203-223. *)
Definition node_type_of (st : store) (c : cid) : res (option kind_name) :=
  match store_get st c with
  | None => Ok None
  | Some b =>
      x <- read_header b ;;
      x <- (if (fst x =? 2)%N then read_byte (snd x) else Ok x) ;;
      let code := fst x in
      if (code =? 0)%N then Ok (Some IsDataset) else if (code =? 1)%N then Ok (Some IsLinks)
      else if (code =? 4)%N then Ok (Some IsSubchunk) else if (code =? 5)%N then Ok (Some IsSuperchunk)
      else if (code =? 3)%N then Ok (Some IsSpan) else Panic
  end.

(** [struct LsEntry], resolver.rs 226-231. *)
Record ls_entry := mkEntry
  { le_cid : cid; le_name : ls_name; le_type : option kind_name; le_size : option nat }.

(** [Resolver::ls], resolver.rs 181-201; [Mapper::size_of] is the number of
    bytes stored. *)
Definition resolver_ls (st : store) (c : cid) : res (list ls_entry) :=
  n <- retrieve st c ;;
  mapM (fun p =>
    t <- node_type_of st (snd p) ;;
    Ok (mkEntry (snd p) (fst p) t (option_map (@length N) (store_get st (snd p))))) (node_ls n).
