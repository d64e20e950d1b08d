(** * The memory that loading an object reserves

    The functions that read, once more (StreamModel.v, ChunkModel.v, NodeModel.v), each
    with the capacities that it asks for beforehand: the arguments of
    [Vec::with_capacity] and [String::with_capacity], in order, as numbers of elements.
    What an element takes depends on its type and is left out. Vectors that grow as they
    are filled ([Vec::new], [vec![]], [read_to_end]) ask for nothing beforehand. *)
From Verif Require Import Base BitmapModel DacModel StreamModel SnapshotModel LogModel ChunkModel NodeModel.
Arguments Nat.pow : simpl never.

Definition areader (A : Type) := bytes -> list N * res (A * bytes).
Definition abind {A B} (m : areader A) (f : A -> areader B) : areader B := fun s =>
  match m s with
  | (l, Ok (a, s')) => let '(l', x) := f a s' in (l ++ l', x)
  | (l, Err e) => (l, Err e)
  | (l, Panic) => (l, Panic)
  | (l, Diverge) => (l, Diverge)
  end.
(** A function that asks for nothing. *)
Definition silent {A} (r : reader A) : areader A := fun s => ([], r s).
Definition aret {A} (a : A) : areader A := silent (rret a).
(** [with_capacity(n)]. *)
Definition reserve (n : nat) : areader unit := fun s => ([N.of_nat n], Ok (tt, s)).
Declare Scope ar_scope.
Delimit Scope ar_scope with ar.
Notation "x <~ e ;; f" := (abind e (fun x => f))
  (at level 61, e at next level, right associativity) : ar_scope.
Notation "e ;; f" := (abind e (fun _ => f)) (at level 61, right associativity) : ar_scope.
Fixpoint amany {A} (n : nat) (m : areader A) : areader (list A) :=
  match n with
  | 0 => aret []
  | S n' => abind m (fun x => abind (amany n' m) (fun xs => aret (x :: xs)))
  end.

(** [BitMap::read_from], bitmap.rs 142-164. *)
Definition a_bitmap : areader bitmap := (
  length <~ silent read_usize32 ;;
  k <~ silent read_usize32 ;;
  blocks <~ silent (rfail (udiv (length / 32) k)) ;;
  reserve blocks ;;
  index <~ silent (rmany blocks read_u32) ;;
  reserve (div_ceil length 32) ;;
  words <~ silent (rmany (div_ceil length 32) read_u32) ;;
  aret (mkBitmap length k index words))%ar.

(** [Dac::read_from], dac.rs 48-63. *)
Definition a_dac_level : areader (bitmap * list N) := (
  bm <~ a_bitmap ;;
  reserve (bm_length bm) ;;
  bs <~ silent (read_take (bm_length bm)) ;;
  aret (bm, bs))%ar.
Definition a_dac : areader dac := (
  n <~ silent read_usize8 ;;
  reserve n ;;
  amany n a_dac_level)%ar.

(** [Snapshot::read_from], snapshot.rs 62-81; [Log::read_from], log.rs 68-89. *)
Definition a_snapshot : areader snapshot := (
  k <~ silent read_usize8 ;;
  rows <~ silent read_usize32 ;;
  cols <~ silent read_usize32 ;;
  sidelen <~ silent read_usize32 ;;
  nodemap <~ a_bitmap ;;
  max <~ a_dac ;;
  min <~ a_dac ;;
  aret (mkSnapshot nodemap max min k rows cols sidelen))%ar.
Definition a_log : areader log := (
  k <~ silent read_usize8 ;;
  rows <~ silent read_usize32 ;;
  cols <~ silent read_usize32 ;;
  sidelen <~ silent read_usize32 ;;
  nodemap <~ a_bitmap ;;
  equal <~ a_bitmap ;;
  max <~ a_dac ;;
  min <~ a_dac ;;
  aret (mkLog nodemap equal max min k rows cols sidelen))%ar.

(** [Block::read_from], block.rs 99-109; [Chunk::read_from], chunk.rs 247-266. *)
Definition a_block : areader block := (
  n_instants <~ silent read_usize8 ;;
  s <~ a_snapshot ;;
  n <~ silent (rfail (usub n_instants 1)) ;;
  reserve n ;;
  logs <~ amany n a_log ;;
  aret (mkBlock s logs))%ar.
Definition a_chunk : areader chunk := (
  b <~ silent read_byte ;;
  enc <~ silent (rfail (encoding_of b)) ;;
  fbits <~ silent read_usize8 ;;
  n_blocks <~ silent read_usize32 ;;
  reserve n_blocks ;;
  reserve n_blocks ;;
  blocks <~ amany n_blocks a_block ;;
  aret (mkChunk blocks (index_of blocks 0) enc fbits))%ar.

(** [read_str], extio.rs 154-160. *)
Definition a_str : areader bytes := (
  len <~ silent read_usize8 ;;
  reserve len ;;
  s <~ silent (read_take len) ;;
  if utf8_valid s then aret s else silent (rfail (Err EUtf8)))%ar.

(** [Span::load_from], span.rs 307-330. [read_cid] asks for nothing. *)
Definition a_span : areader span := (
  b <~ silent read_byte ;;
  enc <~ silent (rfail (encoding_of b)) ;;
  instants <~ silent read_usize32 ;;
  rows <~ silent read_usize32 ;;
  cols <~ silent read_usize32 ;;
  stride <~ silent read_usize32 ;;
  n <~ silent read_usize32 ;;
  reserve n ;;
  spans <~ silent (rmany n read_cid) ;;
  aret (mkSpan instants rows cols stride spans enc))%ar.

(** [Superchunk::load_from], superchunk.rs 713-764. *)
Definition a_super (sub : areader mmstruct) : areader mmstruct := (
  instants <~ silent read_usize32 ;;
  rows <~ silent read_usize32 ;;
  cols <~ silent read_usize32 ;;
  sidelen <~ silent read_usize32 ;;
  levels <~ silent read_usize8 ;;
  chunks_sidelen <~ silent read_usize32 ;;
  subsidelen <~ silent read_usize32 ;;
  fbits <~ silent read_usize8 ;;
  b <~ silent read_byte ;;
  enc <~ silent (rfail (encoding_of b)) ;;
  n_refs <~ silent read_usize32 ;;
  reserve n_refs ;;
  refs <~ silent (rmany n_refs reference_read) ;;
  external <~ silent read_cid ;;
  n_local <~ silent read_usize32 ;;
  reserve n_local ;;
  local <~ amany n_local sub ;;
  max <~ a_dac ;;
  min <~ a_dac ;;
  aret (MSuper (mkSuper instants rows cols sidelen levels refs max min external fbits enc
                        chunks_sidelen subsidelen) local))%ar.

(** [MMStruct3::load_from], mmstruct.rs 229-245. *)
Fixpoint a_mm_f (fuel : nat) : areader mmstruct :=
  match fuel with
  | 0 => silent (fun _ => Diverge)
  | S fuel' => (
      b <~ silent read_byte ;;
      if (b =? 4)%N then c <~ a_chunk ;; aret (MSub c)
      else if (b =? 3)%N then s <~ a_span ;; aret (MSpan s)
      else if (b =? 5)%N then a_super (a_mm_f fuel')
      else silent (rfail Panic))%ar
  end.
Definition a_mm : areader mmstruct := fun s => a_mm_f (S (length s)) s.

(** [Links::load_from], links.rs 46-64. *)
Definition a_links : areader (list cid) := (
  n <~ silent read_usize32 ;;
  reserve n ;;
  silent (l <~ rmany n cid_read_bytes ;; (fun _ => Ok (l, [])))%rd)%ar.

(** [Coordinate::read_from], dataset.rs 688-695; [Variable::load_from], 1041-1071;
    [Dataset::load_from], 439-471. *)
Definition a_coord : areader coordinate := (
  name <~ a_str ;;
  kind <~ silent kind_read ;;
  aret (mkCoord name kind))%ar.
Definition a_variable : areader variable := (
  name <~ a_str ;;
  b <~ silent read_byte ;;
  round <~ silent (if (b =? 1)%N then bits <~ read_usize8 ;; rret (Some bits) else rret None)%rd ;;
  span_size <~ silent read_usize32 ;;
  chunk_size <~ silent read_usize32 ;;
  n <~ silent read_usize8 ;;
  reserve n ;;
  levels <~ silent (rmany n read_usize32) ;;
  e <~ silent read_byte ;;
  enc <~ silent (rfail (encoding_of e)) ;;
  c <~ silent read_cid ;;
  aret (mkVar name round span_size chunk_size levels enc c))%ar.
Definition a_dataset : areader dataset := (
  c1 <~ a_coord ;;
  c2 <~ a_coord ;;
  c3 <~ a_coord ;;
  n <~ silent read_usize8 ;;
  reserve n ;;
  vars <~ amany n a_variable ;;
  rows <~ silent read_usize32 ;;
  cols <~ silent read_usize32 ;;
  b <~ silent read_byte ;;
  prev <~ silent (if (b =? 1)%N then c <~ read_cid ;; rret (Some c) else rret None)%rd ;;
  aret (mkDataset (c1, c2, c3) vars rows cols None prev))%ar.

(** The loading part of [Resolver::retrieve], resolver.rs 145-163. *)
Definition a_node (c : cid) : areader node := (
  t <~ silent read_header ;;
  if (t =? 0)%N then
    d <~ a_dataset ;;
    aret (NDataset (mkDataset (ds_coords d) (ds_vars d) (ds_rows d) (ds_cols d) (Some c) (ds_prev d)))
  else if (t =? 1)%N then l <~ a_links ;; aret (NLinks l)
  else if (t =? 2)%N then m <~ a_mm ;; aret (NMM m)
  else silent (rfail Panic))%ar.

(** What loading the bytes [b] asks for, and all of it together. *)
Definition asked (c : cid) (b : bytes) : list N := fst (a_node c b).
Definition total (l : list N) : N := fold_right N.add 0%N l.
