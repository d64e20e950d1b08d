(** * Model of the datasets of the Python package: [py-dcdf/dcdf/__init__.py], over the
    bindings of [py-dcdf/src/lib.rs].

    Left out: the text form of identifiers, the type of an exception, arguments that are
    not of the annotated type, and coordinates of floats, which [Coordinate.range] builds in
    the same way. *)
From Coq Require Import ZArith String Ascii.
From Verif Require Import Base StreamModel ChunkModel NodeModel SuperModel ArrayModel FixedModel DatasetModel HistoryModel RangeModel PyModel.
Local Open Scope list_scope.
Open Scope nat_scope.

(** The types of numpy; [NpOther] is any that the package does not know. *)
Inductive np_type := NpDatetime64 | NpInt32 | NpInt64 | NpFloat32 | NpFloat64 | NpOther.

(** [MMEncoding], __init__.py 8-30. A key that is missing raises [KeyError]. *)
Definition py_time : Z := 0.
Definition py_i32 : Z := 4.
Definition py_i64 : Z := 8.
Definition py_f32 : Z := 32.
Definition py_f64 : Z := 64.
Definition from_dtype (t : np_type) : outcome Z :=
  match t with
  | NpDatetime64 => Value py_time
  | NpInt32 => Value py_i32
  | NpInt64 => Value py_i64
  | NpFloat32 => Value py_f32
  | NpFloat64 => Value py_f64
  | NpOther => Raises
  end.
Definition to_dtype (e : Z) : outcome np_type :=
  if (e =? py_time)%Z then Value NpDatetime64 else
  if (e =? py_i32)%Z then Value NpInt32 else
  if (e =? py_i64)%Z then Value NpInt64 else
  if (e =? py_f32)%Z then Value NpFloat32 else
  if (e =? py_f64)%Z then Value NpFloat64 else Raises.

(** Arguments of the types [u32], [u8], [i32] and [i64]: pyo3 refuses what does not fit. *)
Definition as_u32 (z : Z) : outcome nat := if ((0 <=? z) && (z <? 2 ^ 32))%Z then Value (Z.to_nat z) else Raises.
Definition as_u8 (z : Z) : outcome N := if ((0 <=? z) && (z <? 2 ^ 8))%Z then Value (Z.to_N z) else Raises.
Definition as_int (bits z : Z) : outcome Z := if ((- 2 ^ (bits - 1) <=? z) && (z <? 2 ^ (bits - 1)))%Z then Value z else Raises.
Fixpoint as_list {A B} (f : A -> outcome B) (l : list A) : outcome (list B) :=
  match l with [] => Value [] | x :: l' => y <! f x ;; r <! as_list f l' ;; Value (y :: r) end.

(** ** Arrays that are passed in *)

(** An array of numpy: its type, its elements, and whether it may be written to. *)
Inductive np_array :=
  | NpArray (t : vtype) (a : nd (carrier t)) (writeable : bool)
  | NpOtherArray.
Definition np_of (t : vtype) : np_type := match t with I32 => NpInt32 | I64 => NpInt64 | F32 => NpFloat32 | F64 => NpFloat64 end.
Definition np_dtype (x : np_array) : np_type := match x with NpArray t _ _ => np_of t | NpOtherArray => NpOther end.

(** An argument of type [PyReadwriteArray3]: an array of that type of elements with three
    axes that may be written to. *)
Definition as_array3 {A} (a : nd A) : outcome (array3 A) :=
  match nd_shape a with
  | [n; h; w] => Value (mkArray3 (n, h, w) (fun t r c => nd_at a [t; r; c]))
  | _ => Raises
  end.
Definition read_write (t : vtype) (x : np_array) : outcome (array3 (carrier t)) :=
  match x with
  | NpArray t' a true =>
      b <! as_array3 a ;;
      match as_type t t' b with Some b' => Value b' | None => Raises end
  | _ => Raises
  end.

(** ** [Dataset], __init__.py 52-148, over [PyDataset], lib.rs 17-135 *)

(** What a call does: to the store, and what it answers. *)
Definition pyop (A : Type) := store -> store * outcome A.
Definition pyret {A} (x : outcome A) : pyop A := fun st => (st, x).
Definition pybind {A B} (p : pyop A) (f : A -> pyop B) : pyop B :=
  fun st => let '(st', r) := p st in match r with Value a => f a st' | Raises => (st', Raises) | Hangs => (st', Hangs) end.
(** [block_on_result], lib.rs 627-633. *)
Definition block_on {A} (o : op A) : pyop A := fun st => let '(st', r) := o st in (st', of_res r).
Notation "x <& e ;; f" := (pybind e (fun x => f)) (at level 61, e at next level, right associativity).

(** [Dataset.new], __init__.py 53-62, lib.rs 22-35. *)
Definition py_new (coords : list coordinate) (shape : list Z) : outcome dataset :=
  match coords with
  | [t; y; x] =>
      s <! as_list (fun z => as_usize (Some z)) shape ;;
      match s with [rows; cols] => Value (dataset_new (t, y, x) rows cols) | _ => Raises end
  | _ => Raises
  end.

Section Calls.
  Variables (hash : bytes -> cid) (lc : nat -> nat) (lg : f64 -> nat) (order : list call -> list call) (fuel : nat).

  (** [Dataset.add_variable], __init__.py 90-106, lib.rs 76-94. *)
  Definition py_add_variable (d : dataset) (name : bytes) (span chunk : Z) (levels : list Z) (round : bool) (bits : Z) (t : np_type) : pyop dataset :=
    code <& pyret (from_dtype t) ;;
    span <& pyret (as_usize (Some span)) ;;
    chunk <& pyret (as_usize (Some chunk)) ;;
    levels <& pyret (as_list as_u32 levels) ;;
    bits <& pyret (as_usize (Some bits)) ;;
    code <& pyret (as_u8 code) ;;
    enc <& pyret (of_res (encoding_of code)) ;;
    block_on (add_variable hash d name (if round then Some bits else None) span chunk levels enc).

  (** [append_i32], [append_i64], [append_f32], [append_f64], lib.rs 96-122. *)
  Definition bound_append (t : vtype) (d : dataset) (name : bytes) (x : np_array) : pyop dataset :=
    data <& pyret (read_write t x) ;;
    block_on (dataset_append hash lc (dt_of lg t) order fuel d name data).

  (** [Dataset.append], __init__.py 108-120. *)
  Definition py_append (d : dataset) (name : bytes) (x : np_array) : pyop dataset :=
    match np_dtype x with
    | NpInt32 => bound_append I32 d name x
    | NpInt64 => bound_append I64 d name x
    | NpFloat32 => bound_append F32 d name x
    | NpFloat64 => bound_append F64 d name x
    | _ => pyret Raises
    end.

  (** [Dataset.commit], __init__.py 122-123, lib.rs 70-74. *)
  Definition py_commit (d : dataset) : pyop cid := block_on (dataset_commit hash d).
  (** [Resolver.get_dataset], __init__.py 45-46, lib.rs 150-154. *)
  Definition py_get_dataset (c : cid) : pyop dataset := fun st => (st, of_res (get_dataset st c)).

  (** A line of a program: [ds = ds.add_variable(..)], [ds = ds.append(..)], [ds.commit()],
      [ds = resolver.get_dataset(ds.commit())]. *)
  Inductive py_call :=
    | PyAdd (name : bytes) (span chunk : Z) (levels : list Z) (round : bool) (bits : Z) (t : np_type)
    | PyAppend (name : bytes) (x : np_array)
    | PyCommit
    | PyReload.
  Definition py_step (d : dataset) (p : py_call) : pyop dataset :=
    match p with
    | PyAdd name span chunk levels round bits t => py_add_variable d name span chunk levels round bits t
    | PyAppend name x => py_append d name x
    | PyCommit => c <& py_commit d ;; pyret (Value d)
    | PyReload => c <& py_commit d ;; py_get_dataset c
    end.
  Fixpoint py_run (d : dataset) (ps : list py_call) : pyop dataset :=
    match ps with [] => pyret (Value d) | p :: ps' => d' <& py_step d p ;; py_run d' ps' end.
  (** [ds = Dataset.new(coords, shape, resolver)], and then the lines. *)
  Definition py_program (coords : list coordinate) (shape : list Z) (ps : list py_call) : pyop dataset :=
    d <& pyret (py_new coords shape) ;; py_run d ps.
End Calls.

(** [Dataset::get_coordinate] and [get_variable], dataset.rs 386-404, lib.rs 124-134,
    __init__.py 125-137; [None] is Python's. *)
Definition coords_of (d : dataset) : list coordinate := let '(a, b, c) := ds_coords d in [a; b; c].
Definition get_coordinate (d : dataset) (name : bytes) : option coordinate := find (fun c => bytes_eqb (co_name c) name) (coords_of d).
Definition get_variable (d : dataset) (name : bytes) : option variable := find_var name (ds_vars d).

(** The names that Python finds before it calls [__getattr__]: those of the class and of the
    object, __init__.py 52-137, and those that every object has ([inherited]). *)
Fixpoint text (s : string) : bytes := match s with EmptyString => [] | String c s' => N_of_ascii c :: text s' end.
Definition own_names : list bytes :=
  map text ["new"; "coordinates"; "variables"; "shape"; "prev"; "cid"; "add_variable"; "append"; "commit"; "get_coordinate"; "get_variable"; "_inner"]%string.
Inductive attribute := AOwn | ACoordinate (c : coordinate) | AVariable (v : variable).
(** [ds.name]: [Dataset.__getattr__], __init__.py 139-148, if there is no such name. *)
Definition py_getattr (inherited : bytes -> bool) (d : dataset) (name : bytes) : outcome attribute :=
  if existsb (bytes_eqb name) own_names || inherited name then Value AOwn else
  match find (fun c => bytes_eqb (co_name c) name) (coords_of d) with
  | Some c => Value (ACoordinate c)
  | None => match find (fun v => bytes_eqb (va_name v) name) (ds_vars d) with
            | Some v => Value (AVariable v)
            | None => Raises
            end
  end.

(** ** [Variable], __init__.py 233-350, over [PyVariable], lib.rs 346-410 *)
Definition py_encoding (v : variable) : Z := Z.of_N (encoding_code (va_enc v)).
Definition py_dtype (v : variable) : outcome np_type := to_dtype (py_encoding v).
Definition py_span_size (v : variable) : nat := va_span_size v.
Definition py_chunk_size (v : variable) : nat := va_chunk_size v.
Definition py_k2_levels (v : variable) : list nat := va_levels v.
Definition py_round (v : variable) : bool := match va_round v with Some _ => true | None => false end.
Definition py_fractional_bits (v : variable) : nat := match va_round v with Some b => b | None => 0 end.

(** [Variable._data], __init__.py 337-349: which of the four kinds of array it opens. *)
Definition py_kind (v : variable) : outcome vtype :=
  let e := py_encoding v in
  if (e =? py_i32)%Z then Value I32 else
  if (e =? py_i64)%Z then Value I64 else
  if (e =? py_f32)%Z then Value F32 else
  if (e =? py_f64)%Z then Value F64 else Raises.

Section Reading.
  Variables (lg : f64 -> nat) (st : store) (fuel : nat) (order : list call -> list call).
  (** [data_i32] etc., lib.rs 394-408. *)
  Definition py_data (v : variable) : outcome (vtype * mmstruct) :=
    t <! py_kind v ;; m <! of_res (var_data (dt_of lg t) st v) ;; Value (t, m).
  (** [Variable.shape], __init__.py 268-270. *)
  Definition py_shape (v : variable) : outcome (nat * nat * nat) := x <! py_data v ;; of_res (mm_shape (snd x)).
  (** [v[idx].data]: numbers of the type of the array. *)
  Definition py_getitem (v : variable) (idx : list index) : outcome { t : vtype & nd (carrier t) } :=
    x <! py_data v ;; let '(t, m) := x in
    a <! var_getitem (reader_of t) st fuel order m idx ;; Value (existT (fun t => nd (carrier t)) t a).
End Reading.

(** ** [Coordinate], __init__.py 151-230, over [PyCoordinate], lib.rs 163-235 *)

(** [Coordinate.range] of integers and [Coordinate.time] of numbers of seconds,
    __init__.py 152-171, lib.rs 169-192. *)
Definition py_range (name : bytes) (start step steps : Z) (t : np_type) : outcome coordinate :=
  match t with
  | NpInt32 => a <! as_int 32 start ;; b <! as_int 32 step ;; n <! as_usize (Some steps) ;; Value (mkCoord name (KI32 a b n))
  | NpInt64 => a <! as_int 64 start ;; b <! as_int 64 step ;; n <! as_usize (Some steps) ;; Value (mkCoord name (KI64 a b n))
  | _ => Raises
  end.
Definition py_timeline (name : bytes) (start step : Z) : outcome coordinate :=
  a <! as_int 64 start ;; b <! as_int 64 step ;; Value (mkCoord name (KTime a b)).

(** [PyCoordinate::encoding], lib.rs 199-210, and [Coordinate.dtype], __init__.py 186-188. *)
Definition py_coord_encoding (c : coordinate) : Z :=
  Z.of_N (encoding_code match co_kind c with
    | KTime _ _ => EncTime | KI32 _ _ _ => EncI32 | KI64 _ _ _ => EncI64 | KF32 _ _ _ => EncF32 | KF64 _ _ _ => EncF64 end).
Definition py_coord_dtype (c : coordinate) : outcome np_type := to_dtype (py_coord_encoding c).

(** [c[i]] of a coordinate of integers or of time, __init__.py 190-230, lib.rs 212-300: [_data]
    chooses by the encoding, and [data_*] panics if the coordinate is of another kind. Times
    are numbers of seconds. *)
Definition py_coord_getitem (c : coordinate) (i : index) : outcome (nd Z) :=
  let e := py_coord_encoding c in
  if (e =? py_time)%Z then
    match co_kind c with
    | KTime a b => let r := mkTimeRange a b in
        coord_getitem (fun j => Ok (time_get r j)) (fun x y => Ok (time_slice r x y)) (coordinate_len c) 0%Z i
    | _ => Raises
    end
  else if (e =? py_i32)%Z then
    match co_kind c with
    | KI32 a b n => let r := mkIntRange a b n in coord_getitem (int_get 32 r) (int_slice 32 r) (coordinate_len c) 0%Z i
    | _ => Raises
    end
  else if (e =? py_i64)%Z then
    match co_kind c with
    | KI64 a b n => let r := mkIntRange a b n in coord_getitem (int_get 64 r) (int_slice 64 r) (coordinate_len c) 0%Z i
    | _ => Raises
    end
  else Raises.
