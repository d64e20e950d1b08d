(** * Model of the indexing of the Python package: [py-dcdf/dcdf/__init__.py], over the
    bindings of [py-dcdf/src/lib.rs].

    Indices are Python integers, of any size, and slices; other objects are not modelled
    (nor are booleans, which are integers to [_is_int], __init__.py 369-370). *)
From Coq Require Import ZArith.
From Verif Require Import Base GeomModel NodeModel SuperModel ArrayModel RangeModel.

(** What a Python expression does. [Raises]: any exception; a Rust panic is one
    too (pyo3 turns it into [PanicException]). *)
Inductive outcome (A : Type) := Value (a : A) | Raises | Hangs.
Arguments Value {A}. Arguments Raises {A}. Arguments Hangs {A}.
Definition obind {A B} (x : outcome A) (f : A -> outcome B) : outcome B :=
  match x with Value a => f a | Raises => Raises | Hangs => Hangs end.
Notation "x <! e ;; f" := (obind e (fun x => f)) (at level 61, e at next level, right associativity).
(** [convert_error], py-dcdf/src/lib.rs 641-652, as far as it matters: an error is an exception. *)
Definition of_res {A} (x : res A) : outcome A :=
  match x with Ok a => Value a | Err _ => Raises | Panic => Raises | Diverge => Hangs end.

Inductive index := PInt (i : Z) | PSlice (start stop step : option Z).

(** An argument of type [usize]: pyo3 refuses [None], negative numbers and those that do
    not fit 64 bits. *)
Definition as_usize (z : option Z) : outcome nat :=
  match z with
  | Some z => if ((0 <=? z) && (z <? 2 ^ 64))%Z then Value (Z.to_nat z) else Raises
  | None => Raises
  end.

(** ** numpy

    Not part of /repo: arrays of the library, and what indexing them means. An array with
    no axes is a scalar. *)
Record nd (A : Type) := mkNd { nd_shape : list nat; nd_at : list nat -> A }.
Arguments mkNd {A}. Arguments nd_shape {A}. Arguments nd_at {A}.

(** The positions of an axis of [n] elements that an index selects: one of them, and the
    axis is dropped, or [count] of them, from [first] in steps of [step]. *)
Inductive axis := One (i : nat) | Many (first step : Z) (count : nat).
(** [slice.indices] of Python, and the length of the [range] it describes. *)
Definition np_bound (n : nat) (step : Z) (z : option Z) (default : Z) : Z :=
  let lower := if (step <? 0)%Z then (-1)%Z else 0%Z in
  let upper := if (step <? 0)%Z then (Z.of_nat n - 1)%Z else Z.of_nat n in
  match z with
  | None => default
  | Some z => if (z <? 0)%Z then Z.max (z + Z.of_nat n) lower else Z.min z upper
  end.
Definition np_axis (n : nat) (i : index) : option axis :=
  match i with
  | PInt z =>
      if ((- Z.of_nat n <=? z) && (z <? Z.of_nat n))%Z
      then Some (One (Z.to_nat (if (z <? 0)%Z then z + Z.of_nat n else z))) else None
  | PSlice start stop step =>
      let step := match step with Some s => s | None => 1%Z end in
      if (step =? 0)%Z then None else
      let backwards := (step <? 0)%Z in
      let first := np_bound n step start (if backwards then Z.of_nat n - 1 else 0)%Z in
      let past := np_bound n step stop (if backwards then -1 else Z.of_nat n)%Z in
      let count := if backwards
        then if (past <? first)%Z then ((first - past - 1) / (- step) + 1)%Z else 0%Z
        else if (first <? past)%Z then ((past - first - 1) / step + 1)%Z else 0%Z in
      Some (Many first step (Z.to_nat count))
  end.
(** Axes without an index are kept whole. *)
Fixpoint np_axes (shape : list nat) (idx : list index) : option (list axis) :=
  match shape, idx with
  | [], [] => Some []
  | [], _ :: _ => None
  | n :: shape', [] => option_map (cons (Many 0 1 n)) (np_axes shape' [])
  | n :: shape', i :: idx' =>
      match np_axis n i, np_axes shape' idx' with
      | Some a, Some l => Some (a :: l)
      | _, _ => None
      end
  end.
Definition np_shape (l : list axis) : list nat :=
  flat_map (fun a => match a with One _ => [] | Many _ _ n => [n] end) l.
Fixpoint np_source (l : list axis) (p : list nat) : list nat :=
  match l with
  | [] => []
  | One i :: l' => i :: np_source l' p
  | Many first step _ :: l' => Z.to_nat (first + Z.of_nat (hd 0 p) * step) :: np_source l' (tl p)
  end.
(** [array[idx]]; [None]: an exception. *)
Definition np_getitem {A} (a : nd A) (idx : list index) : option (nd A) :=
  match np_axes (nd_shape a) idx with
  | Some l => Some (mkNd (np_shape l) (fun p => nd_at a (np_source l p)))
  | None => None
  end.

(** [to_pyarray], and scalars. [d] is what is at positions that do not exist. *)
Definition nd0 {A} (x : A) : nd A := mkNd [] (fun _ => x).
Definition nd1 {A} (d : A) (a : array1 A) : nd A :=
  mkNd [a1_len a] (fun p => match p with [i] => a1_at a i | _ => d end).
Definition nd3 {A} (d : A) (a : array3 A) : nd A :=
  mkNd (let '(n, h, w) := a3_shape a in [n; h; w]) (fun p => match p with [t; r; c] => a3_at a t r c | _ => d end).

(** ** [Variable], __init__.py 233-350 *)
Section Variables.
  Context {A : Type}.
  Variables (R : reader A) (st : store) (fuel : nat) (order : list call -> list call) (m : mmstruct).
  Let d : A := rd_zero R.

  (** [_is_int], [_as_slice], __init__.py 369-377. *)
  Definition is_int (i : index) : bool := match i with PInt _ => true | _ => false end.
  Definition as_slice (i : index) : index :=
    match i with PInt z => PSlice (Some z) (Some (z + 1)%Z) None | _ => i end.
  Definition start_of (i : index) : option Z := match i with PInt _ => None | PSlice s _ _ => s end.
  Definition stop_of (i : index) : option Z := match i with PInt _ => None | PSlice _ s _ => s end.

  (** The loop that fills in the ends of slices, __init__.py 297-309: a new slice has no step. *)
  Definition fix_index (stop : nat) (i : index) : index :=
    match i with
    | PInt _ => i
    | PSlice start stop' step =>
        let '(start, step) := match start with None => (Some 0%Z, None) | Some _ => (start, step) end in
        match stop' with
        | None => PSlice start (Some (Z.of_nat stop)) None
        | Some _ => PSlice start stop' step
        end
    end.

  (** [get], [cell], [window], __init__.py 272-279, with the bindings, lib.rs 412-453. *)
  Definition py_get (t r c : Z) : outcome (nd A) :=
    t <! as_usize (Some t) ;; r <! as_usize (Some r) ;; c <! as_usize (Some c) ;;
    x <! of_res (arr_get R st fuel m t r c) ;; Value (nd0 x).
  Definition py_cell (start stop : option Z) (r c : Z) : outcome (nd A) :=
    start <! as_usize start ;; stop <! as_usize stop ;; r <! as_usize (Some r) ;; c <! as_usize (Some c) ;;
    x <! of_res (arr_cell R st fuel m start stop r c) ;; Value (nd1 d x).
  Definition py_window (t r c : index) : outcome (nd A) :=
    a <! as_usize (start_of t) ;; b <! as_usize (stop_of t) ;; top <! as_usize (start_of r) ;; bottom <! as_usize (stop_of r) ;;
    lft <! as_usize (start_of c) ;; rgt <! as_usize (stop_of c) ;;
    x <! of_res (arr_window R st fuel order m (cube_new a b top bottom lft rgt)) ;; Value (nd3 d x).

  (** [__getitem__], __init__.py 281-334, and [_Slice.data], 357-359, which runs it: [v[idx].data]. *)
  Definition var_getitem (idx : list index) : outcome (nd A) :=
    let n_indices := length idx in
    if 3 <? n_indices then Raises else
    s <! of_res (mm_shape m) ;;
    let '(n, h, w) := s in
    let padded := idx ++ repeat (PSlice (Some 0%Z) None None) (3 - n_indices) in
    match map (fun x => fix_index (snd x) (fst x)) (combine padded [n; h; w]) with
    | [t; r; c] =>
        match t, r, c with
        | PInt t, PInt r, PInt c => py_get t r c
        | PSlice start stop _, PInt r, PInt c => py_cell start stop r c
        | _, _, _ =>
            array <! py_window (as_slice t) (as_slice r) (as_slice c) ;;
            let mask := map (fun i => if is_int i then PInt 0 else PSlice None None None) (firstn n_indices [t; r; c]) in
            match np_getitem array mask with Some x => Value x | None => Raises end
        end
    | _ => Raises
    end.
End Variables.

(** ** [Coordinate], __init__.py 151-230 *)
Section Coordinates.
  Context {A : Type}.
  Variables (get : nat -> res A) (slice : nat -> nat -> res (list A)) (len : res nat) (d : A).

  Definition nd_list (l : list A) : nd A := mkNd [length l] (fun p => match p with [i] => nth i l d | _ => d end).

  (** [__getitem__], [get], [slice] and [__len__], __init__.py 213-230, with the bindings,
      lib.rs 212-344. *)
  Definition coord_getitem (i : index) : outcome (nd A) :=
    match i with
    | PInt z => i <! as_usize (Some z) ;; x <! of_res (get i) ;; Value (nd0 x)
    | PSlice start stop step =>
        match step with
        | Some _ => Raises
        | None =>
            stop <! match stop with Some z => Value (Some z) | None => n <! of_res len ;; Value (Some (Z.of_nat n)) end ;;
            a <! as_usize (match start with Some z => Some z | None => Some 0%Z end) ;; b <! as_usize stop ;;
            l <! of_res (slice a b) ;; Value (nd_list l)
        end
    end.
End Coordinates.
