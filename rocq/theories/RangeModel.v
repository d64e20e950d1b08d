(** * Model of [dcdf/src/range.rs] and [dcdf/src/time.rs]: coordinates.

    Integer arithmetic wraps, as in a release build. *)
From Coq Require Import ZArith.
From Flocq Require Import Core.Core IEEE754.BinarySingleNaN.
From Verif Require Import Base FixedModel NodeModel.

(** Two's complement of [bits] bits. *)
Definition int_wrap (bits : Z) (z : Z) : Z := ((z + 2 ^ (bits - 1)) mod 2 ^ bits - 2 ^ (bits - 1))%Z.
Definition int_in (bits : Z) (z : Z) : Prop := (- 2 ^ (bits - 1) <= z < 2 ^ (bits - 1))%Z.

(** [N::from(index).unwrap()] for a signed integer type of [bits] bits (num-traits
    [NumCast]: [None] if the number does not fit). *)
Definition int_from (bits : Z) (i : nat) : res Z :=
  if (Z.of_nat i <? 2 ^ (bits - 1))%Z then Ok (Z.of_nat i) else Panic.

(** [IntRange], range.rs 54-62. *)
Record int_range := mkIntRange { ir_start : Z; ir_step : Z; ir_steps : nat }.

(** [IntRange::check_bounds], range.rs 105-112, and [FloatRange::check_bounds], 45-52. *)
Definition check_bounds (steps i : nat) : res unit := if steps <=? i then Panic else Ok tt.

Section Int.
  Variable bits : Z.

  (** [N::from(index).unwrap() * self.step + self.start], range.rs 75, 80, 81. *)
  Definition int_at (r : int_range) (i : nat) : res Z :=
    n <- int_from bits i ;; Ok (int_wrap bits (int_wrap bits (n * ir_step r) + ir_start r)).
  (** [IntRange::get], range.rs 73-76. *)
  Definition int_get (r : int_range) (i : nat) : res Z :=
    _ <- check_bounds (ir_steps r) i ;; int_at r i.
  (** Division panics if the divisor is 0 or the quotient does not fit. *)
  Definition int_div (a b : Z) : res Z :=
    if (b =? 0)%Z then Panic
    else if (a =? - 2 ^ (bits - 1))%Z && (b =? -1)%Z then Panic
    else Ok (Z.quot a b).
  (** [cast(n).unwrap()] to a [usize]: refuses negative numbers. *)
  Definition to_usize (z : Z) : res nat := if (z <? 0)%Z then Panic else Ok (Z.to_nat z).
  (** The iterator, range.rs 115-136. *)
  Fixpoint int_iter (start step : Z) (steps : nat) : list Z :=
    match steps with 0 => [] | S n => start :: int_iter (int_wrap bits (start + step)) step n end.
  (** [IntRange::slice], range.rs 78-95. [stop - 1] with [stop = 0] panics in a debug build
      and is out of bounds in a release build. *)
  Definition int_slice (r : int_range) (start stop : nat) : res (list Z) :=
    last <- usub stop 1 ;;
    _ <- check_bounds (ir_steps r) last ;;
    first <- int_at r start ;;
    past <- int_at r stop ;;
    q <- int_div (int_wrap bits (past - first)) (ir_step r) ;;
    steps <- to_usize q ;;
    Ok (int_iter first (ir_step r) steps).
  (** [IntRange::len] and [shape], range.rs 97-103. *)
  Definition int_len (r : int_range) : nat := ir_steps r.
End Int.

(** [TimeRange], time.rs 3-7. *)
Record time_range := mkTimeRange { tr_start : Z; tr_step : Z }.
(** [TimeRange::get], time.rs 14-16: [index as i64]. *)
Definition time_get (r : time_range) (i : nat) : Z :=
  int_wrap 64 (tr_start r + int_wrap 64 (int_wrap 64 (Z.of_nat i) * tr_step r)).
(** [TimeRange::slice], time.rs 18-20. *)
Definition time_slice (r : time_range) (start stop : nat) : list Z :=
  map (fun i => int_wrap 64 (tr_start r + int_wrap 64 (int_wrap 64 (Z.of_nat i) * tr_step r)))
    (seq start (stop - start)).

Section Floats.
  Variables prec emax : Z.
  Context (Hp : Prec_gt_0 prec) (He : Prec_lt_emax prec emax).
  Notation flt := (binary_float prec emax).

  Definition f_add (x y : flt) : flt := Bplus mode_NE x y.
  Definition f_ceil (x : flt) : flt := Bnearbyint mode_UP x.
  (** num-traits [ToPrimitive::to_usize] for floats: [None] unless -1 < x < 2^64. *)
  Definition f_to_usize (x : flt) : option nat :=
    if f_gt x (f_of_Z (-1)) && f_lt x (f_of_Z (2 ^ 64)) then Some (Z.to_nat (Btrunc x)) else None.

  (** [FloatRange], range.rs 6-14. *)
  Record float_range := mkFloatRange { fr_start : flt; fr_step : flt; fr_steps : nat }.
  (** [N::from(index).unwrap() * self.step + self.start], range.rs 26, 31, 32. *)
  Definition float_at (r : float_range) (i : nat) : flt :=
    f_add (f_mul (f_of_Z (Z.of_nat i)) (fr_step r)) (fr_start r).
  (** [FloatRange::get], range.rs 24-27. *)
  Definition float_get (r : float_range) (i : nat) : res flt :=
    _ <- check_bounds (fr_steps r) i ;; Ok (float_at r i).
  (** [Array1::range] of ndarray 0.15 (not in /repo; its [linspace::range]):
      [ceil((b - a) / step)] elements, of which element [i] is [a + step * i]. *)
  Definition array_range (a b step : flt) : res (list flt) :=
    match f_to_usize (f_ceil (f_div (f_sub b a) step)) with
    | Some n => Ok (map (fun i => f_add a (f_mul step (f_of_Z (Z.of_nat i)))) (seq 0 n))
    | None => Panic
    end.
  (** [FloatRange::slice], range.rs 29-35. *)
  Definition float_slice (r : float_range) (start stop : nat) : res (list flt) :=
    last <- usub stop 1 ;;
    _ <- check_bounds (fr_steps r) last ;;
    array_range (float_at r start) (float_at r stop) (fr_step r).
  (** [FloatRange::len] and [shape], range.rs 37-43. *)
  Definition float_len (r : float_range) : nat := fr_steps r.
End Floats.

Arguments f_add {prec emax Hp He}.
Arguments f_ceil {prec emax He}.
Arguments f_to_usize {prec emax Hp He}.
Arguments mkFloatRange {prec emax}.
Arguments fr_start {prec emax}.
Arguments fr_step {prec emax}.
Arguments fr_steps {prec emax}.
Arguments float_at {prec emax Hp He}.
Arguments float_get {prec emax Hp He}.
Arguments array_range {prec emax Hp He}.
Arguments float_slice {prec emax Hp He}.
Arguments float_len {prec emax}.

(** [Coordinate::len], dataset.rs 610-630. *)
Definition coordinate_len (c : coordinate) : res nat :=
  match co_kind c with
  | KTime _ _ => Err ETimeIsInfinite
  | KI32 _ _ n | KI64 _ _ n => Ok n
  | KF32 _ _ n | KF64 _ _ n => Ok n
  end.
