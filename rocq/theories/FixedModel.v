(** * Model of [dcdf/src/fixed.rs].

    Floats are Flocq's IEEE-754 binary floats (one NaN, no payload) of any
    precision [prec] and exponent range [emax]: f32 is (24, 128), f64 is
    (53, 1024). Float operations round to nearest even, as Rust's do. *)
From Coq Require Import ZArith Reals.
From Flocq Require Import Core.Core IEEE754.BinarySingleNaN.
From Verif Require Import Base.

(** [1_i64 << b] in a release build: the shift amount is taken modulo 64. *)
Definition i64_shl1 (b : nat) : Z := wrap64 (2 ^ Z.of_nat (b mod 64)).

Section Floats.
  Variables prec emax : Z.
  Context (Hp : Prec_gt_0 prec) (He : Prec_lt_emax prec emax).
  Notation flt := (binary_float prec emax).

  (** [F::from(z)] (num-traits [NumCast]: the [as] conversion). *)
  Definition f_of_Z (z : Z) : flt := binary_normalize prec emax Hp He mode_NE z 0 false.
  Definition f_mul (x y : flt) : flt := Bmult mode_NE x y.
  Definition f_div (x y : flt) : flt := Bdiv mode_NE x y.
  Definition f_sub (x y : flt) : flt := Bminus mode_NE x y.
  Definition f_gt (x y : flt) : bool := match Bcompare x y with Some Gt => true | _ => false end.
  Definition f_lt (x y : flt) : bool := match Bcompare x y with Some Lt => true | _ => false end.
  Definition f_ge (x y : flt) : bool := match Bcompare x y with Some Gt | Some Eq => true | _ => false end.
  (** [trunc], [fract] ([self - self.trunc()]), [round] (half away from zero). *)
  Definition f_trunc (x : flt) : flt := Bnearbyint mode_ZR x.
  Definition f_fract (x : flt) : flt := f_sub x (f_trunc x).
  Definition f_round (x : flt) : flt := Bnearbyint mode_NA x.

  (** num-traits [ToPrimitive::to_i64] for floats of at most 64 bits. *)
  Definition f_to_i64 (x : flt) : option Z :=
    if f_ge x (f_of_Z (- 2 ^ 63)) && f_lt x (f_of_Z (2 ^ 63)) then Some (Btrunc x) else None.

  (** [x as i64]: saturating, NaN is 0. *)
  Definition f_as_i64 (x : flt) : Z :=
    match x with
    | B754_nan => 0
    | B754_infinity s => if s then (- 2 ^ 63)%Z else (2 ^ 63 - 1)%Z
    | _ => Z.max (- 2 ^ 63) (Z.min (2 ^ 63 - 1) (Btrunc x))
    end%Z.

  (** [to_fixed], fixed.rs 31-71. *)
  Definition to_fixed (n : flt) (fractional_bits : nat) (round : bool) : res Z :=
    if is_nan n then Ok 0%Z else
    if negb (is_finite n) then Panic else
    let shifted := f_mul n (f_of_Z (i64_shl1 fractional_bits)) in
    shifted <- (if f_gt (f_fract shifted) (f_of_Z 0)
                then if round then Ok (f_round shifted) else Panic
                else Ok shifted) ;;
    let shifted := f_mul shifted (f_of_Z 2) in
    match f_to_i64 shifted with
    | Some number => Ok (i64_add number 1)
    | None => Panic
    end.

  (** [from_fixed], fixed.rs 81-86. *)
  Definition from_fixed (n : Z) (fractional_bits : nat) : flt :=
    if (n =? 0)%Z then B754_nan
    else f_div (f_of_Z (i64_sub n 1)) (f_of_Z (i64_shl1 (fractional_bits + 1))).
End Floats.

Arguments f_of_Z {prec emax Hp He}.
Arguments f_mul {prec emax Hp He}.
Arguments f_div {prec emax Hp He}.
Arguments f_sub {prec emax Hp He}.
Arguments f_gt {prec emax}.
Arguments f_lt {prec emax}.
Arguments f_ge {prec emax}.
Arguments f_trunc {prec emax He}.
Arguments f_fract {prec emax Hp He}.
Arguments f_round {prec emax He}.
Arguments f_to_i64 {prec emax Hp He}.
Arguments f_as_i64 {prec emax}.
Arguments to_fixed {prec emax Hp He}.
Arguments from_fixed {prec emax Hp He}.

#[global] Instance Hp32 : Prec_gt_0 24 := eq_refl.
#[global] Instance He32 : Prec_lt_emax 24 128 := eq_refl.
#[global] Instance Hp64 : Prec_gt_0 53 := eq_refl.
#[global] Instance He64 : Prec_lt_emax 53 1024 := eq_refl.
Notation f32 := (binary_float 24 128).
Notation f64 := (binary_float 53 1024).

(** [enum Fraction], fixed.rs 88-92. *)
Inductive fraction := Precise (bits : nat) | Round (bits : nat).

(** [i64::trailing_zeros]. *)
Fixpoint pos_tz (p : positive) : nat := match p with xO p => S (pos_tz p) | _ => 0 end.
Definition trailing_zeros (z : Z) : nat :=
  match z with Z0 => 64 | Zpos p | Zneg p => pos_tz p end.

Section Suggest.
  Variables prec emax : Z.
  Context (Hp : Prec_gt_0 prec) (He : Prec_lt_emax prec emax).
  Notation flt := (binary_float prec emax).

  (** [F::to_f64]: exact for f32 and f64. *)
  Definition to_f64 (x : flt) : f64 :=
    match x with
    | B754_nan => B754_nan
    | B754_infinity s => B754_infinity s
    | B754_zero s => B754_zero s
    | B754_finite s m e _ => binary_normalize 53 1024 _ _ mode_NE (if s then Zneg m else Zpos m) e s
    end.

  (** The largest number: skip leading NaNs, then compare, fixed.rs 106-119.
      [None] is the panic on an empty array. *)
  Definition max_step (m n : flt) : flt := if negb (is_nan n) && f_gt n m then n else m.
  Fixpoint skip_nan (m : flt) (values : list flt) : flt * list flt :=
    match values with
    | n :: rest => if is_nan m then skip_nan n rest else (m, values)
    | [] => (m, [])
    end.
  Definition max_value (data : list flt) : res flt :=
    match data with
    | [] => Panic
    | m :: values => let '(m, values) := skip_nan m values in Ok (fold_left max_step values m)
    end.

  (** The loop over the data, fixed.rs 134-156. *)
  Fixpoint fraction_loop (data : list flt) (max_fraction_bits fraction_bits : nat) : fraction :=
    match data with
    | [] => Precise fraction_bits
    | n :: rest =>
        let n := to_f64 n in
        if is_nan n then fraction_loop rest max_fraction_bits fraction_bits else
        let shifted := f_mul n (f_of_Z (i64_shl1 max_fraction_bits)) in
        if match Bcompare (f_fract shifted) (f_of_Z 0) with Some Eq => false | _ => true end
        then Round max_fraction_bits
        else
          let these_bits := max_fraction_bits - trailing_zeros (f_as_i64 shifted) in
          fraction_loop rest max_fraction_bits (if fraction_bits <? these_bits then these_bits else fraction_bits)
    end.

  (** [suggest_fraction], fixed.rs 96-159. [log2_floor x] stands for
      [x.log2().floor() as usize] (the platform's [log2] is not modelled). *)
  Definition suggest_fraction (log2_floor : f64 -> nat) (data : list flt) : res fraction :=
    m <- max_value data ;;
    if is_nan m then Ok (Precise 0) else
    let whole_bits := 1 + log2_floor (to_f64 m) in
    max_fraction_bits <- usub 62 whole_bits ;;
    Ok (fraction_loop data max_fraction_bits 0).
End Suggest.

Arguments to_f64 {prec emax}.
Arguments max_value {prec emax}.
Arguments suggest_fraction {prec emax}.
Arguments fraction_loop {prec emax}.

(** The exact logarithm, as an instance of [log2_floor]: negative logarithms and
    NaN saturate to 0. *)
Definition exact_log2_floor (x : f64) : nat :=
  match x with B754_finite false m e _ => Z.to_nat (Z.log2 (Zpos m) + e) | _ => 0 end.
