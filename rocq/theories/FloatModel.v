(** * Model of the float buffers of [dcdf/src/mmbuffer.rs]
    ([MMBuffer3::F32] and [MMBuffer3::F64]) and of what float arrays read. *)
From Coq Require Import ZArith.
From Flocq Require Import Core.Core IEEE754.BinarySingleNaN.
From Verif Require Import Base FixedModel ChunkModel NodeModel SuperModel ArrayModel.

Section FloatBuffers.
  Variables prec emax : Z.
  Context (Hp : Prec_gt_0 prec) (He : Prec_lt_emax prec emax).
  Notation flt := (binary_float prec emax).

  (** One step of the loop, mmbuffer.rs 483-493. *)
  Definition min_max_step (p : flt * flt) (n : flt) : flt * flt :=
    let '(mn, mx) := p in
    if is_nan n then (n, mx)
    else if f_lt n mn then (n, mx) else if f_gt n mx then (mn, n) else (mn, mx).

  (** [min_max_float], mmbuffer.rs 465-499, on the values of one instant. The
      loop that skips the leading NaNs, 474-481, is that of [suggest_fraction]. *)
  Definition min_max_float (l : list flt) : res (flt * flt) :=
    match l with
    | [] => Panic
    | first :: values =>
        let '(m, rest) := skip_nan prec emax first values in Ok (fold_left min_max_step rest (m, m))
    end.

  (** [get], mmbuffer.rs 565-571 and 627-633; [min_max], 374-395;
      [compute_fractional_bits], 596-613 and 658-675; [encoding], 405-412. *)
  Definition float_elem (enc : encoding) (round : bool) (log2_floor : f64 -> nat) : elem flt :=
    mkElem enc
      (fun b x => to_fixed x b round)
      (fun b l =>
         p <- min_max_float l ;;
         a <- to_fixed (fst p) b round ;;
         c <- to_fixed (snd p) b round ;;
         Ok (a, c))
      (fun b l =>
         s <- suggest_fraction log2_floor l ;;
         if round then Ok (Nat.min (match s with Precise c | Round c => c end) b)
         else match s with Precise c => Ok c | Round _ => Panic end).

  (** [MMBuffer0::set], mmbuffer.rs 19-34, [MMBuffer1F32::set], 208-210,
      [MMBuffer1F64::set], 235-237, [MMBuffer3F32::set], 561-563,
      [MMBuffer3F64::set], 623-625; a new array is zero. *)
  Definition float_reader (enc : encoding) : reader flt :=
    mkReader enc (B754_zero false) (fun b v => from_fixed v b).
End FloatBuffers.
Arguments min_max_step {prec emax}.
Arguments min_max_float {prec emax}.
Arguments float_elem {prec emax Hp He}.
Arguments float_reader {prec emax Hp He}.

Definition elem_f32 (round : bool) (log2_floor : f64 -> nat) : elem f32 := float_elem EncF32 round log2_floor.
Definition elem_f64 (round : bool) (log2_floor : f64 -> nat) : elem f64 := float_elem EncF64 round log2_floor.
Definition reader_f32 : reader f32 := float_reader EncF32.
Definition reader_f64 : reader f64 := float_reader EncF64.
