(** * Properties C16-C18: the fixed-point encoding of floats.

    [B2R x] is the real number a finite float stands for. A format is any
    IEEE-754 binary format with [65 <= emax]; f32 and f64 are instances. *)
From Coq Require Import ZArith Reals Lra.
From Flocq Require Import Core.Core IEEE754.BinarySingleNaN.
From Verif Require Import Base BaseFacts FixedModel FixedProofs.
Open Scope R_scope.

(** Two floats are the same finite number (the sign of zero aside). *)
Definition same_number {prec emax} (x y : binary_float prec emax) : Prop :=
  is_finite x = true /\ is_finite y = true /\ B2R x = B2R y.

(** The value [n] scaled by 2^b, as a real. *)
Definition scaled {prec emax} (n : binary_float prec emax) (b : nat) : R := B2R n * 2 ^ b.

Lemma pow2_bpow b : 2 ^ b = bpow radix2 (Z.of_nat b).
Proof.
  induction b as [|b IH]; [reflexivity|].
  replace (Z.of_nat (S b)) with (1 + Z.of_nat b)%Z by lia. rewrite bpow_plus, <- IH. reflexivity.
Qed.

Lemma inv_pow2_bpow b : / 2 ^ b = bpow radix2 (- Z.of_nat b).
Proof. now rewrite bpow_opp, pow2_bpow. Qed.

(** ** C16 *)

(** A conversion that does not panic is lossless exactly for the numbers that
    are not negative, and for the negative ones with at most b+1 fractional
    bits other than [-2^-(b+1)]. *)
Theorem C16_lossless_partial : forall prec emax (Hp : Prec_gt_0 prec) (He : Prec_lt_emax prec emax),
  (65 <= emax)%Z ->
  forall (n : binary_float prec emax) (b : nat) (v : Z), (b <= 61)%nat -> is_finite n = true ->
  to_fixed n b false = Ok v ->
  (same_number (from_fixed v b) n <->
   0 <= B2R n \/ exists z : Z, scaled n (b + 1) = IZR z /\ z <> (-1)%Z).
Proof.
  intros prec emax Hp He Hbig n b v Hb F H. unfold same_number, scaled. rewrite pow2_bpow.
  pose proof (lossless_iff prec emax Hp He Hbig n b v Hb F H). tauto.
Qed.

(** Every number with at most b fractional bits and magnitude below 2^(62-b)
    converts, whether rounding is on or off, and is read back unchanged. *)
Theorem C16_representable_partial : forall prec emax (Hp : Prec_gt_0 prec) (He : Prec_lt_emax prec emax),
  (65 <= emax)%Z ->
  forall (n : binary_float prec emax) (b : nat) (round : bool) (z : Z), (b <= 61)%nat -> is_finite n = true ->
  scaled n b = IZR z -> (- 2 ^ 62 <= z < 2 ^ 62)%Z ->
  exists v, to_fixed n b round = Ok v /\ v <> 0%Z /\ same_number (from_fixed v b) n.
Proof.
  intros prec emax Hp He Hbig n b round z Hb F E R. unfold scaled in E. rewrite pow2_bpow in E.
  destruct (integer_converts prec emax Hp He Hbig n b round z Hb F E R) as (A & B & C).
  exists (i64_add (2 * z) 1). split; [exact A|]. split; [|unfold same_number; tauto].
  intros X. rewrite X in C. discriminate.
Qed.

(** A positive number with more than b fractional bits is refused when rounding
    is off, so precision is never lost silently on positive data. *)
Theorem C16_refuses_partial : forall prec emax (Hp : Prec_gt_0 prec) (He : Prec_lt_emax prec emax),
  (65 <= emax)%Z ->
  forall (n : binary_float prec emax) (b : nat), (b <= 61)%nat -> is_finite n = true ->
  0 <= B2R n -> ~ (exists z : Z, scaled n b = IZR z) -> to_fixed n b false = Panic.
Proof.
  intros prec emax Hp He Hbig n b Hb F P N.
  destruct (to_fixed n b false) as [v|e| |] eqn:E; try reflexivity; exfalso.
  - destruct (to_fixed_scaled prec emax Hp He Hbig n b false v ltac:(lia) F E) as (x & Fx & Ex & Hs).
    apply N. unfold scaled. rewrite pow2_bpow, <- Ex. apply not_fract.
    + rewrite Ex. apply Rmult_le_pos; [exact P|apply bpow_ge_0].
    + intros X. rewrite (step_fract_panics prec emax Hp He Hbig x Fx X) in Hs. discriminate.
  - unfold to_fixed in E. destruct (is_nan n); [discriminate|]. destruct (is_finite n); [|discriminate].
    cbn [negb] in E. destruct (f_gt _ _); cbn [bind] in E; [discriminate|].
    destruct (f_to_i64 _); discriminate.
  - unfold to_fixed in E. destruct (is_nan n); [discriminate|]. destruct (is_finite n); [|discriminate].
    cbn [negb] in E. destruct (f_gt _ _); cbn [bind] in E; [discriminate|].
    destruct (f_to_i64 _); discriminate.
Qed.

(** NaN survives, with any number of bits, rounding or not. *)
Theorem C16_nan : forall prec emax (Hp : Prec_gt_0 prec) (He : Prec_lt_emax prec emax)
  (n : binary_float prec emax) (b : nat) (round : bool),
  is_nan n = true ->
  exists v, to_fixed n b round = Ok v /\ is_nan (from_fixed v b : binary_float prec emax) = true.
Proof.
  intros prec emax Hp He n b round N. exists 0%Z. unfold to_fixed. rewrite N. split; reflexivity.
Qed.

(** Infinities are refused. *)
Theorem C16_infinity : forall prec emax (Hp : Prec_gt_0 prec) (He : Prec_lt_emax prec emax) s b round,
  to_fixed (B754_infinity s : binary_float prec emax) b round = Panic.
Proof. reflexivity. Qed.

(** The floats used in the examples: [mant * 2^ex], rounded to the format. *)
Definition fl64 (mant ex : Z) : f64 := binary_normalize 53 1024 _ _ mode_NE mant ex false.
Definition fl32 (mant ex : Z) : f32 := binary_normalize 24 128 _ _ mode_NE mant ex false.

Lemma fl64_value mant ex : (Z.abs mant < 2 ^ 53)%Z -> (-1074 <= ex <= 900)%Z ->
  is_finite (fl64 mant ex) = true /\ B2R (fl64 mant ex) = IZR mant * bpow radix2 ex.
Proof.
  intros A B. unfold fl64.
  pose proof (binary_normalize_correct 53 1024 Hp64 He64 mode_NE mant ex false) as C. cbv zeta in C.
  assert (FM : generic_format radix2 (SpecFloat.fexp 53 1024) (F2R (Float radix2 mant ex))).
  { apply generic_format_FLT. exists (Float radix2 mant ex); [reflexivity|exact A|].
    cbn [Fexp]. unfold SpecFloat.emin. lia. }
  rewrite (round_generic radix2 _ _ _ FM) in C.
  rewrite Rlt_bool_true in C; [tauto|].
  unfold F2R. cbn [Fnum Fexp]. rewrite Rabs_mult, (Rabs_pos_eq (bpow _ _)) by apply bpow_ge_0.
  apply Rlt_le_trans with (bpow radix2 53 * bpow radix2 ex).
  - apply Rmult_lt_compat_r; [apply bpow_gt_0|]. rewrite <- IZR_pow2, <- abs_IZR by lia. apply IZR_lt, A.
  - rewrite <- bpow_plus. apply bpow_le. lia.
Qed.

Lemma fl32_value mant ex : (Z.abs mant < 2 ^ 24)%Z -> (-149 <= ex <= 100)%Z ->
  is_finite (fl32 mant ex) = true /\ B2R (fl32 mant ex) = IZR mant * bpow radix2 ex.
Proof.
  intros A B. unfold fl32.
  pose proof (binary_normalize_correct 24 128 Hp32 He32 mode_NE mant ex false) as C. cbv zeta in C.
  assert (FM : generic_format radix2 (SpecFloat.fexp 24 128) (F2R (Float radix2 mant ex))).
  { apply generic_format_FLT. exists (Float radix2 mant ex); [reflexivity|exact A|].
    cbn [Fexp]. unfold SpecFloat.emin. lia. }
  rewrite (round_generic radix2 _ _ _ FM) in C.
  rewrite Rlt_bool_true in C; [tauto|].
  unfold F2R. cbn [Fnum Fexp]. rewrite Rabs_mult, (Rabs_pos_eq (bpow _ _)) by apply bpow_ge_0.
  apply Rlt_le_trans with (bpow radix2 24 * bpow radix2 ex).
  - apply Rmult_lt_compat_r; [apply bpow_gt_0|]. rewrite <- IZR_pow2, <- abs_IZR by lia. apply IZR_lt, A.
  - rewrite <- bpow_plus. apply bpow_le. lia.
Qed.

(** 2.75 with two fractional bits is stored as 23 and read back (f64), and so
    is -2.75 (f32), stored as -21. *)
Example C16_lossless_ex : to_fixed (fl64 11 (-2)) 2 false = Ok 23%Z
  /\ same_number (from_fixed 23 2) (fl64 11 (-2)).
Proof.
  assert (E : to_fixed (fl64 11 (-2)) 2 false = Ok 23%Z) by (vm_compute; reflexivity).
  split; [exact E|].
  destruct (fl64_value 11 (-2)) as (F & V); [lia|lia|].
  apply (C16_lossless_partial 53 1024 _ _ ltac:(lia) (fl64 11 (-2)) 2 23 ltac:(lia) F E).
  left. rewrite V. cbn. lra.
Qed.

Example C16_lossless_negative_ex : to_fixed (fl32 (-11) (-2)) 2 false = Ok (-21)%Z
  /\ same_number (from_fixed (-21) 2) (fl32 (-11) (-2)).
Proof.
  assert (E : to_fixed (fl32 (-11) (-2)) 2 false = Ok (-21)%Z) by (vm_compute; reflexivity).
  split; [exact E|].
  destruct (fl32_value (-11) (-2)) as (F & V); [lia|lia|].
  apply (C16_lossless_partial 24 128 _ _ ltac:(lia) (fl32 (-11) (-2)) 2 (-21) ltac:(lia) F E).
  right. exists (-22)%Z. split; [|lia]. unfold scaled. rewrite V. cbn. lra.
Qed.

Example C16_refuses_ex : to_fixed (fl64 11 (-2)) 1 false = Panic.
Proof.
  destruct (fl64_value 11 (-2)) as (F & V); [lia|lia|].
  apply (C16_refuses_partial 53 1024 _ _ ltac:(lia)); [lia|exact F|rewrite V; cbn; lra|].
  intros (z & E). unfold scaled in E. rewrite V in E. cbn in E.
  assert (X : IZR (2 * z) = IZR 11) by (rewrite mult_IZR; lra). apply eq_IZR in X. lia.
Qed.

Example C16_nan_ex : to_fixed (B754_nan : f32) 5 true = Ok 0%Z. Proof. reflexivity. Qed.

(** The full claim is false: -0.25 with no fractional bits is accepted and read
    back as 0, -0.5 is read back as NaN ... *)
Theorem C16_refuted : ~ (forall (n : f64) (b : nat) (v : Z), (b <= 61)%nat -> is_finite n = true ->
  to_fixed n b false = Ok v -> same_number (from_fixed v b) n).
Proof.
  intros H. destruct (fl64_value (-1) (-2)) as (F & V); [lia|lia|].
  assert (E : to_fixed (fl64 (-1) (-2)) 0 false = Ok 1%Z) by (vm_compute; reflexivity).
  destruct (H _ 0%nat 1%Z ltac:(lia) F E) as (_ & _ & X). rewrite V in X.
  destruct (fl64_value 0 0) as (_ & V0); [lia|lia|].
  replace (B2R (from_fixed 1 0 : f64)) with 0 in X; [cbn in X; lra|].
  vm_compute. reflexivity.
Qed.

Theorem C16_finite_becomes_nan_refuted : exists (n : f64) (v : Z),
  B2R n = - / 2 /\ is_finite n = true /\ to_fixed n 0 false = Ok v /\ is_nan (from_fixed v 0 : f64) = true.
Proof.
  exists (fl64 (-1) (-1)), 0%Z. destruct (fl64_value (-1) (-1)) as (F & V); [lia|lia|].
  split; [rewrite V; cbn; lra|]. split; [exact F|]. split; vm_compute; reflexivity.
Qed.

(** ... and with 62 fractional bits every value changes sign. *)
Theorem C16_62_bits_refuted : exists (n : f64) (v : Z),
  B2R n = / 4 /\ is_finite n = true /\ to_fixed n 62 false = Ok v
  /\ is_finite (from_fixed v 62 : f64) = true /\ B2R (from_fixed v 62 : f64) = - / 4.
Proof.
  exists (fl64 1 (-2)), (2 ^ 61 + 1)%Z. destruct (fl64_value 1 (-2)) as (F & V); [lia|lia|].
  destruct (fl64_value (-1) (-2)) as (_ & V'); [lia|lia|].
  split; [rewrite V; cbn; lra|]. split; [exact F|]. split; [vm_compute; reflexivity|].
  split; [vm_compute; reflexivity|].
  replace (B2R (from_fixed (2 ^ 61 + 1) 62 : f64)) with (B2R (fl64 (-1) (-2))).
  - rewrite V'. cbn. lra.
  - transitivity (SF2R radix2 (B2SF (from_fixed (2 ^ 61 + 1) 62 : f64))).
    + replace (B2SF (from_fixed (2 ^ 61 + 1) 62 : f64)) with (B2SF (fl64 (-1) (-2))) by (vm_compute; reflexivity).
      symmetry. apply SF2R_B2SF.
    + apply SF2R_B2SF.
Qed.

(** ** C17 *)

(** With rounding on, a number whose scaled magnitude is below 2^62 converts,
    and the number read back is within half a unit of the last place kept. The
    exception is the interval (-2^-b, -2^-(b+1)]. *)
Theorem C17_rounding_partial : forall prec emax (Hp : Prec_gt_0 prec) (He : Prec_lt_emax prec emax),
  (65 <= emax)%Z ->
  forall (n : binary_float prec emax) (b : nat), (b <= 61)%nat -> is_finite n = true ->
  Rabs (scaled n b) <= 2 ^ 62 - 1 -> ~ (-1 < scaled n b <= - / 2) ->
  exists v, to_fixed n b true = Ok v
    /\ is_finite (from_fixed v b : binary_float prec emax) = true
    /\ Rabs (B2R (from_fixed v b : binary_float prec emax) - B2R n) <= / 2 * / 2 ^ b.
Proof.
  intros prec emax Hp He Hbig n b Hb F R G. unfold scaled in *.
  rewrite (pow2_bpow b) in *. rewrite (pow2_bpow 62) in R.
  replace (bpow radix2 (Z.of_nat 62) - 1) with (IZR (2 ^ 62 - 1)) in R
    by (rewrite minus_IZR, IZR_pow2 by lia; reflexivity).
  destruct (rounds prec emax Hp He Hbig n b Hb F R G) as (v & A & B & C).
  exists v. split; [exact A|]. split; [exact B|].
  rewrite <- bpow_opp. replace (/ 2 * bpow radix2 (- Z.of_nat b)) with (bpow radix2 (- Z.of_nat (b + 1))); [exact C|].
  replace (- Z.of_nat (b + 1))%Z with (-1 + - Z.of_nat b)%Z by lia. rewrite bpow_plus. reflexivity.
Qed.

(** In particular every non-negative number in range. *)
Corollary C17_rounding_nonnegative_partial : forall prec emax (Hp : Prec_gt_0 prec) (He : Prec_lt_emax prec emax),
  (65 <= emax)%Z ->
  forall (n : binary_float prec emax) (b : nat), (b <= 61)%nat -> is_finite n = true ->
  0 <= B2R n -> scaled n b <= 2 ^ 62 - 1 ->
  exists v, to_fixed n b true = Ok v
    /\ is_finite (from_fixed v b : binary_float prec emax) = true
    /\ Rabs (B2R (from_fixed v b : binary_float prec emax) - B2R n) <= / 2 * / 2 ^ b.
Proof.
  intros prec emax Hp He Hbig n b Hb F P R.
  assert (0 <= scaled n b) by (apply Rmult_le_pos; [exact P|apply pow_le; lra]).
  apply C17_rounding_partial; try assumption; [|lra]. now rewrite Rabs_pos_eq.
Qed.

(** 2.8125 = 45/16 rounded to one fractional bit is stored as 13, that is 3. *)
Example C17_ex : to_fixed (fl64 45 (-4)) 1 true = Ok 13%Z
  /\ Rabs (scaled (fl64 45 (-4)) 1) <= 2 ^ 62 - 1 /\ ~ (-1 < scaled (fl64 45 (-4)) 1 <= - / 2).
Proof.
  split; [vm_compute; reflexivity|].
  destruct (fl64_value 45 (-4)) as (F & V); [lia|lia|]. unfold scaled. rewrite V. cbn.
  split; [|lra]. rewrite Rabs_pos_eq; lra.
Qed.

(** The exception is real: everywhere in the gap the stored value reads NaN. *)
Theorem C17_gap_refuted : forall prec emax (Hp : Prec_gt_0 prec) (He : Prec_lt_emax prec emax),
  (65 <= emax)%Z ->
  forall (n : binary_float prec emax) (b : nat) (round : bool) (v : Z), (b <= 61)%nat -> is_finite n = true ->
  -1 < scaled n b <= - / 2 -> to_fixed n b round = Ok v ->
  is_nan (from_fixed v b : binary_float prec emax) = true.
Proof.
  intros prec emax Hp He Hbig n b round v Hb F G H. unfold scaled in G. rewrite pow2_bpow in G.
  rewrite (gap_nan prec emax Hp He Hbig n b round v Hb F G H). reflexivity.
Qed.

Example C17_gap_ex : to_fixed (fl32 (-3) (-2)) 0 true = Ok 0%Z /\ -1 < scaled (fl32 (-3) (-2)) 0 <= - / 2.
Proof.
  split; [vm_compute; reflexivity|].
  destruct (fl32_value (-3) (-2)) as (F & V); [lia|lia|]. unfold scaled. rewrite V. cbn. lra.
Qed.

(** ** C18 *)

(** When the probe answers [Precise b], no value is infinite, and every value
    converts with b bits, rounding or not, and is read back unchanged -
    provided no value's magnitude exceeds both 2 and the greatest value.
    [log2_floor] is any logarithm that is not too small. *)
Theorem C18_suggestion_partial : forall prec emax (Hp : Prec_gt_0 prec) (He : Prec_lt_emax prec emax),
  (65 <= emax <= 1024)%Z -> (prec <= 53)%Z ->
  forall (log2_floor : f64 -> nat) (data : list (binary_float prec emax)) (b : nat),
  (forall x : f64, is_finite x = true -> 0 < B2R x -> B2R x < 2 ^ (1 + log2_floor x)) ->
  (forall v, In v data -> is_nan v = false ->
     Rabs (B2R v) < 2 \/ exists u, In u data /\ is_nan u = false /\ Rabs (B2R v) <= B2R u) ->
  suggest_fraction log2_floor data = Ok (Precise b) ->
  forall v round, In v data ->
    exists z, to_fixed v b round = Ok z /\
      if is_nan v then is_nan (from_fixed z b : binary_float prec emax) = true
      else same_number (from_fixed z b) v.
Proof.
  intros prec emax Hp He Hbig H53 lg data b HL HM H v round I.
  destruct (probe_sound prec emax Hp He ltac:(lia) H53 ltac:(lia) lg data b) with (v := v) (round := round)
    as (z & A & B); try assumption.
  - intros x F P. rewrite <- pow2_bpow. now apply HL.
  - exists z. split; [exact A|]. destruct (is_nan v); [now rewrite B|]. unfold same_number. tauto.
Qed.

(** The exact logarithm meets the premise, and so does a data set with NaN and a
    negative value. *)
Definition C18_data : list f32 := [B754_nan; fl32 11 (-2); fl32 (-5) (-3); fl32 1 4].

Example C18_ex : suggest_fraction exact_log2_floor C18_data = Ok (Precise 3)
  /\ (forall v round, In v C18_data -> exists z, to_fixed v 3 round = Ok z /\
      if is_nan v then is_nan (from_fixed z 3 : f32) = true else same_number (from_fixed z 3) v).
Proof.
  assert (E : suggest_fraction exact_log2_floor C18_data = Ok (Precise 3)) by (vm_compute; reflexivity).
  split; [exact E|].
  apply (C18_suggestion_partial 24 128 _ _ ltac:(lia) ltac:(lia) exact_log2_floor C18_data 3).
  - intros x F P. rewrite pow2_bpow. now apply exact_log2_floor_ok.
  - destruct (fl32_value 11 (-2)) as (F1 & V1); [lia|lia|].
    destruct (fl32_value (-5) (-3)) as (F2 & V2); [lia|lia|].
    destruct (fl32_value 1 4) as (F3 & V3); [lia|lia|].
    assert (N3 : is_nan (fl32 1 4) = false) by (vm_compute; reflexivity).
    intros v I Nv. right. exists (fl32 1 4). split; [right; right; right; left; reflexivity|].
    split; [exact N3|].
    destruct I as [<-|[<-|[<-|[<-|[]]]]]; [discriminate| | |]; rewrite V3, ?V1, ?V2; cbn.
    + rewrite Rabs_pos_eq; lra.
    + rewrite Rabs_left1; lra.
    + rewrite Rabs_pos_eq; lra.
  - exact E.
Qed.

(** The full claim is false: a large negative value is not looked at when the
    whole bits are counted. [-2^40 - 1/4; 1] is declared precise with 0 bits,
    which drops the quarter silently ... *)
Theorem C18_negative_loses_refuted : exists (data : list f64) (v : f64) (z : Z),
  suggest_fraction exact_log2_floor data = Ok (Precise 0) /\ In v data /\ is_finite v = true
  /\ to_fixed v 0 false = Ok z /\ ~ same_number (from_fixed z 0) v.
Proof.
  set (v := fl64 (- (2 ^ 42 + 1)) (-2)).
  exists [v; fl64 1 0], v, (- 2 ^ 41 + 1)%Z.
  split; [vm_compute; reflexivity|]. split; [left; reflexivity|].
  destruct (fl64_value (- (2 ^ 42 + 1)) (-2)) as (F & V); [lia|lia|]. split; [exact F|].
  split; [vm_compute; reflexivity|].
  intros (_ & _ & X). fold v in V. rewrite V in X.
  destruct (fl64_value (- 2 ^ 40) 0) as (_ & V'); [lia|lia|].
  replace (B2R (from_fixed (- 2 ^ 41 + 1) 0 : f64)) with (B2R (fl64 (- 2 ^ 40) 0)) in X.
  - rewrite V' in X. cbn in X. lra.
  - transitivity (SF2R radix2 (B2SF (from_fixed (- 2 ^ 41 + 1) 0 : f64))).
    + replace (B2SF (from_fixed (- 2 ^ 41 + 1) 0 : f64)) with (B2SF (fl64 (- 2 ^ 40) 0)) by (vm_compute; reflexivity).
      symmetry. apply SF2R_B2SF.
    + apply SF2R_B2SF.
Qed.

(** ... and [-2^70; 1] is declared precise with 0 bits, with which it panics. *)
Theorem C18_negative_panics_refuted : exists (data : list f64) (v : f64),
  suggest_fraction exact_log2_floor data = Ok (Precise 0) /\ In v data /\ is_finite v = true
  /\ to_fixed v 0 false = Panic.
Proof.
  exists [fl64 (-1) 70; fl64 1 0], (fl64 (-1) 70).
  split; [vm_compute; reflexivity|]. split; [left; reflexivity|]. split; vm_compute; reflexivity.
Qed.

(** An empty array, and a whole part of more than 62 bits, panic. *)
Theorem C18_panics_refuted : suggest_fraction exact_log2_floor ([] : list f64) = Panic
  /\ suggest_fraction exact_log2_floor [fl64 1 70] = Panic.
Proof. split; vm_compute; reflexivity. Qed.

Print Assumptions C16_lossless_partial.
Print Assumptions C16_representable_partial.
Print Assumptions C16_refuses_partial.
Print Assumptions C16_nan.
Print Assumptions C16_infinity.
Print Assumptions C16_refuted.
Print Assumptions C16_finite_becomes_nan_refuted.
Print Assumptions C16_62_bits_refuted.
Print Assumptions C17_rounding_partial.
Print Assumptions C17_rounding_nonnegative_partial.
Print Assumptions C17_gap_refuted.
Print Assumptions C18_suggestion_partial.
Print Assumptions C18_negative_loses_refuted.
Print Assumptions C18_negative_panics_refuted.
Print Assumptions C18_panics_refuted.
