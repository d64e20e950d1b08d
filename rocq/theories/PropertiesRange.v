(** * Property C32: coordinates.

    Every value is stated with plain integer or real arithmetic: element [i] of a
    range is [start + i * step]. [int_in bits z] says that [z] is representable in a
    signed integer of [bits] bits. *)
From Coq Require Import ZArith Reals Lra.
From Flocq Require Import Core.Core IEEE754.BinarySingleNaN.
From Verif Require Import Base BaseFacts FixedModel FixedProofs NodeModel StreamModel RangeModel RangeProofs PropertiesFixed.
Open Scope nat_scope.

(** Element [i] of the arithmetic progression, and the elements [a], ..., [b - 1]. *)
Definition element (start step : Z) (i : nat) : Z := (start + Z.of_nat i * step)%Z.
Definition elements (start step : Z) (a b : nat) : list Z := map (element start step) (seq a (b - a)).

(** ** Integers *)

(** [get] returns the element, whenever it and the index are representable. *)
Theorem C32_int_get : forall bits start step steps i, (0 < bits)%Z ->
  i < steps -> int_in bits (Z.of_nat i) -> int_in bits (element start step i) ->
  int_get bits (mkIntRange start step steps) i = Ok (element start step i).
Proof.
  intros bits start step steps i Hb I (_ & J) E. rewrite get_ok by assumption. cbn [ir_start ir_step].
  fold (element start step i). now rewrite wrap_id.
Qed.

(** Out of range: refused. *)
Theorem C32_int_get_refused : forall bits start step steps i, steps <= i ->
  int_get bits (mkIntRange start step steps) i = Panic.
Proof.
  intros bits start step steps i I. unfold int_get, check_bounds. cbn [ir_steps].
  now rewrite (proj2 (Nat.leb_le _ _) I).
Qed.

(** [slice(a, b)] is the elements [a] to [b - 1], if the step is not 0, and the stop
    index and the distance between the ends are representable. *)
Theorem C32_int_slice_partial : forall bits start step steps a b, (0 < bits)%Z ->
  step <> 0%Z -> a <= b -> 0 < b <= steps -> int_in bits (Z.of_nat b) -> int_in bits (Z.of_nat (b - a) * step) ->
  (forall i, a <= i < b -> int_in bits (element start step i)) ->
  int_slice bits (mkIntRange start step steps) a b = Ok (elements start step a b).
Proof.
  intros bits start step steps a b Hb S AB B (_ & J) D E. rewrite slice_ok by assumption.
  f_equal. apply map_ext_in. intros i I. apply in_seq in I. cbn [ir_start ir_step].
  fold (element start step i). apply wrap_id; [exact Hb|]. apply E. lia.
Qed.

(** Also where elements overflow, [slice] and [get] agree. *)
Theorem C32_int_slice_is_get : forall bits start step steps a b, (0 < bits)%Z ->
  step <> 0%Z -> a <= b -> 0 < b <= steps -> int_in bits (Z.of_nat b) -> int_in bits (Z.of_nat (b - a) * step) ->
  exists l, int_slice bits (mkIntRange start step steps) a b = Ok l /\ length l = b - a /\
    forall k, k < b - a -> option_map Ok (nth_error l k) = Some (int_get bits (mkIntRange start step steps) (a + k)).
Proof.
  intros bits start step steps a b Hb S AB B (_ & J) D. eexists.
  split; [apply slice_ok; assumption|]. rewrite map_length, seq_length. split; [reflexivity|].
  intros k K. rewrite get_ok; [|exact Hb|cbn [ir_steps]; lia|].
  2:{ apply Z.lt_trans with (Z.of_nat b); [lia|exact J]. }
  rewrite (map_nth_error _ k (seq a (b - a)) (d := a + k)); [reflexivity|].
  rewrite nth_error_nth' with (d := 0) by (rewrite seq_length; exact K). now rewrite seq_nth.
Qed.

(** A slice that ends out of range, and one that runs backwards, are refused. *)
Theorem C32_int_slice_refused : forall bits start step steps a b, (0 < bits)%Z ->
  steps < b \/
  (b < a /\ step <> 0%Z /\ int_in bits (Z.of_nat a) /\ int_in bits ((Z.of_nat b - Z.of_nat a) * step)) ->
  int_slice bits (mkIntRange start step steps) a b = Panic.
Proof.
  intros bits start step steps a b Hb [B|(AB & S & (_ & A) & D)]; [|now apply slice_back].
  unfold int_slice. rewrite usub_ok by lia. cbn [bind]. unfold check_bounds. cbn [ir_steps].
  now rewrite (proj2 (Nat.leb_le _ _)) by lia.
Qed.

(** An i32 range with a negative step, near both limits of the type. *)
Example C32_int_example :
  int_get 32 (mkIntRange 2147483647 (-1000000) 4000) 2500 = Ok (-352516353)%Z /\
  int_in 32 (element 2147483647 (-1000000) 2500) /\
  int_slice 32 (mkIntRange 2147483647 (-1000000) 4000) 3 6 = Ok [2144483647; 2143483647; 2142483647]%Z /\
  int_in 32 (Z.of_nat (6 - 3) * -1000000) /\ (forall i, 3 <= i < 6 -> int_in 32 (element 2147483647 (-1000000) i)) /\
  int_slice 32 (mkIntRange 2147483647 (-1000000) 4000) 6 3 = Panic.
Proof.
  split; [vm_compute; reflexivity|]. split; [unfold int_in, element; change (2 ^ (32 - 1))%Z with 2147483648%Z; lia|].
  split; [vm_compute; reflexivity|]. split; [unfold int_in; cbn; lia|].
  split; [intros i I; unfold int_in, element; change (2 ^ (32 - 1))%Z with 2147483648%Z; lia|vm_compute; reflexivity].
Qed.

(** Without the premises the claim is false, although every element is in range and
    [get] returns it: a constant range cannot be sliced, the empty slice at 0 is
    refused, and a slice wider than the type loses its elements. *)
Theorem C32_constant_slice_refuted : exists start steps a b,
  a < b <= steps /\ (forall i, i < steps -> int_get 32 (mkIntRange start 0 steps) i = Ok start) /\
  int_slice 32 (mkIntRange start 0 steps) a b = Panic.
Proof.
  exists 7%Z, 3, 0, 2. split; [lia|]. split; [|vm_compute; reflexivity].
  intros i I. rewrite C32_int_get; unfold int_in, element; cbn [Z.sub Z.pow]; change (2 ^ (32 - 1))%Z with 2147483648%Z; try lia.
  f_equal. lia.
Qed.
Theorem C32_empty_slice_refuted : forall bits r, int_slice bits r 0 0 = Panic.
Proof. reflexivity. Qed.
Theorem C32_wide_slice_refuted : exists start step steps,
  (forall i, i < steps -> int_get 32 (mkIntRange start step steps) i = Ok (element start step i)) /\ steps = 4 /\
  int_slice 32 (mkIntRange start step steps) 0 steps = Ok [].
Proof.
  exists (-2147483648)%Z, 1073741824%Z, 4. split; [|split; [reflexivity|vm_compute; reflexivity]].
  intros i I. apply C32_int_get; unfold int_in, element; change (2 ^ (32 - 1))%Z with 2147483648%Z; lia.
Qed.

(** ** Time *)

Theorem C32_time_get : forall start step i, int_in 64 (element start step i) ->
  time_get (mkTimeRange start step) i = element start step i.
Proof. intros start step i I. rewrite time_get_eq. apply wrap_id; [lia|exact I]. Qed.

Theorem C32_time_slice : forall start step a b,
  (forall i, a <= i < b -> int_in 64 (element start step i)) ->
  time_slice (mkTimeRange start step) a b = elements start step a b.
Proof.
  intros start step a b I. apply map_ext_in. intros i J. apply in_seq in J.
  apply (C32_time_get start step i). apply I. lia.
Qed.

Example C32_time_example : time_slice (mkTimeRange 946684800 86400) 2 4 = [946857600; 946944000]%Z /\
  (forall i, 2 <= i < 4 -> int_in 64 (element 946684800 86400 i)).
Proof.
  split; [vm_compute; reflexivity|]. intros i I. unfold int_in, element.
  change (2 ^ (64 - 1))%Z with 9223372036854775808%Z. lia.
Qed.

(** The length of a coordinate: its number of steps, but time has none. *)
Theorem C32_len : forall name,
  (forall start step, coordinate_len (mkCoord name (KTime start step)) = Err ETimeIsInfinite) /\
  (forall start step n, coordinate_len (mkCoord name (KI32 start step n)) = Ok n /\ coordinate_len (mkCoord name (KI64 start step n)) = Ok n) /\
  (forall start step n, coordinate_len (mkCoord name (KF32 start step n)) = Ok n /\ coordinate_len (mkCoord name (KF64 start step n)) = Ok n).
Proof. intros name. repeat split. Qed.

(** ** Floats *)
Open Scope R_scope.

(** The float [x] is the number [v]. *)
Definition is_number {prec emax} (x : binary_float prec emax) (v : R) : Prop := is_finite x = true /\ B2R x = v.

(** The start and the step are [start * 2^e] and [step * 2^e] for integers small enough that
    every element up to [b] is a float too. *)
Definition exact_range {prec emax} (r : float_range prec emax) (e start step : Z) (b : nat) : Prop :=
  is_number (fr_start r) (IZR start * bpow radix2 e) /\ is_number (fr_step r) (IZR step * bpow radix2 e) /\
  step <> 0%Z /\ (SpecFloat.emin prec emax <= e)%Z /\ (prec + e < emax)%Z /\
  (Z.abs start + Z.of_nat b * Z.abs step <= 2 ^ prec)%Z.

(** Then [get] and [slice] are exact. *)
Theorem C32_float_get_partial : forall prec emax (Hp : Prec_gt_0 prec) (He : Prec_lt_emax prec emax)
    (r : float_range prec emax) e start step i, (65 <= emax)%Z -> (prec <= 63)%Z ->
  exact_range r e start step i -> (i < fr_steps r)%nat ->
  exists x, float_get r i = Ok x /\ is_number x (B2R (fr_start r) + INR i * B2R (fr_step r)).
Proof.
  intros prec emax Hp He r e start step i Hb Hq ((F1 & E1) & (F2 & E2) & S & Em & Ex & M) I.
  unfold float_get, check_bounds. rewrite (proj2 (Nat.leb_gt _ _) I). cbn [bind].
  eexists. split; [reflexivity|].
  destruct (bounds prec start step i i S (le_n i) M) as (A1 & A2 & A3).
  destruct (at_grid prec emax Hp He Hb Hq e Em Ex r start step (conj F1 E1) (conj F2 E2) i A1 A2 A3) as (F & E).
  split; [exact F|]. rewrite E, E1, E2, INR_IZR_INZ, plus_IZR, mult_IZR. ring.
Qed.

Theorem C32_float_slice_partial : forall prec emax (Hp : Prec_gt_0 prec) (He : Prec_lt_emax prec emax)
    (r : float_range prec emax) e start step a b, (65 <= emax)%Z -> (prec <= 63)%Z ->
  exact_range r e start step b -> (a <= b)%nat -> (0 < b <= fr_steps r)%nat ->
  exists l, float_slice r a b = Ok l /\ length l = (b - a)%nat /\
    forall k x, nth_error l k = Some x -> is_number x (B2R (fr_start r) + INR (a + k) * B2R (fr_step r)).
Proof.
  intros prec emax Hp He r e start step a b Hb Hq ((F1 & E1) & (F2 & E2) & S & Em & Ex & M) AB B.
  destruct (slice_grid prec emax Hp He Hb Hq e Em Ex r start step (conj F1 E1) (conj F2 E2) a b S AB B M) as (l & El & Ll & N).
  exists l. split; [exact El|]. split; [exact Ll|]. intros k x K. destruct (N k x K) as (F & E).
  split; [exact F|]. rewrite E, E1, E2, INR_IZR_INZ, plus_IZR, mult_IZR. ring.
Qed.

(** Out of range: refused. *)
Theorem C32_float_refused : forall prec emax (Hp : Prec_gt_0 prec) (He : Prec_lt_emax prec emax)
    (r : float_range prec emax) i a, (fr_steps r <= i)%nat ->
  float_get r i = Panic /\ float_slice r a (S i) = Panic.
Proof.
  intros prec emax Hp He r i a I. unfold float_get, float_slice.
  replace (usub (S i) 1) with (Ok i) by (rewrite usub_ok by lia; f_equal; lia). cbn [bind].
  unfold check_bounds. now rewrite (proj2 (Nat.leb_le _ _) I).
Qed.

(** The length a range reports is the first index it refuses: everything below it can be asked
    for (for integers, as long as the index itself fits the type), nothing from it on. *)
Theorem C32_len_is_bound :
  (forall bits r i, (int_len r <= i)%nat -> int_get bits r i = Panic) /\
  (forall bits r i, (0 < bits)%Z -> (i < int_len r)%nat -> int_in bits (Z.of_nat i) -> exists x, int_get bits r i = Ok x) /\
  (forall prec emax (Hp : Prec_gt_0 prec) (He : Prec_lt_emax prec emax) (r : float_range prec emax) i,
     float_get r i = Panic <-> (float_len r <= i)%nat).
Proof.
  split; [|split].
  - intros bits [a s n] i I. apply C32_int_get_refused. exact I.
  - intros bits [a s n] i Hb I (_ & J). rewrite get_ok by assumption. eauto.
  - intros prec emax Hp He r i. unfold float_get, RangeModel.check_bounds, float_len.
    destruct (Nat.leb_spec (fr_steps r) i); cbn [bind]; split; intro E; try reflexivity; try assumption; [discriminate|lia].
Qed.

(** -20, -19.75, ... as f64 and the quarter degrees 90, 89.75, ... as f32. *)
Example C32_float_example : exact_range (mkFloatRange (fl64 (-20) 0) (fl64 1 (-2)) 1000) (-2) (-80) 1 1000 /\
  exact_range (mkFloatRange (fl32 90 0) (fl32 (-1) (-2)) 721) (-2) 360 (-1) 721.
Proof.
  split.
  - destruct (fl64_value (-20) 0) as (A & B); [lia|lia|]. destruct (fl64_value 1 (-2)) as (C & D); [lia|lia|].
    split; [split; [exact A|]|split; [split; [exact C|exact D]|]].
    + cbn [fr_start]. rewrite B. cbn. lra.
    + split; [lia|]. split; [vm_compute; discriminate|]. split; [lia|]. lia.
  - destruct (fl32_value 90 0) as (A & B); [lia|lia|]. destruct (fl32_value (-1) (-2)) as (C & D); [lia|lia|].
    split; [split; [exact A|]|split; [split; [exact C|exact D]|]].
    + cbn [fr_start]. rewrite B. cbn. lra.
    + split; [lia|]. split; [vm_compute; discriminate|]. split; [lia|]. lia.
Qed.

(** 0.1 as a f64, and whether two floats are equal ([==]). *)
Definition tenth : f64 := f_div (f_of_Z 1) (f_of_Z 10).
Definition f_eq (x y : f64) : bool := match Bcompare x y with Some Eq => true | _ => false end.

(** What such a slice is, its length [n] being computed. *)
Lemma tenths_slice a b n : (0 < b <= 10)%nat ->
  f_to_usize (f_ceil (f_div (f_sub (float_at (mkFloatRange (f_of_Z 0) tenth 10) b)
    (float_at (mkFloatRange (f_of_Z 0) tenth 10) a)) tenth)) = Some n ->
  float_slice (mkFloatRange (f_of_Z 0) tenth 10) a b =
    Ok (map (fun i => f_add (float_at (mkFloatRange (f_of_Z 0) tenth 10) a) (f_mul tenth (f_of_Z (Z.of_nat i)))) (seq 0 n)).
Proof.
  intros B N. unfold float_slice. rewrite usub_ok by lia. cbn [bind]. unfold check_bounds. cbn [fr_steps].
  rewrite (proj2 (Nat.leb_gt _ _)) by lia. cbn [bind]. unfold array_range. cbn [fr_step]. now rewrite N.
Qed.

(** In general the claim is false: a slice of the tenths has one element too many, another
    has an element that [get] does not return. *)
Theorem C32_float_slice_length_refuted : exists l,
  float_slice (mkFloatRange (f_of_Z 0) tenth 10) 0 3 = Ok l /\ length l = 4%nat.
Proof.
  eexists. split; [apply (tenths_slice 0 3 4); [lia|vm_compute; reflexivity]|].
  now rewrite map_length, seq_length.
Qed.
Theorem C32_float_slice_differs_refuted : exists l x y,
  float_slice (mkFloatRange (f_of_Z 0) tenth 10) 1 8 = Ok l /\ nth_error l 5 = Some x /\
  float_get (mkFloatRange (f_of_Z 0) tenth 10) 6 = Ok y /\ f_eq x y = false.
Proof.
  do 3 eexists. split; [apply (tenths_slice 1 8 7); [lia|vm_compute; reflexivity]|].
  split; [apply map_nth_error with (d := 5%nat); reflexivity|].
  split; [unfold float_get; cbn [fr_steps check_bounds Nat.leb bind]; reflexivity|].
  vm_compute. reflexivity.
Qed.

Print Assumptions C32_int_get.
Print Assumptions C32_int_get_refused.
Print Assumptions C32_int_slice_partial.
Print Assumptions C32_int_slice_is_get.
Print Assumptions C32_int_slice_refused.
Print Assumptions C32_constant_slice_refuted.
Print Assumptions C32_empty_slice_refuted.
Print Assumptions C32_wide_slice_refuted.
Print Assumptions C32_time_get.
Print Assumptions C32_time_slice.
Print Assumptions C32_len.
Print Assumptions C32_float_get_partial.
Print Assumptions C32_float_slice_partial.
Print Assumptions C32_float_refused.
Print Assumptions C32_float_slice_length_refuted.
Print Assumptions C32_float_slice_differs_refuted.
Print Assumptions C32_len_is_bound.
