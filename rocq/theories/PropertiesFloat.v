(** * Properties C19 and C22 for arrays of floats.

    A format is any IEEE-754 binary format with [65 <= emax]; f32 and f64 are
    instances. [B2R x] is the real number a finite float stands for.
    [value_of], [nan_safe_tree] and [balanced_tree] are in FloatProofs.v, [reads_back], [storable]
    and [log2_accurate] in FloatBuild.v; the other terms are those of
    PropertiesSuper.v. *)
From Coq Require Import ZArith Reals Lra.
From Flocq Require Import Core.Core IEEE754.BinarySingleNaN.
From Verif Require Import Base BaseFacts FixedModel FixedProofs StreamProofs SnapshotModel SnapshotProofs ChunkModel ChunkStream NodeModel NodeProofs SuperModel SuperViews
  SuperProofs SuperInt ArrayModel ArrayProofs FloatModel FloatProofs FloatBuild PropertiesFixed PropertiesNode.
Open Scope R_scope.

(** A non-negative number or NaN. *)
Definition nonnegative {prec emax} (v : binary_float prec emax) : Prop :=
  is_nan v = true \/ (is_finite v = true /\ 0 <= B2R v).
(** The value [x] that is read is what was written, [y]. *)
Definition same_value {prec emax} (x y : binary_float prec emax) : Prop :=
  if is_nan y then is_nan x = true else same_number x y.
(** ... or is within [eps] of it. *)
Definition near_value {prec emax} (eps : R) (x y : binary_float prec emax) : Prop :=
  if is_nan y then is_nan x = true else is_finite x = true /\ Rabs (B2R x - B2R y) <= eps.

Section General.
  Variables prec emax : Z.
  Context (Hp : Prec_gt_0 prec) (He : Prec_lt_emax prec emax).
  Hypothesis Hbig : (65 <= emax)%Z.
  Notation flt := (binary_float prec emax).

  Lemma float_reads hash enc round lg k lc levels (g : nat -> nat -> nat -> flt) instants rows cols bits st st2 b
    (good : nat -> flt -> Prop) : (forall b x, good b x -> bits_ok b) ->
    (forall x, wf_cid (hash x)) -> (2 <= k)%nat -> Nat.Even k -> fits8 k ->
    (0 < instants)%nat -> (0 < rows)%nat -> (0 < cols)%nat -> sizes_ok k lc instants (Nat.max rows cols) ->
    all_good good bits g instants rows cols -> tiles_ok (float_elem enc round lg) good k lc levels g instants rows cols ->
    super_build hash (float_elem enc round lg) k lc levels g instants rows cols bits st = Ok (st2, b) ->
    wf_mm (mb_data b) /\
    exists f, (forall t r c, (t < instants)%nat -> (r < rows)%nat -> (c < cols)%nat ->
        to_fixed (g t r c) (snd (f t r c)) round = Ok (fst (f t r c)) /\ good (snd (f t r c)) (g t r c)) /\
      forall st' fuel, incl st2 st' -> functional st' -> (S (length levels) <= fuel)%nat ->
        reads_as (float_reader enc) st' fuel (mb_data b) instants rows cols (fun t r c => from_fixed (fst (f t r c)) (snd (f t r c))).
  Proof using.
    intros HG Hh Hk Hev Hk8 H0 Hr Hc HS HA HT E.
    destruct (super_build_view hash (float_elem enc round lg) k lc Hh Hk Hk8 (float_single prec emax Hp He enc round lg)
      good HG levels Hev g instants rows cols bits st st2 b H0 Hr Hc HS HA HT E) as (HW & _ & Ee & f & Hf & HV).
    split; [exact HW|]. exists f. split; [exact Hf|]. intros st' fuel HI HF Hfuel.
    apply (view_reads_as (float_reader enc) st' (S (length levels)) fuel _ _ _ _ f); [exact Hfuel|apply HV; assumption|exact Ee|].
    reflexivity.
  Qed.
End General.

(** ** C19 without rounding *)

(** Every non-negative number comes back as it was written, and every NaN as
    NaN, if no sub-array of the tree is at risk from NaNs. What is missing is
    false of the code: see [C22_leading_nan_refuted] for sub-arrays at risk,
    C16 and C18 for negative numbers; and what is missing for integers. *)
Theorem C19_float_exact_partial : forall prec emax (Hp : Prec_gt_0 prec) (He : Prec_lt_emax prec emax), (65 <= emax)%Z ->
  forall hash enc log2_floor k lc levels (g : nat -> nat -> nat -> binary_float prec emax) instants rows cols bits st st2 b,
  (forall x, wf_cid (hash x)) -> (2 <= k)%nat -> Nat.Even k -> fits8 k ->
  (0 < instants)%nat -> (0 < rows)%nat -> (0 < cols)%nat -> sizes_ok k lc instants (Nat.max rows cols) -> (bits <= 61)%nat ->
  (forall t r c, (t < instants)%nat -> (r < rows)%nat -> (c < cols)%nat -> nonnegative (g t r c)) ->
  nan_safe_tree None k lc levels g instants rows cols ->
  super_build hash (float_elem enc false log2_floor) k lc levels g instants rows cols bits st = Ok (st2, b) ->
  wf_mm (mb_data b) /\
  exists g', (forall t r c, (t < instants)%nat -> (r < rows)%nat -> (c < cols)%nat -> same_value (g' t r c) (g t r c)) /\
    forall st' fuel, incl st2 st' -> functional st' -> (S (length levels) <= fuel)%nat ->
      reads_as (float_reader enc) st' fuel (mb_data b) instants rows cols g'.
Proof.
  intros prec emax Hp He Hbig hash enc lg k lc levels g instants rows cols bits st st2 b Hh Hk Hev Hk8 H0 Hr Hc HS Hb HN HQ E.
  destruct (float_reads prec emax Hp He hash enc false lg k lc levels g instants rows cols bits st st2 b
    (fun b _ => bits_ok b) (fun b x H => H)) as (HW & f & Hf & HR); try assumption.
  - intros t r c _ _ _. apply Nat.leb_le. exact Hb.
  - apply (nonneg_tiles prec emax Hp He Hbig enc false lg _ (fun b x H => H) None); try assumption.
    { intros b' x y v Hb' _ Fx Fy Px Py Ex Ey. apply Nat.leb_le in Hb'. cbn [value_of].
      destruct Px as [X|(_ & Px)]; [rewrite (finite_not_nan _ _ x Fx) in X; discriminate|].
      destruct Py as [X|(_ & Py)]; [rewrite (finite_not_nan _ _ y Fy) in X; discriminate|].
      exact (same_exact prec emax Hp He Hbig x y b' v Hb' Fx Fy Px Py Ex Ey). }
    intros top lft h w b0 b' Hh' Hw' _ _ _ Eb t r c _ _ _. apply Nat.leb_le.
    cbn [float_elem el_bits] in Eb. apply bind_inv in Eb. destruct Eb as (s & Es & Eb). pose proof (suggest_bits lg _ s Es).
    destruct s; [injection Eb as <-; assumption|discriminate].
  - split; [exact HW|]. exists (fun t r c => from_fixed (fst (f t r c)) (snd (f t r c))). split; [|exact HR].
    intros t r c Ht Hr' Hc'. destruct (Hf t r c Ht Hr' Hc') as (Ef & Gf). apply Nat.leb_le in Gf.
    unfold same_value. destruct (is_nan (g t r c)) eqn:N.
    + unfold to_fixed in Ef. rewrite N in Ef. injection Ef as <-. reflexivity.
    + destruct (HN t r c Ht Hr' Hc') as [X|(F & P)]; [congruence|].
      apply (C16_lossless_partial prec emax Hp He Hbig (g t r c) _ _ Gf F Ef). left. exact P.
Qed.

(** ** C19 with rounding to [bits] bits *)

(** What is read back is within half a unit of the last bit. *)
Lemma reads_back_near {prec emax} b (x y : binary_float prec emax) :
  reads_back (Some b) x y -> near_value (/ 2 ^ (b + 1)) x y.
Proof.
  unfold reads_back, near_value. destruct (is_nan y); [auto|]. intros (F & V). split; [exact F|].
  rewrite V, value_some. pose proof (round_value_near (B2R y * bpow radix2 (Z.of_nat b))) as H.
  set (q := round_value (B2R y * bpow radix2 (Z.of_nat b))) in *.
  assert (Q : 0 < bpow radix2 (- Z.of_nat b)) by apply bpow_gt_0.
  assert (U : / 2 ^ (b + 1) = / 2 * bpow radix2 (- Z.of_nat b)).
  { rewrite inv_pow2_bpow. replace (- Z.of_nat (b + 1))%Z with (-1 + - Z.of_nat b)%Z by lia. rewrite bpow_plus. cbn. lra. }
  assert (E : q * bpow radix2 (- Z.of_nat b) - B2R y = (q - B2R y * bpow radix2 (Z.of_nat b)) * bpow radix2 (- Z.of_nat b)).
  { rewrite Rmult_minus_distr_r, Rmult_assoc, <- bpow_plus. replace (_ + - _)%Z with 0%Z by lia. cbn. ring. }
  rewrite E, Rabs_mult, (Rabs_pos_eq (bpow _ _)) by lra. rewrite U. apply Rmult_le_compat_r; [lra|].
  apply Rabs_le. lra.
Qed.

(** Every number that can be stored comes back as its rounding to [bits] bits,
    within half a unit of the last bit, and every NaN as NaN, if no sub-array is at risk
    from NaNs and none has numbers further below zero than above it. What is missing is
    false of the code: see C22, C17 and [C19_negative_refuted]. [log2_floor] is any
    logarithm that is accurate enough. *)
Theorem C19_float_rounded_partial : forall prec emax (Hp : Prec_gt_0 prec) (He : Prec_lt_emax prec emax),
  (65 <= emax <= 1024)%Z -> (prec <= 53)%Z ->
  forall hash enc (log2_floor : f64 -> nat) k lc levels (g : nat -> nat -> nat -> binary_float prec emax) instants rows cols bits st st2 b,
  log2_accurate log2_floor ->
  (forall x, wf_cid (hash x)) -> (2 <= k)%nat -> Nat.Even k -> fits8 k ->
  (0 < instants)%nat -> (0 < rows)%nat -> (0 < cols)%nat -> sizes_ok k lc instants (Nat.max rows cols) -> (bits <= 61)%nat ->
  (forall t r c, (t < instants)%nat -> (r < rows)%nat -> (c < cols)%nat -> storable (Some bits) bits (g t r c)) ->
  nan_safe_tree (Some bits) k lc levels g instants rows cols -> balanced_tree (Some bits) k lc levels g instants rows cols ->
  super_build hash (float_elem enc true log2_floor) k lc levels g instants rows cols bits st = Ok (st2, b) ->
  wf_mm (mb_data b) /\
  exists g', (forall t r c, (t < instants)%nat -> (r < rows)%nat -> (c < cols)%nat ->
      reads_back (Some bits) (g' t r c) (g t r c) /\ near_value (/ 2 ^ (bits + 1)) (g' t r c) (g t r c)) /\
    forall st' fuel, incl st2 st' -> functional st' -> (S (length levels) <= fuel)%nat ->
      reads_as (float_reader enc) st' fuel (mb_data b) instants rows cols g'.
Proof.
  intros prec emax Hp He Hbig H53 hash enc lg k lc levels g instants rows cols bits st st2 b HL Hh Hk Hev Hk8 H0 Hr Hc HS Hb HN HQ HD E.
  destruct (float_view prec emax Hp He Hbig H53 (Some bits) bits lg enc Hb ltac:(congruence) HL hash k lc Hh Hk Hev Hk8
    levels g instants rows cols bits st st2 b H0 Hr Hc HS) as (HW & Ee & f & Hf & HV); try assumption.
  - intros t r c Ht Hr' Hc'. split; [apply Nat.leb_le; exact Hb|]. split; [apply HN; assumption|]. split; [apply Nat.le_refl|left; reflexivity].
  - split; [exact HW|]. exists (fun t r c => from_fixed (fst (f t r c)) (snd (f t r c))). split.
    + intros t r c Ht Hr' Hc'. pose proof (Hf t r c Ht Hr' Hc') as X. exact (conj X (reads_back_near bits _ _ X)).
    + intros st' fuel HI HF Hfuel.
      apply (view_reads_as (float_reader enc) st' (S (length levels)) fuel _ _ _ _ f); [exact Hfuel|apply HV; assumption|exact Ee|].
      reflexivity.
Qed.

(** ** Values that can be stored are stored *)

(** As for a chunk of a variable, the number of bits is computed and the array
    built with it: if every value can be stored with [b] bits, the bits asked
    for when there is rounding, neither step fails, and what is read back is
    each number, or its rounding, and NaN for NaN. The numbers may have either
    sign. *)
Theorem C19_float_stored_partial : forall prec emax (Hp : Prec_gt_0 prec) (He : Prec_lt_emax prec emax),
  (65 <= emax <= 1024)%Z -> (prec <= 53)%Z ->
  forall hash enc (log2_floor : f64 -> nat) k lc levels (g : nat -> nat -> nat -> binary_float prec emax) instants rows cols
    (round : option nat) b asked st,
  log2_accurate log2_floor ->
  (forall x, wf_cid (hash x)) -> (2 <= k)%nat -> Nat.Even k -> fits8 k ->
  (0 < instants)%nat -> (0 < rows)%nat -> (0 < cols)%nat -> sizes_ok k lc instants (Nat.max rows cols) ->
  levels_fit k lc levels rows cols ->
  (b <= 61)%nat -> match round with Some bits => b = bits /\ asked = bits | None => True end ->
  (forall t r c, (t < instants)%nat -> (r < rows)%nat -> (c < cols)%nat -> storable round b (g t r c)) ->
  nan_safe_tree round k lc levels g instants rows cols -> balanced_tree round k lc levels g instants rows cols ->
  let E := float_elem enc (match round with Some _ => true | None => false end) log2_floor in
  exists bits st2 m, el_bits E asked (all_values g instants rows cols) = Ok bits /\
    super_build hash E k lc levels g instants rows cols bits st = Ok (st2, m) /\ wf_mm (mb_data m) /\
    exists g', (forall t r c, (t < instants)%nat -> (r < rows)%nat -> (c < cols)%nat -> reads_back round (g' t r c) (g t r c)) /\
      forall st' fuel, incl st2 st' -> functional st' -> (S (length levels) <= fuel)%nat ->
        reads_as (float_reader enc) st' fuel (mb_data m) instants rows cols g'.
Proof.
  intros prec emax Hp He Hbig H53 hash enc lg k lc levels g instants rows cols round b asked st HL Hh Hk Hev Hk8 H0 Hr Hc HS HF Hb HR HN HQ HD E.
  destruct (float_chunk prec emax Hp He Hbig H53 round b lg enc Hb) with (hash := hash) (k := k) (lc := lc) (levels := levels) (g := g)
    (instants := instants) (rows := rows) (cols := cols) (asked := asked) (st := st)
    as (bits & st2 & m & Eb & EB & HW & Ee & f & Hf & HV & _); try assumption.
  - intros b1 ->. apply HR.
  - intros Nr. destruct round; [destruct HR; congruence|congruence].
  - exists bits, st2, m. split; [exact Eb|]. split; [exact EB|]. split; [exact HW|].
    exists (fun t r c => from_fixed (fst (f t r c)) (snd (f t r c))). split; [exact Hf|].
    intros st' fuel HI HFu Hfuel.
    apply (view_reads_as (float_reader enc) st' (S (length levels)) fuel _ _ _ _ f); [exact Hfuel|apply HV; assumption|exact Ee|].
    reflexivity.
Qed.

(** ** C19 with rounding, for numbers of either sign *)

(** Every number comes back as the rounding of that number, with at most [bits]
    bits. How far that is from the number is C17; what is missing to a bound by
    [bits] is false of the code (C17, C18). *)
Theorem C19_float_signed_partial : forall prec emax (Hp : Prec_gt_0 prec) (He : Prec_lt_emax prec emax), (65 <= emax)%Z ->
  forall hash enc log2_floor k lc levels (g : nat -> nat -> nat -> binary_float prec emax) instants rows cols bits st st2 b,
  (forall x, wf_cid (hash x)) -> (2 <= k)%nat -> Nat.Even k -> fits8 k ->
  (0 < instants)%nat -> (0 < rows)%nat -> (0 < cols)%nat -> sizes_ok k lc instants (Nat.max rows cols) -> (bits <= 61)%nat ->
  (forall t r c, (t < instants)%nat -> (r < rows)%nat -> (c < cols)%nat ->
     is_finite (g t r c) = true /\ Rabs (scaled (g t r c) bits) <= 2 ^ 61 - 1) ->
  super_build hash (float_elem enc true log2_floor) k lc levels g instants rows cols bits st = Ok (st2, b) ->
  wf_mm (mb_data b) /\
  exists g', (forall t r c, (t < instants)%nat -> (r < rows)%nat -> (c < cols)%nat ->
      exists b' v, (b' <= bits)%nat /\ to_fixed (g t r c) b' true = Ok v /\ g' t r c = from_fixed v b') /\
    forall st' fuel, incl st2 st' -> functional st' -> (S (length levels) <= fuel)%nat ->
      reads_as (float_reader enc) st' fuel (mb_data b) instants rows cols g'.
Proof.
  intros prec emax Hp He Hbig hash enc lg k lc levels g instants rows cols bits st st2 b Hh Hk Hev Hk8 H0 Hr Hc HS Hb HN E.
  set (good := fun (b' : nat) (x : binary_float prec emax) => (b' <= bits)%nat).
  assert (HG : forall b x, good b x -> bits_ok b) by (intros b' x H; apply Nat.leb_le; unfold good in H; lia).
  destruct (float_reads prec emax Hp He hash enc true lg k lc levels g instants rows cols bits st st2 b
    good HG) as (HW & f & Hf & HR); try assumption.
  - intros t r c _ _ _. apply Nat.le_refl.
  - apply finite_tiles; try assumption.
    + intros t r c Ht Hr' Hc'. apply HN; assumption.
    + intros b0 b' x l Hb0 Eb. cbn [float_elem el_bits] in Eb. apply bind_inv in Eb. destruct Eb as (s & _ & Eb). injection Eb as <-.
      unfold good in *. lia.
    + intros b' s t r c x y Hs Ht Hr' Hc' Hb' _ Ex Ey. unfold good in Hb'.
      assert (Q : forall t z, (t < instants)%nat -> to_fixed (g t r c) b' true = Ok z -> (- 2 ^ 62 + 3 <= z <= 2 ^ 62 - 1)%Z).
      { intros t' z Ht' Ez. destruct (HN t' r c Ht' Hr' Hc') as (F & B).
        destruct (to_fixed_phi prec emax Hp He Hbig (g t' r c) b' true z ltac:(lia) F Ez) as (-> & _).
        assert (B' : Rabs (B2R (g t' r c) * bpow radix2 (Z.of_nat b')) <= IZR (2 ^ 61 - 1)).
        { rewrite minus_IZR, IZR_pow2 by lia. change 61%Z with (Z.of_nat 61) at 1. rewrite <- (pow2_bpow 61).
          eapply Rle_trans; [|exact B]. unfold scaled. rewrite <- (pow2_bpow b'), !Rabs_mult.
          apply Rmult_le_compat_l; [apply Rabs_pos|].
          rewrite !Rabs_pos_eq by (apply pow_le; lra). apply Rle_pow; [lra|exact Hb']. }
        apply Rabs_le_inv in B'. destruct B' as (B1 & B2). rewrite <- opp_IZR in B1.
        apply phi_mono in B1, B2.
        assert (P1 : phi (IZR (- (2 ^ 61 - 1))) = (- 2 ^ 62 + 2)%Z).
        { unfold phi. destruct (Rle_dec _ 0) as [X|X].
          - rewrite <- mult_IZR, Ztrunc_IZR. reflexivity.
          - exfalso. apply X. apply IZR_le. lia. }
        assert (P2 : phi (IZR (2 ^ 61 - 1)) = (2 ^ 62 - 2)%Z).
        { destruct (phi_nonneg (IZR (2 ^ 61 - 1))) as (X & _); [apply IZR_le; lia|]. rewrite X, ZnearestA_IZR. reflexivity. }
        lia. }
      pose proof (Q s x Hs Ex). pose proof (Q t y Ht Ey). unfold i64_range, two63. lia.
  - split; [exact HW|]. exists (fun t r c => from_fixed (fst (f t r c)) (snd (f t r c))). split; [|exact HR].
    intros t r c Ht Hr' Hc'. destruct (Hf t r c Ht Hr' Hc') as (Ef & Gf). exists (snd (f t r c)), (fst (f t r c)). auto.
Qed.

(** ** Examples *)
Lemma exact_log2_floor_le (x : f64) : is_finite x = true -> exact_log2_floor x = 0%nat \/ 2 ^ exact_log2_floor x <= B2R x.
Proof.
  intros F. destruct x as [s|s| |s m e Hm]; try discriminate; [left; reflexivity|].
  destruct s; [left; reflexivity|]. cbn [exact_log2_floor].
  destruct (Z.le_gt_cases (Z.log2 (Zpos m) + e) 0) as [L|L]; [left; lia|right].
  rewrite pow2_bpow, Z2Nat.id by lia. rewrite bpow_plus. cbn [B2R]. unfold F2R. cbn [Fnum Fexp cond_Zopp].
  apply Rmult_le_compat_r; [apply bpow_ge_0|]. rewrite <- IZR_pow2 by apply Z.log2_nonneg.
  apply IZR_le. apply Z.log2_spec. lia.
Qed.

(** A 4x4 array at two instants: one quarter is NaN, one quarter starts with a
    NaN and has different numbers, the rest is numbers. *)
Definition ex_float (t r c : nat) : f64 :=
  if (r <? 2)%nat && (c <? 2)%nat then B754_nan
  else if (r =? 0)%nat && (c =? 2)%nat then B754_nan
  else fl64 (Z.of_nat (3 * r + c + t)) (-1).
Lemma nan_safe_one round (g : nat -> nat -> nat -> f64) instants : nan_safe round g instants 1 1.
Proof. left. intros t Ht N r c Hr Hc. replace r with 0%nat by lia. replace c with 0%nat by lia. exact N. Qed.
Lemma fl64_nonneg m e : (Z.abs m < 2 ^ 53)%Z -> (-1074 <= e <= 900)%Z -> (0 <= m)%Z -> nonnegative (fl64 m e).
Proof.
  intros Hm He H. right. destruct (fl64_value m e Hm He) as (F & V). split; [exact F|]. rewrite V.
  apply Rmult_le_pos; [apply IZR_le; exact H|apply bpow_ge_0].
Qed.

Lemma ex_float_nonneg t r c : (t < 2)%nat -> (r < 4)%nat -> (c < 4)%nat -> nonnegative (ex_float t r c).
Proof.
  intros Ht Hr Hc. unfold ex_float. destruct ((r <? 2)%nat && (c <? 2)%nat); [left; reflexivity|].
  destruct ((r =? 0)%nat && (c =? 2)%nat); [left; reflexivity|]. apply fl64_nonneg; lia.
Qed.
Lemma ex_float_apart t r c r' c' : (t < 2)%nat -> (2 <= r < 4)%nat \/ (c = 3)%nat -> (2 <= r' < 4)%nat \/ (c' = 3)%nat ->
  (r < 4)%nat -> (c < 4)%nat -> (r' < 4)%nat -> (c' < 4)%nat -> (3 * r + c + 2 < 3 * r' + c')%nat ->
  is_nan (ex_float t r c) = false /\ is_nan (ex_float t r' c') = false /\
  forall round, value_of round (ex_float t r c) <> value_of round (ex_float t r' c').
Proof.
  intros Ht H1 H2 A1 A2 A3 A4 H.
  assert (V : forall r c, (2 <= r < 4)%nat \/ (c = 3)%nat -> (r < 4)%nat -> (c < 4)%nat ->
    ex_float t r c = fl64 (Z.of_nat (3 * r + c + t)) (-1)).
  { intros r0 c0 H0 B1 B2. unfold ex_float.
    destruct (Nat.ltb_spec r0 2), (Nat.ltb_spec c0 2), (Nat.eqb_spec r0 0), (Nat.eqb_spec c0 2); cbn [andb]; try reflexivity; lia. }
  rewrite (V r c), (V r' c') by assumption.
  destruct (fl64_value (Z.of_nat (3 * r + c + t)) (-1)) as (F1 & V1); [lia|lia|].
  destruct (fl64_value (Z.of_nat (3 * r' + c' + t)) (-1)) as (F2 & V2); [lia|lia|].
  split; [apply (finite_not_nan _ _ _ F1)|]. split; [apply (finite_not_nan _ _ _ F2)|].
  assert (L : IZR (Z.of_nat (3 * r + c + t)) + 3 <= IZR (Z.of_nat (3 * r' + c' + t))).
  { rewrite <- plus_IZR. apply IZR_le. lia. }
  assert (L2 : B2R (fl64 (Z.of_nat (3 * r + c + t)) (-1)) + 3 / 2 <= B2R (fl64 (Z.of_nat (3 * r' + c' + t)) (-1))).
  { rewrite V1, V2. change (bpow radix2 (-1)) with (/ 2). lra. }
  intros [b|]; [|cbn [value_of]; lra].
  rewrite !value_some. intros X. apply Rmult_eq_reg_r in X; [|apply Rgt_not_eq, bpow_gt_0].
  set (p := bpow radix2 (Z.of_nat b)) in *. assert (1 <= p) by (change 1 with (bpow radix2 0); apply bpow_le; lia).
  pose proof (round_value_near (B2R (fl64 (Z.of_nat (3 * r + c + t)) (-1)) * p)) as H1'.
  pose proof (round_value_near (B2R (fl64 (Z.of_nat (3 * r' + c' + t)) (-1)) * p)) as H2'.
  rewrite X in H1'. nra.
Qed.
Lemma ex_float_safe round : nan_safe_tree round 2 (log_ceil 2) [1; 1]%nat ex_float 2 4 4.
Proof.
  assert (E4 : (2 ^ (log_ceil 2 (Nat.max 4 4) - 1))%nat = 2%nat) by reflexivity.
  assert (E2 : (2 ^ (log_ceil 2 (Nat.max 2 2) - 1))%nat = 1%nat) by reflexivity.
  cbn [nan_safe_tree]. cbv zeta. rewrite E4. intros i j Hi Hj.
  assert (Ei : Nat.min 2 (4 - i * 2) = 2%nat) by lia. assert (Ej : Nat.min 2 (4 - j * 2) = 2%nat) by lia.
  rewrite Ei, Ej, E2. split.
  - destruct (Nat.eq_dec i 0) as [->|Ni].
    + destruct (Nat.eq_dec j 0) as [->|Nj].
      * left. intros t Ht _ r c Hr Hc. unfold ex_float.
        replace (0 * 2 + r <? 2)%nat with true by (symmetry; apply Nat.ltb_lt; lia).
        replace (0 * 2 + c <? 2)%nat with true by (symmetry; apply Nat.ltb_lt; lia). reflexivity.
      * replace j with 1%nat by lia. right. exists 0%nat, 0%nat, 1%nat, 1%nat, 1%nat.
        do 5 (split; [lia|]).
        destruct (ex_float_apart 0 (0 * 2 + 0) (1 * 2 + 1) (0 * 2 + 1) (1 * 2 + 1)) as (A & B & C); [cbn; lia..|]. auto.
    + right. exists 0%nat, 0%nat, 0%nat, 1%nat, 0%nat. do 5 (split; [lia|]).
      replace i with 1%nat by lia.
      destruct (ex_float_apart 0 (1 * 2 + 0) (j * 2 + 0) (1 * 2 + 1) (j * 2 + 0)) as (A & B & C); [cbn; lia..|]. auto.
  - intros i' j' Hi' Hj'. replace (Nat.min 1 (2 - i' * 1)) with 1%nat by lia. replace (Nat.min 1 (2 - j' * 1)) with 1%nat by lia.
    split; [apply nan_safe_one|exact I].
Qed.

Definition ex_elem (round : bool) := elem_f64 round exact_log2_floor.
(** What is read: NaN, or the number [y]. *)
Definition reads_nan (r : res f64) : bool := match r with Ok x => is_nan x | _ => false end.
Definition reads_num (r : res f64) (y : f64) : bool :=
  match r with Ok x => match Bcompare x y with Some Eq => true | _ => false end | _ => false end.

Lemma exact_log2_accurate : log2_accurate exact_log2_floor.
Proof. intros x F. split; [rewrite pow2_bpow; apply exact_log2_floor_ok; exact F|apply exact_log2_floor_le; exact F]. Qed.
Lemma ex_float_le t r c : (t < 2)%nat -> (r < 4)%nat -> (c < 4)%nat -> B2R (ex_float t r c) <= 16.
Proof.
  intros Ht Hr Hc. unfold ex_float. destruct ((r <? 2)%nat && (c <? 2)%nat); [cbn; lra|].
  destruct ((r =? 0)%nat && (c =? 2)%nat); [cbn; lra|].
  destruct (fl64_value (Z.of_nat (3 * r + c + t)) (-1)) as (_ & V); [lia|lia|]. rewrite V.
  assert (IZR (Z.of_nat (3 * r + c + t)) <= 16) by (apply IZR_le; lia).
  change (bpow radix2 (-1)) with (/ 2). assert (0 <= IZR (Z.of_nat (3 * r + c + t))) by (apply IZR_le; lia). lra.
Qed.

Lemma ex_float_storable t r c : (t < 2)%nat -> (r < 4)%nat -> (c < 4)%nat ->
  storable None 1 (ex_float t r c) /\ storable (Some 0%nat) 0 (ex_float t r c).
Proof.
  intros Ht Hr Hc. destruct (ex_float_nonneg t r c Ht Hr Hc) as [N|(F & P)]; [split; left; exact N|].
  pose proof (ex_float_le t r c Ht Hr Hc) as U.
  split; right; (split; [exact F|]; split; [lra|]); [|lra].
  revert F. unfold ex_float. destruct ((r <? 2)%nat && (c <? 2)%nat); [discriminate|].
  destruct ((r =? 0)%nat && (c =? 2)%nat); [discriminate|]. intros _.
  destruct (fl64_value (Z.of_nat (3 * r + c + t)) (-1)) as (_ & V); [lia|lia|]. rewrite V. exists (Z.of_nat (3 * r + c + t)).
  change (bpow radix2 (-1)) with (/ 2). lra.
Qed.
Lemma ex_float_balanced round : balanced_tree round 2 (log_ceil 2) [1; 1]%nat ex_float 2 4 4.
Proof.
  apply above_balanced. intros t r c Ht Hr Hc N. destruct (ex_float_nonneg t r c Ht Hr Hc) as [X|(_ & P)]; [congruence|lra].
Qed.

(** Built with eight bits requested, exactly; one quarter is elided. *)
Example C19_float_exact_example : exists st2 b,
  super_build ex_hash (ex_elem false) 2 (log_ceil 2) [1; 1]%nat ex_float 2 4 4 8 [] = Ok (st2, b) /\
  functional st2 /\ mb_elided b = 1%nat /\ length st2 = 4%nat /\ sizes_ok 2 (log_ceil 2) 2 4 /\
  (forall t r c, (t < 2)%nat -> (r < 4)%nat -> (c < 4)%nat -> nonnegative (ex_float t r c)) /\
  nan_safe_tree None 2 (log_ceil 2) [1; 1]%nat ex_float 2 4 4 /\
  reads_nan (arr_get reader_f64 st2 3 (mb_data b) 1 0 2) = true /\
  reads_num (arr_get reader_f64 st2 3 (mb_data b) 1 3 2) (fl64 12 (-1)) = true.
Proof.
  do 2 eexists. split; [vm_compute; reflexivity|].
  split; [apply functional_checked; vm_compute; reflexivity|]. split; [vm_compute; reflexivity|]. split; [vm_compute; reflexivity|].
  split; [apply log_ceil_sizes; [lia|reflexivity]|]. split; [exact ex_float_nonneg|]. split; [apply ex_float_safe|].
  split; vm_compute; reflexivity.
Qed.

(** The same rounded to no fractional bits: 6.5 is read as 7. *)
Example C19_float_rounded_example : exists st2 b,
  super_build ex_hash (ex_elem true) 2 (log_ceil 2) [1; 1]%nat ex_float 2 4 4 0 [] = Ok (st2, b) /\
  functional st2 /\ sizes_ok 2 (log_ceil 2) 2 4 /\
  log2_accurate exact_log2_floor /\
  (forall t r c, (t < 2)%nat -> (r < 4)%nat -> (c < 4)%nat -> storable (Some 0%nat) 0 (ex_float t r c)) /\
  nan_safe_tree (Some 0%nat) 2 (log_ceil 2) [1; 1]%nat ex_float 2 4 4 /\ balanced_tree (Some 0%nat) 2 (log_ceil 2) [1; 1]%nat ex_float 2 4 4 /\
  reads_nan (arr_get reader_f64 st2 3 (mb_data b) 1 0 2) = true /\
  reads_num (arr_get reader_f64 st2 3 (mb_data b) 1 3 3) (fl64 7 0) = true.
Proof.
  do 2 eexists. split; [vm_compute; reflexivity|].
  split; [apply functional_checked; vm_compute; reflexivity|].
  split; [apply log_ceil_sizes; [lia|reflexivity]|]. split; [exact exact_log2_accurate|]. split.
  { intros t r c Ht Hr Hc. apply ex_float_storable; assumption. }
  split; [apply ex_float_safe|]. split; [apply ex_float_balanced|].
  split; vm_compute; reflexivity.
Qed.

(** The premises on the values, with one bit exactly and rounded to none. *)
Example C19_float_stored_example :
  (forall t r c, (t < 2)%nat -> (r < 4)%nat -> (c < 4)%nat ->
     storable None 1 (ex_float t r c) /\ storable (Some 0%nat) 0 (ex_float t r c)) /\
  nan_safe_tree None 2 (log_ceil 2) [1; 1]%nat ex_float 2 4 4 /\
  nan_safe_tree (Some 0%nat) 2 (log_ceil 2) [1; 1]%nat ex_float 2 4 4 /\
  balanced_tree None 2 (log_ceil 2) [1; 1]%nat ex_float 2 4 4 /\
  balanced_tree (Some 0%nat) 2 (log_ceil 2) [1; 1]%nat ex_float 2 4 4 /\
  levels_fit 2 (log_ceil 2) [1; 1]%nat 4 4 /\ sizes_ok 2 (log_ceil 2) 2 4 /\ log2_accurate exact_log2_floor.
Proof.
  split; [intros t r c Ht Hr Hc; apply ex_float_storable; assumption|]. do 2 (split; [apply ex_float_safe|]). do 2 (split; [apply ex_float_balanced|]).
  split; [apply two_levels_fit; reflexivity|]. split; [apply log_ceil_sizes; [lia|reflexivity]|exact exact_log2_accurate].
Qed.

(** ... and with numbers of both signs: in every 2x2 tile and in every cell that is
    not small there is a number that is as far above zero. *)
Definition ex_swing (t r c : nat) : f64 := fl64 (if (t =? 0)%nat then - Z.of_nat (5 * r + c) else Z.of_nat (5 * r + c)) (-1).
Lemma ex_swing_value t r c : (t < 2)%nat -> (r < 4)%nat -> (c < 4)%nat -> is_finite (ex_swing t r c) = true /\
  B2R (ex_swing t r c) = IZR (if (t =? 0)%nat then - Z.of_nat (5 * r + c) else Z.of_nat (5 * r + c)) / 2.
Proof.
  intros Ht Hr Hc. unfold ex_swing. destruct (fl64_value (if (t =? 0)%nat then - Z.of_nat (5 * r + c) else Z.of_nat (5 * r + c)) (-1)) as (F & V).
  - destruct (t =? 0)%nat; lia.
  - lia.
  - split; [exact F|exact V].
Qed.
Lemma ex_swing_storable t r c : (t < 2)%nat -> (r < 4)%nat -> (c < 4)%nat -> storable None 1 (ex_swing t r c).
Proof.
  intros Ht Hr Hc. destruct (ex_swing_value t r c Ht Hr Hc) as (F & V). right. split; [exact F|]. rewrite V.
  set (z := if (t =? 0)%nat then (- Z.of_nat (5 * r + c))%Z else Z.of_nat (5 * r + c)).
  assert (Z1 : (-20 <= z <= 20)%Z) by (unfold z; destruct (t =? 0)%nat; lia). clearbody z. clear -Z1.
  assert (-20 <= IZR z <= 20) by (split; apply IZR_le; lia). split; [lra|]. exists z. lra.
Qed.
Lemma ex_swing_balanced : balanced_tree None 2 (log_ceil 2) [1; 1]%nat ex_swing 2 4 4.
Proof.
  assert (D : forall top lft h w, (top + h <= 4)%nat -> (lft + w <= 4)%nat -> balanced None (fun t r c => ex_swing t (top + r)%nat (lft + c)%nat) 2 h w).
  { intros top lft h w Hh Hw t r c Ht Hr Hc N. right. exists 1%nat, r, c. split; [lia|]. split; [exact Hr|]. split; [exact Hc|]. cbn [value_of].
    destruct (ex_swing_value t (top + r) (lft + c)) as (F & V); [lia..|]. destruct (ex_swing_value 1 (top + r) (lft + c)) as (F1 & V1); [lia..|].
    split; [apply (finite_not_nan _ _ _ F1)|]. rewrite V, V1. cbn [Nat.eqb].
    set (n := (5 * (top + r) + (lft + c))%nat). pose proof (IZR_le 0 (Z.of_nat n) ltac:(lia)) as P.
    destruct (t =? 0)%nat; [rewrite opp_IZR|]; unfold Rabs; destruct (Rcase_abs _); lra. }
  assert (E4 : (2 ^ (log_ceil 2 (Nat.max 4 4) - 1))%nat = 2%nat) by reflexivity.
  assert (E2 : (2 ^ (log_ceil 2 (Nat.max 2 2) - 1))%nat = 1%nat) by reflexivity.
  cbn [balanced_tree]. cbv zeta. rewrite E4. split; [apply (D 0 0 4 4)%nat; lia|]. intros i j Hi Hj.
  assert (Ei : Nat.min 2 (4 - i * 2) = 2%nat) by lia. assert (Ej : Nat.min 2 (4 - j * 2) = 2%nat) by lia.
  rewrite Ei, Ej, E2. split; [apply D; lia|]. intros i' j' Hi' Hj'. split; [|exact I].
  apply balanced_ext with (g := fun t r c => ex_swing t (i * 2 + i' * 1 + r) (j * 2 + j' * 1 + c)); [intros; rewrite !Nat.add_assoc; reflexivity|].
  apply D; lia.
Qed.
Example C19_both_signs_example :
  (forall t r c, (t < 2)%nat -> (r < 4)%nat -> (c < 4)%nat -> storable None 1 (ex_swing t r c)) /\
  nan_safe_tree None 2 (log_ceil 2) [1; 1]%nat ex_swing 2 4 4 /\ balanced_tree None 2 (log_ceil 2) [1; 1]%nat ex_swing 2 4 4 /\
  B2R (ex_swing 0 3 2) = -17 / 2.
Proof.
  split; [exact ex_swing_storable|]. split; [|split; [exact ex_swing_balanced|]].
  - apply nan_free_safe; [lia|]. intros t r c Ht Hr Hc. destruct (ex_swing_value t r c Ht Hr Hc) as (F & _). apply (finite_not_nan _ _ _ F).
  - destruct (ex_swing_value 0 3 2) as (_ & V); [lia..|]. rewrite V. reflexivity.
Qed.

(** In a sub-array of numbers below zero the number of bits is computed from the
    greatest of them, as if that said how large they are: -30.25 then looks like an
    integer, and is read back as -30, whether rounding is asked for or not. *)
Definition ex_below (t r c : nat) : f64 := fl64 (-121 - Z.of_nat (r + c)) (-2).
Theorem C19_negative_refuted : forall asked, In asked [0; 2; 8]%nat ->
  B2R (ex_below 0 0 0) = -121 / 4 /\
  Forall (fun round => exists bits st2 b, el_bits (ex_elem round) asked (all_values ex_below 1 4 4) = Ok bits /\
    super_build ex_hash (ex_elem round) 2 (log_ceil 2) [1; 1]%nat ex_below 1 4 4 bits [] = Ok (st2, b) /\
    functional st2 /\ reads_num (arr_get reader_f64 st2 3 (mb_data b) 0 0 0) (fl64 (-30) 0) = true) [false; true].
Proof.
  intros asked Ha. split.
  { unfold ex_below. destruct (fl64_value (-121 - Z.of_nat (0 + 0)) (-2)) as (_ & V); [lia|lia|]. rewrite V. reflexivity. }
  destruct Ha as [<-|[<-|[<-|[]]]]; repeat constructor; (do 3 eexists; split; [vm_compute; reflexivity|]; split; [vm_compute; reflexivity|];
    split; [apply functional_checked; vm_compute; reflexivity|vm_compute; reflexivity]).
Qed.

(** Negative numbers. *)
Definition ex_signed (t r c : nat) : f64 := fl64 (Z.of_nat (3 * r + c + t) - 8) (-1).
Example C19_float_signed_example : exists st2 b,
  super_build ex_hash (ex_elem true) 2 (log_ceil 2) [1; 1]%nat ex_signed 2 4 4 0 [] = Ok (st2, b) /\
  functional st2 /\ sizes_ok 2 (log_ceil 2) 2 4 /\
  (forall t r c, (t < 2)%nat -> (r < 4)%nat -> (c < 4)%nat ->
     is_finite (ex_signed t r c) = true /\ Rabs (scaled (ex_signed t r c) 0) <= 2 ^ 61 - 1) /\
  reads_num (arr_get reader_f64 st2 3 (mb_data b) 0 0 2) (fl64 (-3) 0) = true /\
  reads_num (arr_get reader_f64 st2 3 (mb_data b) 1 3 3) (fl64 3 0) = true.
Proof.
  do 2 eexists. split; [vm_compute; reflexivity|].
  split; [apply functional_checked; vm_compute; reflexivity|].
  split; [apply log_ceil_sizes; [lia|reflexivity]|].
  split.
  { intros t r c Ht Hr Hc. unfold ex_signed.
    destruct (fl64_value (Z.of_nat (3 * r + c + t) - 8) (-1)) as (F & V); [lia|lia|]. split; [exact F|].
    unfold scaled. rewrite V. change (bpow radix2 (-1)) with (/ 2).
    assert (IZR (Z.of_nat (3 * r + c + t) - 8) <= 16) by (apply IZR_le; lia).
    assert (-16 <= IZR (Z.of_nat (3 * r + c + t) - 8)) by (apply IZR_le; lia).
    apply Rabs_le. split; lra. }
  split; vm_compute; reflexivity.
Qed.

(** ** C22: NaNs that change what is read *)

(** A sub-array whose numbers are all equal is stored as that one number, even
    if it has NaNs before the first number: the NaN at the first cell is read
    back as 5. *)
Definition ex_leading (t r c : nat) : f64 :=
  if (r =? 0)%nat && (c =? 0)%nat then B754_nan
  else if (r <? 2)%nat && (c <? 2)%nat then fl64 5 0 else fl64 (Z.of_nat (3 * r + c)) 0.
Theorem C22_leading_nan_refuted : exists st2 b,
  super_build ex_hash (ex_elem false) 2 (log_ceil 2) [1; 1]%nat ex_leading 1 4 4 0 [] = Ok (st2, b) /\
  functional st2 /\ is_nan (ex_leading 0 0 0) = true /\
  reads_num (arr_get reader_f64 st2 3 (mb_data b) 0 0 0) (fl64 5 0) = true.
Proof.
  do 2 eexists. split; [vm_compute; reflexivity|].
  split; [apply functional_checked; vm_compute; reflexivity|]. split; vm_compute; reflexivity.
Qed.

(** With rounding a number is lost too: -0.75 is rounded to the code for NaN
    (C17), the sub-array is taken to be all NaN, and -5 is read back as NaN. *)
Definition ex_hides (t r c : nat) : f64 :=
  if (r <? 2)%nat && (c <? 2)%nat
  then if (r =? 0)%nat && (c =? 0)%nat then fl64 (-3) (-2) else if (r =? 0)%nat then B754_nan else fl64 (-5) 0
  else fl64 (Z.of_nat (3 * r + c)) 0.
Theorem C22_nan_hides_refuted : exists st2 b,
  super_build ex_hash (ex_elem true) 2 (log_ceil 2) [1; 1]%nat ex_hides 1 4 4 0 [] = Ok (st2, b) /\
  functional st2 /\ ex_hides 0 1 0 = fl64 (-5) 0 /\
  reads_nan (arr_get reader_f64 st2 3 (mb_data b) 0 1 0) = true.
Proof.
  do 2 eexists. split; [vm_compute; reflexivity|].
  split; [apply functional_checked; vm_compute; reflexivity|]. split; [reflexivity|vm_compute; reflexivity].
Qed.

Print Assumptions C19_float_exact_partial.
Print Assumptions C19_float_rounded_partial.
Print Assumptions C19_float_stored_partial.
Print Assumptions C19_float_signed_partial.
Print Assumptions C19_negative_refuted.
Print Assumptions C22_leading_nan_refuted.
Print Assumptions C22_nan_hides_refuted.
