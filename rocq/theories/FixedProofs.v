(** * Proofs about the fixed-point model. *)
From Coq Require Import ZArith Reals Lra Psatz.
From Flocq Require Import Core.Core IEEE754.BinarySingleNaN.
From Verif Require Import Base BaseFacts FixedModel.
Open Scope R_scope.

Lemma shl1_pow b : (b <= 62)%nat -> i64_shl1 b = (2 ^ Z.of_nat b)%Z.
Proof.
  intros H. unfold i64_shl1. rewrite Nat.mod_small by lia.
  apply wrap64_id.
  assert (2 ^ Z.of_nat b <= 2 ^ 62)%Z by (apply Z.pow_le_mono_r; lia).
  assert (0 < 2 ^ Z.of_nat b)%Z by (apply Z.pow_pos_nonneg; lia).
  unfold i64_range, two63. lia.
Qed.

Lemma IZR_pow2 b : (0 <= b)%Z -> IZR (2 ^ b) = bpow radix2 b.
Proof. intros H. rewrite <- (IZR_Zpower radix2) by exact H. reflexivity. Qed.

Section Exact.
  Variables prec emax : Z.
  Context (Hp : Prec_gt_0 prec) (He : Prec_lt_emax prec emax).
  Hypothesis Hbig : (65 <= emax)%Z.
  Notation flt := (binary_float prec emax).
  Notation fe := (SpecFloat.fexp prec emax).
  Notation fmt := (generic_format radix2 fe).

  Lemma prec_pos : (0 < prec)%Z. Proof. exact Hp. Qed.

  Lemma fmt_FLT x : fmt x -> FLT_format radix2 (SpecFloat.emin prec emax) prec x.
  Proof. apply FLT_format_generic; exact Hp. Qed.

  Lemma FLT_fmt x : FLT_format radix2 (SpecFloat.emin prec emax) prec x -> fmt x.
  Proof. apply generic_format_FLT. Qed.

  Lemma fmt_parts x : fmt x -> exists m e, x = IZR m * bpow radix2 e
    /\ (Z.abs m < 2 ^ prec)%Z /\ (SpecFloat.emin prec emax <= e)%Z.
  Proof. intros H. destruct (fmt_FLT x H) as [[m e] E A B]. now exists m, e. Qed.

  Lemma parts_fmt m e : (Z.abs m < 2 ^ prec)%Z -> (SpecFloat.emin prec emax <= e)%Z ->
    fmt (IZR m * bpow radix2 e).
  Proof. intros A B. apply FLT_fmt. exists (Float radix2 m e); auto. Qed.

  Lemma fmt_scale x b : fmt x -> (0 <= b)%Z -> fmt (x * bpow radix2 b).
  Proof.
    intros H Hb. destruct (fmt_parts x H) as (m & e & -> & A & B).
    rewrite Rmult_assoc, <- bpow_plus. apply parts_fmt; lia.
  Qed.

  Lemma fmt_bpow e : (0 <= e)%Z -> fmt (bpow radix2 e).
  Proof.
    intros H. replace (bpow radix2 e) with (IZR 1 * bpow radix2 e) by (rewrite Rmult_1_l; reflexivity).
    apply parts_fmt; [|unfold SpecFloat.emin; pose proof prec_pos; lia].
    change (Z.abs 1) with (2 ^ 0)%Z. apply Z.pow_lt_mono_r; pose proof prec_pos; lia.
  Qed.

  Lemma fmt_opp x : fmt x -> fmt (- x).
  Proof. apply generic_format_opp. Qed.

  (** An integer of the format is m * 2^e with e >= 0. *)
  Lemma fmt_int z : fmt (IZR z) -> exists m e, IZR z = IZR m * bpow radix2 e
    /\ (Z.abs m < 2 ^ prec)%Z /\ (0 <= e)%Z.
  Proof.
    intros H. destruct (fmt_parts _ H) as (m & e & E & A & B).
    destruct (Z_le_gt_dec 0 e) as [G|G]; [now exists m, e|].
    exists z, 0%Z. rewrite Rmult_1_r. split; [reflexivity|split; [|lia]].
    apply lt_IZR. rewrite abs_IZR, E.
    apply Rle_lt_trans with (Rabs (IZR m)).
    - rewrite Rabs_mult, (Rabs_pos_eq (bpow radix2 e)) by apply bpow_ge_0.
      rewrite <- (Rmult_1_r (Rabs (IZR m))) at 2.
      apply Rmult_le_compat_l; [apply Rabs_pos|].
      change 1 with (bpow radix2 0). apply bpow_le; lia.
    - rewrite <- abs_IZR. now apply IZR_lt.
  Qed.

  Lemma fmt_down z b : fmt (IZR z) -> (0 <= b <= 62)%Z -> fmt (IZR z * bpow radix2 (- b)).
  Proof.
    intros H Hb. destruct (fmt_int z H) as (m & e & -> & A & B).
    rewrite Rmult_assoc, <- bpow_plus. apply parts_fmt; [exact A|].
    unfold SpecFloat.emin. pose proof prec_pos. lia.
  Qed.

  Lemma small_lt_emax x : Rabs x <= bpow radix2 64 -> Rabs x < bpow radix2 emax.
  Proof. intros H. eapply Rle_lt_trans; [exact H|]. apply bpow_lt. lia. Qed.

  Instance vr m : Valid_rnd (round_mode m) := valid_rnd_round_mode m.

  Lemma of_Z_exact z : fmt (IZR z) -> Rabs (IZR z) <= bpow radix2 64 ->
    B2R (f_of_Z z : flt) = IZR z /\ is_finite (f_of_Z z : flt) = true.
  Proof.
    intros F S. unfold f_of_Z.
    pose proof (binary_normalize_correct prec emax Hp He mode_NE z 0 false) as C. cbv zeta in C.
    replace (F2R {| Fnum := z; Fexp := 0 |}) with (IZR z) in C
      by (unfold F2R; cbn; ring).
    rewrite (round_generic radix2 fe _ (IZR z) F) in C.
    rewrite Rlt_bool_true in C by now apply small_lt_emax.
    tauto.
  Qed.

  Lemma of_Z_pow b : (0 <= b <= 63)%Z ->
    B2R (f_of_Z (2 ^ b) : flt) = bpow radix2 b /\ is_finite (f_of_Z (2 ^ b) : flt) = true.
  Proof.
    intros H. rewrite <- IZR_pow2 by lia. apply of_Z_exact.
    - rewrite IZR_pow2 by lia. apply fmt_bpow. lia.
    - rewrite IZR_pow2 by lia. rewrite Rabs_pos_eq by apply bpow_ge_0. apply bpow_le. lia.
  Qed.

  Lemma of_Z_npow : B2R (f_of_Z (- 2 ^ 63) : flt) = - bpow radix2 63 /\ is_finite (f_of_Z (- 2 ^ 63) : flt) = true.
  Proof.
    replace (- bpow radix2 63) with (IZR (- 2 ^ 63)).
    2:{ rewrite opp_IZR, IZR_pow2 by lia. reflexivity. }
    apply of_Z_exact; rewrite opp_IZR, IZR_pow2 by lia.
    - apply fmt_opp, fmt_bpow. lia.
    - rewrite Rabs_Ropp, Rabs_pos_eq by apply bpow_ge_0. apply bpow_le. lia.
  Qed.

  Lemma of_Z_0 : B2R (f_of_Z 0 : flt) = 0 /\ is_finite (f_of_Z 0 : flt) = true.
  Proof.
    apply (of_Z_exact 0).
    - apply generic_format_0.
    - rewrite Rabs_R0. apply bpow_ge_0.
  Qed.

  (** Multiplying by a power of two is exact, or overflows to an infinity. *)
  Lemma mul_pow (x y : flt) b : is_finite x = true -> is_finite y = true ->
    B2R y = bpow radix2 b -> (0 <= b)%Z ->
    (B2R (f_mul x y) = B2R x * bpow radix2 b /\ is_finite (f_mul x y) = true)
    \/ (exists s, f_mul x y = B754_infinity s) /\ bpow radix2 emax <= Rabs (B2R x * bpow radix2 b).
  Proof.
    intros Fx Fy Ey Hb. unfold f_mul.
    pose proof (Bmult_correct prec emax Hp He mode_NE x y) as C.
    rewrite Ey in C.
    rewrite (round_generic radix2 fe _ (B2R x * bpow radix2 b)) in C
      by (apply fmt_scale; [apply generic_format_B2R|exact Hb]).
    destruct (Rlt_bool_spec (Rabs (B2R x * bpow radix2 b)) (bpow radix2 emax)) as [L|L].
    - left. rewrite Fx, Fy in C. tauto.
    - right. split; [|exact L]. exists (xorb (Bsign x) (Bsign y)).
      unfold binary_overflow in C. cbn in C.
      destruct (Bmult mode_NE x y); cbn in C; try discriminate. now inversion C.
  Qed.

  Lemma trunc_B2R (x : flt) : B2R (f_trunc x) = IZR (Ztrunc (B2R x))
    /\ is_finite (f_trunc x) = is_finite x.
  Proof.
    unfold f_trunc. destruct (Bnearbyint_correct prec emax He mode_ZR x) as (A & B & _).
    split; [|exact B]. rewrite A. unfold round, scaled_mantissa, cexp, FIX_exp, F2R.
    cbn [Fnum Fexp round_mode]. change (bpow radix2 (- 0)) with 1. change (bpow radix2 0) with 1.
    now rewrite 2!Rmult_1_r.
  Qed.

  Lemma round_B2R (x : flt) : B2R (f_round x) = IZR (ZnearestA (B2R x))
    /\ is_finite (f_round x) = is_finite x.
  Proof.
    unfold f_round. destruct (Bnearbyint_correct prec emax He mode_NA x) as (A & B & _).
    split; [|exact B]. rewrite A. unfold round, scaled_mantissa, cexp, FIX_exp, F2R.
    cbn [Fnum Fexp round_mode]. change (bpow radix2 (- 0)) with 1. change (bpow radix2 0) with 1.
    now rewrite 2!Rmult_1_r.
  Qed.

  Lemma Btrunc_Z (x : flt) : Btrunc x = Ztrunc (B2R x).
  Proof.
    apply eq_IZR. rewrite (Btrunc_correct prec emax He x).
    unfold round, scaled_mantissa, cexp, FIX_exp, F2R.
    cbn [Fnum Fexp]. change (bpow radix2 (- 0)) with 1. change (bpow radix2 0) with 1.
    now rewrite 2!Rmult_1_r.
  Qed.

  Lemma trunc_near r : Rabs (r - IZR (Ztrunc r)) <= Rabs r.
  Proof.
    destruct (Rle_lt_dec 0 r) as [P|N].
    - rewrite Ztrunc_floor by exact P.
      assert (0 <= IZR (Zfloor r)) by (apply IZR_le, Zfloor_lub; exact P).
      pose proof (Zfloor_lb r).
      rewrite 2!Rabs_pos_eq; lra.
    - rewrite Ztrunc_ceil by lra.
      assert (IZR (Zceil r) <= 0) by (apply IZR_le, Zceil_glb; lra).
      pose proof (Zceil_ub r).
      rewrite 2!Rabs_left1; lra.
  Qed.

  Lemma trunc_lt1 r : Rabs (r - IZR (Ztrunc r)) < 1.
  Proof.
    destruct (Rle_lt_dec 0 r) as [P|N].
    - rewrite Ztrunc_floor by exact P.
      pose proof (Zfloor_lb r). pose proof (Zfloor_ub r).
      rewrite Rabs_pos_eq; lra.
    - rewrite Ztrunc_ceil by lra.
      pose proof (Zceil_ub r). pose proof (Zceil_lb r).
      rewrite Rabs_left1; lra.
  Qed.

  Lemma fract_fmt r : fmt r -> fmt (r - IZR (Ztrunc r)).
  Proof.
    intros F. destruct (fmt_parts r F) as (m & e & E & A & B).
    destruct (Z_le_gt_dec 0 e) as [G|G].
    - replace r with (IZR (m * 2 ^ e)).
      2:{ rewrite mult_IZR, IZR_pow2 by exact G. now symmetry. }
      rewrite Ztrunc_IZR, Rminus_diag_eq by reflexivity. apply generic_format_0.
    - assert (X : r - IZR (Ztrunc r) = IZR (m - Ztrunc r * 2 ^ (- e)) * bpow radix2 e).
      { rewrite minus_IZR, mult_IZR, IZR_pow2 by lia.
        rewrite Rmult_minus_distr_r, Rmult_assoc, <- bpow_plus.
        replace (- e + e)%Z with 0%Z by lia. cbn [bpow]. rewrite Rmult_1_r. now rewrite <- E. }
      rewrite X. apply parts_fmt; [|exact B].
      apply Z.le_lt_trans with (Z.abs m); [|exact A].
      apply le_IZR. rewrite 2!abs_IZR.
      apply Rmult_le_reg_r with (bpow radix2 e); [apply bpow_gt_0|].
      rewrite <- (Rabs_pos_eq (bpow radix2 e)) by apply bpow_ge_0.
      rewrite <- 2!Rabs_mult, <- X, <- E. apply trunc_near.
  Qed.

  Lemma fract_B2R (x : flt) : is_finite x = true ->
    B2R (f_fract x) = B2R x - IZR (Ztrunc (B2R x)) /\ is_finite (f_fract x) = true.
  Proof.
    intros Fx. unfold f_fract, f_sub.
    destruct (trunc_B2R x) as (Et & Ft). rewrite Fx in Ft.
    pose proof (Bminus_correct prec emax Hp He mode_NE x (f_trunc x) Fx Ft) as C.
    rewrite Et in C.
    rewrite (round_generic radix2 fe _ (B2R x - IZR (Ztrunc (B2R x)))) in C
      by apply fract_fmt, generic_format_B2R.
    rewrite Rlt_bool_true in C; [tauto|].
    eapply Rle_lt_trans; [apply trunc_near|]. apply abs_B2R_lt_emax.
  Qed.

  Lemma gt_spec (x y : flt) : is_finite x = true -> is_finite y = true ->
    f_gt x y = true <-> B2R y < B2R x.
  Proof.
    intros A B. unfold f_gt. rewrite Bcompare_correct by assumption.
    destruct (Rcompare_spec (B2R x) (B2R y)); split; intros; try discriminate; try reflexivity; lra.
  Qed.

  Lemma lt_spec (x y : flt) : is_finite x = true -> is_finite y = true ->
    f_lt x y = true <-> B2R x < B2R y.
  Proof.
    intros A B. unfold f_lt. rewrite Bcompare_correct by assumption.
    destruct (Rcompare_spec (B2R x) (B2R y)); split; intros; try discriminate; try reflexivity; lra.
  Qed.

  Lemma ge_spec (x y : flt) : is_finite x = true -> is_finite y = true ->
    f_ge x y = true <-> B2R y <= B2R x.
  Proof.
    intros A B. unfold f_ge. rewrite Bcompare_correct by assumption.
    destruct (Rcompare_spec (B2R x) (B2R y)); split; intros; try discriminate; try reflexivity; lra.
  Qed.

  Lemma to_i64_spec (x : flt) : is_finite x = true ->
    (- bpow radix2 63 <= B2R x < bpow radix2 63 -> f_to_i64 x = Some (Ztrunc (B2R x)))
    /\ (forall z, f_to_i64 x = Some z -> z = Ztrunc (B2R x) /\ - bpow radix2 63 <= B2R x < bpow radix2 63).
  Proof.
    intros F. unfold f_to_i64.
    destruct of_Z_npow as (E1 & F1). destruct (of_Z_pow 63) as (E2 & F2); [lia|].
    pose proof (ge_spec x _ F F1) as G. pose proof (lt_spec x _ F F2) as L.
    rewrite E1 in G. rewrite E2 in L. rewrite Btrunc_Z.
    destruct (f_ge x (f_of_Z (- 2 ^ 63))), (f_lt x (f_of_Z (2 ^ 63))); cbn [andb]; split.
    all: try (intros; discriminate).
    - reflexivity.
    - intros z X. inversion X. split; [reflexivity|]. split; [apply G|apply L]; reflexivity.
    - intros (_ & X). apply L in X. discriminate.
    - intros (X & _). apply G in X. discriminate.
    - intros (X & _). apply G in X. discriminate.
  Qed.

  Lemma to_i64_inf s : f_to_i64 (B754_infinity s : flt) = None.
  Proof.
    unfold f_to_i64. destruct of_Z_npow as (_ & F1). destruct (of_Z_pow 63) as (_ & F2); [lia|].
    destruct (f_of_Z (- 2 ^ 63) : flt), (f_of_Z (2 ^ 63) : flt); try discriminate; destruct s; reflexivity.
  Qed.

  Lemma mul_inf s (y : flt) b : is_finite y = true -> B2R y = bpow radix2 b ->
    exists s', f_mul (B754_infinity s) y = B754_infinity s'.
  Proof.
    intros F E. pose proof (bpow_gt_0 radix2 b) as P. rewrite <- E in P.
    unfold f_mul. destruct y; try discriminate; cbn in *.
    - lra.
    - eexists; reflexivity.
  Qed.

  Lemma fract_inf s : f_fract (B754_infinity s : flt) = B754_nan.
  Proof. destruct s; reflexivity. Qed.

  (** What the conversion with a scaled value [x = n * 2^b] does. *)
  Definition scaled_step (shifted : flt) (round : bool) : res Z :=
    shifted <- (if f_gt (f_fract shifted) (f_of_Z 0)
                then if round then Ok (f_round shifted) else Panic
                else Ok shifted) ;;
    match f_to_i64 (f_mul shifted (f_of_Z 2)) with
    | Some number => Ok (i64_add number 1)
    | None => Panic
    end.

  Lemma two_exact : B2R (f_of_Z 2 : flt) = bpow radix2 1 /\ is_finite (f_of_Z 2 : flt) = true.
  Proof. change 2%Z with (2 ^ 1)%Z. apply of_Z_pow. lia. Qed.

  Lemma double_to_i64 (x : flt) : is_finite x = true ->
    (- bpow radix2 62 <= B2R x < bpow radix2 62 ->
       f_to_i64 (f_mul x (f_of_Z 2)) = Some (Ztrunc (2 * B2R x)))
    /\ (forall z, f_to_i64 (f_mul x (f_of_Z 2)) = Some z ->
         z = Ztrunc (2 * B2R x) /\ - bpow radix2 62 <= B2R x < bpow radix2 62).
  Proof.
    intros F. destruct two_exact as (E2 & F2).
    assert (P63 : bpow radix2 63 = 2 * bpow radix2 62).
    { change 63%Z with (1 + 62)%Z. rewrite bpow_plus. reflexivity. }
    assert (P62 : 0 < bpow radix2 62) by apply bpow_gt_0.
    destruct (mul_pow x (f_of_Z 2) 1 F F2 E2 ltac:(lia)) as [(E & Fm)|((s & E) & Hl)].
    - replace (B2R x * bpow radix2 1) with (2 * B2R x) in E by (cbn; lra).
      destruct (to_i64_spec _ Fm) as (A & B). rewrite E in A, B. split.
      + intros R. apply A. lra.
      + intros z Hz. destruct (B z Hz). split; [assumption|lra].
    - split.
      + intros R. exfalso. revert Hl. apply Rlt_not_le. apply small_lt_emax.
        change (bpow radix2 1) with 2.
        apply Rle_trans with (bpow radix2 63).
        * apply Rabs_le. lra.
        * apply bpow_le. lia.
      + intros z Hz. rewrite E, to_i64_inf in Hz. discriminate.
  Qed.

  (** The whole of [to_fixed] in terms of the exact real [n * 2^b]. *)
  Lemma to_fixed_scaled (n : flt) b round v : (b <= 62)%nat -> is_finite n = true ->
    to_fixed n b round = Ok v ->
    exists x : flt, is_finite x = true /\ B2R x = B2R n * bpow radix2 (Z.of_nat b)
      /\ scaled_step x round = Ok v.
  Proof.
    intros Hb F H. unfold to_fixed in H.
    assert (is_nan n = false) as N by (destruct n; try discriminate; reflexivity).
    rewrite N, F in H. cbn [negb] in H.
    destruct (of_Z_pow (Z.of_nat b)) as (E1 & F1); [lia|].
    rewrite <- shl1_pow in E1, F1 by exact Hb.
    destruct (mul_pow n (f_of_Z (i64_shl1 b)) (Z.of_nat b) F F1 E1 ltac:(lia)) as [(E & Fm)|((s & E) & _)].
    - exists (f_mul n (f_of_Z (i64_shl1 b))). split; [exact Fm|]. split; [exact E|]. exact H.
    - rewrite E, fract_inf in H.
      assert (forall y : flt, f_gt B754_nan y = false) as G by reflexivity.
      rewrite G in H. cbn [bind] in H.
      destruct two_exact as (E2 & F2). destruct (mul_inf s _ _ F2 E2) as (s' & E').
      rewrite E', to_i64_inf in H. discriminate.
  Qed.

  Lemma scaled_to_fixed (n : flt) b round : (b <= 62)%nat -> is_finite n = true ->
    Rabs (B2R n * bpow radix2 (Z.of_nat b)) <= bpow radix2 64 ->
    exists x : flt, is_finite x = true /\ B2R x = B2R n * bpow radix2 (Z.of_nat b)
      /\ to_fixed n b round = scaled_step x round.
  Proof.
    intros Hb F R. unfold to_fixed.
    assert (is_nan n = false) as N by (destruct n; try discriminate; reflexivity).
    rewrite N, F. cbn [negb].
    destruct (of_Z_pow (Z.of_nat b)) as (E1 & F1); [lia|].
    rewrite <- shl1_pow in E1, F1 by exact Hb.
    destruct (mul_pow n (f_of_Z (i64_shl1 b)) (Z.of_nat b) F F1 E1 ltac:(lia)) as [(E & Fm)|(_ & Hl)].
    - exists (f_mul n (f_of_Z (i64_shl1 b))). split; [exact Fm|]. split; [exact E|]. reflexivity.
    - exfalso. revert Hl. apply Rlt_not_le, small_lt_emax, R.
  Qed.

  Lemma fract_gt (x : flt) : is_finite x = true ->
    f_gt (f_fract x) (f_of_Z 0) = true <-> IZR (Ztrunc (B2R x)) < B2R x.
  Proof.
    intros F. destruct (fract_B2R x F) as (E & Ff). destruct of_Z_0 as (E0 & F0).
    rewrite gt_spec by assumption. rewrite E, E0. split; lra.
  Qed.

  Lemma trunc_ge_neg r : r <= 0 -> r <= IZR (Ztrunc r).
  Proof. intros H. rewrite Ztrunc_ceil by exact H. apply Zceil_ub. Qed.

  Lemma trunc_le_pos r : 0 <= r -> IZR (Ztrunc r) <= r.
  Proof. intros H. rewrite Ztrunc_floor by exact H. apply Zfloor_lb. Qed.

  (** Reading back a stored number: NaN for -1+1, otherwise an exact quotient. *)
  Lemma from_fixed_exact z b : (b <= 61)%nat -> i64_range z -> z <> (-1)%Z -> fmt (IZR z) ->
    B2R (from_fixed (i64_add z 1) b : flt) = IZR z * bpow radix2 (- Z.of_nat (b + 1))
    /\ is_finite (from_fixed (i64_add z 1) b : flt) = true.
  Proof.
    intros Hb Hz Hn F. unfold from_fixed.
    assert (i64_add z 1 <> 0)%Z as NZ.
    { unfold i64_add, wrap64, i64_range, two63, two64 in *. intros X.
      clear F. Z.div_mod_to_equations. lia. }
    assert (i64_sub (i64_add z 1) 1 = z) as EQ.
    { unfold i64_sub, i64_add, wrap64, i64_range, two63, two64 in *. clear - Hz. Z.div_mod_to_equations. lia. }
    apply Z.eqb_neq in NZ. rewrite NZ, EQ.
    assert (Sz : Rabs (IZR z) <= bpow radix2 63).
    { rewrite <- abs_IZR, <- IZR_pow2 by lia. apply IZR_le. unfold i64_range, two63 in Hz. lia. }
    destruct (of_Z_exact z F) as (Ez & Fz).
    { eapply Rle_trans; [exact Sz|]. apply bpow_le. lia. }
    destruct (of_Z_pow (Z.of_nat (b + 1))) as (E1 & F1); [lia|].
    rewrite <- shl1_pow in E1, F1 by lia.
    unfold f_div.
    pose proof (Bdiv_correct prec emax Hp He mode_NE (f_of_Z z) (f_of_Z (i64_shl1 (b + 1)))) as C.
    rewrite E1, Ez in C.
    specialize (C ltac:(apply Rgt_not_eq, bpow_gt_0)).
    unfold Rdiv in C. rewrite <- bpow_opp in C.
    rewrite (round_generic radix2 fe _ (IZR z * bpow radix2 (- Z.of_nat (b + 1)))) in C
      by (apply fmt_down; [exact F|lia]).
    rewrite Rlt_bool_true in C.
    - rewrite Fz in C. tauto.
    - apply small_lt_emax. rewrite Rabs_mult, (Rabs_pos_eq (bpow _ _)) by apply bpow_ge_0.
      apply Rle_trans with (bpow radix2 63 * bpow radix2 0).
      + apply Rmult_le_compat; [apply Rabs_pos|apply bpow_ge_0|exact Sz|apply bpow_le; lia].
      + rewrite <- bpow_plus. apply bpow_le. lia.
  Qed.

  Lemma from_fixed_nan b : from_fixed (i64_add (-1) 1) b = (B754_nan : flt).
  Proof. reflexivity. Qed.

  (** Truncating a representable value keeps it representable. *)
  Lemma trunc_fmt r : fmt r -> fmt (IZR (Ztrunc r)).
  Proof.
    intros F. destruct (fmt_parts r F) as (m & e & E & A & B).
    destruct (Z_le_gt_dec 0 e) as [G|G].
    - replace r with (IZR (m * 2 ^ e)).
      2:{ rewrite mult_IZR, IZR_pow2 by exact G. now symmetry. }
      rewrite Ztrunc_IZR. rewrite mult_IZR, IZR_pow2 by exact G. rewrite <- E. exact F.
    - rewrite <- (Rmult_1_r (IZR (Ztrunc r))). change 1 with (bpow radix2 0). apply parts_fmt.
      2: unfold SpecFloat.emin; pose proof prec_pos; lia.
      apply lt_IZR. rewrite abs_IZR.
      apply Rle_lt_trans with (Rabs r).
      + destruct (Rle_lt_dec 0 r) as [P|N].
        * assert (0 <= IZR (Ztrunc r)) by (rewrite Ztrunc_floor by exact P; apply IZR_le, Zfloor_lub; exact P).
          pose proof (trunc_le_pos r P). rewrite 2!Rabs_pos_eq; lra.
        * assert (IZR (Ztrunc r) <= 0) by (rewrite Ztrunc_ceil by lra; apply IZR_le, Zceil_glb; lra).
          pose proof (trunc_ge_neg r ltac:(lra)). rewrite 2!Rabs_left1; lra.
      + rewrite E, Rabs_mult, (Rabs_pos_eq (bpow _ _)) by apply bpow_ge_0.
        rewrite <- abs_IZR. apply Rle_lt_trans with (IZR (Z.abs m) * 1).
        * apply Rmult_le_compat_l; [apply IZR_le; lia|]. change 1 with (bpow radix2 0). apply bpow_le. lia.
        * rewrite Rmult_1_r. apply IZR_lt, A.
  Qed.

  Lemma trunc_i64 r : - bpow radix2 62 <= r < bpow radix2 62 -> i64_range (Ztrunc (2 * r)).
  Proof.
    intros R. rewrite <- IZR_pow2 in R by lia.
    assert (IZR (- 2 ^ 63) <= 2 * r < IZR (2 ^ 63)) as R'.
    { change (2 ^ 63)%Z with (2 * 2 ^ 62)%Z. rewrite opp_IZR, mult_IZR. lra. }
    clear R. unfold i64_range, two63. split.
    - apply le_IZR. destruct (Rle_lt_dec 0 (2 * r)) as [P|N].
      + apply IZR_le. apply Z.le_trans with 0%Z; [lia|].
        rewrite Ztrunc_floor by exact P. apply Zfloor_lub. exact P.
      + apply Rle_trans with (2 * r); [apply R'|]. apply trunc_ge_neg. lra.
    - apply lt_IZR.
      destruct (Rle_lt_dec 0 (2 * r)) as [P|N].
      + eapply Rle_lt_trans; [apply trunc_le_pos, P|]. apply R'.
      + apply IZR_lt. apply Z.le_lt_trans with 0%Z; [|lia].
        rewrite Ztrunc_ceil by lra. apply Zceil_glb. lra.
  Qed.

  (** The number stored when nothing is rounded up front. *)
  Lemma step_truncates (x : flt) round v : is_finite x = true -> ~ (IZR (Ztrunc (B2R x)) < B2R x) ->
    scaled_step x round = Ok v ->
    v = i64_add (Ztrunc (2 * B2R x)) 1 /\ i64_range (Ztrunc (2 * B2R x)) /\ fmt (IZR (Ztrunc (2 * B2R x)))
    /\ - bpow radix2 62 <= B2R x < bpow radix2 62.
  Proof.
    intros F N H. unfold scaled_step in H.
    pose proof (fract_gt x F) as G.
    destruct (f_gt (f_fract x) (f_of_Z 0)); [exfalso; apply N, G; reflexivity|].
    cbn [bind] in H. destruct (double_to_i64 x F) as (_ & D).
    destruct (f_to_i64 (f_mul x (f_of_Z 2))) as [z|] eqn:Ez; [|discriminate].
    inversion H; subst v. destruct (D z eq_refl) as (-> & R).
    split; [reflexivity|]. split; [apply trunc_i64, R|]. split; [|exact R].
    apply trunc_fmt. rewrite Rmult_comm. change 2 with (bpow radix2 1). apply fmt_scale; [|lia].
    apply generic_format_B2R.
  Qed.

  Lemma step_truncates_ok (x : flt) round : is_finite x = true -> ~ (IZR (Ztrunc (B2R x)) < B2R x) ->
    - bpow radix2 62 <= B2R x < bpow radix2 62 ->
    scaled_step x round = Ok (i64_add (Ztrunc (2 * B2R x)) 1).
  Proof.
    intros F N R. unfold scaled_step.
    pose proof (fract_gt x F) as G.
    destruct (f_gt (f_fract x) (f_of_Z 0)); [exfalso; apply N, G; reflexivity|].
    cbn [bind]. destruct (double_to_i64 x F) as (D & _). now rewrite D.
  Qed.

  (** The number stored when the scaled value is rounded first. *)
  Lemma step_rounds_ok (x : flt) : is_finite x = true -> IZR (Ztrunc (B2R x)) < B2R x ->
    - bpow radix2 62 <= IZR (ZnearestA (B2R x)) < bpow radix2 62 ->
    scaled_step x true = Ok (i64_add (2 * ZnearestA (B2R x)) 1)
    /\ fmt (IZR (2 * ZnearestA (B2R x))).
  Proof.
    intros F N R. unfold scaled_step.
    pose proof (fract_gt x F) as G.
    destruct (f_gt (f_fract x) (f_of_Z 0)); [|exfalso; apply G in N; discriminate].
    cbn [bind]. destruct (round_B2R x) as (Er & Fr). rewrite F in Fr.
    destruct (double_to_i64 (f_round x) Fr) as (D & _). rewrite Er in D. rewrite D by exact R.
    rewrite <- mult_IZR, Ztrunc_IZR. split; [reflexivity|].
    rewrite mult_IZR, Rmult_comm. change 2 with (bpow radix2 1). apply fmt_scale; [|lia].
    rewrite <- Er. apply generic_format_B2R.
  Qed.

  Lemma step_fract_panics (x : flt) : is_finite x = true -> IZR (Ztrunc (B2R x)) < B2R x ->
    scaled_step x false = Panic.
  Proof.
    intros F N. unfold scaled_step. pose proof (fract_gt x F) as G.
    destruct (f_gt (f_fract x) (f_of_Z 0)); [reflexivity|]. apply G in N. discriminate.
  Qed.

  Lemma scale_back r b : r * bpow radix2 (Z.of_nat b) * 2 * bpow radix2 (- Z.of_nat (b + 1)) = r.
  Proof.
    change 2 with (bpow radix2 1). rewrite !Rmult_assoc, <- !bpow_plus.
    replace (_ + (_ + _))%Z with 0%Z by lia. cbn. ring.
  Qed.

  Lemma trunc_integer r : (exists z, r = IZR z) -> IZR (Ztrunc r) = r.
  Proof. intros (z & ->). now rewrite Ztrunc_IZR. Qed.
End Exact.

Section Main.
  Variables prec emax : Z.
  Context (Hp : Prec_gt_0 prec) (He : Prec_lt_emax prec emax).
  Hypothesis Hbig : (65 <= emax)%Z.
  Notation flt := (binary_float prec emax).

  Lemma trunc_double_int r : (exists z, r = IZR z) -> Ztrunc (2 * r) = (2 * Ztrunc r)%Z.
  Proof. intros (z & ->). rewrite <- mult_IZR, !Ztrunc_IZR. reflexivity. Qed.

  Lemma bpow_S b : bpow radix2 (Z.of_nat (b + 1)) = bpow radix2 (Z.of_nat b) * 2.
  Proof. replace (Z.of_nat (b + 1)) with (Z.of_nat b + 1)%Z by lia. now rewrite bpow_plus. Qed.

  Lemma not_fract r : 0 <= r -> ~ (IZR (Ztrunc r) < r) -> exists z, r = IZR z.
  Proof. intros P N. exists (Ztrunc r). pose proof (trunc_le_pos r P). lra. Qed.

  (** Exactly when the value read back is the value written. *)
  Lemma lossless_iff (n : flt) b v : (b <= 61)%nat -> is_finite n = true ->
    to_fixed n b false = Ok v ->
    (B2R (from_fixed v b : flt) = B2R n /\ is_finite (from_fixed v b : flt) = true) <->
    (0 <= B2R n \/ exists z, B2R n * bpow radix2 (Z.of_nat (b + 1)) = IZR z /\ z <> (-1)%Z).
  Proof.
    intros Hb F H.
    destruct (to_fixed_scaled prec emax Hp He Hbig n b false v ltac:(lia) F H) as (x & Fx & Ex & Hs).
    assert (NF : ~ (IZR (Ztrunc (B2R x)) < B2R x)).
    { intros X. rewrite (step_fract_panics prec emax Hp He Hbig x Fx X) in Hs. discriminate. }
    destruct (step_truncates prec emax Hp He Hbig x false v Fx NF Hs) as (-> & Hi & Hf & R).
    set (z := Ztrunc (2 * B2R x)) in *.
    assert (Ex2 : B2R n * bpow radix2 (Z.of_nat (b + 1)) = 2 * B2R x).
    { rewrite bpow_S, Ex. ring. }
    rewrite Ex2.
    assert (Back : B2R n = 2 * B2R x * bpow radix2 (- Z.of_nat (b + 1))).
    { rewrite <- Ex2, Rmult_assoc, <- bpow_plus.
      replace (_ + - _)%Z with 0%Z by lia. cbn. ring. }
    destruct (Z.eq_dec z (-1)) as [Em|Nm].
    - split.
      + intros (_ & X). rewrite Em, from_fixed_nan in X. discriminate.
      + intros [P|(w & E & N)].
        * exfalso. assert (0 <= B2R x) as Px by (rewrite Ex; apply Rmult_le_pos; [exact P|apply bpow_ge_0]).
          assert (0 <= z)%Z; [|lia]. unfold z. rewrite Ztrunc_floor by lra. apply Zfloor_lub. lra.
        * exfalso. apply N. rewrite <- Em. unfold z. rewrite E, Ztrunc_IZR. reflexivity.
    - destruct (from_fixed_exact prec emax Hp He Hbig z b Hb Hi Nm Hf) as (Er & Fr).
      rewrite Er. split.
      + intros (E & _). destruct (Rle_lt_dec 0 (B2R n)) as [P|Q]; [left; exact P|right].
        exists z. split; [|exact Nm].
        rewrite Back in E. apply Rmult_eq_reg_r in E; [now symmetry|].
        apply Rgt_not_eq, bpow_gt_0.
      + intros C. split; [|exact Fr]. rewrite Back. f_equal. unfold z.
        apply trunc_integer. destruct C as [P|(w & E & _)]; [|now exists w].
        assert (0 <= B2R x) as Px by (rewrite Ex; apply Rmult_le_pos; [exact P|apply bpow_ge_0]).
        destruct (not_fract _ Px NF) as (w & E). exists (2 * w)%Z. rewrite E, mult_IZR. reflexivity.
  Qed.

  Lemma integer_converts (n : flt) b round z : (b <= 61)%nat -> is_finite n = true ->
    B2R n * bpow radix2 (Z.of_nat b) = IZR z -> (- 2 ^ 62 <= z < 2 ^ 62)%Z ->
    to_fixed n b round = Ok (i64_add (2 * z) 1)
    /\ B2R (from_fixed (i64_add (2 * z) 1) b : flt) = B2R n
    /\ is_finite (from_fixed (i64_add (2 * z) 1) b : flt) = true.
  Proof.
    intros Hb F E R.
    assert (RR : - bpow radix2 62 <= IZR z < bpow radix2 62).
    { rewrite <- IZR_pow2 by lia. rewrite <- opp_IZR. split; [apply IZR_le|apply IZR_lt]; lia. }
    destruct (scaled_to_fixed prec emax Hp He Hbig n b round ltac:(lia) F) as (x & Fx & Ex & Hs).
    { rewrite E. apply Rle_trans with (bpow radix2 62).
      - apply Rabs_le. lra.
      - apply bpow_le. lia. }
    rewrite E in Ex.
    assert (NF : ~ (IZR (Ztrunc (B2R x)) < B2R x)) by (rewrite Ex, Ztrunc_IZR; lra).
    assert (T : to_fixed n b round = Ok (i64_add (2 * z) 1)).
    { rewrite Hs, (step_truncates_ok prec emax Hp He Hbig x round Fx NF) by (rewrite Ex; exact RR).
      rewrite Ex, <- mult_IZR, Ztrunc_IZR. reflexivity. }
    split; [exact T|]. rewrite T in Hs. symmetry in Hs.
    destruct (step_truncates prec emax Hp He Hbig x round _ Fx NF Hs) as (_ & Hi & Hf & _).
    rewrite Ex, <- mult_IZR, Ztrunc_IZR in Hi, Hf.
    destruct (from_fixed_exact prec emax Hp He Hbig (2 * z) b Hb Hi ltac:(lia) Hf) as (Er & Fr).
    split; [|exact Fr]. rewrite Er, mult_IZR, <- E.
    rewrite <- (scale_back (B2R n) b) at 2. ring.
  Qed.

  Lemma nearestA_bounds r m : - IZR m <= r <= IZR m -> - IZR m <= IZR (ZnearestA r) <= IZR m.
  Proof.
    intros (A & B). rewrite <- opp_IZR in *.
    split; apply IZR_le.
    - rewrite <- (@Zrnd_IZR _ valid_rnd_NA (- m)%Z). apply (@Zrnd_le _ valid_rnd_NA). exact A.
    - rewrite <- (@Zrnd_IZR _ valid_rnd_NA m). apply (@Zrnd_le _ valid_rnd_NA). exact B.
  Qed.

  (** With rounding on, the value read back is within half a unit, except in
      the gap that is mistaken for NaN. *)
  Lemma rounds (n : flt) b : (b <= 61)%nat -> is_finite n = true ->
    Rabs (B2R n * bpow radix2 (Z.of_nat b)) <= IZR (2 ^ 62 - 1) ->
    ~ (-1 < B2R n * bpow radix2 (Z.of_nat b) <= - / 2) ->
    exists v, to_fixed n b true = Ok v
      /\ is_finite (from_fixed v b : flt) = true
      /\ Rabs (B2R (from_fixed v b : flt) - B2R n) <= bpow radix2 (- Z.of_nat (b + 1)).
  Proof.
    intros Hb F R G.
    assert (R2 : Rabs (B2R n * bpow radix2 (Z.of_nat b)) <= bpow radix2 62).
    { eapply Rle_trans; [exact R|]. rewrite <- IZR_pow2 by lia. apply IZR_le. lia. }
    destruct (scaled_to_fixed prec emax Hp He Hbig n b true ltac:(lia) F) as (x & Fx & Ex & Hs).
    { eapply Rle_trans; [exact R2|]. apply bpow_le. lia. }
    rewrite <- Ex in R, R2, G.
    apply Rabs_le_inv in R. 
    assert (Pm : IZR (2 ^ 62 - 1) = bpow radix2 62 - 1) by (rewrite minus_IZR, IZR_pow2 by lia; reflexivity).
    assert (U : bpow radix2 (- Z.of_nat (b + 1)) = / 2 * bpow radix2 (- Z.of_nat b)).
    { replace (- Z.of_nat (b + 1))%Z with (-1 + - Z.of_nat b)%Z by lia. rewrite bpow_plus. cbn. lra. }
    assert (Q : 0 < bpow radix2 (- Z.of_nat b)) by apply bpow_gt_0.
    assert (Back : B2R n = B2R x * bpow radix2 (- Z.of_nat b)).
    { rewrite Ex, Rmult_assoc, <- bpow_plus. replace (_ + - _)%Z with 0%Z by lia. cbn. ring. }
    destruct (Rlt_le_dec (IZR (Ztrunc (B2R x))) (B2R x)) as [L|L].
    - (* rounded first *)
      pose proof (nearestA_bounds (B2R x) (2 ^ 62 - 1) R) as RB.
      destruct (step_rounds_ok prec emax Hp He Hbig x Fx L) as (S & Hf); [lra|].
      set (q := ZnearestA (B2R x)) in *.
      exists (i64_add (2 * q) 1). rewrite Hs. split; [exact S|].
      assert (Hi : i64_range (2 * q)).
      { rewrite <- opp_IZR in RB. destruct RB as (R1 & R3). apply le_IZR in R1, R3.
        unfold i64_range, two63. lia. }
      destruct (from_fixed_exact prec emax Hp He Hbig (2 * q) b Hb Hi ltac:(lia) Hf) as (Er & Fr).
      split; [exact Fr|]. rewrite Er, Back, mult_IZR, U.
      replace (2 * IZR q * (/ 2 * bpow radix2 (- Z.of_nat b)) - B2R x * bpow radix2 (- Z.of_nat b))
        with ((IZR q - B2R x) * bpow radix2 (- Z.of_nat b)) by field.
      rewrite Rabs_mult, (Rabs_pos_eq (bpow _ _)) by apply bpow_ge_0.
      apply Rmult_le_compat_r; [lra|].
      rewrite Rabs_minus_sym. apply Znearest_half.
    - (* truncated *)
      assert (NF : ~ (IZR (Ztrunc (B2R x)) < B2R x)) by lra.
      assert (RR : - bpow radix2 62 <= B2R x < bpow radix2 62) by lra.
      pose proof (step_truncates_ok prec emax Hp He Hbig x true Fx NF RR) as S.
      destruct (step_truncates prec emax Hp He Hbig x true _ Fx NF S) as (_ & Hi & Hf & _).
      set (q := Ztrunc (2 * B2R x)) in *.
      assert (Nm : q <> (-1)%Z).
      { intros X. apply G. unfold q in X.
        assert (B2R x < 0) as Neg.
        { destruct (Rle_lt_dec 0 (B2R x)) as [P|N]; [|exact N]. exfalso.
          rewrite Ztrunc_floor in X by lra.
          assert (0 <= -1)%Z; [|lia]. rewrite <- X. apply Zfloor_lub. lra. }
        rewrite Ztrunc_ceil in X by lra.
        pose proof (Zceil_ub (2 * B2R x)). pose proof (Zceil_lb (2 * B2R x)).
        rewrite X in *. cbn in *. lra. }
      exists (i64_add q 1). rewrite Hs. split; [exact S|].
      destruct (from_fixed_exact prec emax Hp He Hbig q b Hb Hi Nm Hf) as (Er & Fr).
      split; [exact Fr|]. rewrite Er, Back, U.
      replace (IZR q * (/ 2 * bpow radix2 (- Z.of_nat b)) - B2R x * bpow radix2 (- Z.of_nat b))
        with ((IZR q - 2 * B2R x) * (/ 2 * bpow radix2 (- Z.of_nat b))) by field.
      rewrite Rabs_mult, (Rabs_pos_eq (/ 2 * _)) by lra.
      rewrite <- (Rmult_1_l (/ 2 * bpow radix2 (- Z.of_nat b))) at 2.
      apply Rmult_le_compat_r; [lra|].
      pose proof (trunc_lt1 (2 * B2R x)) as T. fold q in T. rewrite Rabs_minus_sym in T. lra.
  Qed.

  (** The gap of [rounds]: what is read back there is NaN. *)
  Lemma gap_nan (n : flt) b round v : (b <= 61)%nat -> is_finite n = true ->
    -1 < B2R n * bpow radix2 (Z.of_nat b) <= - / 2 ->
    to_fixed n b round = Ok v -> from_fixed v b = (B754_nan : flt).
  Proof.
    intros Hb F G H.
    destruct (to_fixed_scaled prec emax Hp He Hbig n b round v ltac:(lia) F H) as (x & Fx & Ex & Hs).
    rewrite <- Ex in G.
    assert (NF : ~ (IZR (Ztrunc (B2R x)) < B2R x)).
    { pose proof (trunc_ge_neg (B2R x) ltac:(lra)). lra. }
    destruct (step_truncates prec emax Hp He Hbig x round v Fx NF Hs) as (-> & _).
    replace (Ztrunc (2 * B2R x)) with (-1)%Z; [reflexivity|].
    symmetry. rewrite Ztrunc_ceil by lra. apply Zceil_imp. cbn. lra.
  Qed.

  (** ** The precision probe *)
  Hypothesis Hp53 : (prec <= 53)%Z.
  Hypothesis He1024 : (emax <= 1024)%Z.

  Lemma to_f64_exact (x : flt) : is_finite x = true ->
    B2R (to_f64 x) = B2R x /\ is_finite (to_f64 x) = true.
  Proof.
    intros F. destruct x as [s|s| |s m e B]; try discriminate; cbn [to_f64 B2R]; [split; reflexivity|].
    pose proof (binary_normalize_correct 53 1024 Hp64 He64 mode_NE (if s then Z.neg m else Z.pos m) e s) as C.
    cbv zeta in C.
    assert (E : @F2R radix2 {| Fnum := if s then Z.neg m else Z.pos m; Fexp := e |} = B2R (B754_finite s m e B : flt)).
    { cbn [B2R]. destruct s; reflexivity. }
    rewrite E in C.
    assert (FM : generic_format radix2 (SpecFloat.fexp 53 1024) (B2R (B754_finite s m e B : flt))).
    { destruct (fmt_parts prec emax Hp _ (generic_format_B2R prec emax (B754_finite s m e B : flt)))
        as (m' & e' & -> & A & Bd).
      apply generic_format_FLT. exists (Float radix2 m' e').
      - reflexivity.
      - cbn [Fnum]. eapply Z.lt_le_trans; [exact A|]. apply (Z.pow_le_mono_r 2); lia.
      - cbn [Fexp]. unfold SpecFloat.emin in *. lia. }
    rewrite (round_generic radix2 _ _ _ FM) in C.
    rewrite Rlt_bool_true in C.
    - cbn [B2R] in C |- *. tauto.
    - eapply Rlt_le_trans; [apply abs_B2R_lt_emax|]. apply bpow_le. exact He1024.
  Qed.

  Lemma to_f64_nan (x : flt) : is_nan (to_f64 x) = is_nan x.
  Proof.
    destruct x as [s|s| |s m e B]; try reflexivity. 
    destruct (to_f64_exact (B754_finite s m e B : flt) eq_refl) as (_ & F).
    destruct (to_f64 (B754_finite s m e B : flt)); try discriminate; reflexivity.
  Qed.

  Lemma pos_tz_spec p : exists q, Zpos p = (q * 2 ^ Z.of_nat (pos_tz p))%Z.
  Proof.
    induction p as [p IH|p IH|].
    - exists (Zpos p~1). cbn. lia.
    - destruct IH as (q & E). exists q. cbn [pos_tz]. rewrite Nat2Z.inj_succ, Z.pow_succ_r by lia. lia.
    - exists 1%Z. cbn. lia.
  Qed.

  Lemma tz_divides t d : (d <= trailing_zeros t)%nat -> (d <= 64)%nat -> exists q, t = (q * 2 ^ Z.of_nat d)%Z.
  Proof.
    intros H _. 
    assert (K : forall p, (d <= pos_tz p)%nat -> exists q, Zpos p = (q * 2 ^ Z.of_nat d)%Z).
    { intros p Hd. destruct (pos_tz_spec p) as (q & E).
      exists (q * 2 ^ Z.of_nat (pos_tz p - d))%Z. rewrite <- Z.mul_assoc, <- Z.pow_add_r by lia.
      replace (_ + _)%Z with (Z.of_nat (pos_tz p)) by lia. exact E. }
    destruct t as [|p|p].
    - exists 0%Z. reflexivity.
    - apply K, H.
    - destruct (K p H) as (q & E). exists (- q)%Z. lia.
  Qed.

  Lemma as_i64_exact (x : f64) t : is_finite x = true -> B2R x = IZR t -> (Z.abs t < 2 ^ 63)%Z ->
    f_as_i64 x = t.
  Proof.
    intros F E R. assert (T : Btrunc x = t).
    { rewrite (Btrunc_Z 53 1024 He64), E. apply Ztrunc_IZR. }
    destruct x; try discriminate; cbn [f_as_i64]; rewrite T; lia.
  Qed.

  (** One value that passed the probe's loop. *)
  Lemma probe_value (n : flt) mfb : (mfb <= 61)%nat -> is_nan n = false ->
    let shifted := f_mul (to_f64 n) (f_of_Z (i64_shl1 mfb)) in
    match Bcompare (f_fract shifted) (f_of_Z 0) with Some Eq => false | _ => true end = false ->
    is_finite n = true /\
    (is_finite n = true -> Rabs (B2R n) < bpow radix2 (63 - Z.of_nat mfb) ->
     exists t, B2R n * bpow radix2 (Z.of_nat mfb) = IZR t /\ (Z.abs t < 2 ^ 63)%Z /\ f_as_i64 shifted = t).
  Proof.
    intros Hm Nn shifted H.
    destruct (of_Z_pow 53 1024 Hp64 He64 ltac:(lia) (Z.of_nat mfb)) as (E1 & F1); [lia|].
    rewrite <- shl1_pow in E1, F1 by lia.
    destruct (is_finite n) eqn:F.
    - split; [reflexivity|]. intros _ B.
      destruct (to_f64_exact n F) as (E & Ff).
      destruct (mul_pow 53 1024 Hp64 He64 (to_f64 n) _ (Z.of_nat mfb) Ff F1 E1 ltac:(lia)) as [(Em & Fm)|(_ & X)].
      2:{ exfalso. revert X. apply Rlt_not_le. apply small_lt_emax; [lia|]. rewrite E.
          rewrite Rabs_mult, (Rabs_pos_eq (bpow _ _)) by apply bpow_ge_0.
          apply Rle_trans with (bpow radix2 (63 - Z.of_nat mfb) * bpow radix2 (Z.of_nat mfb)).
          - apply Rmult_le_compat_r; [apply bpow_ge_0|lra].
          - rewrite <- bpow_plus. apply bpow_le. lia. }
      fold shifted in Em, Fm. rewrite E in Em.
      destruct (fract_B2R 53 1024 Hp64 He64 shifted Fm) as (Efr & Ffr).
      destruct (of_Z_0 53 1024 Hp64 He64 ltac:(lia)) as (E0 & F0).
      rewrite Bcompare_correct in H by assumption. rewrite Efr, E0 in H.
      destruct (Rcompare_spec (B2R shifted - IZR (Ztrunc (B2R shifted))) 0); try discriminate.
      exists (Ztrunc (B2R shifted)).
      assert (Et : B2R shifted = IZR (Ztrunc (B2R shifted))) by lra.
      assert (Bt : (Z.abs (Ztrunc (B2R shifted)) < 2 ^ 63)%Z).
      { apply lt_IZR. rewrite abs_IZR, IZR_pow2, <- Et, Em by lia.
        rewrite Rabs_mult, (Rabs_pos_eq (bpow _ (Z.of_nat mfb))) by apply bpow_ge_0.
        replace 63%Z with (63 - Z.of_nat mfb + Z.of_nat mfb)%Z by lia. rewrite bpow_plus.
        apply Rmult_lt_compat_r; [apply bpow_gt_0|exact B]. }
      split; [rewrite <- Em; exact Et|]. split; [exact Bt|].
      apply as_i64_exact; assumption.
    - exfalso. destruct n as [s|s| |s m e Bd]; try discriminate.
      assert (E' : to_f64 (B754_infinity s : flt) = B754_infinity s) by reflexivity.
      unfold shifted in H. rewrite E' in H.
      destruct (mul_inf 53 1024 Hp64 He64 s _ _ F1 E1) as (s' & E2). rewrite E2, fract_inf in H.
      assert (forall y : f64, Bcompare B754_nan y = None) as G by reflexivity.
      rewrite G in H. discriminate.
  Qed.

  Lemma tz_least t q d : t = (q * 2 ^ Z.of_nat d)%Z -> (d <= 64)%nat -> (d <= trailing_zeros t)%nat.
  Proof.
    intros E Hd.
    assert (K : forall d q p, Zpos p = (q * 2 ^ Z.of_nat d)%Z -> (d <= pos_tz p)%nat).
    { clear. induction d as [|d IH]; intros q p E; [lia|]. rewrite Nat2Z.inj_succ, Z.pow_succ_r in E by lia.
      destruct p as [p|p|]; [exfalso; lia| |exfalso; lia]. cbn [pos_tz]. apply le_n_S, (IH q). lia. }
    destruct t as [|p|p]; cbn [trailing_zeros]; [exact Hd| |]; [apply (K d q)|apply (K d (- q)%Z)]; lia.
  Qed.

  (** The loop, if no value is so large that it saturates: the bits it answers
      are enough for all values, and no more than needed. *)
  Lemma loop_exact data mfb : (mfb <= 61)%nat -> forall b0 b, fraction_loop data mfb b0 = Precise b ->
    (forall v : flt, In v data -> is_nan v = false -> Rabs (B2R v) < bpow radix2 (63 - Z.of_nat mfb)) ->
    (b0 <= mfb)%nat ->
    (b0 <= b <= mfb)%nat /\
    (forall v, In v data -> is_nan v = false -> is_finite v = true /\ exists z, B2R v * bpow radix2 (Z.of_nat b) = IZR z) /\
    forall d, (b0 <= d <= mfb)%nat ->
      (forall v, In v data -> is_nan v = false -> exists z, B2R v * bpow radix2 (Z.of_nat d) = IZR z) -> (b <= d)%nat.
  Proof.
    intros Hm. induction data as [|n rest IH]; intros b0 b H B H0.
    { inversion H. subst. split; [lia|]. split; [intros v []|]. lia. }
    cbn [fraction_loop] in H. rewrite to_f64_nan in H.
    destruct (is_nan n) eqn:Nn.
    { destruct (IH b0 b H (fun v i => B v (or_intror i)) H0) as (A & C & D). split; [exact A|]. split.
      - intros v [->|I] Nv; [congruence|]. apply C; assumption.
      - intros d Hd HV. apply D; [exact Hd|]. intros v I. apply HV. right. exact I. }
    pose proof (probe_value n mfb Hm Nn) as PV. cbv zeta in PV.
    set (shifted := f_mul (to_f64 n) (f_of_Z (i64_shl1 mfb))) in *.
    destruct (match Bcompare (f_fract shifted) (f_of_Z 0) with Some Eq => false | _ => true end); [discriminate|].
    destruct (PV eq_refl) as (Fn & PV'). destruct (PV' Fn (B n (or_introl eq_refl) Nn)) as (t & Et & Bt & At).
    rewrite At in H.
    match type of H with fraction_loop _ _ ?b1 = _ => set (b1' := b1) in H end.
    assert (B1 : (b0 <= b1' <= mfb /\ mfb - trailing_zeros t <= b1')%nat).
    { unfold b1'. destruct (Nat.ltb_spec b0 (mfb - trailing_zeros t)); lia. }
    assert (B2 : (b1' <= Nat.max b0 (mfb - trailing_zeros t))%nat).
    { unfold b1'. destruct (Nat.ltb_spec b0 (mfb - trailing_zeros t)); lia. }
    destruct (IH b1' b H (fun v i => B v (or_intror i)) ltac:(lia)) as (A & C & D).
    split; [lia|]. split.
    - intros v [<-|I] Nv; [|apply C; assumption].
      split; [exact Fn|].
      destruct (tz_divides t (mfb - b) ltac:(lia) ltac:(lia)) as (q & Eq).
      exists q. apply Rmult_eq_reg_r with (bpow radix2 (Z.of_nat (mfb - b))); [|apply Rgt_not_eq, bpow_gt_0].
      rewrite Rmult_assoc, <- bpow_plus.
      replace (Z.of_nat b + Z.of_nat (mfb - b))%Z with (Z.of_nat mfb) by lia.
      rewrite Et, Eq, mult_IZR, IZR_pow2 by lia. reflexivity.
    - intros d Hd HV. destruct (HV n (or_introl eq_refl) Nn) as (z & Ez).
      assert (Tz : (mfb - d <= trailing_zeros t)%nat).
      { apply (tz_least t z); [|lia]. apply eq_IZR. rewrite <- Et, mult_IZR, <- Ez, IZR_pow2, Rmult_assoc, <- bpow_plus by lia.
        f_equal. f_equal. lia. }
      apply D; [lia|]. intros v I. apply HV. right. exact I.
  Qed.

  Lemma loop_sound data mfb : (mfb <= 61)%nat -> forall b0 b, fraction_loop data mfb b0 = Precise b ->
    (forall v : flt, In v data -> is_nan v = false -> Rabs (B2R v) < bpow radix2 (62 - Z.of_nat mfb)) ->
    (b0 <= mfb)%nat ->
    (b0 <= b <= mfb)%nat /\
    forall v, In v data -> is_nan v = false -> is_finite v = true /\
      exists z, B2R v * bpow radix2 (Z.of_nat b) = IZR z /\ (- 2 ^ 62 <= z < 2 ^ 62)%Z.
  Proof.
    intros Hm b0 b H B H0.
    destruct (loop_exact data mfb Hm b0 b H) as (A & C & _); [|exact H0|].
    { intros v I Nv. eapply Rlt_le_trans; [exact (B v I Nv)|]. apply bpow_le. lia. }
    split; [exact A|]. intros v I Nv. destruct (C v I Nv) as (F & z & Ez). split; [exact F|]. exists z. split; [exact Ez|].
    assert (X : (Z.abs z < 2 ^ 62)%Z); [|lia]. apply lt_IZR. rewrite abs_IZR, <- Ez, IZR_pow2 by lia.
    rewrite Rabs_mult, (Rabs_pos_eq (bpow _ _)) by apply bpow_ge_0.
    apply Rlt_le_trans with (bpow radix2 (62 - Z.of_nat mfb) * bpow radix2 (Z.of_nat b)).
    - apply Rmult_lt_compat_r; [apply bpow_gt_0|exact (B v I Nv)].
    - rewrite <- bpow_plus. apply bpow_le. lia.
  Qed.

  (** The maximum the probe finds bounds every finite value. *)
  Lemma skip_nan_spec (values : list flt) : forall m m' rest, skip_nan _ _ m values = (m', rest) ->
    (is_nan m' = true -> rest = [] /\ is_nan m = true /\ forall v, In v values -> is_nan v = true)
    /\ (In m' (m :: values))
    /\ (forall v, In v (m :: values) -> is_nan v = false -> In v (m' :: rest)).
  Proof.
    induction values as [|n values IH]; intros m m' rest H; cbn [skip_nan] in H.
    - inversion H; subst. split; [|split].
      + intros N. split; [reflexivity|]. split; [exact N|]. intros v [].
      + left; reflexivity.
      + intros v I _. exact I.
    - destruct (is_nan m) eqn:Nm.
      + destruct (IH n m' rest H) as (A & B & C). split; [|split].
        * intros N. destruct (A N) as (E & Nn & K). split; [exact E|]. split; [reflexivity|].
          intros v [<-|I]; [exact Nn|apply K, I].
        * right. exact B.
        * intros v [<-|I] Nv; [congruence|]. apply C; assumption.
      + inversion H; subst. split; [intros N; congruence|]. split; [left; reflexivity|].
        intros v I _. exact I.
  Qed.

  Lemma fold_max (values : list flt) : forall m, is_finite m = true ->
    (forall v, In v values -> is_nan v = false -> is_finite v = true) ->
    let M := fold_left (max_step _ _) values m in
    is_finite M = true /\ In M (m :: values) /\ B2R m <= B2R M
    /\ forall v, In v values -> is_nan v = false -> B2R v <= B2R M.
  Proof.
    induction values as [|n values IH]; intros m F FV; cbn [fold_left].
    - split; [exact F|]. split; [left; reflexivity|]. split; [lra|]. intros v [].
    - assert (S : is_finite (max_step _ _ m n) = true /\ In (max_step _ _ m n) [m; n]
        /\ B2R m <= B2R (max_step _ _ m n)
        /\ (is_nan n = false -> B2R n <= B2R (max_step _ _ m n))).
      { unfold max_step. destruct (is_nan n) eqn:Nn; cbn [negb andb].
        - split; [exact F|]. split; [left; reflexivity|]. split; [lra|discriminate].
        - pose proof (FV n (or_introl eq_refl) Nn) as Fn.
          pose proof (gt_spec prec emax n m Fn F) as G.
          destruct (f_gt n m).
          + split; [exact Fn|]. split; [right; left; reflexivity|].
            pose proof (proj1 G eq_refl). split; [lra|]. intros _. lra.
          + split; [exact F|]. split; [left; reflexivity|]. split; [lra|]. intros _.
            destruct (Rle_lt_dec (B2R n) (B2R m)) as [L|L]; [exact L|]. apply G in L. discriminate. }
      destruct S as (S1 & S2 & S3 & S4).
      destruct (IH (max_step _ _ m n) S1 (fun v i => FV v (or_intror i))) as (A & B & C & D).
      split; [exact A|]. split; [|split].
      + destruct B as [B|B]; [|right; right; exact B].
        rewrite <- B. destruct S2 as [X|[X|[]]]; [left|right; left]; exact X.
      + lra.
      + intros v [<-|I] Nv; [pose proof (S4 Nv); lra|]. apply D; assumption.
  Qed.

  Lemma max_value_spec (data : list flt) M : max_value data = Ok M ->
    (forall v, In v data -> is_nan v = false -> is_finite v = true) ->
    (is_nan M = true /\ (forall v, In v data -> is_nan v = true))
    \/ (is_nan M = false /\ is_finite M = true /\ In M data
        /\ forall v, In v data -> is_nan v = false -> B2R v <= B2R M).
  Proof.
    destruct data as [|m values]; [discriminate|]. cbn [max_value].
    destruct (skip_nan _ _ m values) as (m', rest) eqn:E. intros H FV. inversion H as [HM].
    destruct (skip_nan_spec _ _ _ _ E) as (A & B & C).
    destruct (is_nan m') eqn:Nm.
    - left. destruct (A eq_refl) as (-> & N & K). cbn. split; [exact Nm|].
      intros v [<-|I]; [exact N|apply K, I].
    - right. pose proof (FV m' B Nm) as Fm.
      assert (Sub : forall v, In v rest -> In v (m :: values)).
      { clear - E. revert m m' rest E. induction values as [|n values IH]; intros m m' rest E; cbn in E.
        - inversion E; subst. intros v [].
        - destruct (is_nan m).
          + intros v I. right. eapply IH; eassumption.
          + inversion E; subst. intros v I. right. exact I. }
      destruct (fold_max rest m' Fm (fun v i => FV v (Sub v i))) as (P & Q & R & S).
      assert (NN : forall y : flt, is_finite y = true -> is_nan y = false) by (intros []; cbn; congruence).
      split; [apply NN, P|]. split; [exact P|]. split.
      + destruct Q as [Q|Q]; [rewrite <- Q; exact B|apply Sub, Q].
      + intros v I Nv. destruct (C v I Nv) as [<-|I']; [exact R|]. apply S; assumption.
  Qed.

  Lemma loop_finite data mfb : (mfb <= 61)%nat -> forall b0 b, fraction_loop data mfb b0 = Precise b ->
    forall v : flt, In v data -> is_nan v = false -> is_finite v = true.
  Proof.
    intros Hm. induction data as [|n rest IH]; intros b0 b H v I Nv; [destruct I|].
    cbn [fraction_loop] in H. rewrite to_f64_nan in H.
    destruct (is_nan n) eqn:Nn.
    { destruct I as [->|I]; [congruence|]. eapply IH; eassumption. }
    pose proof (probe_value n mfb Hm Nn) as PV. cbv zeta in PV.
    destruct (match Bcompare _ (f_of_Z 0) with Some Eq => false | _ => true end); [discriminate|].
    destruct (PV eq_refl) as (Fn & _).
    destruct I as [<-|I]; [exact Fn|]. eapply IH; eassumption.
  Qed.

  Lemma probe_sound lg (data : list flt) b :
    (forall x : f64, is_finite x = true -> 0 < B2R x -> B2R x < bpow radix2 (Z.of_nat (1 + lg x))) ->
    (forall v, In v data -> is_nan v = false ->
       Rabs (B2R v) < 2 \/ exists u, In u data /\ is_nan u = false /\ Rabs (B2R v) <= B2R u) ->
    suggest_fraction lg data = Ok (Precise b) ->
    forall v round, In v data ->
      exists z, to_fixed v b round = Ok z /\
        if is_nan v then from_fixed z b = (B754_nan : flt)
        else is_finite v = true /\ is_finite (from_fixed z b : flt) = true
             /\ B2R (from_fixed z b : flt) = B2R v.
  Proof.
    intros HL HM H v round I. unfold suggest_fraction in H.
    destruct (is_nan v) eqn:Nv.
    { exists 0%Z. unfold to_fixed. rewrite Nv. split; reflexivity. }
    destruct (max_value data) as [M| | |] eqn:EM; try discriminate. cbn [bind] in H.
    destruct (is_nan M) eqn:NM.
    { exfalso. assert (X : forall w, In w data -> is_nan w = true); [|rewrite X in Nv; [discriminate|exact I]].
      destruct data as [|m values]; [discriminate|]. cbn [max_value] in EM.
      destruct (skip_nan _ _ m values) as (m', rest) eqn:E. inversion EM as [HM'].
      destruct (skip_nan_spec _ _ _ _ E) as (A & B & C).
      destruct (is_nan m') eqn:Nm'.
      - destruct (A eq_refl) as (_ & N & K). intros w [<-|J]; [exact N|apply K, J].
      - exfalso. rewrite <- HM' in NM. clear - NM Nm'. revert m' NM Nm'.
        induction rest as [|n rest IH]; intros m' NM Nm'; cbn [fold_left] in NM; [congruence|].
        apply (IH (max_step _ _ m' n) NM). unfold max_step.
        destruct (is_nan n) eqn:Nn; cbn [negb andb]; [exact Nm'|]. destruct (f_gt n m'); assumption. }
    destruct (usub 62 (1 + lg (to_f64 M))) as [mfb| | |] eqn:EU; try discriminate. cbn [bind] in H.
    unfold usub in EU. destruct (Nat.leb_spec (1 + lg (to_f64 M)) 62) as [L|L]; [|discriminate].
    assert (Em : mfb = (62 - (1 + lg (to_f64 M)))%nat) by congruence. clear EU.
    assert (HP : fraction_loop data mfb 0 = Precise b) by congruence. clear H.
    pose proof (loop_finite data mfb ltac:(lia) _ _ HP) as FV.
    destruct (max_value_spec data M EM FV) as [(X & _)|(_ & FM & IM & BM)]; [congruence|].
    destruct (to_f64_exact M FM) as (E64 & F64).
    assert (BV : forall w : flt, In w data -> is_nan w = false -> Rabs (B2R w) < bpow radix2 (62 - Z.of_nat mfb)).
    { intros w J Nw. replace (62 - Z.of_nat mfb)%Z with (Z.of_nat (1 + lg (to_f64 M))) by lia.
      assert (P2 : 2 <= bpow radix2 (Z.of_nat (1 + lg (to_f64 M)))) by (change 2 with (bpow radix2 1); apply bpow_le; lia).
      destruct (HM w J Nw) as [S|(u & Ju & Nu & Le)]; [lra|].
      pose proof (BM u Ju Nu) as Bu.
      destruct (Rle_lt_dec (B2R M) 0) as [N|P]; [lra|].
      pose proof (HL (to_f64 M) F64 ltac:(rewrite E64; exact P)) as X. rewrite E64 in X. lra. }
    destruct (loop_sound data mfb ltac:(lia) 0 b HP BV ltac:(lia)) as (Bb & K).
    destruct (K v I Nv) as (Fv & z & Ez & Rz).
    destruct (integer_converts v b round z ltac:(lia) Fv Ez Rz) as (T & E & F).
    exists (i64_add (2 * z) 1). split; [exact T|]. split; [exact Fv|]. split; assumption.
  Qed.
End Main.

Lemma exact_log2_floor_ok (x : f64) : is_finite x = true -> 0 < B2R x ->
  B2R x < bpow radix2 (Z.of_nat (1 + exact_log2_floor x)).
Proof.
  intros F P. destruct x as [s|s| |s m e B]; try discriminate; cbn [B2R] in P; [lra|].
  destruct s.
  - exfalso. unfold F2R in P. cbn [Fnum Fexp cond_Zopp] in P. pose proof (bpow_gt_0 radix2 e).
    assert (IZR (Z.neg m) < 0) by (apply IZR_lt; lia). cbn in P. nra.
  - cbn [exact_log2_floor B2R cond_Zopp].
    destruct (Z.log2_spec (Z.pos m) ltac:(lia)) as (_ & U).
    unfold F2R. cbn [Fnum Fexp].
    apply Rlt_le_trans with (bpow radix2 (Z.succ (Z.log2 (Z.pos m))) * bpow radix2 e).
    + apply Rmult_lt_compat_r; [apply bpow_gt_0|]. rewrite <- IZR_pow2.
      * apply IZR_lt, U.
      * pose proof (Z.log2_nonneg (Z.pos m)). lia.
    + rewrite <- bpow_plus. apply bpow_le. lia.
Qed.
