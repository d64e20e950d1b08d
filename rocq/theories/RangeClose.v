(** * Proofs about float coordinates in general: how far they are from the exact ones. *)
From Coq Require Import ZArith Reals Lra Psatz.
From Flocq Require Import Core.Core IEEE754.BinarySingleNaN.
From Verif Require Import Base BaseFacts FixedModel FixedProofs NodeModel RangeModel RangeProofs.

Open Scope R_scope.
Section Floats.
  Variables prec emax : Z.
  Context (Hp : Prec_gt_0 prec) (He : Prec_lt_emax prec emax).
  Hypothesis Hbig : (65 <= emax)%Z.
  Hypothesis Hprec : (4 <= prec <= 63)%Z.
  Notation flt := (binary_float prec emax).
  Notation fe := (SpecFloat.fexp prec emax).
  Notation rnd := (round radix2 fe ZnearestE).
  Notation u := (bpow radix2 (- prec)).
  Instance vr2 m : Valid_rnd (round_mode m) := valid_rnd_round_mode m.
  Instance ve : Valid_exp fe := fexp_correct prec emax Hp.

  Lemma u_small : 0 < u <= / 16.
  Proof using Hprec.
    split; [apply bpow_gt_0|]. change (/ 16) with (bpow radix2 (- 4)). apply bpow_le. lia.
  Qed.

  Lemma rnd_err M x : bpow radix2 (2 - emax) <= M -> Rabs x <= M -> Rabs (rnd x - x) <= u * M.
  Proof using Hp.
    intros A B. eapply Rle_trans; [apply error_le_half_ulp; exact ve|].
    assert (M0 : 0 < M) by (eapply Rlt_le_trans; [apply bpow_gt_0|exact A]).
    assert (C : ulp radix2 fe x <= M * bpow radix2 (1 - prec)).
    { eapply Rle_trans; [apply (ulp_le radix2 fe x M); rewrite (Rabs_pos_eq M) by lra; exact B|].
      change fe with (FLT_exp (SpecFloat.emin prec emax) prec).
      eapply Rle_trans; [apply ulp_FLT_le|rewrite (Rabs_pos_eq M) by lra; lra].
      rewrite (Rabs_pos_eq M) by lra. replace (SpecFloat.emin prec emax + prec - 1)%Z with (2 - emax)%Z by (unfold SpecFloat.emin; ring). exact A. }
    replace (1 - prec)%Z with (- prec + 1)%Z in C by ring. rewrite bpow_plus in C. change (bpow radix2 1) with 2 in C. lra.
  Qed.

  Lemma rnd_big x : Rabs x <= bpow radix2 (emax - 1) -> Rabs (rnd x) < bpow radix2 emax.
  Proof using Hp He Hbig Hprec.
    intros A. apply Rle_lt_trans with (bpow radix2 (emax - 1)); [|apply bpow_lt; lia].
    apply abs_round_le_generic; [exact ve|typeclasses eauto| |exact A].
    apply generic_format_bpow. unfold SpecFloat.fexp, SpecFloat.emin. pose proof (He : (prec < emax)%Z). pose proof (Hp : (0 < prec)%Z). lia.
  Qed.

  (** One operation: the result is finite and within [u * A] of the exact one. *)
  Section Op.
    Variable A : R.
    Hypothesis A1 : bpow radix2 (2 - emax) <= A.
    Hypothesis A2 : A <= bpow radix2 (emax - 1).
    Lemma add_ok (x y : flt) : is_finite x = true -> is_finite y = true -> Rabs (B2R x + B2R y) <= A ->
      is_finite (f_add x y) = true /\ Rabs (B2R (f_add x y) - (B2R x + B2R y)) <= u * A.
    Proof using Hp He Hbig Hprec A1 A2.
      intros Fx Fy B. unfold f_add. pose proof (Bplus_correct prec emax Hp He mode_NE x y Fx Fy) as C.
      rewrite Rlt_bool_true in C by (apply rnd_big; lra). destruct C as (C & F & _). split; [exact F|]. rewrite C. apply rnd_err; assumption.
    Qed.
    Lemma sub_ok (x y : flt) : is_finite x = true -> is_finite y = true -> Rabs (B2R x - B2R y) <= A ->
      is_finite (f_sub x y) = true /\ Rabs (B2R (f_sub x y) - (B2R x - B2R y)) <= u * A.
    Proof using Hp He Hbig Hprec A1 A2.
      intros Fx Fy B. unfold f_sub. pose proof (Bminus_correct prec emax Hp He mode_NE x y Fx Fy) as C.
      rewrite Rlt_bool_true in C by (apply rnd_big; lra). destruct C as (C & F & _). split; [exact F|]. rewrite C. apply rnd_err; assumption.
    Qed.
    Lemma mul_ok (x y : flt) : is_finite x = true -> is_finite y = true -> Rabs (B2R x * B2R y) <= A ->
      is_finite (f_mul x y) = true /\ Rabs (B2R (f_mul x y) - (B2R x * B2R y)) <= u * A.
    Proof using Hp He Hbig Hprec A1 A2.
      intros Fx Fy B. unfold f_mul. pose proof (Bmult_correct prec emax Hp He mode_NE x y) as C.
      rewrite Rlt_bool_true in C by (apply rnd_big; lra). rewrite Fx, Fy in C. destruct C as (C & F & _). split; [exact F|]. rewrite C. apply rnd_err; assumption.
    Qed.
    Lemma div_ok (x y : flt) : is_finite x = true -> B2R y <> 0 -> Rabs (B2R x / B2R y) <= A ->
      is_finite (f_div x y) = true /\ Rabs (B2R (f_div x y) - (B2R x / B2R y)) <= u * A.
    Proof using Hp He Hbig Hprec A1 A2.
      intros Fx Y B. unfold f_div. pose proof (Bdiv_correct prec emax Hp He mode_NE x y Y) as C.
      rewrite Rlt_bool_true in C by (apply rnd_big; lra). rewrite Fx in C. destruct C as (C & F & _). split; [exact F|]. rewrite C. apply rnd_err; assumption.
    Qed.
  End Op.

  Lemma of_nat_ok (i : nat) : (Z.of_nat i <= 2 ^ prec)%Z -> is_finite (f_of_Z (Z.of_nat i) : flt) = true /\ B2R (f_of_Z (Z.of_nat i) : flt) = INR i.
  Proof using Hp He Hbig Hprec.
    intros I. destruct (of_Z_int prec emax Hp He Hbig (proj2 Hprec) (Z.of_nat i)) as (F & E); [lia|].
    split; [exact F|]. rewrite E, INR_IZR_INZ. cbn. ring.
  Qed.

  Lemma four M : M <= bpow radix2 (emax - 3) -> 4 * M <= bpow radix2 (emax - 1).
  Proof using.
    intros H. replace (emax - 1)%Z with (2 + (emax - 3))%Z by ring. rewrite bpow_plus. change (bpow radix2 2) with 4. lra.
  Qed.

  Variable r : float_range prec emax.
  Notation start := (B2R (fr_start r)).
  Notation step := (B2R (fr_step r)).
  Hypothesis F1 : is_finite (fr_start r) = true.
  Hypothesis F2 : is_finite (fr_step r) = true.
  Variable M : R.
  Hypothesis M1 : bpow radix2 (2 - emax) <= M.
  Hypothesis M2 : M <= bpow radix2 (emax - 3).
  Hypothesis M3 : Rabs start <= M.

  Lemma M_pos : 0 < M.
  Proof using M1. eapply Rlt_le_trans; [apply bpow_gt_0|exact M1]. Qed.

  Lemma at_close (i : nat) : (Z.of_nat i <= 2 ^ prec)%Z -> Rabs (INR i * step) <= M ->
    is_finite (float_at r i) = true /\ Rabs (B2R (float_at r i) - (start + INR i * step)) <= 4 * u * M.
  Proof using Hp He Hbig Hprec F1 F2 M1 M2 M3.
    intros I B. destruct (of_nat_ok i I) as (Fi & Ei). pose proof M_pos as M0. pose proof u_small as U. pose proof (four M M2) as Q.
    unfold float_at. destruct (mul_ok M M1 ltac:(lra) _ (fr_step r) Fi F2) as (Fm & Em); [rewrite Ei; exact B|]. rewrite Ei in Em.
    set (p := f_mul _ _) in *. assert (UM : u * M <= / 16 * M) by (apply Rmult_le_compat_r; lra).
    assert (U4 : u * (3 * M) = 3 * (u * M)) by ring.
    assert (B2 : Rabs (B2R p + start) <= 3 * M).
    { apply Rabs_le. apply Rabs_le_inv in B. apply Rabs_le_inv in Em. apply Rabs_le_inv in M3. lra. }
    destruct (add_ok (3 * M) ltac:(lra) ltac:(lra) p (fr_start r) Fm F1 B2) as (Fa & Ea). split; [exact Fa|].
    apply Rabs_le. apply Rabs_le_inv in Ea. apply Rabs_le_inv in Em. rewrite U4 in Ea. rewrite Rmult_assoc. lra.
  Qed.

  (** The step is wide compared with the precision that is left at [M]. *)
  Hypothesis W : 32 * u * M <= Rabs step.

  Lemma reach (i : nat) : Rabs (INR i * step) <= M -> INR i <= bpow radix2 (prec - 5) /\ (Z.of_nat i <= 2 ^ prec)%Z.
  Proof using Hprec M1 W.
    intros B. pose proof M_pos as M0. pose proof u_small as U. pose proof (pos_INR i) as N.
    assert (E : bpow radix2 (prec - 5) * (32 * u) = 1).
    { replace 32 with (bpow radix2 5) by (cbn; lra). rewrite <- !bpow_plus. replace (prec - 5 + (5 + - prec))%Z with 0%Z by ring. reflexivity. }
    rewrite Rabs_mult, (Rabs_pos_eq (INR i)) in B by exact N.
    assert (C : INR i <= bpow radix2 (prec - 5)).
    { apply Rmult_le_reg_r with (32 * u * M); [apply Rmult_lt_0_compat; lra|].
      apply Rle_trans with (INR i * Rabs step); [apply Rmult_le_compat_l; lra|].
      replace (bpow radix2 (prec - 5) * (32 * u * M)) with (bpow radix2 (prec - 5) * (32 * u) * M) by ring. rewrite E. lra. }
    split; [exact C|]. apply le_IZR. rewrite <- INR_IZR_INZ, IZR_pow2 by lia.
    eapply Rle_trans; [exact C|]. apply bpow_le. lia.
  Qed.

  Lemma reach_le (i j : nat) : (i <= j)%nat -> Rabs (INR j * step) <= M -> Rabs (INR i * step) <= M.
  Proof using.
    intros L B. eapply Rle_trans; [|exact B]. rewrite !Rabs_mult. apply Rmult_le_compat_r; [apply Rabs_pos|].
    rewrite !Rabs_pos_eq by apply pos_INR. apply le_INR, L.
  Qed.

  (** The number of elements of a slice. *)
  Lemma count_ok (a b : nat) : (a <= b)%nat -> Rabs (INR b * step) <= M ->
    exists n, f_to_usize (f_ceil (f_div (f_sub (float_at r b) (float_at r a)) (fr_step r))) = Some n /\ (n = b - a \/ n = S (b - a))%nat.
  Proof using Hp He Hbig Hprec F1 F2 M1 M2 M3 W.
    intros AB B. pose proof M_pos as M0. pose proof u_small as U. pose proof (four M M2) as Q.
    assert (UM : u * M <= / 16 * M) by (apply Rmult_le_compat_r; lra).
    assert (UM0 : 0 < u * M) by (apply Rmult_lt_0_compat; lra).
    pose proof (reach_le a b AB B) as Ba. destruct (reach b B) as (R1 & R2). destruct (reach a Ba) as (_ & R3).
    destruct (at_close b R2 B) as (Fb & Eb). destruct (at_close a R3 Ba) as (Fa & Ea).
    set (xb := float_at r b) in *. set (xa := float_at r a) in *.
    set (n := (b - a)%nat). assert (Hn : INR b - INR a = INR n) by (unfold n; rewrite minus_INR by exact AB; reflexivity).
    assert (Bn : Rabs (INR n * step) <= M) by (apply (reach_le n b); [unfold n; lia|exact B]).
    rewrite Rmult_assoc in Ea, Eb. apply Rabs_le_inv in Ea. apply Rabs_le_inv in Eb.
    assert (D : Rabs (B2R xb - B2R xa - INR n * step) <= 8 * (u * M)) by (apply Rabs_le; rewrite <- Hn; lra).
    apply Rabs_le_inv in D. assert (Bn' := Rabs_le_inv _ _ Bn).
    destruct (sub_ok (2 * M) ltac:(lra) ltac:(lra) xb xa Fb Fa) as (Fs & Es); [apply Rabs_le; lra|].
    set (d := f_sub xb xa) in *. replace (u * (2 * M)) with (2 * (u * M)) in Es by ring. apply Rabs_le_inv in Es.
    assert (S0 : 0 < Rabs step) by lra.
    assert (Sn : step <> 0) by (intros Z0; rewrite Z0, Rabs_R0 in S0; lra).
    assert (Dq : Rabs (B2R d / step - INR n) <= 10 / 32).
    { replace (B2R d / step - INR n) with ((B2R d - INR n * step) * / step) by (field; exact Sn).
      rewrite Rabs_mult, Rabs_inv. apply Rmult_le_reg_r with (Rabs step); [exact S0|].
      rewrite Rmult_assoc, Rinv_l, Rmult_1_r by lra.
      apply Rle_trans with (10 * (u * M)); [apply Rabs_le; lra|]. lra. }
    apply Rabs_le_inv in Dq.
    assert (Nb : INR n <= bpow radix2 (prec - 5)) by (apply Rle_trans with (INR b); [apply le_INR; unfold n; lia|exact R1]).
    pose proof (pos_INR n) as N0.
    assert (P1 : 0 < bpow radix2 (prec - 5)) by apply bpow_gt_0.
    assert (P2 : u * (bpow radix2 (prec - 5) + 1) <= 3 / 32).
    { rewrite Rmult_plus_distr_l, <- bpow_plus. replace (- prec + (prec - 5))%Z with (-5)%Z by ring. cbn. lra. }
    assert (G1 : bpow radix2 (2 - emax) <= 1) by (change 1 with (bpow radix2 0); apply bpow_le; lia).
    assert (G2 : bpow radix2 (prec - 5) + 1 <= bpow radix2 59).
    { apply Rle_trans with (bpow radix2 58 + bpow radix2 58).
      - apply Rplus_le_compat; [apply bpow_le; lia|]. change 1 with (bpow radix2 0). apply bpow_le. lia.
      - change 59%Z with (58 + 1)%Z. rewrite (bpow_plus radix2 58 1). change (bpow radix2 1) with 2. lra. }
    assert (G3 : bpow radix2 59 <= bpow radix2 (emax - 1)) by (apply bpow_le; lia).
    destruct (div_ok (bpow radix2 (prec - 5) + 1) ltac:(lra) ltac:(lra) d (fr_step r) Fs Sn) as (Fq & Eq); [apply Rabs_le; lra|].
    set (q := f_div d (fr_step r)) in *. apply Rabs_le_inv in Eq.
    assert (Lo : INR n - 1 / 2 < B2R q) by lra. assert (Hi : B2R q < INR n + 1 / 2) by lra.
    destruct (Bnearbyint_correct prec emax He mode_UP q) as (C1 & C2 & _).
    fold (f_ceil q) in C1, C2. assert (Fc : is_finite (f_ceil q) = true) by congruence.
    assert (C3 : B2R (f_ceil q) = IZR (Zceil (B2R q))).
    { rewrite C1. cbn [round_mode]. unfold round, F2R, scaled_mantissa, cexp, FIX_exp. cbn. rewrite !Rmult_1_r. reflexivity. }
    assert (K : Zceil (B2R q) = Z.of_nat n \/ Zceil (B2R q) = (Z.of_nat n + 1)%Z).
    { rewrite INR_IZR_INZ in Lo, Hi. destruct (Rle_or_lt (B2R q) (IZR (Z.of_nat n))) as [L|L].
      - left. apply Zceil_imp. rewrite minus_IZR. lra.
      - right. apply Zceil_imp. rewrite plus_IZR. replace (Z.of_nat n + 1 - 1)%Z with (Z.of_nat n) by ring. lra. }
    exists (Z.to_nat (Zceil (B2R q))). split; [|destruct K as [-> | ->]; [left|right]; lia].
    unfold f_to_usize. pose proof (Hp : (0 < prec)%Z) as PP.
    assert (T2 : (2 ^ 1 <= 2 ^ prec)%Z) by (apply Z.pow_le_mono_r; lia).
    destruct (of_Z_int prec emax Hp He Hbig (proj2 Hprec) (-1)) as (Fm & Em); [lia|].
    assert (S : is_finite (f_of_Z (2 ^ 64) : flt) = true /\ B2R (f_of_Z (2 ^ 64) : flt) = IZR (2 ^ 64)).
    { destruct (of_Z_exact prec emax Hp He Hbig (2 ^ 64)) as (X & Y); [| |auto].
      - rewrite IZR_pow2 by lia. apply fmt_bpow; [exact Hp|exact Hbig|lia].
      - rewrite IZR_pow2, Rabs_pos_eq by (apply bpow_ge_0 || lia). lra. }
    destruct S as (F64 & E64).
    unfold f_gt, f_lt. rewrite (Bcompare_correct _ _ _ _ Fc Fm), (Bcompare_correct _ _ _ _ Fc F64).
    rewrite C3, Em, E64.
    rewrite Rcompare_Gt by (cbn [bpow]; rewrite Rmult_1_r; apply IZR_lt; lia).
    rewrite Rcompare_Lt.
    2:{ apply IZR_lt. apply lt_IZR. rewrite (IZR_pow2 64) by lia.
        apply Rle_lt_trans with (INR n + 1); [rewrite INR_IZR_INZ, <- plus_IZR; apply IZR_le; lia|].
        apply Rle_lt_trans with (bpow radix2 59); [lra|apply bpow_lt; lia]. }
    cbn [andb]. rewrite (Btrunc_Z prec emax He), C3, Ztrunc_IZR. reflexivity.
  Qed.

  (** An element of a slice. *)
  Lemma piece_close (a b k : nat) : (a <= b)%nat -> (k <= b - a)%nat -> Rabs (INR b * step) <= M ->
    let x := f_add (float_at r a) (f_mul (fr_step r) (f_of_Z (Z.of_nat k))) in
    is_finite x = true /\ Rabs (B2R x - (start + INR (a + k) * step)) <= 8 * u * M.
  Proof using Hp He Hbig Hprec F1 F2 M1 M2 M3 W.
    intros AB K B x. pose proof M_pos as M0. pose proof u_small as U. pose proof (four M M2) as Q.
    assert (UM : u * M <= / 16 * M) by (apply Rmult_le_compat_r; lra).
    assert (UM0 : 0 < u * M) by (apply Rmult_lt_0_compat; lra).
    pose proof (reach_le a b AB B) as Ba. pose proof (reach_le k b ltac:(lia) B) as Bk. pose proof (reach_le (a + k) b ltac:(lia) B) as Bak.
    destruct (reach a Ba) as (_ & R3). destruct (reach k Bk) as (_ & R4).
    destruct (at_close a R3 Ba) as (Fa & Ea). destruct (of_nat_ok k R4) as (Fk & Ek). set (xa := float_at r a) in *.
    destruct (mul_ok M M1 ltac:(lra) (fr_step r) _ F2 Fk) as (Fm & Em); [rewrite Ek, Rmult_comm; exact Bk|].
    unfold x. set (p := f_mul _ _) in *. rewrite Ek in Em. rewrite plus_INR in *.
    rewrite Rmult_assoc in Ea. apply Rabs_le_inv in Ea. apply Rabs_le_inv in Em. assert (Bak' := Rabs_le_inv _ _ Bak). assert (M3' := Rabs_le_inv _ _ M3).
    replace (step * INR k) with (INR k * step) in Em by ring.
    replace ((INR a + INR k) * step) with (INR a * step + INR k * step) in * by ring.
    destruct (add_ok (3 * M) ltac:(lra) ltac:(lra) xa p Fa Fm) as (Fx & Ex); [apply Rabs_le; lra|].
    split; [exact Fx|]. replace (u * (3 * M)) with (3 * (u * M)) in Ex by ring. apply Rabs_le_inv in Ex. rewrite Rmult_assoc. apply Rabs_le. lra.
  Qed.

End Floats.
