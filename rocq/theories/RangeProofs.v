(** * Proofs about coordinate ranges. *)
From Coq Require Import ZArith Reals Lra Psatz.
From Flocq Require Import Core.Core IEEE754.BinarySingleNaN.
From Verif Require Import Base BaseFacts FixedModel FixedProofs NodeModel RangeModel.

Open Scope nat_scope.
Section Int.
  Variable bits : Z.
  Hypothesis Hbits : (0 < bits)%Z.
  Notation M := (2 ^ bits)%Z.
  Notation H := (2 ^ (bits - 1))%Z.

  Lemma half : (M = 2 * H /\ 0 < H)%Z.
  Proof.
    split; [|apply Z.pow_pos_nonneg; lia].
    replace bits with (Z.succ (bits - 1)) at 1 by ring. apply Z.pow_succ_r. lia.
  Qed.

  Lemma wrap_id z : int_in bits z -> int_wrap bits z = z.
  Proof.
    unfold int_in, int_wrap. destruct half as (E & P). rewrite E.
    generalize dependent H. intros h _ P I. rewrite Z.mod_small; lia.
  Qed.

  Lemma wrap_in z : int_in bits (int_wrap bits z).
  Proof.
    unfold int_in, int_wrap. destruct half as (E & P). rewrite E.
    generalize dependent H. intros h _ P. pose proof (Z.mod_pos_bound (z + h) (2 * h)). lia.
  Qed.

  (** Wrapping twice is wrapping once, whatever was added in between. *)
  Lemma wrap_eqm a b : (exists k, a = b + k * M)%Z -> int_wrap bits a = int_wrap bits b.
  Proof.
    intros (k & ->). unfold int_wrap.
    replace (b + k * M + H)%Z with (b + H + k * M)%Z by ring.
    rewrite Z.mod_add by (destruct half; lia). reflexivity.
  Qed.

  Lemma wrap_off z : exists k, (int_wrap bits z = z + k * M)%Z.
  Proof.
    unfold int_wrap. exists (- ((z + H) / M))%Z.
    rewrite Z.mod_eq by (destruct half; lia). ring.
  Qed.

  Lemma wrap_add_l a b : int_wrap bits (int_wrap bits a + b) = int_wrap bits (a + b).
  Proof. apply wrap_eqm. destruct (wrap_off a) as (k & ->). exists k. ring. Qed.

  Lemma wrap_sub a b : int_wrap bits (int_wrap bits a - int_wrap bits b) = int_wrap bits (a - b).
  Proof.
    apply wrap_eqm. destruct (wrap_off a) as (k & ->). destruct (wrap_off b) as (l & ->).
    exists (k - l)%Z. ring.
  Qed.

  Lemma wrap_mul_l a b : int_wrap bits (int_wrap bits a * b) = int_wrap bits (a * b).
  Proof. apply wrap_eqm. destruct (wrap_off a) as (k & ->). exists (k * b)%Z. ring. Qed.

  Lemma wrap_add_r a b : int_wrap bits (a + int_wrap bits b) = int_wrap bits (a + b).
  Proof. rewrite (Z.add_comm a), wrap_add_l. f_equal. ring. Qed.

  Lemma at_wrap r i : (Z.of_nat i < H)%Z ->
    int_at bits r i = Ok (int_wrap bits (ir_start r + Z.of_nat i * ir_step r)).
  Proof.
    intros I. unfold int_at, int_from. rewrite (proj2 (Z.ltb_lt _ _) I). cbn [bind].
    rewrite wrap_add_l. do 2 f_equal. ring.
  Qed.

  Lemma at_big r i : (H <= Z.of_nat i)%Z -> int_at bits r i = Panic.
  Proof. intros I. unfold int_at, int_from. rewrite (proj2 (Z.ltb_ge _ _) I). reflexivity. Qed.

  Lemma iter_map x step n : int_iter bits (int_wrap bits x) step n
    = map (fun k => int_wrap bits (x + Z.of_nat k * step)) (seq 0 n).
  Proof.
    revert x. induction n as [|n IH]; intros x; [reflexivity|].
    cbn [int_iter seq map]. f_equal; [f_equal; ring|].
    rewrite wrap_add_l, IH, <- seq_shift, map_map. apply map_ext. intros k. f_equal.
    rewrite Nat2Z.inj_succ. ring.
  Qed.

  Lemma seq_from a n : seq a n = map (fun k => a + k)%nat (seq 0 n).
  Proof.
    induction a as [|a IH]; [symmetry; apply map_id|].
    rewrite <- seq_shift, IH, map_map. reflexivity.
  Qed.

  (** What a slice does, for any bounds. *)
  Lemma slice_eq r a b : 0 < b <= ir_steps r -> (Z.of_nat a < H)%Z -> (Z.of_nat b < H)%Z ->
    int_slice bits r a b =
      (q <- int_div bits (int_wrap bits ((Z.of_nat b - Z.of_nat a) * ir_step r)) (ir_step r) ;;
       n <- to_usize q ;;
       Ok (map (fun i => int_wrap bits (ir_start r + Z.of_nat i * ir_step r)) (seq a n))).
  Proof.
    intros B A1 B1. unfold int_slice. rewrite usub_ok by (clear -B; lia). cbn [bind].
    unfold check_bounds. rewrite (proj2 (Nat.leb_gt _ _)) by (clear -B; lia). cbn [bind].
    rewrite (at_wrap r a A1), (at_wrap r b B1). cbn [bind]. rewrite wrap_sub.
    replace (ir_start r + Z.of_nat b * ir_step r - (ir_start r + Z.of_nat a * ir_step r))%Z
      with ((Z.of_nat b - Z.of_nat a) * ir_step r)%Z by ring.
    destruct (int_div bits _ _) as [q| | |]; [|reflexivity..]. cbn [bind].
    destruct (to_usize q) as [n| | |]; [|reflexivity..]. cbn [bind].
    rewrite iter_map, (seq_from a n), map_map. f_equal. apply map_ext. intros k.
    rewrite Nat2Z.inj_add. f_equal. ring.
  Qed.

  Lemma div_exact n step : step <> 0%Z -> int_in bits (n * step) -> (- H < n < H)%Z ->
    int_div bits (n * step) step = Ok n.
  Proof.
    intros S I N. unfold int_div. rewrite (proj2 (Z.eqb_neq _ _) S).
    destruct (_ && _) eqn:E.
    - apply andb_prop in E. destruct E as (E1 & E2).
      apply Z.eqb_eq in E1. apply Z.eqb_eq in E2. subst step. exfalso.
      clear -E1 N. generalize dependent H. intros h N E. lia.
    - now rewrite Z.quot_mul.
  Qed.

  Lemma slice_ok r a b : ir_step r <> 0%Z -> a <= b -> 0 < b <= ir_steps r -> (Z.of_nat b < H)%Z ->
    int_in bits (Z.of_nat (b - a) * ir_step r) ->
    int_slice bits r a b
    = Ok (map (fun i => int_wrap bits (ir_start r + Z.of_nat i * ir_step r)) (seq a (b - a))).
  Proof.
    intros S AB B B1 I. rewrite slice_eq; [|exact B| |exact B1].
    2:{ apply Z.le_lt_trans with (Z.of_nat b); [clear -AB; lia|exact B1]. }
    rewrite <- Nat2Z.inj_sub by exact AB. rewrite wrap_id by exact I.
    rewrite div_exact; [|exact S|exact I|].
    - cbn [bind]. unfold to_usize.
      rewrite (proj2 (Z.ltb_ge _ _)) by (clear; lia). cbn [bind]. now rewrite Nat2Z.id.
    - generalize dependent H. intros h B1. clear -AB B1. lia.
  Qed.

  Lemma slice_back r a b : ir_step r <> 0%Z -> b < a -> (Z.of_nat a < H)%Z ->
    int_in bits ((Z.of_nat b - Z.of_nat a) * ir_step r) ->
    int_slice bits r a b = Panic.
  Proof.
    intros S AB A1 I. destruct (Nat.eq_dec b 0) as [->|B0]; [reflexivity|].
    destruct (le_lt_dec b (ir_steps r)) as [B|B].
    2:{ unfold int_slice. rewrite usub_ok by (clear -B0; lia). cbn [bind]. unfold check_bounds.
        rewrite (proj2 (Nat.leb_le _ _)) by (clear -B; lia). reflexivity. }
    assert (B1 : (Z.of_nat b < H)%Z) by (apply Z.lt_trans with (Z.of_nat a); [clear -AB; lia|exact A1]).
    rewrite slice_eq; [|clear -B0 B; lia|exact A1|exact B1].
    rewrite wrap_id by exact I. rewrite div_exact; [|exact S|exact I|].
    - cbn [bind]. unfold to_usize. rewrite (proj2 (Z.ltb_lt _ _)) by (clear -AB; lia). reflexivity.
    - clear -AB A1. generalize dependent H. intros h A1. lia.
  Qed.

  Lemma get_ok r i : i < ir_steps r -> (Z.of_nat i < H)%Z ->
    int_get bits r i = Ok (int_wrap bits (ir_start r + Z.of_nat i * ir_step r)).
  Proof.
    intros I J. unfold int_get, check_bounds. rewrite (proj2 (Nat.leb_gt _ _) I). cbn [bind].
    now apply at_wrap.
  Qed.
End Int.

Lemma time_get_eq r i : time_get r i = int_wrap 64 (tr_start r + Z.of_nat i * tr_step r).
Proof. unfold time_get. now rewrite wrap_mul_l, wrap_add_r by lia. Qed.

Open Scope R_scope.
Section Floats.
  Variables prec emax : Z.
  Context (Hp : Prec_gt_0 prec) (He : Prec_lt_emax prec emax).
  Hypothesis Hbig : (65 <= emax)%Z.
  Hypothesis Hprec : (prec <= 63)%Z.
  Notation flt := (binary_float prec emax).
  Notation fe := (SpecFloat.fexp prec emax).
  Notation fmt := (generic_format radix2 fe).
  Notation P := (2 ^ prec)%Z.
  Instance vr' m : Valid_rnd (round_mode m) := valid_rnd_round_mode m.

  (** [m * 2^e] with [|m| <= 2^prec], far from overflow. *)
  Variable e : Z.
  Hypothesis Hemin : (SpecFloat.emin prec emax <= e)%Z.
  Hypothesis Hemax : (prec + e < emax)%Z.

  Lemma grid_fmt e' m : (SpecFloat.emin prec emax <= e')%Z -> (Z.abs m <= P)%Z -> fmt (IZR m * bpow radix2 e').
  Proof using Hp.
    intros E M. assert (Z.abs m < P \/ Z.abs m = P)%Z as [L|L] by (clear -M; lia).
    - now apply parts_fmt.
    - assert (Q : forall s, fmt (IZR s * (IZR P * bpow radix2 e')) -> m = (s * P)%Z -> fmt (IZR m * bpow radix2 e')).
      { intros s F ->. now rewrite mult_IZR, Rmult_assoc. }
      assert (G : fmt (IZR P * bpow radix2 e')).
      { pose proof (Hp : (0 < prec)%Z) as PP.
        rewrite IZR_pow2 by (clear -PP; lia).
        rewrite <- bpow_plus. replace (prec + e')%Z with ((prec - 1) + (e' + 1))%Z by ring.
        rewrite bpow_plus, <- IZR_pow2 by (clear -PP; lia). apply parts_fmt; [|clear -E; lia].
        rewrite Z.abs_eq by (apply Z.pow_nonneg; lia). apply Z.pow_lt_mono_r; clear -PP; lia. }
      destruct (Z.abs_or_opp_abs m) as [A|A].
      + apply (Q 1%Z); [now rewrite Rmult_1_l|]. rewrite A, L. ring.
      + apply (Q (-1)%Z); [|rewrite A, L; ring].
        replace (IZR (-1) * (IZR P * bpow radix2 e')) with (- (IZR P * bpow radix2 e')) by (change (IZR (-1)) with (- (1)); ring).
        apply generic_format_opp, G.
  Qed.

  Lemma grid_small e' m : (prec + e' < emax)%Z -> (Z.abs m <= P)%Z -> Rabs (IZR m * bpow radix2 e') < bpow radix2 emax.
  Proof using Hp.
    intros E M. apply Rle_lt_trans with (bpow radix2 (prec + e')); [|now apply bpow_lt].
    rewrite Rabs_mult, (Rabs_pos_eq (bpow _ _)) by apply bpow_ge_0.
    rewrite bpow_plus. apply Rmult_le_compat_r; [apply bpow_ge_0|].
    pose proof (Hp : (0 < prec)%Z) as PP.
    rewrite <- abs_IZR, <- IZR_pow2 by (clear -PP; lia). now apply IZR_le.
  Qed.

  (** The float [x] is exactly [m * 2^e]. *)
  Definition is_grid (e : Z) (x : flt) (m : Z) : Prop := is_finite x = true /\ B2R x = IZR m * bpow radix2 e.

  Lemma of_Z_int m : (Z.abs m <= P)%Z -> is_grid 0 (f_of_Z m) m.
  Proof using Hp He Hbig Hprec.
    intros M. assert (F : fmt (IZR m)).
    { rewrite <- (Rmult_1_r (IZR m)). apply (grid_fmt 0); [|exact M].
      pose proof (He : (prec < emax)%Z). pose proof (Hp : (0 < prec)%Z). unfold SpecFloat.emin. lia. }
    destruct (of_Z_exact prec emax Hp He Hbig m F) as (A & B).
    - apply Rle_trans with (bpow radix2 prec); [|apply bpow_le; lia].
      pose proof (Hp : (0 < prec)%Z) as PP.
      rewrite <- abs_IZR, <- IZR_pow2 by (clear -PP; lia). now apply IZR_le.
    - split; [exact B|]. rewrite A. cbn. ring.
  Qed.

  Lemma grid_mul k x n m : is_grid 0 k n -> is_grid e x m -> (Z.abs (n * m) <= P)%Z ->
    is_grid e (f_mul k x) (n * m).
  Proof using Hp He Hemin Hemax.
    intros (Fk & Ek) (Fx & Ex) M. unfold f_mul.
    pose proof (Bmult_correct prec emax Hp He mode_NE k x) as C.
    replace (B2R k * B2R x) with (IZR (n * m) * bpow radix2 e) in C
      by (rewrite Ek, Ex, mult_IZR; cbn; ring).
    rewrite round_generic in C by (try apply vr'; now apply grid_fmt).
    rewrite Rlt_bool_true in C by now apply grid_small.
    rewrite Fk, Fx in C. split; tauto.
  Qed.

  Lemma grid_mul' k x n m : is_grid 0 k n -> is_grid e x m -> (Z.abs (n * m) <= P)%Z ->
    is_grid e (f_mul x k) (n * m).
  Proof using Hp He Hemin Hemax.
    intros (Fk & Ek) (Fx & Ex) M. unfold f_mul.
    pose proof (Bmult_correct prec emax Hp He mode_NE x k) as C.
    replace (B2R x * B2R k) with (IZR (n * m) * bpow radix2 e) in C
      by (rewrite Ek, Ex, mult_IZR; cbn; ring).
    rewrite round_generic in C by (try apply vr'; now apply grid_fmt).
    rewrite Rlt_bool_true in C by now apply grid_small.
    rewrite Fk, Fx in C. split; tauto.
  Qed.

  Lemma grid_add x y m n : is_grid e x m -> is_grid e y n -> (Z.abs (m + n) <= P)%Z ->
    is_grid e (f_add x y) (m + n).
  Proof using Hp He Hemin Hemax.
    intros (Fx & Ex) (Fy & Ey) M. unfold f_add.
    pose proof (Bplus_correct prec emax Hp He mode_NE x y Fx Fy) as C.
    replace (B2R x + B2R y) with (IZR (m + n) * bpow radix2 e) in C
      by (rewrite Ex, Ey, plus_IZR; ring).
    rewrite round_generic in C by (try apply vr'; now apply grid_fmt).
    rewrite Rlt_bool_true in C by now apply grid_small.
    split; tauto.
  Qed.

  Lemma grid_sub x y m n : is_grid e x m -> is_grid e y n -> (Z.abs (m - n) <= P)%Z ->
    is_grid e (f_sub x y) (m - n).
  Proof using Hp He Hemin Hemax.
    intros (Fx & Ex) (Fy & Ey) M. unfold f_sub.
    pose proof (Bminus_correct prec emax Hp He mode_NE x y Fx Fy) as C.
    replace (B2R x - B2R y) with (IZR (m - n) * bpow radix2 e) in C
      by (rewrite Ex, Ey, minus_IZR; ring).
    rewrite round_generic in C by (try apply vr'; now apply grid_fmt).
    rewrite Rlt_bool_true in C by now apply grid_small.
    split; tauto.
  Qed.

  Lemma emin_0 : (SpecFloat.emin prec emax <= 0)%Z /\ (prec + 0 < emax)%Z.
  Proof using Hp He.
    pose proof (He : (prec < emax)%Z) as A. pose proof (Hp : (0 < prec)%Z) as B. unfold SpecFloat.emin.
    clear -A B. split; lia.
  Qed.

  Lemma grid_div x y n m : is_grid e x (n * m) -> is_grid e y m -> m <> 0%Z -> (Z.abs n <= P)%Z ->
    is_grid 0 (f_div x y) n.
  Proof using Hp He.
    intros (Fx & Ex) (Fy & Ey) M0 N. unfold f_div. destruct emin_0 as (E0 & E1).
    assert (Y : B2R y <> 0).
    { rewrite Ey. apply Rmult_integral_contrapositive. split; [now apply not_0_IZR|].
      apply Rgt_not_eq, bpow_gt_0. }
    pose proof (Bdiv_correct prec emax Hp He mode_NE x y Y) as C.
    replace (B2R x / B2R y) with (IZR n * bpow radix2 0) in C.
    2:{ rewrite Ex, Ey, mult_IZR. cbn [bpow]. field. split; [apply Rgt_not_eq, bpow_gt_0|now apply not_0_IZR]. }
    rewrite round_generic in C by (try apply vr'; now apply grid_fmt).
    rewrite Rlt_bool_true in C by now apply grid_small.
    rewrite Fx in C. split; tauto.
  Qed.

  Lemma grid_ceil x n : is_grid 0 x n -> is_grid 0 (f_ceil x) n.
  Proof using.
    intros (Fx & Ex). unfold f_ceil.
    destruct (Bnearbyint_correct prec emax He mode_UP x) as (A & B & _).
    split; [congruence|]. rewrite A, Ex. cbn [bpow round_mode].
    rewrite Rmult_1_r. unfold round, F2R, scaled_mantissa, cexp, FIX_exp. cbn.
    rewrite !Rmult_1_r, Zceil_IZR. reflexivity.
  Qed.

  Lemma grid_usize x n : is_grid 0 x n -> (0 <= n <= P)%Z -> f_to_usize x = Some (Z.to_nat n).
  Proof using Hp He Hbig Hprec.
    intros (Fx & Ex) N. cbn in Ex. rewrite Rmult_1_r in Ex. unfold f_to_usize.
    pose proof (Hp : (0 < prec)%Z) as PP.
    assert (P2 : (2 ^ 1 <= P)%Z) by (apply Z.pow_le_mono_r; lia).
    destruct (of_Z_int (-1)) as (F1 & E1); [lia|].
    assert (S : is_finite (f_of_Z (2 ^ 64) : flt) = true /\ B2R (f_of_Z (2 ^ 64) : flt) = IZR (2 ^ 64)).
    { destruct (of_Z_exact prec emax Hp He Hbig (2 ^ 64)) as (A & B); [| |auto].
      - rewrite IZR_pow2 by lia. apply fmt_bpow; [exact Hp|exact Hbig|lia].
      - rewrite IZR_pow2, Rabs_pos_eq by (apply bpow_ge_0 || lia). lra. }
    destruct S as (F2 & E2).
    assert (L : (n < 2 ^ 64)%Z).
    { apply Z.le_lt_trans with P; [lia|]. apply Z.pow_lt_mono_r; lia. }
    unfold f_gt, f_lt. rewrite (Bcompare_correct _ _ x _ Fx F1), (Bcompare_correct _ _ x _ Fx F2).
    rewrite Ex, E1, E2.
    rewrite Rcompare_Gt by (cbn [bpow]; rewrite Rmult_1_r; apply IZR_lt; lia).
    rewrite Rcompare_Lt by now apply IZR_lt. cbn [andb].
    rewrite (Btrunc_Z prec emax He), Ex, Ztrunc_IZR. reflexivity.
  Qed.

  Variable r : float_range prec emax.
  Variables start step : Z.
  Hypothesis Rstart : is_grid e (fr_start r) start.
  Hypothesis Rstep : is_grid e (fr_step r) step.

  Lemma at_grid (i : nat) : (Z.of_nat i <= P)%Z -> (Z.abs (Z.of_nat i * step) <= P)%Z ->
    (Z.abs (Z.of_nat i * step + start) <= P)%Z -> is_grid e (float_at r i) (Z.of_nat i * step + start).
  Proof using Hp He Hbig Hprec Hemin Hemax Rstart Rstep.
    intros I M A. unfold float_at. apply grid_add; [|exact Rstart|exact A].
    apply grid_mul; [|exact Rstep|exact M]. apply of_Z_int. clear -I. lia.
  Qed.

  Lemma bounds (i b : nat) : step <> 0%Z -> (i <= b)%nat ->
    (Z.abs start + Z.of_nat b * Z.abs step <= P)%Z ->
    (Z.of_nat i <= P)%Z /\ (Z.abs (Z.of_nat i * step) <= P)%Z /\ (Z.abs (Z.of_nat i * step + start) <= P)%Z.
  Proof using.
    intros S I B. generalize dependent P. intros p B.
    assert (Z.abs (Z.of_nat i * step) = Z.of_nat i * Z.abs step)%Z by (rewrite Z.abs_mul; f_equal; lia).
    assert (Z.of_nat i * Z.abs step <= Z.of_nat b * Z.abs step)%Z by (apply Z.mul_le_mono_nonneg_r; lia).
    assert (Z.of_nat i * 1 <= Z.of_nat i * Z.abs step)%Z by (apply Z.mul_le_mono_nonneg_l; lia).
    lia.
  Qed.

  Lemma slice_grid (a b : nat) : step <> 0%Z -> (a <= b)%nat -> (0 < b <= fr_steps r)%nat ->
    (Z.abs start + Z.of_nat b * Z.abs step <= P)%Z ->
    exists l, float_slice r a b = Ok l /\ length l = (b - a)%nat
      /\ forall k x, nth_error l k = Some x -> is_grid e x (Z.of_nat (a + k) * step + start).
  Proof using Hp He Hbig Hprec Hemin Hemax Rstart Rstep.
    intros S AB B M. unfold float_slice. rewrite usub_ok by (clear -B; lia). cbn [bind].
    unfold check_bounds. rewrite (proj2 (Nat.leb_gt _ _)) by (clear -B; lia). cbn [bind].
    destruct (bounds a b S AB M) as (A1 & A2 & A3).
    destruct (bounds b b S (le_n b) M) as (B1 & B2 & B3).
    destruct (bounds (b - a) b S ltac:(clear; lia) M) as (D1 & D2 & _).
    pose proof (at_grid a A1 A2 A3) as Ga. pose proof (at_grid b B1 B2 B3) as Gb.
    unfold array_range.
    assert (Gn : is_grid 0 (f_div (f_sub (float_at r b) (float_at r a)) (fr_step r)) (Z.of_nat (b - a))).
    { apply grid_div with step; [|exact Rstep|exact S|clear -D1; lia].
      replace (Z.of_nat (b - a) * step)%Z
        with (Z.of_nat b * step + start - (Z.of_nat a * step + start))%Z
        by (rewrite Nat2Z.inj_sub by exact AB; ring).
      apply grid_sub; [exact Gb|exact Ga|].
      replace (Z.of_nat b * step + start - (Z.of_nat a * step + start))%Z
        with (Z.of_nat (b - a) * step)%Z by (rewrite Nat2Z.inj_sub by exact AB; ring).
      exact D2. }
    rewrite (grid_usize _ _ (grid_ceil _ _ Gn)) by (clear -D1; lia).
    eexists. split; [reflexivity|]. rewrite map_length, seq_length, Nat2Z.id.
    split; [reflexivity|]. intros k x K.
    assert (KL : (k < b - a)%nat).
    { assert (K0 : nth_error (map (fun i => f_add (float_at r a) (f_mul (fr_step r) (f_of_Z (Z.of_nat i)))) (seq 0 (b - a))) k <> None) by congruence.
      apply nth_error_Some in K0. now rewrite map_length, seq_length in K0. }
    rewrite (map_nth_error _ k (seq 0 (b - a)) (d := k)) in K.
    2:{ rewrite nth_error_nth' with (d := 0%nat) by (rewrite seq_length; exact KL). now rewrite seq_nth. }
    injection K as <-.
    destruct (bounds k b S ltac:(clear -KL; lia) M) as (K1 & K2 & _).
    destruct (bounds (a + k) b S ltac:(clear -KL; lia) M) as (_ & _ & K3).
    assert (E : (Z.of_nat (a + k) * step + start = (Z.of_nat a * step + start) + Z.of_nat k * step)%Z)
      by (rewrite Nat2Z.inj_add; ring).
    rewrite E in K3 |- *. apply grid_add; [exact Ga| |exact K3].
    apply grid_mul'; [|exact Rstep|exact K2]. apply of_Z_int. clear -K1. lia.
  Qed.
End Floats.
