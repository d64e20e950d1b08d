(** * Property C32, float coordinates in general

    C32_float_get_partial (PropertiesRange.v) says when float coordinates are exact. Here: in
    general they are close to [start + i * step], in order, and slices of them have no element
    too few and at most one too many. [prec] is 24 for f32 and 53 for f64, [emax] 128 and 1024. *)
From Coq Require Import ZArith Reals Lra Psatz.
From Flocq Require Import Core.Core IEEE754.BinarySingleNaN.
From Verif Require Import Base BaseFacts FixedModel FixedProofs NodeModel StreamModel RangeModel RangeProofs RangeClose PropertiesFixed PropertiesRange.
Open Scope R_scope.

(** The exact element [i]. *)
Definition exact_at {prec emax} (r : float_range prec emax) (i : nat) : R := B2R (fr_start r) + INR i * B2R (fr_step r).

(** Start and step are numbers; the start, and the distance from it to element [n], are at most
    [M], which is neither below the normal numbers nor near overflow. *)
Definition spans {prec emax} (r : float_range prec emax) (n : nat) (M : R) : Prop :=
  is_finite (fr_start r) = true /\ is_finite (fr_step r) = true /\
  Rabs (B2R (fr_start r)) <= M /\ Rabs (INR n * B2R (fr_step r)) <= M /\
  bpow radix2 (2 - emax) <= M <= bpow radix2 (emax - 3).

(** [x] is a number at most [e] away from [v]. *)
Definition close_to {prec emax} (e : R) (x : binary_float prec emax) (v : R) : Prop := is_finite x = true /\ Rabs (B2R x - v) <= e.

Lemma spans_le {prec emax} (r : float_range prec emax) i n M : (i <= n)%nat -> spans r n M -> spans r i M.
Proof.
  intros L (A & B & C & D & E). repeat (split; [assumption|]). split; [|exact E].
  apply (reach_le prec emax r M i n L D).
Qed.

(** ** Gets *)
Theorem C32_float_get_close_partial : forall prec emax (Hp : Prec_gt_0 prec) (He : Prec_lt_emax prec emax)
    (r : float_range prec emax) M i, (65 <= emax)%Z -> (4 <= prec <= 63)%Z ->
  spans r i M -> (Z.of_nat i <= 2 ^ prec)%Z -> (i < fr_steps r)%nat ->
  exists x, float_get r i = Ok x /\ close_to (4 * bpow radix2 (- prec) * M) x (exact_at r i).
Proof.
  intros prec emax Hp He r M i Hb Hq (A & B & C & D & E1 & E2) P I.
  unfold float_get, check_bounds. rewrite (proj2 (Nat.leb_gt _ _) I). cbn [bind]. eexists. split; [reflexivity|].
  exact (at_close prec emax Hp He Hb Hq r A B M E1 E2 C i P D).
Qed.

(** ** Slices: no element is missing, there may be one after the last one *)
Theorem C32_float_slice_close_partial : forall prec emax (Hp : Prec_gt_0 prec) (He : Prec_lt_emax prec emax)
    (r : float_range prec emax) M a b, (65 <= emax)%Z -> (4 <= prec <= 63)%Z ->
  spans r b M -> 32 * bpow radix2 (- prec) * M <= Rabs (B2R (fr_step r)) -> (a <= b)%nat -> (0 < b <= fr_steps r)%nat ->
  exists l, float_slice r a b = Ok l /\ (length l = b - a \/ length l = S (b - a))%nat /\
    forall k x, nth_error l k = Some x -> close_to (8 * bpow radix2 (- prec) * M) x (exact_at r (a + k)).
Proof.
  intros prec emax Hp He r M a b Hb Hq (A & B & C & D & E1 & E2) W AB Hbs.
  destruct (count_ok prec emax Hp He Hb Hq r A B M E1 E2 C W a b AB D) as (n & N & Nn).
  exists (map (fun i => f_add (float_at r a) (f_mul (fr_step r) (f_of_Z (Z.of_nat i)))) (seq 0 n)). split; [|split].
  - unfold float_slice. rewrite usub_ok by lia. cbn [bind]. unfold check_bounds. rewrite (proj2 (Nat.leb_gt _ _)) by lia. cbn [bind].
    unfold array_range. rewrite N. reflexivity.
  - rewrite map_length, seq_length. exact Nn.
  - intros k x K. assert (Hk : (k < n)%nat) by (rewrite <- (seq_length n 0), <- (map_length (fun i => f_add (float_at r a) (f_mul (fr_step r) (f_of_Z (Z.of_nat i)))) (seq 0 n)); apply nth_error_Some; congruence).
    rewrite (map_nth_error _ k (seq 0 n) (d := k)) in K.
    2:{ rewrite nth_error_nth' with (d := 0%nat) by (rewrite seq_length; exact Hk). now rewrite seq_nth. }
    injection K as <-. apply (piece_close prec emax Hp He Hb Hq r A B M E1 E2 C W a b k AB ltac:(lia) D).
Qed.

(** ** Different indices have different coordinates, in the order of the indices *)
Theorem C32_float_apart_partial : forall prec emax (Hp : Prec_gt_0 prec) (He : Prec_lt_emax prec emax)
    (r : float_range prec emax) M i j x y, (65 <= emax)%Z -> (4 <= prec <= 63)%Z ->
  spans r j M -> 32 * bpow radix2 (- prec) * M <= Rabs (B2R (fr_step r)) -> (i < j)%nat ->
  float_get r i = Ok x -> float_get r j = Ok y ->
  (0 < B2R (fr_step r) -> B2R x < B2R y) /\ (B2R (fr_step r) < 0 -> B2R y < B2R x).
Proof.
  intros prec emax Hp He r M i j x y Hb Hq S W L X Y.
  destruct S as (A & B & C & D & E1 & E2). pose proof (reach_le prec emax r M i j ltac:(lia) D) as Di.
  pose proof (M_pos emax M E1) as M0.
  destruct (reach prec emax Hq r M E1 W i Di) as (_ & Pi). destruct (reach prec emax Hq r M E1 W j D) as (_ & Pj).
  pose proof (at_close prec emax Hp He Hb Hq r A B M E1 E2 C i Pi Di) as (_ & Ci).
  pose proof (at_close prec emax Hp He Hb Hq r A B M E1 E2 C j Pj D) as (_ & Cj).
  unfold float_get in X, Y. destruct (check_bounds (fr_steps r) i); cbn [bind] in X; try discriminate. injection X as <-.
  destruct (check_bounds (fr_steps r) j); cbn [bind] in Y; try discriminate. injection Y as <-.
  assert (J : INR i + 1 <= INR j) by (rewrite <- S_INR; apply le_INR, L).
  assert (UM : 0 < bpow radix2 (- prec) * M) by (apply Rmult_lt_0_compat; [apply bpow_gt_0|exact M0]).
  rewrite Rmult_assoc in W, Ci, Cj. apply Rabs_le_inv in Ci. apply Rabs_le_inv in Cj.
  set (um := bpow radix2 (- prec) * M) in *. set (st := B2R (fr_step r)) in *. split; intros P.
  - rewrite Rabs_pos_eq in W by lra. assert (Q : (INR i + 1) * st <= INR j * st) by (apply Rmult_le_compat_r; lra). lra.
  - rewrite Rabs_left in W by lra. assert (Q : (INR i + 1) * - st <= INR j * - st) by (apply Rmult_le_compat_r; lra). lra.
Qed.

(** ** Whatever the range, coordinates never run backwards *)
Section Order.
  Variables prec emax : Z.
  Context (Hp : Prec_gt_0 prec) (He : Prec_lt_emax prec emax).
  Notation flt := (binary_float prec emax).
  Notation rnd := (round radix2 (SpecFloat.fexp prec emax) ZnearestE).
  Instance ve3 : Valid_exp (SpecFloat.fexp prec emax) := fexp_correct prec emax Hp.

  Lemma overflow_not_finite (z : flt) s : B2SF z = binary_overflow prec emax mode_NE s -> is_finite z = true -> False.
  Proof. intros E F. rewrite <- is_finite_SF_B2SF, E in F. discriminate. Qed.

  Lemma mul_value (x y : flt) : is_finite x = true -> is_finite y = true -> is_finite (f_mul x y) = true -> B2R (f_mul x y) = rnd (B2R x * B2R y).
  Proof.
    intros Fx Fy F. pose proof (Bmult_correct prec emax Hp He mode_NE x y) as C. unfold f_mul in *.
    destruct (Rlt_bool _ _); [tauto|]. destruct (overflow_not_finite _ _ C F).
  Qed.
  Lemma add_value (x y : flt) : is_finite x = true -> is_finite y = true -> is_finite (f_add x y) = true -> B2R (f_add x y) = rnd (B2R x + B2R y).
  Proof.
    intros Fx Fy F. pose proof (Bplus_correct prec emax Hp He mode_NE x y Fx Fy) as C. unfold f_add in *.
    destruct (Rlt_bool _ _); [tauto|]. destruct C as (C & _). destruct (overflow_not_finite _ _ C F).
  Qed.
  Lemma add_finite (x y : flt) : is_finite y = true -> is_finite (f_add x y) = true -> is_finite x = true.
  Proof. intros Fy F. destruct x as [s|s| |s m e H]; try reflexivity; destruct y; discriminate. Qed.

  Lemma of_nat_value (i : nat) : (65 <= emax)%Z -> (Z.of_nat i <= 2 ^ 64)%Z -> is_finite (f_of_Z (Z.of_nat i) : flt) = true /\ B2R (f_of_Z (Z.of_nat i) : flt) = rnd (INR i).
  Proof.
    intros Hb I. pose proof (binary_normalize_correct prec emax Hp He mode_NE (Z.of_nat i) 0 false) as C. cbv zeta in C.
    replace (F2R (Float radix2 (Z.of_nat i) 0)) with (INR i) in C by (rewrite INR_IZR_INZ; unfold F2R; cbn; ring).
    rewrite Rlt_bool_true in C.
    - destruct C as (C & F & _). split; [exact F|exact C].
    - apply Rle_lt_trans with (bpow radix2 64); [|apply bpow_lt; lia].
      apply abs_round_le_generic; [exact ve3|typeclasses eauto| |].
      + apply fmt_bpow; [exact Hp|exact Hb|lia].
      + rewrite Rabs_pos_eq by apply pos_INR. rewrite INR_IZR_INZ, <- IZR_pow2 by lia. apply IZR_le, I.
  Qed.
End Order.

Theorem C32_float_in_order_partial : forall prec emax (Hp : Prec_gt_0 prec) (He : Prec_lt_emax prec emax)
    (r : float_range prec emax) i j x y, (65 <= emax)%Z ->
  is_finite (fr_start r) = true -> is_finite (fr_step r) = true -> (i <= j)%nat -> (Z.of_nat j < 2 ^ 64)%Z ->
  float_get r i = Ok x -> float_get r j = Ok y -> is_finite x = true -> is_finite y = true ->
  (0 <= B2R (fr_step r) -> B2R x <= B2R y) /\ (B2R (fr_step r) <= 0 -> B2R y <= B2R x).
Proof.
  intros prec emax Hp He r i j x y Hb F1 F2 L J X Y Fx Fy.
  unfold float_get in X, Y. destruct (check_bounds (fr_steps r) i); cbn [bind] in X; try discriminate. injection X as <-.
  destruct (check_bounds (fr_steps r) j); cbn [bind] in Y; try discriminate. injection Y as <-.
  unfold float_at in *. pose proof (add_finite prec emax Hp He _ _ F1 Fx) as Px. pose proof (add_finite prec emax Hp He _ _ F1 Fy) as Py.
  destruct (of_nat_value prec emax Hp He i Hb ltac:(lia)) as (Fi & Ei). destruct (of_nat_value prec emax Hp He j Hb ltac:(lia)) as (Fj & Ej).
  rewrite (add_value prec emax Hp He _ _ Px F1 Fx), (add_value prec emax Hp He _ _ Py F1 Fy).
  rewrite (mul_value prec emax Hp He _ _ Fi F2 Px), (mul_value prec emax Hp He _ _ Fj F2 Py), Ei, Ej.
  pose proof (fexp_correct prec emax Hp) as VE.
  assert (Q : round radix2 (SpecFloat.fexp prec emax) ZnearestE (INR i) <= round radix2 (SpecFloat.fexp prec emax) ZnearestE (INR j))
    by (apply round_le; [exact VE|typeclasses eauto|apply le_INR, L]).
  split; intros P; apply round_le; try exact VE; try typeclasses eauto; apply Rplus_le_compat_r; apply round_le; try exact VE; try typeclasses eauto.
  - apply Rmult_le_compat_r; assumption.
  - rewrite !(Rmult_comm _ (B2R (fr_step r))). apply Rmult_le_compat_neg_l; assumption.
Qed.

(** Twelve hundred longitudes in steps of 0.3 degrees, of f64: the premises hold with M = 361. *)
Definition longitudes : float_range 53 1024 := mkFloatRange (f_of_Z (-180) : f64) (f_div (f_of_Z 3) (f_of_Z 10) : f64) 1200.
Example C32_float_close_example : spans longitudes 1200 361 /\ 32 * bpow radix2 (- 53) * 361 <= Rabs (B2R (fr_step longitudes)) /\ 0 < B2R (fr_step longitudes).
Proof.
  assert (S : Rabs (B2R (fr_step longitudes) - 3 / 10) <= bpow radix2 (-53)).
  { destruct (of_Z_int 53 1024 _ _ ltac:(lia) ltac:(lia) 3) as (A & B); [lia|]. destruct (of_Z_int 53 1024 _ _ ltac:(lia) ltac:(lia) 10) as (C & D); [lia|].
    cbn [bpow] in B, D. rewrite Rmult_1_r in B, D.
    destruct (div_ok 53 1024 _ _ ltac:(lia) ltac:(lia) 1 ltac:(change 1 with (bpow radix2 0); apply bpow_le; lia) ltac:(change 1 with (bpow radix2 0); apply bpow_le; lia)
      (f_of_Z 3 : f64) (f_of_Z 10 : f64) A ltac:(rewrite D; lra)) as (_ & E).
    - rewrite B, D. rewrite Rabs_pos_eq by lra. lra.
    - rewrite B, D in E. rewrite Rmult_1_r in E. exact E. }
  apply Rabs_le_inv in S. assert (U : bpow radix2 (-53) <= / 1000000).
  { apply Rle_trans with (bpow radix2 (-20)); [apply bpow_le; lia|]. cbn. lra. }
  assert (U0 : 0 < bpow radix2 (-53)) by apply bpow_gt_0.
  destruct (of_Z_int 53 1024 _ _ ltac:(lia) ltac:(lia) (-180)) as (A & B); [lia|]. cbn [bpow] in B. rewrite Rmult_1_r in B.
  split; [|split; [rewrite Rabs_pos_eq by lra; change (- 53)%Z with (-53)%Z; lra|lra]].
  split; [exact A|]. split; [vm_compute; reflexivity|].
  split; [change (fr_start longitudes) with (f_of_Z (-180) : f64); rewrite B; change (-180)%Z with (- (180))%Z; rewrite opp_IZR, Rabs_Ropp, Rabs_pos_eq; lra|].
  split; [|split].
  - rewrite INR_IZR_INZ. change (Z.of_nat 1200) with 1200%Z. clear A B. revert S. generalize (B2R (fr_step longitudes)). intros st S. rewrite Rabs_pos_eq by lra. lra.
  - apply Rle_trans with (bpow radix2 0); [apply bpow_le; lia|cbn; lra].
  - apply Rle_trans with (bpow radix2 9); [cbn; lra|apply bpow_le; lia].
Qed.

Print Assumptions C32_float_get_close_partial.
Print Assumptions C32_float_slice_close_partial.
Print Assumptions C32_float_apart_partial.
Print Assumptions C32_float_in_order_partial.
