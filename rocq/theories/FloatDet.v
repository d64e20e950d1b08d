(** * What the encoder makes of floats it keeps exactly depends on the numbers only:
    not on the sign of a zero. *)
From Coq Require Import ZArith Reals Lra.
From Flocq Require Import Core.Core IEEE754.BinarySingleNaN.
From Verif Require Import Base BaseFacts FixedModel StreamModel NodeModel SuperModel ChunkModel ArrayModel FloatModel FloatBuild DetProofs.
Open Scope nat_scope.

(** The same float, or two zeros. *)
Definition zero_sign {prec emax} (x y : binary_float prec emax) : Prop := x = y \/ exists s s', x = B754_zero s /\ y = B754_zero s'.
Lemma zero_sign_refl {prec emax} (x : binary_float prec emax) : zero_sign x x.
Proof. left. reflexivity. Qed.
Lemma zero_sign_nan {prec emax} (x y : binary_float prec emax) : zero_sign x y -> is_nan x = is_nan y.
Proof. intros [->|(s & s' & -> & ->)]; reflexivity. Qed.

(** The same number. *)
Lemma same_number {prec emax} (x y : binary_float prec emax) : is_finite x = true -> is_finite y = true -> B2R x = B2R y -> zero_sign x y.
Proof.
  intros Fx Fy E. destruct x as [s| | |s m e B]; try discriminate.
  - destruct y as [s'| | |s' m' e' B']; try discriminate; [right; eauto|].
    exfalso. cbn in E. symmetry in E. destruct s'; apply eq_0_F2R in E; discriminate.
  - destruct y as [s'| | |s' m' e' B']; try discriminate.
    + exfalso. cbn in E. destruct s; apply eq_0_F2R in E; discriminate.
    + left. apply B2R_inj; [reflexivity|reflexivity|exact E].
Qed.

Section Zeros.
  Variables prec emax : Z.
  Context (Hp : Prec_gt_0 prec) (He : Prec_lt_emax prec emax).
  Notation flt := (binary_float prec emax).

  Lemma mul_zeros (x y z : flt) : zero_sign x y -> zero_sign (f_mul x z) (f_mul y z).
  Proof.
    intros [->|(s & s' & -> & ->)]; [apply zero_sign_refl|]. unfold f_mul. destruct z as [t|t| |t m e B]; cbn; try (left; reflexivity); right; eauto.
  Qed.
  Lemma compare_zeros (x y z w : flt) : zero_sign x y -> zero_sign z w -> Bcompare x z = Bcompare y w.
  Proof.
    intros [->|(s & s' & -> & ->)] [->|(t & t' & -> & ->)]; try reflexivity.
  Qed.
  Lemma gt_zeros (x y z w : flt) : zero_sign x y -> zero_sign z w -> f_gt x z = f_gt y w.
  Proof. intros H H'. unfold f_gt. rewrite (compare_zeros _ _ _ _ H H'). reflexivity. Qed.
  Lemma lt_zeros (x y z w : flt) : zero_sign x y -> zero_sign z w -> f_lt x z = f_lt y w.
  Proof. intros H H'. unfold f_lt. rewrite (compare_zeros _ _ _ _ H H'). reflexivity. Qed.
  Lemma ge_zeros (x y z w : flt) : zero_sign x y -> zero_sign z w -> f_ge x z = f_ge y w.
  Proof. intros H H'. unfold f_ge. rewrite (compare_zeros _ _ _ _ H H'). reflexivity. Qed.
  Lemma fract_zeros (x y : flt) : zero_sign x y -> zero_sign (f_fract x) (f_fract y).
  Proof. intros [->|(s & s' & -> & ->)]; [apply zero_sign_refl|]. right. destruct s, s'; cbn; eauto. Qed.
  Lemma round_zeros (x y : flt) : zero_sign x y -> zero_sign (f_round x) (f_round y).
  Proof. intros [->|(s & s' & -> & ->)]; [apply zero_sign_refl|]. right. exists s, s'. split; reflexivity. Qed.
  Lemma to_i64_zeros (x y : flt) : zero_sign x y -> f_to_i64 x = f_to_i64 y.
  Proof.
    intros H. unfold f_to_i64. rewrite (ge_zeros _ _ _ _ H (zero_sign_refl _)), (lt_zeros _ _ _ _ H (zero_sign_refl _)).
    destruct H as [->|(s & s' & -> & ->)]; reflexivity.
  Qed.

  Lemma fixed_zeros b round (x y : flt) : zero_sign x y -> to_fixed x b round = to_fixed y b round.
  Proof.
    intros H. unfold to_fixed. rewrite (zero_sign_nan _ _ H). destruct (is_nan y); [reflexivity|].
    replace (is_finite x) with (is_finite y) by (destruct H as [->|(s & s' & -> & ->)]; reflexivity). destruct (negb _); [reflexivity|].
    cbv zeta. pose proof (mul_zeros _ _ (f_of_Z (i64_shl1 b)) H) as H1.
    rewrite (gt_zeros _ _ _ _ (fract_zeros _ _ H1) (zero_sign_refl (f_of_Z 0))).
    set (u := f_mul x _) in *. set (v := f_mul y _) in *. clearbody u v.
    assert (Q : forall u v : flt, zero_sign u v ->
      (let shifted := f_mul u (f_of_Z 2) in match f_to_i64 shifted with Some number => Ok (i64_add number 1) | None => Panic end) =
      (let shifted := f_mul v (f_of_Z 2) in match f_to_i64 shifted with Some number => Ok (i64_add number 1) | None => Panic end)).
    { clear. intros u v H. cbv zeta. rewrite (to_i64_zeros _ _ (mul_zeros _ _ _ H)). reflexivity. }
    destruct (f_gt (f_fract v) (f_of_Z 0)); [destruct round; [|reflexivity]|]; cbn [bind]; apply Q; [apply round_zeros|]; exact H1.
  Qed.

  Lemma skip_zeros : forall (l l' : list flt) m m', zero_sign m m' -> Forall2 zero_sign l l' ->
    zero_sign (fst (skip_nan prec emax m l)) (fst (skip_nan prec emax m' l')) /\ Forall2 zero_sign (snd (skip_nan prec emax m l)) (snd (skip_nan prec emax m' l')).
  Proof.
    intros l l' m m' Hm H. revert m m' Hm. induction H as [|n n' l l' Hn H IH]; intros m m' Hm; cbn [skip_nan]; [split; [exact Hm|constructor]|].
    rewrite (zero_sign_nan _ _ Hm). destruct (is_nan m'); [apply IH; exact Hn|]. cbn [fst snd]. split; [exact Hm|constructor; assumption].
  Qed.
  Lemma minmax_zeros b round lg enc (l l' : list flt) : Forall2 zero_sign l l' ->
    el_minmax (float_elem enc round lg) b l = el_minmax (float_elem enc round lg) b l'.
  Proof.
    intros H. unfold float_elem. cbn [el_minmax].
    assert (Q : (min_max_float l = Panic /\ min_max_float l' = Panic) \/ exists p p', min_max_float l = Ok p /\ min_max_float l' = Ok p' /\ zero_sign (fst p) (fst p') /\ zero_sign (snd p) (snd p')).
    { destruct H as [|n n' l l' Hn H]; [left; auto|right]. unfold min_max_float. destruct (skip_zeros l l' n n' Hn H) as (H1 & H2).
      destruct (skip_nan prec emax n l) as [m r], (skip_nan prec emax n' l') as [m' r']. cbn [fst snd] in *.
      exists (fold_left min_max_step r (m, m)), (fold_left min_max_step r' (m', m')). split; [reflexivity|]. split; [reflexivity|].
      assert (G : forall r r', Forall2 zero_sign r r' -> forall p p' : flt * flt, zero_sign (fst p) (fst p') -> zero_sign (snd p) (snd p') ->
        zero_sign (fst (fold_left min_max_step r p)) (fst (fold_left min_max_step r' p')) /\
        zero_sign (snd (fold_left min_max_step r p)) (snd (fold_left min_max_step r' p'))).
      { clear. intros r r' H. induction H as [|x x' r r' Hx H IH]; intros [a c] [a' c'] Ha Hc; cbn [fold_left fst snd] in *; [auto|].
        assert (zero_sign (fst (min_max_step (a, c) x)) (fst (min_max_step (a', c') x')) /\ zero_sign (snd (min_max_step (a, c) x)) (snd (min_max_step (a', c') x'))) as [S1 S2].
        { unfold min_max_step. rewrite (zero_sign_nan _ _ Hx), (lt_zeros _ _ _ _ Hx Ha), (gt_zeros _ _ _ _ Hx Hc).
          destruct (is_nan x'); [auto|]. destruct (f_lt x' a'); [auto|]. destruct (f_gt x' c'); auto. }
        apply IH; assumption. }
      apply G; auto. }
    destruct Q as [[-> ->]|(p & p' & -> & -> & H1 & H2)]; [reflexivity|]. cbn [bind]. rewrite (fixed_zeros b round _ _ H1), (fixed_zeros b round _ _ H2). reflexivity.
  Qed.

  Lemma f64_zeros (x y : flt) : zero_sign x y -> zero_sign (to_f64 x) (to_f64 y).
  Proof. intros [->|(s & s' & -> & ->)]; [left; reflexivity|]. right. exists s, s'. split; reflexivity. Qed.
End Zeros.

Lemma as_i64_zeros (x y : f64) : zero_sign x y -> f_as_i64 x = f_as_i64 y.
Proof. intros [->|(s & s' & -> & ->)]; reflexivity. Qed.
Lemma log_zeros lg (x y : f64) : log2_accurate lg -> zero_sign x y -> lg x = lg y.
Proof.
  intros H. assert (Z : forall s, lg (B754_zero s) = 0).
  { intros s. destruct (H (B754_zero s) eq_refl) as (_ & [E|E]); [exact E|]. exfalso. cbn [B2R] in E. pose proof (pow_lt 2 (lg (B754_zero s)) ltac:(lra)). lra. }
  intros [->|(s & s' & -> & ->)]; [reflexivity|]. rewrite !Z. reflexivity.
Qed.

Section Loop.
  Variables prec emax : Z.
  Context (Hp : Prec_gt_0 prec) (He : Prec_lt_emax prec emax).
  Notation flt := (binary_float prec emax).

  Lemma loop_zeros mx : forall (l l' : list flt) fb, Forall2 zero_sign l l' -> fraction_loop l mx fb = fraction_loop l' mx fb.
  Proof.
    intros l l' fb H. revert fb. induction H as [|x y l l' Hx H IH]; intros fb; cbn [fraction_loop]; [reflexivity|].
    pose proof (f64_zeros _ _ _ _ Hx) as H1. rewrite (zero_sign_nan _ _ H1). destruct (is_nan (to_f64 y)); [apply IH|].
    pose proof (mul_zeros _ _ _ _ _ _ (f_of_Z (i64_shl1 mx)) H1) as H2. cbv zeta. rewrite (as_i64_zeros _ _ H2), (compare_zeros _ _ _ _ _ _ (fract_zeros _ _ _ _ _ _ H2) (zero_sign_refl (f_of_Z 0))).
    rewrite IH. reflexivity.
  Qed.
  Lemma suggest_zeros lg (l l' : list flt) : log2_accurate lg -> Forall2 zero_sign l l' -> suggest_fraction lg l = suggest_fraction lg l'.
  Proof.
    intros HL H. unfold suggest_fraction.
    assert (Q : (max_value l = Panic /\ max_value l' = Panic) \/ exists m m', max_value l = Ok m /\ max_value l' = Ok m' /\ zero_sign m m').
    { destruct H as [|n n' l l' Hn H]; [left; auto|right]. unfold max_value. destruct (skip_zeros prec emax l l' n n' Hn H) as (H1 & H2).
      destruct (skip_nan prec emax n l) as [m r], (skip_nan prec emax n' l') as [m' r']. cbn [fst snd] in *.
      eexists. eexists. split; [reflexivity|]. split; [reflexivity|].
      clear -H1 H2. revert m m' H1. induction H2 as [|x x' r r' Hx H IH]; intros m m' Hm; cbn [fold_left]; [exact Hm|]. apply IH.
      unfold max_step. rewrite (zero_sign_nan _ _ Hx), (gt_zeros _ _ _ _ _ _ Hx Hm). destruct (_ && _); assumption. }
    destruct Q as [[-> ->]|(m & m' & -> & -> & H1)]; [reflexivity|]. cbn [bind]. rewrite (zero_sign_nan _ _ H1). destruct (is_nan m'); [reflexivity|]. cbv zeta.
    rewrite (log_zeros lg _ _ HL (f64_zeros _ _ _ _ H1)). destruct (usub _ _); cbn [bind]; try reflexivity. rewrite (loop_zeros _ l l' 0 H). reflexivity.
  Qed.
  Lemma bits_zeros lg enc round b (l l' : list flt) : log2_accurate lg -> Forall2 zero_sign l l' ->
    el_bits (float_elem enc round lg) b l = el_bits (float_elem enc round lg) b l'.
  Proof. intros HL H. unfold float_elem. cbn [el_bits]. rewrite (suggest_zeros lg l l' HL H). reflexivity. Qed.

  Theorem float_alike hash enc round lg k lc levels n (g g' : nat -> nat -> nat -> flt) rows cols bits st st' : log2_accurate lg ->
    (forall t r c, t < n -> r < rows -> c < cols -> zero_sign (g t r c) (g' t r c)) ->
    outcome (super_build hash (float_elem enc round lg) k lc levels g n rows cols bits st) =
    outcome (super_build hash (float_elem enc round lg) k lc levels g' n rows cols bits st').
  Proof.
    intros HL H. apply (build_alike hash (float_elem enc round lg) k lc zero_sign (fun _ => True)); try (intros; exact Logic.I); try exact H.
    - intros b x y _ Hx. cbn [float_elem el_fixed]. apply fixed_zeros. exact Hx.
    - intros b l l' _ Hl. apply minmax_zeros. exact Hl.
    - intros b l l' _ Hl. apply bits_zeros; assumption.
  Qed.
End Loop.
