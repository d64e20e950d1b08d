(** * Large arrays of floats: when they are built and exactly what they read *)
From Coq Require Import ZArith Reals Lra.
From Flocq Require Import Core.Core IEEE754.BinarySingleNaN.
From Verif Require Import Base BaseFacts StreamModel FixedModel FixedProofs StreamProofs SnapshotModel SnapshotProofs ChunkModel ChunkProofs ChunkStream NodeModel NodeProofs SuperModel SuperViews
  SuperProofs SuperInt ArrayModel ArrayProofs FloatModel FloatProofs PropertiesFixed SuperLinks.
Ltac Zify.zify_post_hook ::= Z.div_mod_to_equations.
Arguments Nat.pow : simpl never.
Open Scope R_scope.

(** What is read, [x], for what was written, [y]: NaN for NaN, and otherwise the
    number itself or its rounding. *)
Definition reads_back {prec emax} (round : option nat) (x y : binary_float prec emax) : Prop :=
  if is_nan y then is_nan x = true else is_finite x = true /\ B2R x = value_of round y.

(** A value that can be stored with [b] fractional bits: NaN, or a number that
    is not too large and, if there is no rounding, has no more than [b] bits, or, if there
    is, does not lie in the gap that becomes NaN (C17). *)
Definition storable {prec emax} (round : option nat) (b : nat) (x : binary_float prec emax) : Prop :=
  is_nan x = true \/
  (is_finite x = true /\ 1 - 2 ^ 61 <= B2R x * 2 ^ b <= 2 ^ 61 /\
   match round with
   | Some _ => ~ (-1 < B2R x * 2 ^ b <= - / 2)
   | None => exists z : Z, B2R x * 2 ^ b = IZR z
   end).

(** [log2_floor] is accurate enough. *)
Definition log2_accurate (log2_floor : f64 -> nat) : Prop :=
  forall x : f64, is_finite x = true ->
    (0 < B2R x -> B2R x < 2 ^ (1 + log2_floor x)) /\ (log2_floor x = 0%nat \/ 2 ^ log2_floor x <= B2R x).

Definition rounding (round : option nat) : bool := match round with Some _ => true | None => false end.

Section Build.
  Variables prec emax : Z.
  Context (Hp : Prec_gt_0 prec) (He : Prec_lt_emax prec emax).
  Hypothesis Hbig : (65 <= emax <= 1024)%Z.
  Hypothesis H53 : (prec <= 53)%Z.
  Notation flt := (binary_float prec emax).
  Notation sc n b := (B2R n * bpow radix2 (Z.of_nat b)).

  (** Rounding a number, exactly. *)
  Lemma rounds_to (n : flt) b : (b <= 61)%nat -> is_finite n = true -> - bpow radix2 61 <= sc n b <= bpow radix2 61 ->
    ~ (-1 < sc n b <= - / 2) ->
    exists v, to_fixed n b true = Ok v /\ is_finite (from_fixed v b : flt) = true
      /\ B2R (from_fixed v b : flt) = round_value (sc n b) * bpow radix2 (- Z.of_nat b) /\ v = (phi (sc n b) + 1)%Z.
  Proof using Hbig.
    intros Hb F U NG.
    assert (Hbig' : (65 <= emax)%Z) by (clear -Hbig; lia).
    assert (R2 : Rabs (sc n b) <= bpow radix2 64).
    { apply Rle_trans with (bpow radix2 61); [apply Rabs_le; exact U|]. apply bpow_le. clear; lia. }
    destruct (scaled_to_fixed prec emax Hp He Hbig' n b true ltac:(clear -Hb; lia) F R2) as (x & Fx & Ex & Hs).
    rewrite round_value_phi. rewrite <- Ex in U, NG |- *. set (r := B2R x) in *.
    assert (Un : bpow radix2 (- Z.of_nat (b + 1)) = / 2 * bpow radix2 (- Z.of_nat b)).
    { replace (- Z.of_nat (b + 1))%Z with (-1 + - Z.of_nat b)%Z by (clear; lia). rewrite bpow_plus. cbn. clear; lra. }
    assert (G : to_fixed n b true = Ok (i64_add (phi r) 1) /\ i64_range (phi r) /\ (phi r < 2 ^ 63 - 1)%Z /\ phi r <> (-1)%Z /\
                generic_format radix2 (SpecFloat.fexp prec emax) (IZR (phi r))).
    { rewrite Hs. destruct (Rle_lt_dec 0 r) as [SP|SN].
      - destruct (phi_nonneg r SP) as (Q & _). rewrite Q.
        assert (Z0 : (0 <= ZnearestA r)%Z) by (apply ZnearestA_nonneg; exact SP).
        assert (Z1 : (ZnearestA r <= 2 ^ 61)%Z).
        { rewrite <- (@Zrnd_IZR _ valid_rnd_NA (2 ^ 61)%Z). apply (@Zrnd_le _ valid_rnd_NA). rewrite IZR_pow2 by (clear; lia). apply U. }
        assert (Hi : i64_range (2 * ZnearestA r)) by (unfold i64_range, two63; clear -Z0 Z1; lia).
        assert (Lt : (2 * ZnearestA r < 2 ^ 63 - 1)%Z) by (clear -Z1; lia). assert (Ne : (2 * ZnearestA r <> -1)%Z) by (clear -Z0; lia).
        destruct (Rlt_le_dec (IZR (Ztrunc r)) r) as [L|L].
        + destruct (step_rounds_ok prec emax Hp He Hbig' x Fx L) as (S1 & S2).
          { fold r. rewrite <- IZR_pow2, <- opp_IZR by (clear; lia). split; [apply IZR_le|apply IZR_lt]; clear -Z0 Z1; lia. }
          exact (conj S1 (conj Hi (conj Lt (conj Ne S2)))).
        + assert (NF : ~ (IZR (Ztrunc r) < r)) by (clear -L; lra).
          assert (RR : - bpow radix2 62 <= r < bpow radix2 62).
          { pose proof (bpow_gt_0 radix2 62). assert (bpow radix2 61 < bpow radix2 62) by (apply bpow_lt; clear; lia). clear -SP U H H0. lra. }
          pose proof (step_truncates_ok prec emax Hp He Hbig' x true Fx NF RR) as S.
          destruct (step_truncates prec emax Hp He Hbig' x true _ Fx NF S) as (_ & _ & Hf & _).
          assert (Eq : Ztrunc (2 * r) = (2 * ZnearestA r)%Z).
          { rewrite <- Q. unfold phi. destruct (Rle_dec r 0) as [X|X]; [reflexivity|].
            assert (I : r = IZR (Ztrunc r)) by (apply not_frac_int; [clear -X; lra|exact NF]).
            rewrite I, ZnearestA_IZR, <- mult_IZR, Ztrunc_IZR. reflexivity. }
          fold r in S, Hf. rewrite Eq in S, Hf. exact (conj S (conj Hi (conj Lt (conj Ne Hf)))).
      - assert (NF : ~ (IZR (Ztrunc r) < r)) by (intros L; apply frac_pos in L; clear -L SN; lra).
        assert (RR : - bpow radix2 62 <= r < bpow radix2 62).
        { pose proof (bpow_gt_0 radix2 62). assert (bpow radix2 61 < bpow radix2 62) by (apply bpow_lt; clear; lia). clear -SN U H H0. lra. }
        pose proof (step_truncates_ok prec emax Hp He Hbig' x true Fx NF RR) as S.
        destruct (step_truncates prec emax Hp He Hbig' x true _ Fx NF S) as (_ & Hi & Hf & _). fold r in S, Hi, Hf.
        assert (Eq : phi r = Ztrunc (2 * r)) by (unfold phi; destruct (Rle_dec r 0) as [X|X]; [reflexivity|clear -X SN; lra]).
        rewrite Eq. pose proof (Ztrunc_nonpos (2 * r) ltac:(clear -SN; lra)) as N0.
        split; [exact S|]. split; [exact Hi|]. split; [clear -N0; lia|]. split; [|exact Hf].
        intros X. apply NG. rewrite Ztrunc_ceil in X by (clear -SN; lra).
        assert (C1 : 2 * r <= IZR (Zceil (2 * r))) by apply Zceil_ub. assert (C2 : IZR (Zceil (2 * r)) < 2 * r + 1) by (clear; pose proof (Zceil_lb (2 * r)); lra).
        rewrite X in C1, C2. clear -C1 C2. lra. }
    destruct G as (G1 & G2 & G3 & G4 & G5). exists (i64_add (phi r) 1). split; [exact G1|].
    destruct (from_fixed_exact prec emax Hp He Hbig' (phi r) b Hb G2 G4 G5) as (Er & Fr).
    split; [exact Fr|]. split; [|apply i64_add_1; assumption]. rewrite Er, Un. field.
  Qed.

  Lemma value_some b (x : flt) : value_of (Some b) x = round_value (sc x b) * bpow radix2 (- Z.of_nat b).
  Proof using. clear. cbn [value_of]. unfold Rdiv. rewrite inv_pow2_bpow, pow2_bpow. reflexivity. Qed.

  (** A number that is an integer after scaling is its own rounding. *)
  Lemma scaled_more (x : flt) b b' z : (b <= b')%nat -> sc x b = IZR z -> exists z', sc x b' = IZR z'.
  Proof using.
    clear. intros Hb E. exists (z * 2 ^ Z.of_nat (b' - b))%Z. rewrite mult_IZR, IZR_pow2 by lia. rewrite <- E, Rmult_assoc, <- bpow_plus.
    replace (Z.of_nat b + Z.of_nat (b' - b))%Z with (Z.of_nat b') by lia. reflexivity.
  Qed.
  Lemma round_value_int z : round_value (IZR z) = IZR z.
  Proof using.
    clear. unfold round_value. destruct (Rle_dec (IZR z) 0); [|f_equal; apply ZnearestA_IZR].
    rewrite <- mult_IZR, Ztrunc_IZR, mult_IZR. field.
  Qed.
  Lemma value_exact b (x : flt) z : sc x b = IZR z -> value_of (Some b) x = B2R x.
  Proof using.
    clear. intros E. rewrite value_some, E, round_value_int, <- E, Rmult_assoc, <- bpow_plus.
    replace (_ + _)%Z with 0%Z by lia. cbn. ring.
  Qed.

  (** How far a rounded number is from the number. *)
  Lemma round_value_near r : r - / 2 <= round_value r <= r + / 2.
  Proof using.
    clear. unfold round_value. destruct (Rle_dec r 0) as [N|P].
    - rewrite Ztrunc_ceil by lra. pose proof (Zceil_ub (2 * r)). pose proof (Zceil_lb (2 * r)). lra.
    - pose proof (Znearest_half (Z.leb 0) r) as H. apply Rabs_le_inv in H. lra.
  Qed.
  Lemma value_near rnd (x : flt) : B2R x - / 2 <= value_of rnd x <= B2R x + / 2.
  Proof using.
    clear. destruct rnd as [b|]; [|cbn [value_of]; lra]. cbn [value_of].
    pose proof (round_value_near (B2R x * 2 ^ b)) as H. assert (P : 1 <= 2 ^ b) by (apply pow_R1_Rle; lra).
    assert (P' : 0 < 2 ^ b) by lra.
    set (r := B2R x * 2 ^ b) in *. assert (E : B2R x = r * / 2 ^ b) by (unfold r; field; lra). rewrite E. clearbody r.
    assert (Q : 0 < / 2 ^ b <= 1). { split; [apply Rinv_0_lt_compat, P'|]. rewrite <- Rinv_1. apply Rinv_le_contravar; lra. }
    unfold Rdiv. generalize dependent (/ 2 ^ b). intros i E Q. set (v := round_value r) in *. clearbody v. clear -H Q. split; nra.
  Qed.

  (** What a value stored with [b] bits must be, for a buffer of [B] bits. *)
  Variables (rnd : option nat) (B : nat) (lg : f64 -> nat) (enc : encoding).
  Hypothesis HB : (B <= 61)%nat.
  Hypothesis Hrnd : forall b, rnd = Some b -> B = b.
  Hypothesis Hlg : log2_accurate lg.
  Notation round := (rounding rnd).
  Notation E := (@float_elem prec emax Hp He enc round lg).

  Definition exactly (b : nat) (x : flt) : Prop := is_nan x = true \/ exists z, sc x b = IZR z.
  Definition fgood (b : nat) (x : flt) : Prop :=
    bits_ok b /\ storable rnd B x /\ (b <= B)%nat /\
    match rnd with
    | Some _ => b = B \/ exactly b x
    | None => exactly b x
    end.

  Lemma storable_bpow b (x : flt) : storable rnd b x -> is_nan x = false ->
    is_finite x = true /\ 1 - bpow radix2 61 <= sc x b <= bpow radix2 61 /\
    match rnd with Some _ => ~ (-1 < sc x b <= - / 2) | None => exists z : Z, sc x b = IZR z end.
  Proof using.
    clear. intros [X|(F & U & I)] N; [congruence|]. split; [exact F|].
    rewrite !pow2_bpow in U. change (Z.of_nat 61) with 61%Z in U. split; [exact U|].
    destruct rnd; rewrite pow2_bpow in I; exact I.
  Qed.

  Lemma storable_proper b (x : flt) : storable rnd b x -> proper prec emax x.
  Proof using. clear. unfold storable, proper. tauto. Qed.

  Lemma sc_abs (x : flt) b b' : (b <= b')%nat -> Rabs (sc x b) <= Rabs (sc x b').
  Proof using.
    clear. intros H. rewrite !Rabs_mult, !(Rabs_pos_eq (bpow _ _)) by apply bpow_ge_0.
    apply Rmult_le_compat_l; [apply Rabs_pos|]. apply bpow_le. lia.
  Qed.

  Lemma nan_converts (x : flt) b : is_nan x = true -> to_fixed x b round = Ok 0%Z.
  Proof using. clear. intros N. unfold to_fixed. rewrite N. reflexivity. Qed.

  Lemma rnd_cases : (exists b, rnd = Some b) \/ rnd = None.
  Proof using. clear. destruct rnd; eauto. Qed.

  (** Good values convert, and read back as what they should. *)
  Lemma exact_converts b (x : flt) : (b <= B)%nat -> storable rnd B x -> exactly b x ->
    exists z, to_fixed x b round = Ok z /\ (- 2 ^ 62 + 3 <= z <= 2 ^ 62 + 1)%Z /\
      if is_nan x then is_nan (from_fixed z b : flt) = true else is_finite (from_fixed z b : flt) = true /\ B2R (from_fixed z b : flt) = B2R x.
  Proof using Hbig HB.
    intros Hb Hs G. destruct (is_nan x) eqn:N.
    { exists 0%Z. split; [apply nan_converts; exact N|]. split; [clear; lia|reflexivity]. }
    destruct G as [X|(z & Ez)]; [congruence|]. destruct (storable_bpow B x Hs N) as (F & U & _).
    (* the scaled value is no larger with fewer bits *)
    assert (Rz : (1 - 2 ^ 61 <= z <= 2 ^ 61)%Z).
    { assert (S : sc x B = IZR z * bpow radix2 (Z.of_nat (B - b))).
      { rewrite <- Ez, Rmult_assoc, <- bpow_plus. replace (Z.of_nat b + Z.of_nat (B - b))%Z with (Z.of_nat B) by (clear -Hb; lia). reflexivity. }
      rewrite <- (IZR_pow2 (Z.of_nat (B - b))) in S by (clear; lia). rewrite <- mult_IZR in S. rewrite S, <- (IZR_pow2 61), <- minus_IZR in U by (clear; lia).
      destruct U as (U1 & U2). apply le_IZR in U1, U2.
      assert (P : (1 <= 2 ^ Z.of_nat (B - b))%Z) by (clear; pose proof (Z.pow_pos_nonneg 2 (Z.of_nat (B - b)) ltac:(lia) ltac:(lia)); lia).
      clear -U1 U2 P. nia. }
    destruct (integer_converts prec emax Hp He ltac:(clear -Hbig; lia) x b round z ltac:(clear -Hb HB; lia) F Ez ltac:(clear -Rz; lia)) as (T & V1 & V2).
    assert (A : i64_add (2 * z) 1 = (2 * z + 1)%Z) by (apply i64_add_1; [unfold i64_range, two63|]; clear -Rz; lia).
    rewrite A in *. exists (2 * z + 1)%Z. split; [exact T|]. split; [clear -Rz; lia|]. exact (conj V2 V1).
  Qed.

  Lemma fgood_converts b (x : flt) : fgood b x ->
    exists z, to_fixed x b round = Ok z /\ (- 2 ^ 62 + 3 <= z <= 2 ^ 62 + 1)%Z /\ reads_back rnd (from_fixed z b) x.
  Proof using Hbig HB Hrnd.
    intros (_ & Hs & Hb & G). unfold reads_back.
    assert (XE : exactly b x -> exists z, to_fixed x b round = Ok z /\ (- 2 ^ 62 + 3 <= z <= 2 ^ 62 + 1)%Z /\
      if is_nan x then is_nan (from_fixed z b : flt) = true else is_finite (from_fixed z b : flt) = true /\ B2R (from_fixed z b : flt) = value_of rnd x).
    { intros X. destruct (exact_converts b x Hb Hs X) as (z & T & R & V). exists z. split; [exact T|]. split; [exact R|].
      destruct (is_nan x) eqn:N; [exact V|]. destruct V as (V1 & V2). split; [exact V1|]. rewrite V2.
      destruct rnd_cases as [(b1 & Er)|Er]; rewrite Er; [|reflexivity]. rewrite <- (Hrnd b1 Er).
      destruct X as [X|(q & Eq)]; [congruence|]. destruct (scaled_more x b B q Hb Eq) as (q' & Eq'). symmetry. exact (value_exact B x q' Eq'). }
    destruct rnd_cases as [(b1 & Er)|Er]; rewrite Er in G; [|exact (XE G)].
    destruct G as [->|G]; [|exact (XE G)]. clear XE.
    destruct (is_nan x) eqn:N; [exists 0%Z; split; [apply nan_converts; exact N|]; split; [clear; lia|reflexivity]|].
    pose proof (storable_bpow B x Hs N) as X. rewrite Er in X. destruct X as (F & U & NG).
    destruct (rounds_to x B HB F ltac:(clear -U; lra) NG) as (v & T & V1 & V2 & Ev). exists v.
    rewrite Er. change (rounding (Some b1)) with true. split; [exact T|]. split; [|split; [exact V1|rewrite <- (Hrnd b1 Er), value_some; exact V2]].
    subst v. assert (M : (phi (IZR (1 - 2 ^ 61)) <= phi (sc x B) <= phi (IZR (2 ^ 61)))%Z).
    { split; apply phi_mono; rewrite ?minus_IZR, IZR_pow2 by (clear; lia); apply U. }
    assert (PI : forall z, phi (IZR z) = (2 * z)%Z).
    { clear. intros z. unfold phi. destruct (Rle_dec (IZR z) 0); [rewrite <- mult_IZR; apply Ztrunc_IZR|rewrite ZnearestA_IZR; reflexivity]. }
    rewrite !PI in M. clear -M. lia.
  Qed.

  Lemma fgood_reads b (x : flt) z : fgood b x -> to_fixed x b round = Ok z -> reads_back rnd (from_fixed z b) x.
  Proof using Hbig HB Hrnd. intros G Ez. destruct (fgood_converts b x G) as (z' & E' & _ & R). rewrite Ez in E'. injection E' as <-. exact R. Qed.

  Lemma fgood_fixed b (x : flt) : fgood b x -> exists z, to_fixed x b round = Ok z /\ i64_range z.
  Proof using Hbig HB Hrnd.
    intros G. destruct (fgood_converts b x G) as (z & E' & R & _). exists z. split; [exact E'|]. unfold i64_range, two63. clear -R. lia.
  Qed.

  Lemma fgood_code b (x : flt) : fgood b x -> is_finite x = true -> to_fixed x b round <> Ok 0%Z.
  Proof using Hbig HB Hrnd.
    intros G F E0. pose proof (fgood_reads b x 0 G E0) as R. unfold reads_back in R. rewrite (finite_not_nan _ _ x F) in R.
    destruct R as (R & _). discriminate R.
  Qed.

  Lemma fgood_diff b (x y : flt) v w : fgood b x -> fgood b y -> to_fixed x b round = Ok v -> to_fixed y b round = Ok w -> i64_range (w - v).
  Proof using Hbig HB Hrnd.
    intros Gx Gy Ex Ey. destruct (fgood_converts b x Gx) as (v' & Ex' & Rx & _). destruct (fgood_converts b y Gy) as (w' & Ey' & Ry & _).
    rewrite Ex in Ex'. rewrite Ey in Ey'. injection Ex' as <-. injection Ey' as <-. unfold i64_range, two63. clear -Rx Ry. lia.
  Qed.

  Lemma fgood_same : same_stored prec emax Hp He round fgood rnd (storable rnd B).
  Proof using Hbig HB Hrnd.
    intros b x y v Gx Gy Fx Fy _ _ Ex Ey.
    pose proof (fgood_reads b x v Gx Ex) as X. pose proof (fgood_reads b y v Gy Ey) as Y. unfold reads_back in X, Y.
    rewrite (finite_not_nan _ _ x Fx) in X. rewrite (finite_not_nan _ _ y Fy) in Y. destruct X as (_ & <-). destruct Y as (_ & <-). reflexivity.
  Qed.

  (** Everything in the list is storable: what the probe says. *)
  Lemma max_value_some (l : list flt) : l <> [] -> exists M, max_value l = Ok M.
  Proof using. clear. destruct l as [|m l]; [congruence|]. intros _. cbn [max_value]. destruct (skip_nan _ _ m l). eauto. Qed.

  Lemma loop_complete mfb (l : list flt) : (mfb <= 61)%nat ->
    (forall v, In v l -> is_nan v = false -> is_finite v = true /\ Rabs (B2R v) <= bpow radix2 61 /\ exists z, sc v mfb = IZR z) ->
    forall b0, exists b, fraction_loop l mfb b0 = Precise b.
  Proof using Hp Hbig H53.
    intros Hm. induction l as [|n rest IH]; intros H b0; cbn [fraction_loop]; [eauto|].
    rewrite (to_f64_nan prec emax Hp H53 ltac:(clear -Hbig; lia)). destruct (is_nan n) eqn:Nn; [apply IH; intros v I; apply H; right; exact I|].
    destruct (H n (or_introl eq_refl) Nn) as (F & Bn & z & Ez).
    destruct (to_f64_exact prec emax Hp H53 ltac:(clear -Hbig; lia) n F) as (E64 & F64).
    destruct (of_Z_pow 53 1024 Hp64 He64 ltac:(clear; lia) (Z.of_nat mfb)) as (E1 & F1); [clear -Hm; lia|].
    rewrite <- shl1_pow in E1, F1 by (clear -Hm; lia).
    set (shifted := f_mul (to_f64 n) (f_of_Z (i64_shl1 mfb))).
    destruct (mul_pow 53 1024 Hp64 He64 (to_f64 n) _ (Z.of_nat mfb) F64 F1 E1 ltac:(clear; lia)) as [(Em & Fm)|(_ & X)].
    2:{ exfalso. revert X. apply Rlt_not_le. apply Rle_lt_trans with (bpow radix2 122); [|apply bpow_lt; clear; lia]. rewrite E64.
        rewrite Rabs_mult, (Rabs_pos_eq (bpow _ _)) by apply bpow_ge_0.
        apply Rle_trans with (bpow radix2 61 * bpow radix2 (Z.of_nat mfb)).
        - apply Rmult_le_compat_r; [apply bpow_ge_0|exact Bn].
        - rewrite <- bpow_plus. apply bpow_le. clear -Hm. lia. }
    fold shifted in Em, Fm. rewrite E64, Ez in Em.
    destruct (fract_B2R 53 1024 Hp64 He64 shifted Fm) as (Efr & Ffr).
    destruct (of_Z_0 53 1024 Hp64 He64 ltac:(clear; lia)) as (E0 & F0).
    rewrite Bcompare_correct by assumption. rewrite Efr, E0, Em, Ztrunc_IZR, Rminus_diag_eq by reflexivity.
    rewrite Rcompare_Eq by reflexivity. apply IH. intros v I. apply H. right. exact I.
  Qed.

  (** No number of the list is further below zero than 2 and the greatest. *)
  Definition led (l : list flt) : Prop := forall v, In v l -> is_nan v = false ->
    Rabs (value_of rnd v) < 2 \/ exists u, In u l /\ is_nan u = false /\ Rabs (value_of rnd v) <= value_of rnd u.

  Lemma suggest_ok (l : list flt) : l <> [] -> (forall x, In x l -> storable rnd B x) -> led l ->
    exists s, suggest_fraction lg l = Ok s /\
      match s with
      | Precise c => (forall x, In x l -> exactly c x) /\ (rnd = None -> (c <= B)%nat)
      | Round c => (B <= c)%nat /\ rnd <> None
      end.
  Proof using Hp Hbig H53 HB Hlg.
    intros Hl HS HD. destruct (max_value_some l Hl) as (M & EM).
    assert (FV : forall v, In v l -> is_nan v = false -> is_finite v = true).
    { intros v I N. apply (storable_bpow B v (HS v I) N). }
    destruct (max_value_spec prec emax l M EM FV) as [(NM & AN)|(NM & FM & IM & BM)].
    { exists (Precise 0). unfold suggest_fraction. rewrite EM. cbn [bind]. rewrite NM. split; [reflexivity|].
      split; [|intros _; clear; lia]. intros x Hx. left. exact (AN x Hx). }
    destruct (storable_bpow B M (HS M IM) NM) as (_ & (_ & SM) & _).
    destruct (to_f64_exact prec emax Hp H53 ltac:(clear -Hbig; lia) M FM) as (V64 & F64).
    assert (LB : (lg (to_f64 M) + B <= 61)%nat).
    { destruct (Hlg (to_f64 M) F64) as (_ & [Z0|L2]); [rewrite Z0; exact HB|]. rewrite V64, pow2_bpow in L2.
      destruct (Nat.le_gt_cases (lg (to_f64 M) + B) 61) as [Y|Y]; [exact Y|]. exfalso.
      assert (X : bpow radix2 61 < bpow radix2 (Z.of_nat (lg (to_f64 M)) + Z.of_nat B)) by (apply bpow_lt; clear -Y; lia).
      rewrite bpow_plus in X. pose proof (bpow_gt_0 radix2 (Z.of_nat B)).
      assert (bpow radix2 (Z.of_nat (lg (to_f64 M))) * bpow radix2 (Z.of_nat B) <= sc M B) by (apply Rmult_le_compat_r; [clear -H; lra|exact L2]).
      clear -X H0 SM. lra. }
    assert (ES : suggest_fraction lg l = Ok (fraction_loop l (61 - lg (to_f64 M)) 0)).
    { unfold suggest_fraction. rewrite EM. cbn [bind]. rewrite NM. unfold usub.
      destruct (Nat.leb_spec (1 + lg (to_f64 M)) 62) as [_|X]; [|exfalso; clear -X LB; lia]. cbn [bind].
      replace (62 - (1 + lg (to_f64 M)))%nat with (61 - lg (to_f64 M))%nat by (clear; lia). reflexivity. }
    assert (BV : forall v, In v l -> is_nan v = false -> Rabs (B2R v) < bpow radix2 (63 - Z.of_nat (61 - lg (to_f64 M)))).
    { intros v Iv Nv. replace (63 - Z.of_nat (61 - lg (to_f64 M)))%Z with (1 + Z.of_nat (1 + lg (to_f64 M)))%Z by (clear -LB; lia).
      rewrite bpow_plus. change (bpow radix2 1) with 2.
      assert (P2 : 2 <= bpow radix2 (Z.of_nat (1 + lg (to_f64 M)))) by (change 2 with (bpow radix2 1); apply bpow_le; clear; lia).
      assert (AV : Rabs (B2R v) <= Rabs (value_of rnd v) + / 2).
      { pose proof (value_near rnd v) as Q. clear -Q. unfold Rabs. destruct (Rcase_abs (B2R v)), (Rcase_abs (value_of rnd v)); lra. }
      destruct (HD v Iv Nv) as [S|(u & Iu & Nu & Le)]; [clear -AV S P2; lra|].
      pose proof (BM u Iu Nu) as Bu. pose proof (value_near rnd u) as Qu.
      destruct (Rle_lt_dec (B2R M) 2) as [N|P]; [clear -AV Le Bu Qu N P2; lra|].
      pose proof (proj1 (Hlg (to_f64 M) F64) ltac:(rewrite V64; clear -P; lra)) as X. rewrite V64, pow2_bpow in X.
      clear -AV Le Bu Qu P X. lra. }
    set (mfb := (61 - lg (to_f64 M))%nat) in *.
    exists (fraction_loop l mfb 0). split; [exact ES|].
    destruct (fraction_loop l mfb 0) as [c|c] eqn:EL.
    - destruct (loop_exact prec emax Hp H53 ltac:(clear -Hbig; lia) l mfb ltac:(clear; lia) 0 c EL BV ltac:(clear; lia)) as (_ & LX & LL). split.
      + intros x Hx. destruct (is_nan x) eqn:N; [left; exact N|right]. apply (LX x Hx N).
      + intros Er. apply LL; [clear -LB; lia|]. intros v Iv Nv. pose proof (storable_bpow B v (HS v Iv) Nv) as X. rewrite Er in X. apply X.
    - pose proof (loop_bits l mfb 0) as LBb. rewrite EL in LBb. subst c. split; [clear -LB; lia|].
      intros Er. destruct (loop_complete mfb l ltac:(clear; lia)) with (b0 := 0%nat) as (b & Eb); [|congruence].
      intros v Iv Nv. pose proof (storable_bpow B v (HS v Iv) Nv) as X. rewrite Er in X. destruct X as (F & (X0 & X1) & z & Ez).
      split; [exact F|]. split.
      + pose proof (sc_abs v 0 B ltac:(clear; lia)) as Q. cbn in Q. rewrite Rmult_1_r in Q. eapply Rle_trans; [exact Q|].
        apply Rabs_le. clear -X0 X1. lra.
      + apply (scaled_more v B mfb z); [clear -LB; lia|exact Ez].
  Qed.

  Lemma fgood_bits b0 (l : list flt) : l <> [] -> (forall x, In x l -> fgood b0 x) -> led l ->
    exists b, el_bits E b0 l = Ok b /\ forall x, In x l -> fgood b x.
  Proof using Hp Hbig H53 HB Hrnd Hlg.
    intros Hl HG HD. destruct (suggest_ok l Hl (fun x i => proj1 (proj2 (HG x i))) HD) as (s & Es & Hs).
    cbn [float_elem el_bits]. rewrite Es. cbn [bind]. pose proof (suggest_bits lg l s Es) as S61.
    assert (Hb0 : (b0 <= B)%nat).
    { destruct l as [|x l]; [congruence|]. apply (HG x (or_introl eq_refl)). }
    destruct rnd_cases as [(b1 & Er)|Er].
    - assert (Et : round = true) by (rewrite Er; reflexivity). rewrite Et. eexists. split; [reflexivity|]. destruct s as [c|c].
      + destruct (Nat.le_gt_cases b0 c) as [Le|Gt]; [rewrite Nat.min_r by exact Le; exact HG|].
        rewrite Nat.min_l by (clear -Gt; lia). intros x Hx. split; [apply Nat.leb_le; exact S61|].
        split; [apply (HG x Hx)|]. split; [clear -Gt Hb0; lia|]. rewrite Er. right. apply Hs, Hx.
      + rewrite Nat.min_r by (destruct Hs as (Hs & _); clear -Hs Hb0; lia). exact HG.
    - assert (Et : round = false) by (rewrite Er; reflexivity). rewrite Et. destruct s as [c|c]; [|destruct Hs as (_ & X); congruence]. exists c. split; [reflexivity|].
      intros x Hx. split; [apply Nat.leb_le; exact S61|]. split; [apply (HG x Hx)|]. split; [apply Hs, Er|]. rewrite Er. apply Hs, Hx.
  Qed.

  Lemma fgood_minmax b (l : list flt) : l <> [] -> (forall x, In x l -> fgood b x) -> exists p, el_minmax E b l = Ok p.
  Proof using Hbig HB Hrnd.
    intros Hl HG. cbn [float_elem el_minmax].
    assert (X : exists mn mx, min_max_float l = Ok (mn, mx) /\ (is_nan mn = true \/ In mn l) /\ (is_nan mx = true \/ In mx l)).
    { destruct l as [|first values]; [congruence|]. cbn [min_max_float].
      destruct (skip_nan prec emax first values) as (m, rest) eqn:Es.
      assert (Sub : forall v, In v (m :: rest) -> In v (first :: values)).
      { clear - Es. revert first m rest Es. induction values as [|n values IH]; intros first m rest Es; cbn in Es.
        - injection Es as <- <-. auto.
        - destruct (is_nan first).
          + intros v I. right. eapply IH; eassumption.
          + injection Es as <- <-. auto. }
      assert (G : forall rest mn mx, (forall v, In v rest -> In v (first :: values)) ->
        (is_nan mn = true \/ In mn (first :: values)) -> (is_nan mx = true \/ In mx (first :: values)) ->
        exists mn' mx', fold_left min_max_step rest (mn, mx) = (mn', mx') /\
          (is_nan mn' = true \/ In mn' (first :: values)) /\ (is_nan mx' = true \/ In mx' (first :: values))).
      { clear. intros rest. induction rest as [|n rest IH]; intros mn mx S H1 H2; cbn [fold_left]; [eauto 6|].
        pose proof (S n (or_introl eq_refl)) as In1.
        assert (X : exists a b, min_max_step (mn, mx) n = (a, b) /\ (is_nan a = true \/ In a (first :: values)) /\ (is_nan b = true \/ In b (first :: values))).
        { cbn [min_max_step]. destruct (is_nan n); [eauto 8|]. destruct (f_lt n mn); [eauto 8|]. destruct (f_gt n mx); eauto 8. }
        destruct X as (a & b & -> & X1 & X2). apply IH; auto. intros v I. apply S. right. exact I. }
      destruct (G rest m m (fun v i => Sub v (or_intror i)) (or_intror (Sub m (or_introl eq_refl))) (or_intror (Sub m (or_introl eq_refl))))
        as (mn & mx & Ef & X1 & X2). exists mn, mx. rewrite Ef. auto. }
    destruct X as (mn & mx & -> & H1 & H2). cbn [bind fst snd].
    assert (C : forall v, is_nan v = true \/ In v l -> exists z, to_fixed v b round = Ok z).
    { intros v [N|I]; [exists 0%Z; apply nan_converts, N|]. destruct (fgood_fixed b v (HG v I)) as (z & Ez & _). eauto. }
    destruct (C mn H1) as (a & ->). destruct (C mx H2) as (c & ->). cbn [bind]. eauto.
  Qed.

  (** ** What is built, and what it reads *)
  Variables (hash : bytes -> cid) (k : nat) (lc : nat -> nat).
  Hypothesis Hhash : forall x, wf_cid (hash x).
  Hypothesis Hk : (2 <= k)%nat.
  Hypothesis Hev : Nat.Even k.
  Hypothesis Hk8 : fits8 k.

  Lemma led_values (g : nat -> nat -> nat -> flt) instants h w : balanced rnd g instants h w -> led (all_values g instants h w).
  Proof using.
    clear. intros D v Iv Nv. apply in_all_inv in Iv. destruct Iv as (t & r & c & Ht & Hr & Hc & ->).
    destruct (D t r c Ht Hr Hc Nv) as [S|(t' & r' & c' & Ht' & Hr' & Hc' & Nu & Le)]; [left; exact S|right].
    exists (g t' r' c'). split; [apply in_all_values; assumption|]. auto.
  Qed.

  (** The bits of the whole array: [asked] is ignored unless there is rounding. *)
  Lemma first_bits asked (l : list flt) : l <> [] -> (forall x, In x l -> storable rnd B x) -> led l -> (rnd <> None -> asked = B) ->
    exists bits, el_bits E asked l = Ok bits /\ forall x, In x l -> fgood bits x.
  Proof using Hp Hbig H53 HB Hrnd Hlg.
    intros Hl HS HD HA.
    destruct rnd_cases as [(b1 & Er)|Er].
    - rewrite (HA ltac:(rewrite Er; discriminate)). apply fgood_bits; [exact Hl| |exact HD].
      intros x Hx. split; [apply Nat.leb_le; exact HB|]. split; [apply HS, Hx|]. split; [apply Nat.le_refl|]. rewrite Er. left. reflexivity.
    - destruct (suggest_ok l Hl HS HD) as (s & Es & Hs). pose proof (suggest_bits lg l s Es) as S61.
      cbn [float_elem el_bits]. rewrite Es. cbn [bind]. assert (Et : round = false) by (rewrite Er; reflexivity). rewrite Et.
      destruct s as [c|c]; [|destruct Hs as (_ & X); congruence]. exists c. split; [reflexivity|].
      intros x Hx. split; [apply Nat.leb_le; exact S61|]. split; [apply HS, Hx|]. split; [apply Hs, Er|]. rewrite Er. apply Hs, Hx.
  Qed.

  Lemma balanced_root levels (g : nat -> nat -> nat -> flt) instants rows cols : balanced_tree rnd k lc levels g instants rows cols -> balanced rnd g instants rows cols.
  Proof using. clear. destruct levels; cbn [balanced_tree]; tauto. Qed.
  Lemma balanced_sub level sub (g : nat -> nat -> nat -> flt) instants rows cols : balanced_tree rnd k lc (level :: sub) g instants rows cols ->
    let side := (k ^ (lc (Nat.max rows cols) - level))%nat in
    forall i j, (i * side < rows)%nat -> (j * side < cols)%nat ->
      balanced_tree rnd k lc sub (tile_of g (i * side) (j * side)) instants (tile_h rows side i) (tile_h cols side j).
  Proof using. clear. cbn [balanced_tree]. intros (_ & H). exact H. Qed.
  Lemma balanced_ext (g g' : nat -> nat -> nat -> flt) n h w : (forall t r c, g t r c = g' t r c) -> balanced rnd g n h w -> balanced rnd g' n h w.
  Proof using.
    clear. intros E H t r c Ht Hr Hc. rewrite <- E. intros N. destruct (H t r c Ht Hr Hc N) as [S|(t' & r' & c' & S)]; [left; exact S|right].
    exists t', r', c'. rewrite <- E. exact S.
  Qed.

  Lemma tile_bits (g : nat -> nat -> nat -> flt) instants h w b0 : balanced rnd g instants h w ->
    (0 < instants)%nat -> (0 < h)%nat -> (0 < w)%nat -> all_good fgood b0 g instants h w ->
    exists b, el_bits E b0 (all_values g instants h w) = Ok b /\ all_good fgood b g instants h w.
  Proof using Hp Hbig H53 HB Hrnd Hlg.
    intros D H0 Hh Hw HG. destruct (fgood_bits b0 (all_values g instants h w)) as (b & Eb & G).
    - intros C. pose proof (in_all_values g instants 0 h w 0 0 H0 Hh Hw) as Hin. rewrite C in Hin. destruct Hin.
    - intros x Hx. apply in_all_inv in Hx. destruct Hx as (t & r & c & Ht & Hr' & Hc' & ->). apply HG; assumption.
    - apply led_values. exact D.
    - exists b. split; [exact Eb|]. intros t r c Ht Hr Hc. apply G, in_all_values; assumption.
  Qed.

  Theorem float_builds levels g instants rows cols bits st : (0 < instants)%nat -> levels_fit k lc levels rows cols ->
    balanced_tree rnd k lc levels g instants rows cols -> all_good fgood bits g instants rows cols ->
    exists st2 b, super_build hash E k lc levels g instants rows cols bits st = Ok (st2, b).
  Proof using Hp Hbig H53 HB Hrnd Hlg Hk.
    intros H0 HF HD HG.
    apply (super_builds_gen hash E k lc fgood Hk (float_single prec emax Hp He enc round lg)) with (KT := balanced_tree rnd k lc); try assumption.
    - intros b x G. cbn [float_elem el_fixed]. apply fgood_fixed. exact G.
    - apply fgood_minmax.
    - intros level sub g' n r c. apply balanced_sub.
    - intros levels' g' n h w b0 HK. apply tile_bits. exact (balanced_root _ _ _ _ _ HK).
  Qed.

  Lemma float_tiles levels g instants rows cols bits :
    (0 < instants)%nat -> (0 < rows)%nat -> (0 < cols)%nat -> all_good fgood bits g instants rows cols ->
    nan_safe_tree rnd k lc levels g instants rows cols -> balanced_tree rnd k lc levels g instants rows cols ->
    tiles_ok E fgood k lc levels g instants rows cols.
  Proof using Hp Hbig H53 HB Hrnd Hlg Hk.
    intros H0 Hr Hc HN HQ HD.
    apply (coded_tiles prec emax Hp He ltac:(clear -Hbig; lia) enc round lg fgood (fun b x H => proj1 H) rnd (storable rnd B))
      with (K := balanced rnd) (KT := balanced_tree rnd k lc); try assumption.
    - intros x Hx. apply (storable_proper B x Hx).
    - intros b' x G _. apply fgood_code. exact G.
    - intros b' x y v w Gx Gy _ _. apply fgood_diff; assumption.
    - exact fgood_same.
    - intros levels' g' n h w. apply balanced_root.
    - intros level sub g' n h w. apply balanced_sub.
    - intros t r c Ht Hr' Hc'. apply (HN t r c); assumption.
    - intros top lft h w b0 b' Hh' Hw' _ _ HK HG Eb.
      destruct (tile_bits (tile_of g top lft) instants h w b0 HK H0 Hh' Hw' HG) as (b2 & Eb2 & G2).
      rewrite Eb in Eb2. injection Eb2 as <-. exact G2.
    - intros g0 g' n h w. apply balanced_ext.
  Qed.

  Lemma float_view levels g instants rows cols bits st st2 b :
    (0 < instants)%nat -> (0 < rows)%nat -> (0 < cols)%nat -> sizes_ok k lc instants (Nat.max rows cols) ->
    all_good fgood bits g instants rows cols ->
    nan_safe_tree rnd k lc levels g instants rows cols -> balanced_tree rnd k lc levels g instants rows cols ->
    super_build hash E k lc levels g instants rows cols bits st = Ok (st2, b) ->
    wf_mm (mb_data b) /\ mm_encoding (mb_data b) = enc /\
    exists f, (forall t r c, (t < instants)%nat -> (r < rows)%nat -> (c < cols)%nat ->
        reads_back rnd (from_fixed (fst (f t r c)) (snd (f t r c))) (g t r c)) /\
      forall st', incl st2 st' -> functional st' -> view st' (S (length levels)) (mb_data b) instants rows cols f.
  Proof using Hp Hbig H53 HB Hrnd Hlg Hk Hk8 Hev Hhash.
    intros H0 Hr Hc HS HN HQ HD EB.
    destruct (super_build_view hash E k lc Hhash Hk Hk8 (float_single prec emax Hp He enc round lg)
      fgood (fun b x H => proj1 H) levels Hev g instants rows cols bits st st2 b H0 Hr Hc HS HN) as (HW & _ & Ee & f & Hf & HV); try assumption.
    - exact (float_tiles levels g instants rows cols bits H0 Hr Hc HN HQ HD).
    - split; [exact HW|]. split; [exact Ee|]. exists f. split; [|exact HV].
      intros t r c Ht Hr' Hc'. destruct (Hf t r c Ht Hr' Hc') as (Ef & Gf). exact (fgood_reads _ _ _ Gf Ef).
  Qed.

  (** The number of bits is computed, then the array is built, as for a chunk of
      a variable. *)
  Theorem float_chunk levels g instants rows cols asked st :
    (0 < instants)%nat -> (0 < rows)%nat -> (0 < cols)%nat -> sizes_ok k lc instants (Nat.max rows cols) ->
    levels_fit k lc levels rows cols -> (rnd <> None -> asked = B) ->
    (forall t r c, (t < instants)%nat -> (r < rows)%nat -> (c < cols)%nat -> storable rnd B (g t r c)) ->
    nan_safe_tree rnd k lc levels g instants rows cols -> balanced_tree rnd k lc levels g instants rows cols ->
    exists bits st2 b, el_bits E asked (all_values g instants rows cols) = Ok bits /\
      super_build hash E k lc levels g instants rows cols bits st = Ok (st2, b) /\
      wf_mm (mb_data b) /\ mm_encoding (mb_data b) = enc /\
      exists f, (forall t r c, (t < instants)%nat -> (r < rows)%nat -> (c < cols)%nat ->
          reads_back rnd (from_fixed (fst (f t r c)) (snd (f t r c))) (g t r c)) /\
        (forall st', incl st2 st' -> functional st' -> view st' (S (length levels)) (mb_data b) instants rows cols f) /\
        anchored st2 (NMM (mb_data b)) /\ grown st st2.
  Proof using Hp Hbig H53 HB Hrnd Hlg Hk Hk8 Hev Hhash.
    intros H0 Hr Hc HS HF HA HN HQ HD.
    destruct (first_bits asked (all_values g instants rows cols)) as (bits & Eb & HG); [| |apply led_values, (balanced_root levels), HD|exact HA|].
    { intros C. pose proof (in_all_values g instants 0 rows cols 0 0 H0 Hr Hc) as Hin. rewrite C in Hin. destruct Hin. }
    { intros x Hx. apply in_all_inv in Hx. destruct Hx as (t & r & c & Ht & Hr' & Hc' & ->). apply HN; assumption. }
    assert (HG' : all_good fgood bits g instants rows cols).
    { intros t r c Ht Hr' Hc'. apply HG, in_all_values; assumption. }
    destruct (float_builds levels g instants rows cols bits st H0 HF HD HG') as (st2 & b & EB).
    exists bits, st2, b. split; [exact Eb|]. split; [exact EB|].
    destruct (float_view levels g instants rows cols bits st st2 b H0 Hr Hc HS HG' HQ HD EB) as (HW & Ee & f & Hf & HV).
    split; [exact HW|]. split; [exact Ee|]. exists f. split; [exact Hf|]. split; [exact HV|].
    exact (super_build_written hash E k lc Hhash Hk Hk8 (float_single prec emax Hp He enc round lg) fgood (fun b x H => proj1 H) levels Hev
      g instants rows cols bits st st2 b H0 Hr Hc HS HG' (float_tiles levels g instants rows cols bits H0 Hr Hc HG' HQ HD) EB).
  Qed.
End Build.

(** Data without NaNs is not at risk. *)
Lemma nan_free_safe {prec emax} rnd k lc levels : (0 < k)%nat -> forall (g : nat -> nat -> nat -> binary_float prec emax) n h w,
  (forall t r c, (t < n)%nat -> (r < h)%nat -> (c < w)%nat -> is_nan (g t r c) = false) -> nan_safe_tree rnd k lc levels g n h w.
Proof.
  intros Hk. induction levels as [|level sub IH]; intros g n h w H; cbn [nan_safe_tree]; [exact I|]. cbv zeta.
  set (side := (k ^ (lc (Nat.max h w) - level))%nat). assert (Hs : (0 < side)%nat) by (apply Nat.neq_0_lt_0, Nat.pow_nonzero; lia).
  intros i j Hi Hj. split.
  - left. intros t Ht N. rewrite H in N by (auto; clear -Hi Hj Hs; lia). discriminate.
  - apply IH. intros t r c Ht Hr Hc. apply H; [exact Ht|clear -Hr; lia|clear -Hc; lia].
Qed.

(** Data without numbers below -1 is balanced. *)
Lemma value_above {prec emax} rnd (x : binary_float prec emax) : -1 <= B2R x -> Rabs (value_of rnd x) < 2 \/ 0 <= value_of rnd x.
Proof.
  intros H. pose proof (value_near prec emax rnd x) as V. destruct (Rle_lt_dec 0 (value_of rnd x)) as [P|N]; [right; exact P|left].
  rewrite Rabs_left by exact N. lra.
Qed.
Lemma above_balanced {prec emax} rnd k lc levels : forall (g : nat -> nat -> nat -> binary_float prec emax) n h w,
  (forall t r c, (t < n)%nat -> (r < h)%nat -> (c < w)%nat -> is_nan (g t r c) = false -> -1 <= B2R (g t r c)) -> balanced_tree rnd k lc levels g n h w.
Proof.
  assert (D : forall (g : nat -> nat -> nat -> binary_float prec emax) n h w,
    (forall t r c, (t < n)%nat -> (r < h)%nat -> (c < w)%nat -> is_nan (g t r c) = false -> -1 <= B2R (g t r c)) -> balanced rnd g n h w).
  { intros g n h w H t r c Ht Hr Hc N. destruct (value_above rnd _ (H t r c Ht Hr Hc N)) as [S|P]; [left; exact S|right].
    exists t, r, c. rewrite Rabs_pos_eq by exact P. split; [exact Ht|]. split; [exact Hr|]. split; [exact Hc|]. split; [exact N|apply Rle_refl]. }
  induction levels as [|level sub IH]; intros g n h w H; cbn [balanced_tree]; (split; [apply D, H|]); [exact I|]. cbv zeta.
  intros i j Hi Hj. apply IH. intros t r c Ht Hr Hc. apply H; unfold tile_h in *; [exact Ht|clear -Hr; lia|clear -Hc; lia].
Qed.
