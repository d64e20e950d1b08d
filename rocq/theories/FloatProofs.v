(** * Proofs about float buffers. *)
From Coq Require Import ZArith Reals Lra Psatz.
From Flocq Require Import Core.Core IEEE754.BinarySingleNaN.
From Verif Require Import Base BaseFacts FixedModel FixedProofs SuperModel SuperViews SuperProofs SuperInt FloatModel.
Open Scope R_scope.

(** ** The number that is stored, as a function of the exact scaled value *)
Definition phi (r : R) : Z := if Rle_dec r 0 then Ztrunc (2 * r) else (2 * ZnearestA r)%Z.

Lemma ZnearestA_le r s : r <= s -> (ZnearestA r <= ZnearestA s)%Z.
Proof. apply (@Zrnd_le _ valid_rnd_NA). Qed.
Lemma ZnearestA_IZR z : ZnearestA (IZR z) = z.
Proof. apply (@Zrnd_IZR _ valid_rnd_NA). Qed.
Lemma Ztrunc_nonpos r : r <= 0 -> (Ztrunc r <= 0)%Z.
Proof. intros H. rewrite <- (Ztrunc_IZR 0). apply Ztrunc_le. exact H. Qed.
Lemma ZnearestA_nonneg r : 0 <= r -> (0 <= ZnearestA r)%Z.
Proof. intros H. pose proof (ZnearestA_le (IZR 0) r H) as X. rewrite ZnearestA_IZR in X. exact X. Qed.

Lemma phi_mono r s : r <= s -> (phi r <= phi s)%Z.
Proof.
  intros H. unfold phi. destruct (Rle_dec r 0) as [Hr|Hr], (Rle_dec s 0) as [Hs|Hs].
  - apply Ztrunc_le. lra.
  - pose proof (Ztrunc_nonpos (2 * r) ltac:(lra)). pose proof (ZnearestA_nonneg s ltac:(lra)). lia.
  - lra.
  - pose proof (ZnearestA_le r s H). lia.
Qed.
Lemma phi_nonneg r : 0 <= r -> phi r = (2 * ZnearestA r)%Z /\ (0 <= phi r)%Z.
Proof.
  intros H. unfold phi. destruct (Rle_dec r 0) as [Hr|Hr].
  - assert (r = IZR 0) by (cbn; lra). subst r. rewrite ZnearestA_IZR, <- mult_IZR, Ztrunc_IZR. lia.
  - pose proof (ZnearestA_nonneg r H). lia.
Qed.

Lemma i64_add_1 z : i64_range z -> (z < 2 ^ 63 - 1)%Z -> i64_add z 1 = (z + 1)%Z.
Proof. intros H H1. unfold i64_add. apply wrap64_id. unfold i64_range, two63 in *. lia. Qed.
Lemma frac_pos r : IZR (Ztrunc r) < r -> 0 < r.
Proof.
  intros H. destruct (Rle_lt_dec r 0) as [N|P]; [|exact P]. rewrite Ztrunc_ceil in H by exact N.
  pose proof (Zceil_ub r). lra.
Qed.
Lemma not_frac_int r : 0 < r -> ~ (IZR (Ztrunc r) < r) -> r = IZR (Ztrunc r).
Proof. intros P N. pose proof (Zfloor_lb r). rewrite Ztrunc_floor in * by lra. lra. Qed.

Section Exact.
  Variables prec emax : Z.
  Context (Hp : Prec_gt_0 prec) (He : Prec_lt_emax prec emax).
  Hypothesis Hbig : (65 <= emax)%Z.
  Notation flt := (binary_float prec emax).
  Notation scaled n b := (B2R n * bpow radix2 (Z.of_nat b)).

  Lemma to_fixed_phi (n : flt) b round v : (b <= 61)%nat -> is_finite n = true -> to_fixed n b round = Ok v ->
    v = (phi (scaled n b) + 1)%Z /\ (- 2 ^ 63 <= phi (scaled n b) < 2 ^ 63 - 1)%Z /\ - bpow radix2 62 <= scaled n b /\
    (round = false -> 0 < scaled n b -> scaled n b = IZR (Ztrunc (scaled n b))).
  Proof using Hbig.
    intros Hb F H.
    destruct (to_fixed_scaled prec emax Hp He Hbig n b round v ltac:(lia) F H) as (x & Fx & Ex & Hs).
    rewrite <- Ex. set (r := B2R x) in *.
    destruct (Rlt_le_dec (IZR (Ztrunc r)) r) as [L|L].
    - pose proof (frac_pos r L) as P.
      destruct round; [|exfalso; rewrite (step_fract_panics prec emax Hp He Hbig x Fx L) in Hs; discriminate].
      assert (R : - bpow radix2 62 <= IZR (ZnearestA r) < bpow radix2 62).
      { unfold scaled_step in Hs. pose proof (fract_gt prec emax Hp He Hbig x Fx) as G.
        destruct (f_gt (f_fract x) (f_of_Z 0)); [|exfalso; apply G in L; discriminate].
        cbn [bind] in Hs. destruct (round_B2R prec emax He x) as (Er & Fr). rewrite Fx in Fr.
        destruct (double_to_i64 prec emax Hp He Hbig (f_round x) Fr) as (_ & D). rewrite Er in D.
        destruct (f_to_i64 (f_mul (f_round x) (f_of_Z 2))) as [z|]; [|discriminate]. apply (D z eq_refl). }
      destruct (step_rounds_ok prec emax Hp He Hbig x Fx L R) as (S & _). fold r in S. rewrite S in Hs. injection Hs as <-.
      assert (E : phi r = (2 * ZnearestA r)%Z) by (apply phi_nonneg; lra).
      rewrite E. pose proof (ZnearestA_nonneg r ltac:(lra)).
      assert (ZnearestA r < 2 ^ 62)%Z by (apply lt_IZR; rewrite IZR_pow2 by lia; apply R).
      split; [|split; [lia|split]].
      + apply i64_add_1; [unfold i64_range, two63|]; lia.
      + pose proof (bpow_gt_0 radix2 62). lra.
      + discriminate.
    - assert (NF : ~ (IZR (Ztrunc r) < r)) by lra.
      destruct (step_truncates prec emax Hp He Hbig x round v Fx NF Hs) as (-> & Hi & _ & R). fold r in R, Hi |- *.
      assert (E : phi r = Ztrunc (2 * r)).
      { unfold phi. destruct (Rle_dec r 0) as [N|P]; [reflexivity|].
        rewrite (not_frac_int r ltac:(lra) NF), ZnearestA_IZR, <- mult_IZR, Ztrunc_IZR. reflexivity. }
      assert (B : (phi r < 2 ^ 63 - 1)%Z).
      { destruct (Rle_lt_dec r 0) as [N|P].
        - pose proof (Ztrunc_nonpos (2 * r) ltac:(lra)). lia.
        - destruct (phi_nonneg r ltac:(lra)) as (E2 & _). unfold i64_range, two63 in Hi. lia. }
      rewrite <- E in *. split; [apply i64_add_1; assumption|].
      split; [unfold i64_range, two63 in Hi; lia|]. split; [apply R|]. intros _ P. apply not_frac_int; assumption.
  Qed.

  Lemma phi_to_fixed (n : flt) b round : (b <= 61)%nat -> is_finite n = true ->
    - bpow radix2 62 <= scaled n b -> (phi (scaled n b) < 2 ^ 63)%Z ->
    (round = false -> 0 < scaled n b -> scaled n b = IZR (Ztrunc (scaled n b))) ->
    to_fixed n b round = Ok (phi (scaled n b) + 1)%Z.
  Proof using Hbig.
    intros Hb F L U N. set (r := scaled n b) in *.
    assert (U' : 0 < r -> r <= bpow radix2 62 /\ IZR (ZnearestA r) < bpow radix2 62).
    { intros P. destruct (phi_nonneg r ltac:(lra)) as (E & _).
      assert (X : (ZnearestA r <= 2 ^ 62 - 1)%Z) by lia. apply IZR_le in X. rewrite minus_IZR, IZR_pow2 in X by lia.
      pose proof (Znearest_half (Z.leb 0) r) as H. apply Rabs_le_inv in H. lra. }
    pose proof (bpow_gt_0 radix2 62) as P62.
    assert (R : Rabs r <= bpow radix2 64).
    { apply Rle_trans with (bpow radix2 62); [|apply bpow_le; lia]. apply Rabs_le. split; [exact L|].
      destruct (Rle_lt_dec r 0) as [X|X]; [lra|apply U', X]. }
    destruct (scaled_to_fixed prec emax Hp He Hbig n b round ltac:(lia) F R) as (x & Fx & Ex & Hs). fold r in Ex.
    assert (G : exists v, to_fixed n b round = Ok v).
    { rewrite Hs. destruct (Rlt_le_dec (IZR (Ztrunc r)) r) as [Lt|Le].
      - pose proof (frac_pos r Lt) as P. destruct round; [|exfalso; specialize (N eq_refl P); lra].
        destruct (step_rounds_ok prec emax Hp He Hbig x Fx) as (S & _); [rewrite Ex; exact Lt| |eauto]. rewrite Ex.
        pose proof (ZnearestA_nonneg r ltac:(lra)) as Z0. apply IZR_le in Z0. split; [lra|apply U', P].
      - eexists. apply (step_truncates_ok prec emax Hp He Hbig x round Fx); rewrite Ex; [lra|]. split; [exact L|].
        destruct (Rle_lt_dec r 0) as [X|X]; [lra|]. rewrite (not_frac_int r X) by lra.
        rewrite <- (ZnearestA_IZR (Ztrunc r)), <- (not_frac_int r X) by lra. apply U', X. }
    destruct G as (v & G). rewrite G. destruct (to_fixed_phi n b round v Hb F G) as (-> & _). reflexivity.
  Qed.

  (** A value between two values that are stored as the same number is stored as that number. *)
  Lemma to_fixed_between (x y z : flt) b round v : (b <= 61)%nat ->
    is_finite x = true -> is_finite y = true -> is_finite z = true -> B2R x <= B2R y <= B2R z ->
    to_fixed x b round = Ok v -> to_fixed z b round = Ok v -> to_fixed y b round = Ok v.
  Proof using Hbig.
    intros Hb Fx Fy Fz Hxyz Ex Ez.
    destruct (to_fixed_phi x b round v Hb Fx Ex) as (E1 & R1 & L1 & N1).
    destruct (to_fixed_phi z b round v Hb Fz Ez) as (E2 & R2 & L2 & N2).
    pose proof (bpow_gt_0 radix2 (Z.of_nat b)) as Pb.
    assert (A1 : scaled x b <= scaled y b) by (apply Rmult_le_compat_r; lra).
    assert (A2 : scaled y b <= scaled z b) by (apply Rmult_le_compat_r; lra).
    pose proof (phi_mono _ _ A1) as M1. pose proof (phi_mono _ _ A2) as M2.
    assert (E : phi (scaled y b) = phi (scaled x b)) by lia.
    rewrite (phi_to_fixed y b round Hb Fy); [rewrite E, <- E1; reflexivity|lra|lia|].
    intros Hr P. specialize (N2 Hr ltac:(lra)).
    assert (P2 : (1 <= Ztrunc (scaled z b))%Z).
    { assert (0 < Ztrunc (scaled z b))%Z; [|lia]. apply lt_IZR. rewrite <- N2. lra. }
    assert (Ez2 : phi (scaled z b) = (2 * Ztrunc (scaled z b))%Z).
    { destruct (phi_nonneg (scaled z b) ltac:(lra)) as (Q & _). rewrite Q, N2 at 1. rewrite ZnearestA_IZR. reflexivity. }
    assert (Px : 0 < scaled x b).
    { destruct (Rle_lt_dec (scaled x b) 0) as [X|X]; [|exact X]. exfalso.
      assert (phi (scaled x b) <= 0)%Z; [|lia]. unfold phi. destruct (Rle_dec (scaled x b) 0); [|lra]. apply Ztrunc_nonpos. lra. }
    specialize (N1 Hr Px).
    assert (Ex2 : phi (scaled x b) = (2 * Ztrunc (scaled x b))%Z).
    { destruct (phi_nonneg (scaled x b) ltac:(lra)) as (Q & _). rewrite Q, N1 at 1. rewrite ZnearestA_IZR. reflexivity. }
    assert (Ztrunc (scaled x b) = Ztrunc (scaled z b)) by lia.
    assert (scaled y b = scaled z b). { rewrite N1, H, <- N2 in A1. lra. }
    rewrite H0. exact N2.
  Qed.

  (** Numbers that are stored as the same number have the same rounding, and are
      equal if they are not rounded. *)
  Lemma same_nearest (x y : flt) b round v : (b <= 61)%nat ->
    is_finite x = true -> is_finite y = true -> 0 <= B2R x -> 0 <= B2R y ->
    to_fixed x b round = Ok v -> to_fixed y b round = Ok v -> ZnearestA (scaled x b) = ZnearestA (scaled y b).
  Proof using Hbig.
    intros Hb Fx Fy Px Py Ex Ey.
    destruct (to_fixed_phi x b round v Hb Fx Ex) as (E1 & _). destruct (to_fixed_phi y b round v Hb Fy Ey) as (E2 & _).
    pose proof (bpow_gt_0 radix2 (Z.of_nat b)) as Pb.
    assert (Sx : 0 <= scaled x b) by (apply Rmult_le_pos; lra). assert (Sy : 0 <= scaled y b) by (apply Rmult_le_pos; lra).
    destruct (phi_nonneg _ Sx) as (Q1 & _). destruct (phi_nonneg _ Sy) as (Q2 & _). lia.
  Qed.
  Lemma same_exact (x y : flt) b v : (b <= 61)%nat ->
    is_finite x = true -> is_finite y = true -> 0 <= B2R x -> 0 <= B2R y ->
    to_fixed x b false = Ok v -> to_fixed y b false = Ok v -> B2R x = B2R y.
  Proof using Hbig.
    intros Hb Fx Fy Px Py Ex Ey. pose proof (same_nearest x y b false v Hb Fx Fy Px Py Ex Ey) as Z.
    destruct (to_fixed_phi x b false v Hb Fx Ex) as (_ & _ & _ & N1).
    destruct (to_fixed_phi y b false v Hb Fy Ey) as (_ & _ & _ & N2).
    pose proof (bpow_gt_0 radix2 (Z.of_nat b)) as Pb.
    assert (Sx : 0 <= scaled x b) by (apply Rmult_le_pos; lra). assert (Sy : 0 <= scaled y b) by (apply Rmult_le_pos; lra).
    assert (I : forall n : flt, 0 <= scaled n b -> (0 < scaled n b -> scaled n b = IZR (Ztrunc (scaled n b))) ->
                  scaled n b = IZR (ZnearestA (scaled n b))).
    { intros n Sn Nn. destruct (Rle_lt_dec (scaled n b) 0) as [L|L].
      - assert (scaled n b = IZR 0) by (cbn; lra). rewrite H, ZnearestA_IZR. reflexivity.
      - specialize (Nn L). rewrite Nn at 2. rewrite ZnearestA_IZR. exact Nn. }
    pose proof (I x Sx (N1 eq_refl)) as I1. pose proof (I y Sy (N2 eq_refl)) as I2.
    apply (Rmult_eq_reg_r (bpow radix2 (Z.of_nat b))); [|lra]. rewrite I1, I2, Z. reflexivity.
  Qed.

  Lemma nonneg_fixed (x : flt) b round v : (b <= 61)%nat -> is_finite x = true -> 0 <= B2R x ->
    to_fixed x b round = Ok v -> (1 <= v < 2 ^ 63)%Z.
  Proof using Hbig.
    intros Hb F P E. destruct (to_fixed_phi x b round v Hb F E) as (E1 & R & _).
    destruct (phi_nonneg (scaled x b)) as (_ & Q); [apply Rmult_le_pos; [exact P|apply bpow_ge_0]|]. lia.
  Qed.

  (** ** Minima and maxima *)
  Definition proper (v : flt) : Prop := is_nan v = true \/ is_finite v = true.
  Lemma finite_not_nan (v : flt) : is_finite v = true -> is_nan v = false.
  Proof using. clear. destruct v; cbn; congruence. Qed.
  Lemma lt_nan (v w : flt) : is_nan w = true -> f_lt v w = false.
  Proof using. clear. destruct w; try discriminate. intros _. destruct v; reflexivity. Qed.

  Lemma mm_nan_stays rest : forall (mn mx : flt), is_nan mn = true ->
    is_nan (fst (fold_left min_max_step rest (mn, mx))) = true.
  Proof using.
    clear. induction rest as [|n rest IH]; intros mn mx Hn; cbn [fold_left]; [exact Hn|]. cbn [min_max_step].
    destruct (is_nan n) eqn:E; [apply IH; exact E|]. rewrite lt_nan by exact Hn.
    destruct (f_gt n mx); apply IH; exact Hn.
  Qed.

  Lemma mm_max rest : forall (mn mx : flt), is_finite mx = true -> (forall v, In v rest -> proper v) ->
    let M := snd (fold_left min_max_step rest (mn, mx)) in is_finite M = true /\ In M (mx :: rest).
  Proof using.
    clear. induction rest as [|n rest IH]; intros mn mx F P; cbn [fold_left].
    - split; [exact F|left; reflexivity].
    - assert (G : forall mn', let M := snd (fold_left min_max_step rest (mn', mx)) in is_finite M = true /\ In M (mx :: n :: rest)).
      { intros mn'. destruct (IH mn' mx F (fun v i => P v (or_intror i))) as (A & B). split; [exact A|].
        destruct B as [B|B]; [left; exact B|right; right; exact B]. }
      cbn [min_max_step]. destruct (is_nan n) eqn:E; [apply G|]. destruct (f_lt n mn); [apply G|].
      destruct (f_gt n mx); [|apply G].
      assert (Fn : is_finite n = true) by (destruct (P n (or_introl eq_refl)); congruence).
      destruct (IH mn n Fn (fun v i => P v (or_intror i))) as (A & B). split; [exact A|]. right. exact B.
  Qed.

  Lemma mm_bounds rest : forall (mn mx : flt), is_finite mn = true -> is_finite mx = true -> B2R mn <= B2R mx ->
    (forall v, In v rest -> is_finite v = true) ->
    let p := fold_left min_max_step rest (mn, mx) in
    is_finite (fst p) = true /\ B2R (fst p) <= B2R mn /\ B2R mx <= B2R (snd p) /\
    forall v, In v rest -> B2R (fst p) <= B2R v <= B2R (snd p).
  Proof using.
    clear. induction rest as [|n rest IH]; intros mn mx F F' L P; cbn [fold_left fst snd].
    - split; [exact F|]. split; [lra|]. split; [lra|]. intros v [].
    - pose proof (P n (or_introl eq_refl)) as Fn. cbn [min_max_step]. rewrite (finite_not_nan n Fn).
      pose proof (lt_spec prec emax n mn Fn F) as S1. pose proof (gt_spec prec emax n mx Fn F') as S2.
      destruct (f_lt n mn); [|destruct (f_gt n mx)].
      + pose proof (proj1 S1 eq_refl) as X.
        destruct (IH n mx Fn F' ltac:(lra) (fun v i => P v (or_intror i))) as (A & B & C & D).
        split; [exact A|]. split; [lra|]. split; [lra|]. intros v [<-|I]; [lra|apply D, I].
      + pose proof (proj1 S2 eq_refl) as X.
        destruct (IH mn n F Fn ltac:(lra) (fun v i => P v (or_intror i))) as (A & B & C & D).
        split; [exact A|]. split; [lra|]. split; [lra|]. intros v [<-|I]; [lra|apply D, I].
      + assert (X1 : ~ B2R n < B2R mn) by (intros Y; apply S1 in Y; discriminate).
        assert (X2 : ~ B2R mx < B2R n) by (intros Y; apply S2 in Y; discriminate).
        destruct (IH mn mx F F' L (fun v i => P v (or_intror i))) as (A & B & C & D).
        split; [exact A|]. split; [lra|]. split; [lra|]. intros v [<-|I]; [lra|apply D, I].
  Qed.

  Lemma mm_nan_in rest : forall (mn mx : flt), (exists v, In v rest /\ is_nan v = true) ->
    is_nan (fst (fold_left min_max_step rest (mn, mx))) = true.
  Proof using.
    clear. induction rest as [|n rest IH]; intros mn mx (v & I & N); [destruct I|]. cbn [fold_left].
    destruct I as [->|I].
    - cbn [min_max_step]. rewrite N. apply mm_nan_stays. exact N.
    - destruct (min_max_step (mn, mx) n) as [mn' mx']. apply IH. eauto.
  Qed.

  Lemma nan_dec (l : list flt) : (forall v, In v l -> proper v) ->
    (forall v, In v l -> is_finite v = true) \/ exists v, In v l /\ is_nan v = true.
  Proof using.
    clear. induction l as [|n l IH]; intros P; [left; intros v []|].
    destruct (IH (fun v i => P v (or_intror i))) as [A|(v & I & N)].
    - destruct (P n (or_introl eq_refl)) as [N|F]; [right; exists n; split; [left; reflexivity|exact N]|].
      left. intros v [<-|I]; auto.
    - right. exists v. split; [right; exact I|exact N].
  Qed.

  (** What [min_max_float] finds. *)
  Lemma min_max_spec (l : list flt) mn mx : min_max_float l = Ok (mn, mx) -> (forall v, In v l -> proper v) ->
    (is_nan mn = true /\ is_nan mx = true /\ forall v, In v l -> is_nan v = true)
    \/ (is_finite mx = true /\ In mx l /\
        (is_nan mn = true
         \/ (is_finite mn = true /\ (forall v, In v l -> is_nan v = false -> B2R mn <= B2R v <= B2R mx)
             /\ forall first rest, l = first :: rest -> is_nan first = false -> forall v, In v l -> is_nan v = false))).
  Proof using.
    clear. destruct l as [|first values]; [discriminate|]. cbn [min_max_float].
    destruct (skip_nan prec emax first values) as (m, rest) eqn:E. intros H P. inversion H as [HM]. clear H.
    destruct (skip_nan_spec prec emax values first m rest E) as (A & B & C).
    destruct (is_nan m) eqn:Nm.
    - left. destruct (A eq_refl) as (-> & N & K). cbn [fold_left] in HM. injection HM as <- <-.
      split; [exact Nm|]. split; [exact Nm|]. intros v [<-|I]; [exact N|apply K, I].
    - right. assert (Fm : is_finite m = true) by (destruct (P m B) as [X|X]; [congruence|exact X]).
      assert (Sub : forall v, In v rest -> In v (first :: values)).
      { clear - E. revert first m rest E. induction values as [|n values IH]; intros first m rest E; cbn in E.
        - inversion E; subst. intros v [].
        - destruct (is_nan first).
          + intros v I. right. eapply IH; eassumption.
          + inversion E; subst. intros v I. right. exact I. }
      destruct (mm_max rest m m Fm (fun v i => P v (Sub v i))) as (M1 & M2). rewrite HM in M1, M2. cbn [snd] in M1, M2.
      split; [exact M1|]. split; [destruct M2 as [<-|M2]; [exact B|apply Sub, M2]|].
      destruct (nan_dec rest (fun v i => P v (Sub v i))) as [FR|NR].
      + right. destruct (mm_bounds rest m m Fm Fm ltac:(lra) FR) as (S1 & S2 & S3 & S4). rewrite HM in S1, S2, S3, S4. cbn [fst snd] in *.
        split; [exact S1|]. split.
        * intros v I Nv. destruct (C v I Nv) as [<-|I']; [lra|apply S4, I'].
        * intros first' rest' Eq Nf v I. injection Eq as <- <-.
          assert (X : m = first /\ rest = values).
          { destruct values as [|n values]; cbn [skip_nan] in E; [|rewrite Nf in E]; injection E as <- <-; split; reflexivity. }
          destruct X as (-> & ->). destruct I as [<-|I]; [exact Nf|apply finite_not_nan, FR, I].
      + left. pose proof (mm_nan_in rest m m NR) as X. rewrite HM in X. exact X.
  Qed.
End Exact.

(** ** The precision probe never asks for more than 61 bits *)
Lemma loop_bits {prec emax} (data : list (binary_float prec emax)) mfb : forall b0,
  match fraction_loop data mfb b0 with Precise b => (b <= Nat.max b0 mfb)%nat | Round b => b = mfb end.
Proof.
  induction data as [|n rest IH]; intros b0; cbn [fraction_loop]; [lia|].
  destruct (is_nan (to_f64 n)); [apply IH|].
  destruct (match Bcompare _ _ with Some Eq => false | _ => true end); [reflexivity|].
  destruct (b0 <? _)%nat.
  - specialize (IH (mfb - trailing_zeros (f_as_i64 (f_mul (to_f64 n) (f_of_Z (i64_shl1 mfb)))))%nat).
    destruct (fraction_loop rest mfb _); [lia|exact IH].
  - apply IH.
Qed.
Lemma suggest_bits {prec emax} lg (data : list (binary_float prec emax)) s : suggest_fraction lg data = Ok s ->
  match s with Precise b | Round b => (b <= 61)%nat end.
Proof.
  unfold suggest_fraction. intros H. apply bind_inv in H. destruct H as (m & _ & H).
  destruct (is_nan m); [injection H as <-; lia|]. apply bind_inv in H. destruct H as (mfb & E & H). injection H as <-.
  unfold usub in E. destruct (_ <=? 62)%nat; [|discriminate]. injection E as <-.
  pose proof (loop_bits data (62 - (1 + lg (to_f64 m)))%nat 0) as X.
  destruct (fraction_loop _ _ 0); lia.
Qed.

(** ** Float buffers as elements *)

(** A positive number is rounded to the nearest whole number (half up), a
    negative one towards zero to a half. *)
Definition round_value (r : R) : R := if Rle_dec r 0 then IZR (Ztrunc (2 * r)) / 2 else IZR (ZnearestA r).
Lemma round_value_phi r : round_value r = IZR (phi r) / 2.
Proof. unfold round_value, phi. destruct (Rle_dec r 0); [reflexivity|]. rewrite mult_IZR. lra. Qed.
(** What a number becomes when it is stored exactly, or rounded to [b] bits. *)
Definition value_of {prec emax} (round : option nat) (x : binary_float prec emax) : R :=
  match round with None => B2R x | Some b => round_value (B2R x * 2 ^ b) / 2 ^ b end.

(** A tile is not at risk from NaNs: at every instant where its first value is
    NaN all of it is NaN, or at some instant two numbers in it stay different. *)
Definition nan_safe {prec emax} (round : option nat) (g : nat -> nat -> nat -> binary_float prec emax) (instants h w : nat) : Prop :=
  ((forall t, t < instants -> is_nan (g t 0 0) = true -> forall r c, r < h -> c < w -> is_nan (g t r c) = true) \/
   exists t r c r' c', t < instants /\ r < h /\ c < w /\ r' < h /\ c' < w /\
     is_nan (g t r c) = false /\ is_nan (g t r' c') = false /\ value_of round (g t r c) <> value_of round (g t r' c'))%nat.
(** Every tile of the tree that levels make is not at risk. *)
Fixpoint nan_safe_tree {prec emax} (round : option nat) (k : nat) (lc : nat -> nat) (levels : list nat)
  (g : nat -> nat -> nat -> binary_float prec emax) (instants rows cols : nat) : Prop :=
  match levels with
  | [] => True
  | level :: sub =>
      let side := (k ^ (lc (Nat.max rows cols) - level))%nat in
      forall i j, (i * side < rows)%nat -> (j * side < cols)%nat ->
        let h := Nat.min side (rows - i * side) in let w := Nat.min side (cols - j * side) in
        let tile := fun t r c => g t (i * side + r)%nat (j * side + c)%nat in
        nan_safe round tile instants h w /\ nan_safe_tree round k lc sub tile instants h w
  end.

(** No number of a tile is further below zero than 2 and than the greatest number
    of the tile is above it, all as they are stored. *)
Definition balanced {prec emax} (round : option nat) (g : nat -> nat -> nat -> binary_float prec emax) (instants h w : nat) : Prop :=
  (forall t r c, t < instants -> r < h -> c < w -> is_nan (g t r c) = false ->
     (Rabs (value_of round (g t r c)) < 2)%R \/
     exists t' r' c', t' < instants /\ r' < h /\ c' < w /\ is_nan (g t' r' c') = false /\
       (Rabs (value_of round (g t r c)) <= value_of round (g t' r' c'))%R)%nat.
(** The whole array and every tile of the tree that levels make. *)
Fixpoint balanced_tree {prec emax} (round : option nat) (k : nat) (lc : nat -> nat) (levels : list nat)
  (g : nat -> nat -> nat -> binary_float prec emax) (instants rows cols : nat) : Prop :=
  balanced round g instants rows cols /\
  match levels with
  | [] => True
  | level :: sub =>
      let side := (k ^ (lc (Nat.max rows cols) - level))%nat in
      forall i j, (i * side < rows)%nat -> (j * side < cols)%nat ->
        let h := Nat.min side (rows - i * side) in let w := Nat.min side (cols - j * side) in
        balanced_tree round k lc sub (fun t r c => g t (i * side + r)%nat (j * side + c)%nat) instants h w
  end.

Section Elem.
  Variables prec emax : Z.
  Context (Hp : Prec_gt_0 prec) (He : Prec_lt_emax prec emax).
  Hypothesis Hbig : (65 <= emax)%Z.
  Notation flt := (binary_float prec emax).
  Variables (enc : ChunkModel.encoding) (round : bool) (lg : f64 -> nat).
  Notation E := (@float_elem prec emax Hp He enc round lg).

  Lemma float_single : single_ok E.
  Proof using.
    clear. intros b x a a' H. cbn [float_elem el_minmax min_max_float skip_nan fold_left bind fst snd] in H.
    apply bind_inv in H. destruct H as (u & E1 & H). rewrite E1 in H. cbn [bind] in H. congruence.
  Qed.

  Lemma fixed_range (v : flt) b z : (b <= 61)%nat -> proper prec emax v -> to_fixed v b round = Ok z -> i64_range z.
  Proof using Hbig.
    intros Hb [N|F] H.
    - unfold to_fixed in H. rewrite N in H. injection H as <-. unfold i64_range, two63. lia.
    - destruct (to_fixed_phi prec emax Hp He Hbig v b round z Hb F H) as (-> & R & _). unfold i64_range, two63. lia.
  Qed.

  Lemma nan_fixed (v : flt) b : is_nan v = true -> to_fixed v b round = Ok 0%Z.
  Proof using. clear. intros N. unfold to_fixed. rewrite N. reflexivity. Qed.

  Lemma minmax_inv b (l : list flt) a c : el_minmax E b l = Ok (a, c) ->
    exists mn mx, min_max_float l = Ok (mn, mx) /\ to_fixed mn b round = Ok a /\ to_fixed mx b round = Ok c.
  Proof using.
    clear. cbn [float_elem el_minmax]. intros H. apply bind_inv in H. destruct H as ([mn mx] & E0 & H).
    apply bind_inv in H. destruct H as (a' & E1 & H). apply bind_inv in H. destruct H as (c' & E2 & H). injection H as -> ->.
    exists mn, mx. auto.
  Qed.

  Lemma minmax_range b (l : list flt) a c : (b <= 61)%nat -> (forall v, In v l -> proper prec emax v) ->
    el_minmax E b l = Ok (a, c) -> i64_range a /\ i64_range c.
  Proof using Hbig.
    intros Hb P H. apply minmax_inv in H. destruct H as (mn & mx & E0 & E1 & E2).
    assert (proper prec emax mn /\ proper prec emax mx) as (P1 & P2).
    { unfold proper. destruct (min_max_spec prec emax l mn mx E0 P) as [(A & B & _)|(A & B & [C|(C & _)])]; auto. }
    exact (conj (fixed_range mn b a Hb P1 E1) (fixed_range mx b c Hb P2 E2)).
  Qed.

  (** A uniform instant without NaNs, or only of NaNs. *)
  Lemma uniform_plain b (l : list flt) m : (b <= 61)%nat ->
    ((forall v, In v l -> is_finite v = true) \/ (forall v, In v l -> is_nan v = true)) ->
    el_minmax E b l = Ok (m, m) -> forall v, In v l -> to_fixed v b round = Ok m.
  Proof using Hbig.
    intros Hb HC H v I. apply minmax_inv in H. destruct H as (mn & mx & E0 & E1 & E2).
    assert (P : forall v, In v l -> proper prec emax v) by (intros w J; unfold proper; destruct HC as [HC|HC]; auto).
    destruct (min_max_spec prec emax l mn mx E0 P) as [(A & B & C)|(A & B & D)].
    - rewrite (nan_fixed mn b A) in E1. rewrite (nan_fixed v b (C v I)). exact E1.
    - destruct HC as [HC|HC]; [|exfalso; specialize (HC mx B); rewrite (finite_not_nan _ _ mx A) in HC; congruence].
      destruct D as [D|(D1 & D2 & _)].
      + exfalso. (* the minimum of numbers is a number *)
        destruct l as [|first values]; [destruct I|]. cbn [min_max_float] in E0.
        destruct (skip_nan prec emax first values) as (m0, rest) eqn:Es. injection E0 as E0.
        destruct (skip_nan_spec prec emax values first m0 rest Es) as (_ & S2 & _).
        assert (Sub : forall u, In u rest -> In u (first :: values)).
        { assert (X : is_nan first = false) by (apply finite_not_nan, HC; left; reflexivity).
          destruct values as [|n values]; cbn [skip_nan] in Es; [|rewrite X in Es]; injection Es as <- <-; intros u J; [destruct J|right; exact J]. }
        destruct (mm_bounds prec emax rest m0 m0 (HC _ S2) (HC _ S2) ltac:(lra) (fun u J => HC u (Sub u J))) as (X & _).
        rewrite E0 in X. cbn [fst] in X. rewrite (finite_not_nan _ _ _ X) in D. discriminate.
      + pose proof (HC v I) as Fv. pose proof (D2 v I (finite_not_nan _ _ _ Fv)) as X.
        exact (to_fixed_between prec emax Hp He Hbig mn v mx b round m Hb D1 Fv A X E1 E2).
  Qed.

  Definition nonneg (v : flt) : Prop := is_nan v = true \/ (is_finite v = true /\ 0 <= B2R v).
  Lemma nonneg_proper v : nonneg v -> proper prec emax v.
  Proof using. clear. unfold nonneg, proper. tauto. Qed.

  (** If numbers are never stored as 0 the maximum is not, and the minimum is if
      it is a NaN: not uniform. *)
  Definition coded b (l : list flt) : Prop := forall v, In v l -> is_finite v = true -> to_fixed v b round <> Ok 0%Z.
  Lemma nonneg_coded b (l : list flt) : (b <= 61)%nat -> (forall v, In v l -> nonneg v) -> coded b l.
  Proof using Hbig.
    intros Hb P v I F E. destruct (P v I) as [X|(_ & X)]; [rewrite (finite_not_nan _ _ v F) in X; discriminate|].
    pose proof (nonneg_fixed prec emax Hp He Hbig v b round _ Hb F X E). lia.
  Qed.
  Lemma uniform_coded b (l : list flt) m first rest : (b <= 61)%nat -> (forall v, In v l -> proper prec emax v) -> coded b l ->
    l = first :: rest -> (is_nan first = true -> forall v, In v l -> is_nan v = true) ->
    el_minmax E b l = Ok (m, m) -> forall v, In v l -> to_fixed v b round = Ok m.
  Proof using Hbig.
    intros Hb P HN El HC H v I.
    destruct (is_nan first) eqn:Nf; [apply (uniform_plain b l m Hb); auto|].
    pose proof H as H'. apply minmax_inv in H'. destruct H' as (mn & mx & E0 & E1 & E2).
    destruct (min_max_spec prec emax l mn mx E0 P) as [(A & B & C)|(A & B & D)].
    - apply (uniform_plain b l m Hb); auto.
    - destruct D as [D|(D1 & D2 & D3)].
      + exfalso. rewrite (nan_fixed mn b D) in E1. injection E1 as <-. exact (HN mx B A E2).
      + apply (uniform_plain b l m Hb); auto. left. intros w J. specialize (D3 first rest El Nf w J).
        destruct (P w J) as [X|X]; [congruence|exact X].
  Qed.

  Lemma same_if_uniform b (l : list flt) m x y : (b <= 61)%nat -> (forall v, In v l -> proper prec emax v) -> coded b l ->
    In x l -> In y l -> is_nan x = false -> is_nan y = false ->
    el_minmax E b l = Ok (m, m) -> to_fixed x b round = Ok m /\ to_fixed y b round = Ok m.
  Proof using Hbig.
    intros Hb P HN Ix Iy Nx Ny H. apply minmax_inv in H. destruct H as (mn & mx & E0 & E1 & E2).
    destruct (min_max_spec prec emax l mn mx E0 P) as [(A & B & C)|(A & B & D)].
    - rewrite (C x Ix) in Nx. discriminate.
    - destruct D as [D|(D1 & D2 & _)].
      + exfalso. rewrite (nan_fixed mn b D) in E1. injection E1 as <-. exact (HN mx B A E2).
      + assert (F : forall v, In v l -> is_nan v = false -> is_finite v = true).
        { intros v J Nv. destruct (P v J) as [X|X]; [congruence|exact X]. }
        split; [exact (to_fixed_between prec emax Hp He Hbig mn x mx b round m Hb D1 (F x Ix Nx) A (D2 x Ix Nx) E1 E2)|].
        exact (to_fixed_between prec emax Hp He Hbig mn y mx b round m Hb D1 (F y Iy Ny) A (D2 y Iy Ny) E1 E2).
  Qed.

  Open Scope nat_scope.
  Lemma instant_cons (g : nat -> nat -> nat -> flt) t h w : 0 < h -> 0 < w ->
    exists rest, instant_values g t h w = g t 0 0 :: rest.
  Proof using.
    clear. intros Hh Hw. destruct h as [|h]; [lia|]. destruct w as [|w]; [lia|].
    unfold instant_values. cbn [seq list_prod map app]. eauto.
  Qed.

  (** What a tile of floats needs. *)
  Variable good : nat -> flt -> Prop.
  Hypothesis Hgood : forall b x, good b x -> bits_ok b.

  Lemma bits_61 b g instants h w : 0 < instants -> 0 < h -> 0 < w -> all_good good b g instants h w -> b <= 61.
  Proof using Hgood. clear -Hgood. intros H0 Hh Hw H. specialize (Hgood _ _ (H 0 0 0 H0 Hh Hw)). apply Nat.leb_le. exact Hgood. Qed.

  Lemma float_tile (g : nat -> nat -> nat -> flt) instants h w : 0 < instants -> 0 < h -> 0 < w ->
    (forall t r c, t < instants -> r < h -> c < w -> proper prec emax (g t r c)) ->
    (forall b m, b <= 61 -> all_good good b g instants h w ->
       (forall t, t < instants -> el_minmax E b (instant_values g t h w) = Ok (m t, m t)) ->
       forall t r c, t < instants -> r < h -> c < w -> to_fixed (g t r c) b round = Ok (m t)) ->
    (forall b0 b, all_good good b0 g instants h w -> el_bits E b0 (all_values g instants h w) = Ok b ->
       all_good good b g instants h w) ->
    (forall b s t r c x y, all_good good b g instants h w -> s < instants -> t < instants -> r < h -> c < w ->
       to_fixed (g s r c) b round = Ok x -> to_fixed (g t r c) b round = Ok y -> i64_range (y - x)) ->
    tile_ok E good g instants h w.
  Proof using Hbig Hgood.
    intros H0 Hh Hw P C B D. constructor.
    - intros b t mn mx Hb Ht H. apply (minmax_range b _ mn mx (bits_61 b g instants h w H0 Hh Hw Hb)) in H; [exact H|].
      intros v I. apply SuperInt.in_instant_inv in I. destruct I as (r & c & Hr & Hc & ->). auto.
    - intros b m Hb H. cbn [float_elem el_fixed]. apply C; [exact (bits_61 b g instants h w H0 Hh Hw Hb)|exact Hb|exact H].
    - intros b0 b Hb Eb. pose proof (B b0 b Hb Eb) as Hb'. split; [exact Hb'|]. intros X. split.
      + intros t r c Ht Hr Hc. specialize (X t r c Ht Hr Hc). cbn [float_elem el_fixed] in X.
        exact (fixed_range _ b _ (bits_61 b g instants h w H0 Hh Hw Hb') (P t r c Ht Hr Hc) X).
      + intros s t Hst Ht r c Hr Hc. pose proof (X s r c ltac:(lia) Hr Hc) as X1. pose proof (X t r c Ht Hr Hc) as X2.
        cbn [float_elem el_fixed] in X1, X2. eapply (D b s t r c); try eassumption. lia.
  Qed.

  (** [rnd] is what makes numbers different; good numbers that are stored as the
      same number are not different. [okv] says what the values are. *)
  Variables (rnd : option nat) (okv : flt -> Prop).
  Definition same_stored : Prop := forall b x y v, good b x -> good b y ->
    is_finite x = true -> is_finite y = true -> okv x -> okv y ->
    to_fixed x b round = Ok v -> to_fixed y b round = Ok v -> value_of rnd x = value_of rnd y.
  Hypothesis Hproper : forall x, okv x -> proper prec emax x.
  Hypothesis Hcode : forall b x, good b x -> okv x -> is_finite x = true -> to_fixed x b round <> Ok 0%Z.
  Hypothesis Hdiff : forall b x y v w, good b x -> good b y -> okv x -> okv y ->
    to_fixed x b round = Ok v -> to_fixed y b round = Ok w -> i64_range (w - v).

  Lemma coded_elide (g : nat -> nat -> nat -> flt) instants h w : same_stored -> 0 < h -> 0 < w ->
    (forall t r c, t < instants -> r < h -> c < w -> okv (g t r c)) -> nan_safe rnd g instants h w ->
    forall b m, b <= 61 -> all_good good b g instants h w ->
       (forall t, t < instants -> el_minmax E b (instant_values g t h w) = Ok (m t, m t)) ->
       forall t r c, t < instants -> r < h -> c < w -> to_fixed (g t r c) b round = Ok (m t).
  Proof using Hbig Hproper Hcode.
    clear Hdiff. intros HSt Hh Hw P S b m Hb HG H t r c Ht Hr Hc.
    assert (PV : forall t v, t < instants -> In v (instant_values g t h w) -> proper prec emax v).
    { intros t' v Ht' I. apply SuperInt.in_instant_inv in I. destruct I as (r' & c' & Hr' & Hc' & ->). auto. }
    assert (CV : forall t, t < instants -> coded b (instant_values g t h w)).
    { intros t' Ht' v I. apply SuperInt.in_instant_inv in I. destruct I as (r' & c' & Hr' & Hc' & ->). apply Hcode; auto. }
    destruct S as [S|(t' & r1 & c1 & r2 & c2 & Ht' & Hr1 & Hc1 & Hr2 & Hc2 & N1 & N2 & HA)].
    - destruct (instant_cons g t h w Hh Hw) as (rest & El).
      apply (uniform_coded b (instant_values g t h w) (m t) (g t 0 0) rest Hb (fun v => PV t v Ht) (CV t Ht) El).
      + intros N v I. apply SuperInt.in_instant_inv in I. destruct I as (r' & c' & Hr' & Hc' & ->). apply (S t Ht N); assumption.
      + auto.
      + apply in_instant_values; assumption.
    - exfalso. apply HA.
      destruct (same_if_uniform b (instant_values g t' h w) (m t') (g t' r1 c1) (g t' r2 c2) Hb (fun v => PV t' v Ht') (CV t' Ht')) as (X1 & X2);
        auto; try (apply in_instant_values; assumption).
      destruct (Hproper _ (P t' r1 c1 Ht' Hr1 Hc1)) as [X|F1]; [congruence|]. destruct (Hproper _ (P t' r2 c2 Ht' Hr2 Hc2)) as [X|F2]; [congruence|].
      exact (HSt b _ _ (m t') (HG t' r1 c1 Ht' Hr1 Hc1) (HG t' r2 c2 Ht' Hr2 Hc2) F1 F2 (P _ _ _ Ht' Hr1 Hc1) (P _ _ _ Ht' Hr2 Hc2) X1 X2).
  Qed.

  (** [K] is what a tile must satisfy for its bits to be good. *)
  Lemma coded_tiles k lc (K : (nat -> nat -> nat -> flt) -> nat -> nat -> nat -> Prop)
    (KT : list nat -> (nat -> nat -> nat -> flt) -> nat -> nat -> nat -> Prop) levels : same_stored ->
    (forall levels g instants rows cols, KT levels g instants rows cols -> K g instants rows cols) ->
    (forall level sub g instants rows cols, KT (level :: sub) g instants rows cols ->
       let side := k ^ (lc (Nat.max rows cols) - level) in
       forall i j, i * side < rows -> j * side < cols ->
         KT sub (tile_of g (i * side) (j * side)) instants (tile_h rows side i) (tile_h cols side j)) ->
    forall (g : nat -> nat -> nat -> flt) instants rows cols,
    2 <= k -> 0 < instants -> 0 < rows -> 0 < cols ->
    (forall t r c, t < instants -> r < rows -> c < cols -> okv (g t r c)) ->
    nan_safe_tree rnd k lc levels g instants rows cols ->
    KT levels g instants rows cols ->
    (forall top lft h w b0 b, 0 < h -> 0 < w -> top + h <= rows -> lft + w <= cols -> K (tile_of g top lft) instants h w ->
       all_good good b0 (tile_of g top lft) instants h w -> el_bits E b0 (all_values (tile_of g top lft) instants h w) = Ok b ->
       all_good good b (tile_of g top lft) instants h w) ->
    (forall g g' n h w, (forall t r c, g t r c = g' t r c) -> K g n h w -> K g' n h w) ->
    tiles_ok E good k lc levels g instants rows cols.
  Proof using Hbig Hgood Hproper Hcode Hdiff.
    intros HSt K1 K2. induction levels as [|level sub IH]; intros g instants rows cols Hk H0 Hrows Hcols P S KK B KX; cbn [tiles_ok]; [exact I|].
    cbn [nan_safe_tree] in S. pose proof (K2 level sub g instants rows cols KK) as K3. cbv zeta in S, K3 |- *. set (cs := k ^ (lc (Nat.max rows cols) - level)) in *.
    assert (Hcs : 0 < cs) by (assert (cs <> 0) by (apply Nat.pow_nonzero; clear -Hk; lia); clear -H; lia).
    intros i j Hi Hj. destruct (S i j Hi Hj) as (S1 & S2). specialize (K3 i j Hi Hj). clear S.
    change (Nat.min cs (rows - i * cs)) with (tile_h rows cs i) in S1, S2.
    change (Nat.min cs (cols - j * cs)) with (tile_h cols cs j) in S1, S2.
    change (fun t r c => g t (i * cs + r) (j * cs + c)) with (tile_of g (i * cs) (j * cs)) in S1, S2.
    pose proof (tile_h_pos _ _ _ Hcs Hi) as Hh. pose proof (tile_h_pos _ _ _ Hcs Hj) as Hw.
    pose proof (tile_h_in _ _ _ Hi) as Bi. pose proof (tile_h_in _ _ _ Hj) as Bj.
    assert (PT : forall t r c, t < instants -> r < tile_h rows cs i -> c < tile_h cols cs j -> okv (tile_of g (i * cs) (j * cs) t r c)).
    { intros t r c Ht Hr Hc. unfold tile_of. apply P; [exact Ht|clear -Hr Bi; lia|clear -Hc Bj; lia]. }
    split.
    - apply float_tile; try assumption.
      + intros t r c Ht Hr Hc. apply Hproper. auto.
      + apply coded_elide; assumption.
      + intros b0 b. apply B; try assumption. exact (K1 _ _ _ _ _ K3).
      + intros b s t r c x y HG Hs Ht Hr Hc Ex Ey. eapply Hdiff; [apply (HG s r c)|apply (HG t r c)|apply (PT s r c)|apply (PT t r c)|exact Ex|exact Ey]; assumption.
    - intros _. apply IH; try assumption.
      intros top lft h w b0 b Hh' Hw' Ht Hl.
      assert (X : forall t r c, tile_of (tile_of g (i * cs) (j * cs)) top lft t r c = tile_of g (i * cs + top) (j * cs + lft) t r c).
      { intros t r c. unfold tile_of. rewrite !Nat.add_assoc. reflexivity. }
      rewrite (all_values_ext _ (tile_of g (i * cs + top) (j * cs + lft))) by auto.
      intros HK HG Eb t r c Hti Hr Hc. rewrite X.
      assert (HG' : all_good good b0 (tile_of g (i * cs + top) (j * cs + lft)) instants h w).
      { intros t' r' c' A1 A2 A3. rewrite <- X. auto. }
      apply (B (i * cs + top) (j * cs + lft) h w b0 b Hh' Hw'); auto; try (clear - Ht Hl Bi Bj; lia).
      exact (KX _ _ _ _ _ X HK).
  Qed.

  Lemma finite_tiles k lc levels : forall (g : nat -> nat -> nat -> flt) instants rows cols,
    2 <= k -> 0 < instants -> 0 < rows -> 0 < cols ->
    (forall t r c, t < instants -> r < rows -> c < cols -> is_finite (g t r c) = true) ->
    (forall b0 b x l, good b0 x -> el_bits E b0 l = Ok b -> good b x) ->
    (forall b s t r c x y, s < instants -> t < instants -> r < rows -> c < cols ->
       good b (g s r c) -> good b (g t r c) ->
       to_fixed (g s r c) b round = Ok x -> to_fixed (g t r c) b round = Ok y -> i64_range (y - x)) ->
    tiles_ok E good k lc levels g instants rows cols.
  Proof using Hbig Hgood.
    induction levels as [|level sub IH]; intros g instants rows cols Hk H0 Hrows Hcols P B D; cbn [tiles_ok]; [exact I|].
    cbv zeta. set (cs := k ^ (lc (Nat.max rows cols) - level)) in *.
    assert (Hcs : 0 < cs) by (assert (cs <> 0) by (apply Nat.pow_nonzero; clear -Hk; lia); clear -H; lia).
    intros i j Hi Hj.
    pose proof (tile_h_pos _ _ _ Hcs Hi) as Hh. pose proof (tile_h_pos _ _ _ Hcs Hj) as Hw.
    pose proof (tile_h_in _ _ _ Hi) as Bi. pose proof (tile_h_in _ _ _ Hj) as Bj.
    assert (PT : forall t r c, t < instants -> r < tile_h rows cs i -> c < tile_h cols cs j -> is_finite (tile_of g (i * cs) (j * cs) t r c) = true).
    { intros t r c Ht Hr Hc. unfold tile_of. apply P; [exact Ht|clear -Hr Bi; lia|clear -Hc Bj; lia]. }
    assert (DT : forall b s t r c x y, s < instants -> t < instants -> r < tile_h rows cs i -> c < tile_h cols cs j ->
      good b (tile_of g (i * cs) (j * cs) s r c) -> good b (tile_of g (i * cs) (j * cs) t r c) ->
      to_fixed (tile_of g (i * cs) (j * cs) s r c) b round = Ok x -> to_fixed (tile_of g (i * cs) (j * cs) t r c) b round = Ok y ->
      i64_range (y - x)).
    { intros b s t r c x y Hs Ht Hr Hc. unfold tile_of. apply D; try assumption; [clear -Hr Bi; lia|clear -Hc Bj; lia]. }
    split.
    - apply float_tile; try assumption.
      + intros t r c Ht Hr Hc. right. auto.
      + intros b m Hb _ H t r c Ht Hr Hc. apply (uniform_plain b (instant_values (tile_of g (i * cs) (j * cs)) t (tile_h rows cs i) (tile_h cols cs j)) (m t) Hb).
        * left. intros v J. apply SuperInt.in_instant_inv in J. destruct J as (r' & c' & Hr' & Hc' & ->). auto.
        * auto.
        * apply in_instant_values; assumption.
      + intros b0 b HG Eb t r c Ht Hr Hc. eapply B; [apply HG; assumption|exact Eb].
      + intros b s t r c x y HG Hs Ht Hr Hc Ex Ey. eapply (DT b s t r c); eauto.
    - intros _. apply IH; assumption.
  Qed.
End Elem.

Section Nonneg.
  Variables prec emax : Z.
  Context (Hp : Prec_gt_0 prec) (He : Prec_lt_emax prec emax).
  Hypothesis Hbig : (65 <= emax)%Z.
  Notation flt := (binary_float prec emax).
  Variables (enc : ChunkModel.encoding) (round : bool) (lg : f64 -> nat).
  Notation E := (@float_elem prec emax Hp He enc round lg).
  Variable good : nat -> flt -> Prop.
  Hypothesis Hgood : forall b x, good b x -> bits_ok b.
  Open Scope nat_scope.

  Lemma nonneg_tiles rnd k lc levels : same_stored prec emax Hp He round good rnd (nonneg prec emax) ->
    forall (g : nat -> nat -> nat -> flt) instants rows cols,
    2 <= k -> 0 < instants -> 0 < rows -> 0 < cols ->
    (forall t r c, t < instants -> r < rows -> c < cols -> nonneg prec emax (g t r c)) ->
    nan_safe_tree rnd k lc levels g instants rows cols ->
    (forall top lft h w b0 b, 0 < h -> 0 < w -> top + h <= rows -> lft + w <= cols ->
       all_good good b0 (tile_of g top lft) instants h w -> el_bits E b0 (all_values (tile_of g top lft) instants h w) = Ok b ->
       all_good good b (tile_of g top lft) instants h w) ->
    tiles_ok E good k lc levels g instants rows cols.
  Proof using Hbig Hgood.
    intros HSt g instants rows cols Hk H0 Hr Hc P S B.
    assert (B61 : forall b x, good b x -> b <= 61) by (intros b x H; apply Nat.leb_le; exact (Hgood b x H)).
    apply (coded_tiles prec emax Hp He Hbig enc round lg good Hgood rnd (nonneg prec emax)) with (K := fun _ _ _ _ => True) (KT := fun _ _ _ _ _ => True); auto.
    - apply nonneg_proper.
    - intros b x G N F. apply (nonneg_coded prec emax Hp He Hbig round b [x]); [exact (B61 b x G)|intros v [<-|[]]; exact N|left; reflexivity|exact F].
    - assert (Q : forall b x z, good b x -> nonneg prec emax x -> to_fixed x b round = Ok z -> (0 <= z < 2 ^ 63)%Z).
      { intros b x z G [N|(F & Pos)] Ez.
        - rewrite (nan_fixed _ _ _ _ round x b N) in Ez. injection Ez as <-. lia.
        - pose proof (nonneg_fixed prec emax Hp He Hbig _ b round z (B61 b x G) F Pos Ez). lia. }
      intros b x y v w Gx Gy Nx Ny Ex Ey. pose proof (Q b x v Gx Nx Ex). pose proof (Q b y w Gy Ny Ey). unfold i64_range, two63. lia.
    - intros top lft h w b0 b Hh Hw Ht Hl _. apply B; assumption.
  Qed.
End Nonneg.
