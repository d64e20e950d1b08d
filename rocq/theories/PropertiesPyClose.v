(** * Property C44 for float coordinates whose numbers are rounded *)
From Verif Require Import Base BaseFacts FixedModel GeomModel BitmapModel DacModel StreamModel ChunkModel NodeModel SuperModel ArrayModel FloatModel
  DatasetModel RangeModel PyModel PropertiesPython PropertiesPyExact.
From Coq Require Import Reals Lra.
From Flocq Require Import Core.Core IEEE754.BinarySingleNaN.
From Verif Require Import RangeClose PropertiesRange PropertiesClose.
Open Scope nat_scope.

(** The shape is that of the array, or its one axis is longer by one. *)
Definition maybe_one_more {A B} (y : nd A) (a : nd B) : Prop :=
  nd_shape y = nd_shape a \/ exists k, nd_shape a = [k] /\ nd_shape y = [S k].

(** Slices cut to the length that was asked for. *)
Definition cut {A} (slice : nat -> nat -> res (list A)) (a b : nat) : res (list A) := l <- slice a b ;; Ok (firstn (b - a) l).
Lemma cut_back {A} (get : nat -> res A) slice len d i y :
  (forall a b l, slice a b = Ok l -> a < b -> length l = b - a \/ length l = S (b - a)) ->
  (forall n, len = Ok n -> selects n i) ->
  (exists n, len = Ok n) ->
  coord_getitem get (cut slice) len d i = Value y ->
  exists y', coord_getitem get slice len d i = Value y' /\ maybe_one_more y' y /\ forall p, Forall2 lt p (nd_shape y) -> nd_at y' p = nd_at y p.
Proof.
  intros HS HI (n & Hn) H. specialize (HI n Hn). destruct i as [z|start stop step]; cbn [coord_getitem] in *.
  { exists y. split; [exact H|]. split; [left; reflexivity|auto]. }
  destruct step as [step|]; [discriminate|]. rewrite Hn in *. cbn [selects] in HI. destruct HI as (_ & HI).
  apply obind_value in H. destruct H as (q & Eq & H). rewrite Eq. cbn [PyModel.obind].
  apply obind_value in H. destruct H as (a & Ea & H). rewrite Ea. cbn [PyModel.obind].
  apply obind_value in H. destruct H as (b & Eb & H). rewrite Eb. cbn [PyModel.obind].
  apply obind_value in H. destruct H as (l & El & H). apply of_res_value in El. unfold cut in El. apply bind_inv in El. destruct El as (l' & El & E2).
  injection E2 as <-. injection H as <-. rewrite El. cbn [of_res PyModel.obind]. exists (nd_list d l'). split; [reflexivity|].
  assert (AB : a < b).
  { apply as_usize_value in Ea, Eb. destruct Ea as (a' & Ea & La & ->), Eb as (b' & Eb & Lb & ->).
    assert (a' = or_default start 0%Z) as -> by (destruct start; cbn [or_default]; congruence).
    assert (b' = or_default stop (Z.of_nat n)) as -> by (destruct stop; cbn [or_default of_res PyModel.obind] in *; congruence). lia. }
  specialize (HS a b l' El AB). split.
  - unfold maybe_one_more. cbn [nd_list nd_shape]. rewrite firstn_length. destruct HS as [->| ->]; [left; f_equal; lia|]. right. exists (b - a). split; f_equal; lia.
  - cbn [nd_list nd_shape nd_at]. intros p Hp. inversion Hp as [|j ? p' ? Hj Hp']; subst. inversion Hp'; subst. rewrite firstn_length in Hj.
    rewrite <- (firstn_skipn (b - a) l') at 1. apply app_nth1. rewrite firstn_length. exact Hj.
Qed.

(** ** C44: any float coordinate whose numbers stay apart

    [M] bounds the coordinate, as in C32_float_slice_close_partial. The answer is, up to rounding, that of
    the array of real numbers; a slice may have one element more. *)
Theorem C44_float_close_partial : forall prec emax (Hp : Prec_gt_0 prec) (He : Prec_lt_emax prec emax)
    (r : float_range prec emax) M d i, (65 <= emax)%Z -> (4 <= prec <= 63)%Z ->
  spans r (fr_steps r) M -> (32 * bpow radix2 (- prec) * M <= Rabs (B2R (fr_step r)))%R ->
  inside (fr_steps r) i -> no_step i ->
  exists y a, coord_getitem (float_get r) (float_slice r) (Ok (fr_steps r)) d i = Value y /\
    np_getitem (mkNd [fr_steps r] (fun p => exact_at r (hd 0%nat p))) [i] = Some a /\ maybe_one_more y a /\
    forall p, Forall2 lt p (nd_shape a) -> close_to (8 * bpow radix2 (- prec) * M) (nd_at y p) (nd_at a p).
Proof.
  intros prec emax Hp He r M d i Hx Hq HS HW HI HN.
  assert (HP : (Z.of_nat (fr_steps r) <= 2 ^ prec)%Z).
  { destruct HS as (_ & _ & _ & D & L & _). exact (proj2 (reach prec emax Hq r M L HW (fr_steps r) D)). }
  assert (H64 : (Z.of_nat (fr_steps r) < 2 ^ 64)%Z).
  { apply Z.le_lt_trans with (2 ^ prec)%Z; [exact HP|]. apply Z.pow_lt_mono_r; lia. }
  assert (M0 : (0 < M)%R) by (destruct HS as (_ & _ & _ & _ & L & _); eapply Rlt_le_trans; [apply bpow_gt_0|exact L]).
  assert (G : exists y a, coord_getitem (float_get r) (cut (float_slice r)) (Ok (fr_steps r)) d i = Value y /\
    np_getitem (mkNd [fr_steps r] (fun p => exact_at r (hd 0%nat p))) [i] = Some a /\ alike (close_to (8 * bpow radix2 (- prec) * M)) y a).
  { apply (line_agrees (float_get r) (cut (float_slice r)) (Ok (fr_steps r)) d (fr_steps r) (exact_at r) (close_to (8 * bpow radix2 (- prec) * M))); [exact H64|exact HI| | |].
    - destruct i as [|? [] []]; auto.
    - intros j Hj. destruct (C32_float_get_close_partial prec emax Hp He r M j Hx Hq) as (x & E & F & C); [eapply spans_le; [|exact HS]; lia|lia|exact Hj|].
      exists x. split; [exact E|]. split; [exact F|]. eapply Rle_trans; [exact C|].
      assert (U : (0 < bpow radix2 (- prec) * M)%R) by (apply Rmult_lt_0_compat; [apply bpow_gt_0|exact M0]). rewrite !Rmult_assoc. lra.
    - intros a b Hab Hb. destruct (C32_float_slice_close_partial prec emax Hp He r M a b Hx Hq) as (l & E & L & C); [eapply spans_le; [|exact HS]; lia|exact HW|exact Hab|exact Hb|].
      exists (firstn (b - a) l). unfold cut. rewrite E. cbn [bind]. split; [reflexivity|]. split; [rewrite firstn_length; lia|].
      intros k x K. apply C. rewrite <- (firstn_skipn (b - a) l). rewrite nth_error_app1; [exact K|]. apply nth_error_Some. congruence. }
  destruct G as (y & a & E & N & Sh & C).
  assert (SEL : selects (fr_steps r) i) by (destruct i as [|s e st]; cbn [inside selects] in *; [auto|]; destruct HI as (I1 & I2 & I3); split; [exact I1|lia]).
  destruct (cut_back (float_get r) (float_slice r) (Ok (fr_steps r)) d i y) as (y' & E' & O & V); [| |eauto|exact E|].
  - intros a0 b0 l Es Hab.
    assert (Hb : 0 < b0 <= fr_steps r).
    { unfold float_slice in Es. apply bind_inv in Es. destruct Es as (k & Ek & Es). apply bind_inv in Es. destruct Es as (u & Es & _).
      apply usub_inv in Ek. apply range_bounds_inv in Es. lia. }
    destruct (C32_float_slice_close_partial prec emax Hp He r M a0 b0 Hx Hq) as (l2 & E2 & L & _); [eapply spans_le; [|exact HS]; lia|exact HW|lia|exact Hb|].
    rewrite Es in E2. injection E2 as <-. exact L.
  - intros n Hn. injection Hn as <-. exact SEL.
  - exists y', a. split; [exact E'|]. split; [exact N|]. split.
    + unfold maybe_one_more in *. rewrite <- Sh. exact O.
    + intros p Hp'. rewrite V by (rewrite Sh; exact Hp'). apply C. rewrite Sh. exact Hp'.
Qed.

(** Longitudes from -180 in steps of 0.3, none of which but the first is exact. *)
Example C44_float_close_example : spans longitudes (fr_steps longitudes) 361 /\ (32 * bpow radix2 (- 53) * 361 <= Rabs (B2R (fr_step longitudes)))%R /\
  inside (fr_steps longitudes) (PSlice (Some 100%Z) None None) /\ no_step (PSlice (Some 100%Z) None None).
Proof.
  destruct C32_float_close_example as (A & B & _). split; [exact A|]. split; [exact B|]. split; [|exact Logic.I].
  cbn [inside or_default longitudes fr_steps]. split; [reflexivity|]. lia.
Qed.

Print Assumptions C44_float_close_partial.
