(** * Chunks of each type of variable: when they can be built, and what they keep *)
From Coq Require Import ZArith Reals Lra.
From Flocq Require Import Core.Core IEEE754.BinarySingleNaN.
From Verif Require Import Base BaseFacts Spec GeomModel GeomProofs BitmapModel DacModel StreamModel StreamProofs FixedModel FixedProofs ChunkModel ChunkStream ChunkReads
  NodeModel NodeProofs SuperModel SuperViews SuperProofs SuperInt ArrayModel ArrayProofs FloatModel FloatProofs FloatBuild DatasetModel DatasetProofs AppendProofs HistoryModel
  PropertiesLog PropertiesSuper PropertiesReads PropertiesFixed SuperLinks DetProofs FloatDet PruneProofs.
Ltac Zify.zify_post_hook ::= Z.div_mod_to_equations.
Arguments Nat.pow : simpl never.
Open Scope nat_scope.

(** ** Searchable data depend on the values only *)
Lemma all_equal_ext g g' rows cols v : (forall r c, r < rows -> c < cols -> g r c = g' r c) -> all_equal g rows cols v -> all_equal g' rows cols v.
Proof. intros He H r c Hr Hc. rewrite <- He by assumption. apply H; assumption. Qed.
Lemma uniform_ext g g' rows cols : (forall r c, r < rows -> c < cols -> g r c = g' r c) -> uniform_raster g rows cols -> uniform_raster g' rows cols.
Proof. intros He (v & H). exists v. eapply all_equal_ext; eassumption. Qed.
Lemma searchable_ext gs gt gs' gt' rows cols : (forall r c, r < rows -> c < cols -> gs r c = gs' r c) ->
  (forall r c, r < rows -> c < cols -> gt r c = gt' r c) -> searchable gs gt rows cols -> searchable gs' gt' rows cols.
Proof.
  intros Hs Ht (H1 & H2 & H3 & H4).
  assert (Hs' : forall r c, r < rows -> c < cols -> gs' r c = gs r c) by (intros; symmetry; auto).
  assert (Ht' : forall r c, r < rows -> c < cols -> gt' r c = gt r c) by (intros; symmetry; auto).
  split; [|split; [|split]].
  - intros v H. destruct (H1 v) as [U|(L & r & c & R & C & E)]; [eapply all_equal_ext; [exact Ht'|exact H]| |].
    + left. eapply uniform_ext; [exact Hs|exact U].
    + right. split; [|exists r, c; rewrite <- Hs by assumption; auto]. intros a b A B. rewrite <- Hs by assumption. apply L; assumption.
  - intros v A B. apply H2; [eapply uniform_ext; [exact Hs'|exact A]|eapply all_equal_ext; [exact Ht'|exact B]].
  - intros v A B. apply H3; [eapply all_equal_ext; [exact Hs'|exact A]|]. intros C. apply B. eapply uniform_ext; [exact Ht|exact C].
  - intros v A B. apply H4.
    + intros r c Hr Hc. rewrite (Hs r c Hr Hc), (Ht r c Hr Hc). apply A; assumption.
    + intros C. apply B. eapply uniform_ext; [exact Ht|exact C].
Qed.
Lemma leaves_searchable_ext k lc levels : forall g g' instants rows cols,
  (forall t r c, t < instants -> r < rows -> c < cols -> g t r c = g' t r c) ->
  leaves_searchable k lc levels g instants rows cols -> leaves_searchable k lc levels g' instants rows cols.
Proof.
  induction levels as [|level sub IH]; intros g g' instants rows cols He; cbn [leaves_searchable]; [trivial|].
  set (side := k ^ (lc (Nat.max rows cols) - level)). intros H i j Hi Hj. specialize (H i j Hi Hj). cbv zeta in *.
  set (h := Nat.min side (rows - i * side)) in *. set (w := Nat.min side (cols - j * side)) in *.
  assert (He' : forall t r c, t < instants -> r < h -> c < w -> g t (i * side + r) (j * side + c) = g' t (i * side + r) (j * side + c)).
  { intros t r c Ht Hr Hc. apply He; [exact Ht| |]; unfold h, w in *; clear -Hr Hc Hi Hj; lia. }
  clearbody h w. destruct H as [H|H]; [left|right].
  - intros t Ht. destruct (H t Ht) as (v & Hv). exists v. intros r c Hr Hc. rewrite <- He' by assumption. apply Hv; assumption.
  - destruct (is_leaf lc sub h w).
    + intros s t Hst Ht. eapply searchable_ext; [| |apply (H s t Hst Ht)]; intros r c Hr Hc; cbn beta; apply He'; auto; lia.
    + eapply IH; [|exact H]. exact He'.
Qed.

Lemma int_data_ext enc R g g' n rows cols : (forall t r c, t < n -> r < rows -> c < cols -> g t r c = g' t r c) ->
  int_data enc R g n rows cols -> int_data enc R g' n rows cols.
Proof.
  intros He [(A1 & A2 & A3 & A4)|(A1 & A2 & A3)]; [left|right]; (split; [exact A1|]); (split; [exact A2|]).
  - split.
    + intros t r c Ht Hr Hc. rewrite <- He by assumption. apply A3; assumption.
    + intros s t Hst Ht r c Hr Hc. rewrite <- !He by (assumption || lia). apply A4; assumption.
  - intros t r c Ht Hr Hc. rewrite <- He by assumption. apply A3; assumption.
Qed.
Lemma int_data_le enc R g n n' rows cols : n' <= n -> int_data enc R g n rows cols -> int_data enc R g n' rows cols.
Proof.
  intros Hn [(A1 & A2 & A3 & A4)|(A1 & A2 & A3)]; [left|right]; (split; [exact A1|]); (split; [exact A2|]).
  - split.
    + intros t r c Ht. apply A3. lia.
    + intros s t Hst Ht. apply A4; lia.
  - intros t r c Ht. apply A3. lia.
Qed.

(** ** Floats *)

(** Rounding again changes nothing. *)
Lemma round_value_again r : round_value (round_value r) = round_value r.
Proof.
  unfold round_value at 2. destruct (Rle_dec r 0) as [N|P].
  - set (z := Ztrunc (2 * r)). assert (Z0 : (z <= 0)%Z) by (apply Ztrunc_nonpos; lra).
    assert (I : (IZR z <= 0)%R) by (apply IZR_le; exact Z0). unfold round_value.
    destruct (Rle_dec (IZR z / 2) 0) as [_|X]; [|exfalso; clear -X I; lra].
    replace (2 * (IZR z / 2))%R with (IZR z) by field. rewrite Ztrunc_IZR.
    unfold round_value. destruct (Rle_dec r 0) as [_|X]; [reflexivity|contradiction].
  - assert (E : round_value r = IZR (ZnearestA r)) by (unfold round_value; destruct (Rle_dec r 0); [contradiction|reflexivity]).
    rewrite E. unfold round_value. destruct (Rle_dec (IZR (ZnearestA r)) 0).
    + rewrite <- mult_IZR, Ztrunc_IZR, mult_IZR. field.
    + f_equal. apply ZnearestA_IZR.
Qed.
(** A rounded number is not larger, and not in the gap. *)
Lemma round_value_range r : (1 - 2 ^ 61 <= r <= 2 ^ 61)%R -> ~ (-1 < r <= - / 2)%R ->
  (1 - 2 ^ 61 <= round_value r <= 2 ^ 61)%R /\ ~ (-1 < round_value r <= - / 2)%R.
Proof.
  intros U G. assert (P61 : (2 ^ 61 = IZR (2 ^ 61))%R) by (rewrite pow2_bpow, IZR_pow2 by lia; reflexivity).
  assert (B61 : (1 <= IZR (2 ^ 61))%R) by (apply IZR_le; lia). rewrite P61 in *.
  unfold round_value. destruct (Rle_dec r 0) as [N|P].
  - rewrite Ztrunc_ceil by lra. pose proof (Zceil_ub (2 * r)) as C1. pose proof (Zceil_lb (2 * r)) as C2.
    assert (Z0 : (Zceil (2 * r) <= 0)%Z) by (apply Zceil_glb; lra). pose proof (IZR_le _ _ Z0) as R0.
    split; [lra|]. intros X. destruct (Rlt_le_dec r (-1)) as [L|L].
    + assert (Z2 : (Zceil (2 * r) <= -2)%Z) by (apply Zceil_glb; lra). apply IZR_le in Z2. lra.
    + destruct (Rlt_le_dec (-1) r) as [L'|L']; [|assert (Z2 : (Zceil (2 * r) <= -2)%Z) by (apply Zceil_glb; lra); apply IZR_le in Z2; lra].
      assert (Q : (- / 2 < r)%R) by lra. assert (Z2 : (-2 < 2 * Zceil (2 * r))%Z) by (apply lt_IZR; rewrite mult_IZR; lra).
      assert (Z3 : (0 <= Zceil (2 * r))%Z) by lia. apply IZR_le in Z3. lra.
  - assert (Z0 : (0 <= ZnearestA r)%Z) by (apply ZnearestA_nonneg; lra). apply IZR_le in Z0.
    assert (Z1 : (ZnearestA r <= 2 ^ 61)%Z) by (rewrite <- (@Zrnd_IZR _ valid_rnd_NA (2 ^ 61)%Z); apply (@Zrnd_le _ valid_rnd_NA); lra).
    apply IZR_le in Z1. split; lra.
Qed.

Section Floats.
  Context {prec emax : Z}.
  Notation flt := (binary_float prec emax).
  Variable round : option nat.

  (** A number that can be rounded. *)
  Definition small (x : flt) : Prop :=
    is_finite x = true /\
    match round with Some b => (1 - 2 ^ 61 <= B2R x * 2 ^ b <= 2 ^ 61)%R /\ ~ (-1 < B2R x * 2 ^ b <= - / 2)%R | None => True end.
  (** Values that read back as the same. *)
  Definition same_float (x y : flt) : Prop :=
    (is_nan x = true /\ is_nan y = true) \/ (small x /\ small y /\ value_of round x = value_of round y).

  Lemma small_nan x : small x -> is_nan x = false.
  Proof. intros (F & _). apply finite_not_nan. exact F. Qed.
  Lemma same_float_sym x y : same_float x y -> same_float y x.
  Proof. intros [(A & B)|(A & B & C)]; [left|right]; auto. Qed.
  Lemma same_float_trans x y z : same_float x y -> same_float y z -> same_float x z.
  Proof.
    intros [(A & B)|(A & B & C)] [(D & E)|(D & E & F)].
    - left. auto.
    - apply small_nan in D. congruence.
    - apply small_nan in B. congruence.
    - right. split; [exact A|]. split; [exact E|]. congruence.
  Qed.
  Lemma same_float_nan x y : same_float x y -> is_nan x = is_nan y.
  Proof. intros [(A & B)|(A & B & _)]; [congruence|]. rewrite (small_nan _ A), (small_nan _ B). reflexivity. Qed.
  Lemma same_float_value x y : same_float x y -> is_nan x = false -> value_of round x = value_of round y.
  Proof. intros [(A & B)|(_ & _ & C)] N; [congruence|exact C]. Qed.

  Lemma storable_small B x : (forall b, round = Some b -> B = b) -> storable round B x -> is_nan x = true \/ small x.
  Proof.
    intros HB [N|(F & U & P)]; [left; exact N|right]. split; [exact F|].
    destruct round as [b|]; [|exact I]. rewrite <- (HB b eq_refl). auto.
  Qed.
  Lemma storable_same B x y : (forall b, round = Some b -> B = b) -> same_float x y -> storable round B x -> storable round B y.
  Proof.
    intros HB [(A & E)|((F & _) & (F' & U') & E)] S; [left; exact E|right].
    split; [exact F'|]. destruct S as [N|(_ & P & U)].
    - apply finite_not_nan in F. congruence.
    - destruct round as [b|]; [rewrite (HB b eq_refl); exact U'|].
      cbn [value_of] in E. rewrite <- E. split; assumption.
  Qed.
  Lemma storable_refl B x : (forall b, round = Some b -> B = b) -> storable round B x -> same_float x x.
  Proof. intros HB S. destruct (storable_small B x HB S) as [N|N]; [left|right]; auto. Qed.

  Lemma reads_same x y : reads_back round x y -> is_nan y = true \/ small y -> same_float x y.
  Proof.
    unfold reads_back. intros H [N|S].
    - rewrite N in H. left. auto.
    - rewrite (small_nan _ S) in H. destruct H as (F & E). right. split; [|split; [exact S|]].
      + split; [exact F|]. destruct S as (_ & S). destruct round as [b|]; [|exact I]. cbn [value_of] in E. destruct S as (U & G).
        replace (B2R x * 2 ^ b)%R with (round_value (B2R y * 2 ^ b)) by (rewrite E; field; apply pow_nonzero; lra).
        apply round_value_range; assumption.
      + destruct S as (_ & S). destruct round as [b|]; [|exact E]. cbn [value_of] in *. f_equal.
        replace (B2R x * 2 ^ b)%R with (round_value (B2R y * 2 ^ b)) by (rewrite E; field; apply pow_nonzero; lra).
        apply round_value_again.
  Qed.
  Lemma reads_trans x y y' : reads_back round x y -> same_float y y' -> reads_back round x y'.
  Proof.
    unfold reads_back. intros H S. rewrite <- (same_float_nan _ _ S). destruct (is_nan y) eqn:N; [exact H|].
    rewrite <- (same_float_value _ _ S N). exact H.
  Qed.

  Variables (rows cols : nat) (lc : nat -> nat).
  (** A chunk of floats that can be stored (C19): with some number of bits, the
      given one if there is rounding, all values can be stored, no sub-array is at
      risk from NaNs (C22), and all are balanced ([balanced], FloatProofs.v). *)
  Definition float_data (levels : list nat) (g : nat -> nat -> nat -> flt) (n : nat) : Prop :=
    exists B, B <= 61 /\ (forall b, round = Some b -> B = b) /\
      (forall t r c, t < n -> r < rows -> c < cols -> storable round B (g t r c)) /\
      nan_safe_tree round 2 lc levels g n rows cols /\ balanced_tree round 2 lc levels g n rows cols.
  Lemma nan_safe_same (g g' : nat -> nat -> nat -> flt) n h w : 0 < h -> 0 < w -> same same_float h w g g' n ->
    nan_safe round g n h w -> nan_safe round g' n h w.
  Proof.
    intros Hh Hw HS [H|(t & r & c & r' & c' & Ht & H1 & H2 & H3 & H4 & N1 & N2 & NE)]; [left|right].
    - intros t Ht N r c Hr Hc. rewrite <- (same_float_nan _ _ (HS t r c Ht Hr Hc)). apply H; auto.
      rewrite (same_float_nan _ _ (HS t 0 0 Ht Hh Hw)). exact N.
    - exists t, r, c, r', c'. do 5 (split; [assumption|]).
      rewrite <- (same_float_nan _ _ (HS t r c Ht H1 H2)), <- (same_float_nan _ _ (HS t r' c' Ht H3 H4)).
      split; [exact N1|]. split; [exact N2|].
      rewrite <- (same_float_value _ _ (HS t r c Ht H1 H2) N1), <- (same_float_value _ _ (HS t r' c' Ht H3 H4) N2). exact NE.
  Qed.
  Lemma nan_safe_tree_same levels : forall (g g' : nat -> nat -> nat -> flt) n h w, same same_float h w g g' n ->
    nan_safe_tree round 2 lc levels g n h w -> nan_safe_tree round 2 lc levels g' n h w.
  Proof.
    induction levels as [|level sub IH]; intros g g' n h w HS; cbn [nan_safe_tree]; [trivial|]. cbv zeta.
    set (side := 2 ^ (lc (Nat.max h w) - level)). assert (Hs : 0 < side) by (apply Nat.neq_0_lt_0, Nat.pow_nonzero; lia).
    intros H i j Hi Hj. destruct (H i j Hi Hj) as (H1 & H2).
    assert (HS' : same same_float (Nat.min side (h - i * side)) (Nat.min side (w - j * side))
      (fun t r c => g t (i * side + r) (j * side + c)) (fun t r c => g' t (i * side + r) (j * side + c)) n).
    { intros t r c Ht Hr Hc. apply HS; [exact Ht|clear -Hr; lia|clear -Hc; lia]. }
    split; [|eapply IH; eassumption]. eapply nan_safe_same; [| |exact HS'|exact H1]; clear -Hi Hj Hs; lia.
  Qed.
  Lemma balanced_same (g g' : nat -> nat -> nat -> flt) n h w : same same_float h w g g' n ->
    balanced round g n h w -> balanced round g' n h w.
  Proof.
    intros HS H t r c Ht Hr Hc N. rewrite <- (same_float_nan _ _ (HS t r c Ht Hr Hc)) in N.
    rewrite <- (same_float_value _ _ (HS t r c Ht Hr Hc) N).
    destruct (H t r c Ht Hr Hc N) as [S|(t' & r' & c' & Ht' & Hr' & Hc' & N' & Le)]; [left; exact S|right].
    exists t', r', c'. rewrite <- (same_float_nan _ _ (HS t' r' c' Ht' Hr' Hc')), <- (same_float_value _ _ (HS t' r' c' Ht' Hr' Hc') N'). auto.
  Qed.
  Lemma balanced_tree_same levels : forall (g g' : nat -> nat -> nat -> flt) n h w, same same_float h w g g' n ->
    balanced_tree round 2 lc levels g n h w -> balanced_tree round 2 lc levels g' n h w.
  Proof.
    induction levels as [|level sub IH]; intros g g' n h w HS; cbn [balanced_tree].
    - intros (H & _). split; [eapply balanced_same; eassumption|exact I].
    - intros (H & HT). split; [eapply balanced_same; eassumption|]. cbv zeta in *.
      set (side := 2 ^ (lc (Nat.max h w) - level)) in *. intros i j Hi Hj. eapply IH; [|apply HT; assumption].
      intros t r c Ht Hr Hc. apply HS; unfold tile_h in *; [exact Ht|clear -Hr; lia|clear -Hc; lia].
  Qed.
  Lemma float_data_same levels g g' n : same same_float rows cols g g' n -> float_data levels g n -> float_data levels g' n.
  Proof.
    intros HS (B & HB & Hb & H1 & H2 & H3). exists B. split; [exact HB|]. split; [exact Hb|]. split; [|split].
    - intros t r c Ht Hr Hc. eapply storable_same; [exact Hb|apply HS; assumption|auto].
    - eapply nan_safe_tree_same; eassumption.
    - eapply balanced_tree_same; eassumption.
  Qed.

End Floats.

(** ** All types *)

(** What is read, [x], for what was written, [y]: the same integer; for floats see
    [reads_back] (FloatBuild.v): NaN for NaN, and otherwise the number itself, or its
    nearest multiple of [2^-b] if the variable rounds to [b] bits. *)
Definition kept (t : vtype) (round : option nat) : carrier t -> carrier t -> Prop :=
  match t with I32 | I64 => eq | F32 | F64 => reads_back round end.

(** A chunk that can be built: integers whose differences fit ([int_data],
    PropertiesSuper.v), floats that can be stored and are not at risk from NaNs. *)
Definition chunk_fits (lc : nat -> nat) (rows cols : nat) (t : vtype) (round : option nat) (levels : list nat) :
    (nat -> nat -> nat -> carrier t) -> nat -> Prop :=
  match t with
  | I32 => fun g n => int_data EncI32 reader_i32 g n rows cols
  | I64 => fun g n => int_data EncI64 reader_i64 g n rows cols
  | F32 | F64 => float_data round rows cols lc levels
  end.

(** Values that read back as the same, of those that can be stored. *)
Definition same_of (t : vtype) (round : option nat) : carrier t -> carrier t -> Prop :=
  match t with I32 | I64 => eq | F32 | F64 => same_float round end.

Lemma same_of_sym t round x y : same_of t round x y -> same_of t round y x.
Proof. destruct t; cbn; try apply eq_sym; apply same_float_sym. Qed.
Lemma same_of_trans t round x y z : same_of t round x y -> same_of t round y z -> same_of t round x z.
Proof. destruct t; cbn; try apply eq_trans; apply same_float_trans. Qed.
Lemma kept_same t round x y y' : kept t round x y -> same_of t round y y' -> kept t round x y'.
Proof. destruct t; cbn; try apply eq_trans; apply reads_trans. Qed.
Lemma chunk_fits_same lc rows cols t round levels g g' n : same (same_of t round) rows cols g g' n ->
  chunk_fits lc rows cols t round levels g n -> chunk_fits lc rows cols t round levels g' n.
Proof. destruct t; cbn; try apply int_data_ext; apply float_data_same. Qed.
Lemma chunk_fits_refl lc rows cols t round levels g n : chunk_fits lc rows cols t round levels g n -> same (same_of t round) rows cols g g n.
Proof.
  destruct t; cbn; try (intros _ s r c _ _ _; reflexivity); intros (B & _ & Hb & H & _) s r c Hs Hr Hc; eapply storable_refl; eauto.
Qed.
Lemma chunk_fits_kept lc rows cols t round levels g n s r c x : chunk_fits lc rows cols t round levels g n ->
  s < n -> r < rows -> c < cols -> kept t round x (g s r c) -> same_of t round x (g s r c).
Proof.
  destruct t; cbn; auto; intros (B & _ & Hb & H & _) Hs Hr Hc HK; (eapply reads_same; [exact HK|]); eapply storable_small; eauto.
Qed.

Section Chunks.
  Variables (hash : bytes -> cid) (lc : nat -> nat) (lg : f64 -> nat) (rows cols : nat) (levels : list nat) (round : option nat).
  Hypothesis Hhash : forall b, wf_cid (hash b).
  Hypothesis Hlg : log2_accurate lg.
  Hypothesis Hr : 0 < rows.
  Hypothesis Hc : 0 < cols.
  Hypothesis Hfit : levels_fit 2 lc levels rows cols.

  (** Variables that keep values exactly. *)
  Definition exact_type (t : vtype) : Prop := match t with I32 | I64 => True | F32 | F64 => round = None end.
  (** If the variable keeps values exactly, a chunk that was built from [g] is the one
      that the encoder makes of [g], whatever the store. *)
  Definition made (t : vtype) (g : nat -> nat -> nat -> carrier t) (n : nat) (m : mmstruct) : Prop :=
    exact_type t -> exists bits b, el_bits (dt_elem (dt_of lg t) round) (dt_bits (dt_of lg t) round) (all_values g n rows cols) = Ok bits /\
      outcome (super_build hash (dt_elem (dt_of lg t) round) 2 lc levels g n rows cols bits []) = Ok b /\ m = mb_data b.
  Lemma exact_zeros prec emax (x y : binary_float prec emax) : round = None -> same_float round x y -> zero_sign x y.
  Proof.
    intros -> [(A & B)|((F & _) & (F' & _) & E)]; [left|apply same_number; assumption].
    destruct x; try discriminate. destruct y; try discriminate. reflexivity.
  Qed.
  Lemma made_alike t g g' n st st' bits : exact_type t -> same (same_of t round) rows cols g g' n ->
    el_bits (dt_elem (dt_of lg t) round) (dt_bits (dt_of lg t) round) (all_values g n rows cols) =
      el_bits (dt_elem (dt_of lg t) round) (dt_bits (dt_of lg t) round) (all_values g' n rows cols) /\
    outcome (super_build hash (dt_elem (dt_of lg t) round) 2 lc levels g n rows cols bits st) =
      outcome (super_build hash (dt_elem (dt_of lg t) round) 2 lc levels g' n rows cols bits st').
  Proof using Hlg.
    intros X HS. destruct t; cbn [exact_type] in X.
    - split; [reflexivity|]. apply int_alike. exact HS.
    - split; [reflexivity|]. apply int_alike. exact HS.
    - assert (HZ : forall s r c, s < n -> r < rows -> c < cols -> zero_sign (g s r c) (g' s r c)) by (intros; apply exact_zeros; [exact X|apply HS; assumption]).
      split; [apply bits_zeros; [exact Hlg|]; apply values_alike; exact HZ|]. apply float_alike; [exact Hlg|exact HZ].
    - assert (HZ : forall s r c, s < n -> r < rows -> c < cols -> zero_sign (g s r c) (g' s r c)) by (intros; apply exact_zeros; [exact X|apply HS; assumption]).
      split; [apply bits_zeros; [exact Hlg|]; apply values_alike; exact HZ|]. apply float_alike; [exact Hlg|exact HZ].
  Qed.
  Lemma made_same t g g' n m : same (same_of t round) rows cols g g' n -> made t g n m -> made t g' n m.
  Proof using Hlg.
    intros HS HM X. destruct (HM X) as (bits & b & E1 & E2 & E3). destruct (made_alike t g g' n [] [] bits X HS) as (A1 & A2).
    exists bits, b. rewrite <- A1, <- A2. auto.
  Qed.
  Lemma made_built t g n st bits st2 b : same (same_of t round) rows cols g g n ->
    el_bits (dt_elem (dt_of lg t) round) (dt_bits (dt_of lg t) round) (all_values g n rows cols) = Ok bits ->
    super_build hash (dt_elem (dt_of lg t) round) 2 lc levels g n rows cols bits st = Ok (st2, b) -> made t g n (mb_data b).
  Proof using Hlg.
    intros HS E1 E2 X. exists bits, b. split; [exact E1|]. split; [|reflexivity].
    rewrite <- (proj2 (made_alike t g g n st [] bits X HS)), E2. reflexivity.
  Qed.
  (** There is one. *)
  Lemma made_one t g g' n m m' : exact_type t -> same (same_of t round) rows cols g g' n -> made t g n m -> made t g' n m' -> m = m'.
  Proof using Hlg.
    intros X HS H H'. destruct (made_same t g g' n m HS H X) as (bits & b & E1 & E2 & ->). destruct (H' X) as (bits' & b' & E1' & E2' & ->). congruence.
  Qed.

  (** What is known of a chunk that was built from [g]. *)
  Definition chunk_V (t : vtype) (g : nat -> nat -> nat -> carrier t) (st : store) (n : nat) (m : mmstruct) : Prop :=
    (exists f, view st (S (length levels)) m n rows cols f /\
      forall s r c, s < n -> r < rows -> c < cols ->
        kept t round (rd_set (reader_of t) (snd (f s r c)) (fst (f s r c))) (g s r c) /\
        same_of t round (rd_set (reader_of t) (snd (f s r c)) (fst (f s r c))) (g s r c)) /\
    match t return (nat -> nat -> nat -> carrier t) -> Prop with
    | I32 | I64 => fun g => (leaves_searchable 2 lc levels g n rows cols -> sview st (S (length levels)) m n rows cols g) /\ prunes st m n rows cols g
    | F32 | F64 => fun _ => True
    end g /\
    made t g n m.

  Lemma chunk_V_same t g g' st n m : same (same_of t round) rows cols g g' n -> chunk_V t g st n m -> chunk_V t g' st n m.
  Proof using Hlg.
    intros HS ((f & V & HP) & S & HM). split; [|split; [|eapply made_same; eassumption]].
    - exists f. split; [exact V|]. intros s r c Hs Hr' Hc'. destruct (HP s r c Hs Hr' Hc') as (K1 & K2).
      pose proof (HS s r c Hs Hr' Hc') as K3. split; [eapply kept_same; eassumption|eapply same_of_trans; eassumption].
    - destruct t; try exact I; destruct S as [S P]; (split; [|eapply prunes_ext; [exact HS|exact P]]);
        intros HL; (eapply sview_ext; [|apply S; eapply leaves_searchable_ext; [|exact HL]]; [exact HS|]);
        intros s r c Hs Hr' Hc'; symmetry; apply HS; assumption.
  Qed.

  Lemma int_build t g n st : 1 <= n -> sizes_ok 2 lc n (Nat.max rows cols) -> match t with I32 | I64 => True | _ => False end ->
    chunk_fits lc rows cols t round levels g n ->
    exists st2 b bits, el_bits (dt_elem (dt_of lg t) round) (dt_bits (dt_of lg t) round) (all_values g n rows cols) = Ok bits /\
      super_build hash (dt_elem (dt_of lg t) round) 2 lc levels g n rows cols bits st = Ok (st2, b) /\
      incl st st2 /\ (anchored st2 (NMM (mb_data b)) /\ grown st st2) /\ mm_shape (mb_data b) = Ok (n, rows, cols) /\
      forall st', incl st2 st' -> functional st' -> chunk_V t g st' n (mb_data b).
  Proof using Hhash Hlg Hr Hc Hfit.
    intros Hn HS.
    assert (G : forall enc R (g : nat -> nat -> nat -> Z), int_data enc R g n rows cols ->
      exists st2 b, super_build hash (int_elem enc) 2 lc levels g n rows cols 0 st = Ok (st2, b) /\
        incl st st2 /\ (anchored st2 (NMM (mb_data b)) /\ grown st st2) /\ mm_shape (mb_data b) = Ok (n, rows, cols) /\
        forall st', incl st2 st' -> functional st' ->
          (exists f, view st' (S (length levels)) (mb_data b) n rows cols f /\
            forall s r c, s < n -> r < rows -> c < cols -> rd_set R (snd (f s r c)) (fst (f s r c)) = g s r c) /\
          (leaves_searchable 2 lc levels g n rows cols -> sview st' (S (length levels)) (mb_data b) n rows cols g) /\ prunes st' (mb_data b) n rows cols g).
    { clear g. intros enc R g HD. destruct (int_data_wide _ _ _ _ _ _ HD) as (Hi & Hd & He & Hset).
      destruct (super_builds hash enc 2 lc (le_n 2) levels g n rows cols 0 st) as (st2 & b & E); [clear -Hn; lia|exact Hfit|exact Hi|].
      destruct (int_view hash enc R 2 lc levels g n rows cols st st2 b Hhash (le_n 2) (ex_intro _ 1 eq_refl) eq_refl ltac:(clear -Hn; lia) Hr Hc HS HD E)
        as (HW & _ & f & _ & Hf & HV).
      exists st2, b. split; [exact E|]. split; [eapply super_build_incl; [|exact E]; apply le_n|].
      split; [exact (super_build_written hash (int_elem enc) 2 lc Hhash (le_n 2) eq_refl (int_single enc) int_good int_good_ok levels (ex_intro _ 1 eq_refl) g n rows cols
        0 st st2 b ltac:(clear -Hn; lia) Hr Hc HS (int_all_good 0 _ _ _ _ eq_refl) (int_tiles_ok enc 2 lc _ g n rows cols Hi Hd) E)|].
      split; [eapply super_build_shape; [|exact E]; apply le_n|].
      intros st' HI HF. split; [exists f; split; [apply HV; assumption|exact Hf]|].
      split.
      - intros HL. exact (super_build_sview hash enc 2 lc Hhash (le_n 2) eq_refl levels (ex_intro _ 1 eq_refl) g n rows cols 0 st st2 b
          ltac:(clear -Hn; lia) Hr Hc HS eq_refl Hi Hd HL E st' HI HF).
      - exact (super_build_prunes hash enc 2 lc Hhash (le_n 2) eq_refl levels (ex_intro _ 1 eq_refl) g n rows cols 0 st st2 b
          ltac:(clear -Hn; lia) Hr Hc HS eq_refl Hi Hd E st' HI HF). }
    destruct t; intros Ht HD; try destruct Ht;
      destruct (G _ _ g HD) as (st2 & b & E & H1 & H2 & H3 & H4); exists st2, b, 0;
      (split; [reflexivity|]); (split; [exact E|]); do 3 (split; [assumption|]); intros st' HI HF;
      destruct (H4 st' HI HF) as ((f & V & HP) & S); (split; [|split; [exact S|]]).
    1, 3: exists f; (split; [exact V|]); intros s r c Hs Hr' Hc'; split; apply HP; assumption.
    - apply (made_built I32 g n st 0 st2 b); [intros s r c _ _ _; reflexivity|reflexivity|exact E].
    - apply (made_built I64 g n st 0 st2 b); [intros s r c _ _ _; reflexivity|reflexivity|exact E].
  Qed.

  Lemma float_build t g n st : 1 <= n -> sizes_ok 2 lc n (Nat.max rows cols) -> match t with F32 | F64 => True | _ => False end ->
    chunk_fits lc rows cols t round levels g n ->
    exists st2 b bits, el_bits (dt_elem (dt_of lg t) round) (dt_bits (dt_of lg t) round) (all_values g n rows cols) = Ok bits /\
      super_build hash (dt_elem (dt_of lg t) round) 2 lc levels g n rows cols bits st = Ok (st2, b) /\
      incl st st2 /\ (anchored st2 (NMM (mb_data b)) /\ grown st st2) /\ mm_shape (mb_data b) = Ok (n, rows, cols) /\
      forall st', incl st2 st' -> functional st' -> chunk_V t g st' n (mb_data b).
  Proof using Hhash Hlg Hr Hc Hfit.
    intros Hn HS.
    assert (G : forall prec emax (Hp : Prec_gt_0 prec) (He : Prec_lt_emax prec emax) enc (g : nat -> nat -> nat -> binary_float prec emax),
      (65 <= emax <= 1024)%Z -> (prec <= 53)%Z -> float_data round rows cols lc levels g n ->
      exists st2 b bits, el_bits (float_elem enc (rounds round) lg) (start_bits round) (all_values g n rows cols) = Ok bits /\
        super_build hash (float_elem enc (rounds round) lg) 2 lc levels g n rows cols bits st = Ok (st2, b) /\
        incl st st2 /\ (anchored st2 (NMM (mb_data b)) /\ grown st st2) /\ mm_shape (mb_data b) = Ok (n, rows, cols) /\
        forall st', incl st2 st' -> functional st' -> exists f, view st' (S (length levels)) (mb_data b) n rows cols f /\
          forall s r c, s < n -> r < rows -> c < cols -> reads_back round (from_fixed (fst (f s r c)) (snd (f s r c))) (g s r c)).
    { clear g. intros prec emax Hp He enc g Hbig H53 (B & HB & Hb & H1 & H2 & H3).
      destruct (float_chunk prec emax Hp He Hbig H53 round B lg enc HB Hb Hlg) with (hash := hash) (k := 2) (lc := lc) (levels := levels) (g := g)
        (instants := n) (rows := rows) (cols := cols) (asked := start_bits round) (st := st)
        as (bits & st2 & b & E1 & E2 & HW & _ & f & HP & HV & HWr); auto.
      - exists 1. reflexivity.
      - reflexivity.
      - intros Nr. destruct round as [b|]; [rewrite (Hb b eq_refl); reflexivity|contradiction].
      - exists st2, b, bits. split; [exact E1|]. split; [exact E2|]. split; [eapply super_build_incl; [|exact E2]; apply le_n|].
        split; [exact HWr|]. split; [eapply super_build_shape; [|exact E2]; apply le_n|]. intros st' HI HF. exists f. split; [apply HV; assumption|exact HP]. }
    destruct t; intros Ht HD; try destruct Ht.
    1: destruct (G _ _ _ _ EncF32 g ltac:(lia) ltac:(lia) HD) as (st2 & b & bits & E1 & E2 & H1 & H2 & H3 & H4).
    2: destruct (G _ _ _ _ EncF64 g ltac:(lia) ltac:(lia) HD) as (st2 & b & bits & E1 & E2 & H1 & H2 & H3 & H4).
    all: exists st2, b, bits; (split; [exact E1|]); (split; [exact E2|]); do 3 (split; [assumption|]); intros st' HI HF;
      destruct (H4 st' HI HF) as (f & V & HP); (split; [|split; [exact I|]]).
    1, 3: exists f; (split; [exact V|]); intros s r c Hs Hr' Hc'; (split; [apply HP; assumption|]).
    - apply (chunk_fits_kept lc rows cols F32 round levels g n); auto. apply HP; assumption.
    - apply (chunk_fits_kept lc rows cols F64 round levels g n); auto. apply HP; assumption.
    - apply (made_built F32 g n st bits st2 b); [eapply (chunk_fits_refl lc rows cols F32); exact HD|exact E1|exact E2].
    - apply (made_built F64 g n st bits st2 b); [eapply (chunk_fits_refl lc rows cols F64); exact HD|exact E1|exact E2].
  Qed.

  Lemma chunk_build t g n st : 1 <= n -> sizes_ok 2 lc n (Nat.max rows cols) -> chunk_fits lc rows cols t round levels g n ->
    exists st2 b bits, el_bits (dt_elem (dt_of lg t) round) (dt_bits (dt_of lg t) round) (all_values g n rows cols) = Ok bits /\
      super_build hash (dt_elem (dt_of lg t) round) 2 lc levels g n rows cols bits st = Ok (st2, b) /\
      incl st st2 /\ (anchored st2 (NMM (mb_data b)) /\ grown st st2) /\ mm_shape (mb_data b) = Ok (n, rows, cols) /\
      forall st', incl st2 st' -> functional st' -> chunk_V t g st' n (mb_data b).
  Proof using Hhash Hlg Hr Hc Hfit.
    intros Hn HS HD. destruct t; [apply int_build|apply int_build|apply float_build|apply float_build]; try assumption; exact I.
  Qed.
End Chunks.
