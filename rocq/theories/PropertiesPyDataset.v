(** * Property C58: datasets used from Python. *)
From Coq Require Import ZArith String.
Local Open Scope list_scope.
From Verif Require PropertiesPyExact.
From Verif Require Import Base BaseFacts Spec GeomModel GeomProofs BitmapModel DacModel SnapshotModel StreamModel StreamProofs FixedModel ChunkModel NodeModel NodeProofs
  SuperModel SuperInt ArrayModel ArrayProofs FloatModel DatasetModel DatasetProofs AppendProofs KindProofs HistoryModel HistoryProofs RangeModel PyModel PyDatasetModel.
From Verif Require PropertiesNode PropertiesDataset PropertiesPython PropertiesRange.
Import PropertiesNode PropertiesDataset PropertiesRange PropertiesPython.
Ltac Zify.zify_post_hook ::= Z.div_mod_to_equations.
Arguments Nat.pow : simpl never.
Open Scope nat_scope.

(** ** What the lines of a program mean

    In the terms of C24: variables with their settings, and arrays that are appended. *)
Inductive means : py_call -> event -> Prop :=
  | MAdd c bits : cf_round c = None /\ (Z.of_nat bits < 2 ^ 64)%Z \/ cf_round c = Some bits ->
      means (PyAdd (cf_name c) (Z.of_nat (cf_span c)) (Z.of_nat (cf_chunk c)) (map Z.of_nat (cf_levels c))
               (match cf_round c with Some _ => true | None => false end) (Z.of_nat bits) (np_of (cf_type c))) (Add c)
  | MAppend t name a n h w : nd_shape a = [n; h; w] ->
      means (PyAppend name (NpArray t a true)) (Append t name (mkArray3 (n, h, w) (fun i r c => nd_at a [i; r; c])))
  | MCommit : means PyCommit Commit
  | MReload : means PyReload Reload.

(** ** Proofs *)

(** Indexing takes elements from within the array. *)
Lemma bound_range n step z default : (0 < step)%Z -> (0 <= default <= Z.of_nat n)%Z -> (0 <= np_bound n step z default <= Z.of_nat n)%Z.
Proof.
  intros Hs Hd. unfold np_bound. replace (step <? 0)%Z with false by lia. destruct z as [z|]; [|exact Hd].
  destruct (z <? 0)%Z eqn:E; lia.
Qed.
Lemma bound_range_back n step z default : (step < 0)%Z -> (-1 <= default < Z.of_nat n)%Z -> (-1 <= np_bound n step z default < Z.of_nat n)%Z.
Proof.
  intros Hs Hd. unfold np_bound. replace (step <? 0)%Z with true by lia. destruct z as [z|]; [|exact Hd].
  destruct (z <? 0)%Z eqn:E; lia.
Qed.
Lemma axis_within n i a : np_axis n i = Some a ->
  match a with One j => j < n | Many first step count => forall j, j < count -> (0 <= first + Z.of_nat j * step < Z.of_nat n)%Z end.
Proof.
  destruct i as [z|start stop step]; unfold np_axis.
  - destruct ((- Z.of_nat n <=? z) && (z <? Z.of_nat n))%Z eqn:E; [|discriminate]. intros H. injection H as <-. destruct (z <? 0)%Z eqn:Ez; lia.
  - set (s := match step with Some s => s | None => 1%Z end). destruct (s =? 0)%Z eqn:E0; [discriminate|]. intros H. injection H as <-. intros j Hj.
    destruct (s <? 0)%Z eqn:Es.
    + pose proof (bound_range_back n s start (Z.of_nat n - 1)) as B1. pose proof (bound_range_back n s stop (-1)) as B2.
      revert Hj B1 B2. generalize (np_bound n s start (Z.of_nat n - 1)) (np_bound n s stop (-1)). intros f p Hj B1 B2.
      destruct (p <? f)%Z eqn:Ep; [|lia]. assert (Hn : (0 < Z.of_nat n)%Z) by (destruct n; lia).
      specialize (B1 ltac:(lia) ltac:(lia)). specialize (B2 ltac:(lia) ltac:(lia)).
      assert (HD : (Z.of_nat j <= (f - p - 1) / (- s))%Z) by (revert Hj; generalize ((f - p - 1) / (- s))%Z; lia).
      pose proof (Z.mul_div_le (f - p - 1) (- s) ltac:(lia)) as HM. revert HD HM. generalize ((f - p - 1) / (- s))%Z. intros q HD HM. nia.
    + pose proof (bound_range n s start 0) as B1. pose proof (bound_range n s stop (Z.of_nat n)) as B2.
      revert Hj B1 B2. generalize (np_bound n s start 0) (np_bound n s stop (Z.of_nat n)). intros f p Hj B1 B2.
      destruct (f <? p)%Z eqn:Ep; [|lia]. specialize (B1 ltac:(lia) ltac:(lia)). specialize (B2 ltac:(lia) ltac:(lia)).
      assert (HD : (Z.of_nat j <= (p - f - 1) / s)%Z) by (revert Hj; generalize ((p - f - 1) / s)%Z; lia).
      pose proof (Z.mul_div_le (p - f - 1) s ltac:(lia)) as HM. revert HD HM. generalize ((p - f - 1) / s)%Z. intros q HD HM. nia.
Qed.
Lemma source_within shape : forall idx l p, np_axes shape idx = Some l -> Forall2 lt p (np_shape l) -> Forall2 lt (np_source l p) shape.
Proof.
  assert (Step : forall n shape a l p, (forall l p, Forall2 lt p (np_shape l) -> l = l -> True) ->
    match a with One j => j < n | Many first step count => forall j, j < count -> (0 <= first + Z.of_nat j * step < Z.of_nat n)%Z end ->
    (forall p, Forall2 lt p (np_shape l) -> Forall2 lt (np_source l p) shape) ->
    Forall2 lt p (np_shape (a :: l)) -> Forall2 lt (np_source (a :: l) p) (n :: shape)).
  { intros n sh a l p _ HA HL HP. destruct a as [j|first step count]; cbn [np_source np_shape flat_map app] in *.
    - constructor; [exact HA|]. apply HL. exact HP.
    - inversion HP as [|j ? p' ? Hj HP']; subst. cbn [hd tl]. constructor; [|apply HL; exact HP'].
      specialize (HA j Hj). lia. }
  induction shape as [|n shape IH]; intros idx l p E HP.
  - destruct idx; [|discriminate]. injection E as <-. constructor.
  - destruct idx as [|i idx]; cbn [np_axes] in E.
    + destruct (np_axes shape []) as [l'|] eqn:El; [|discriminate]. injection E as <-.
      apply Step; auto; [|intros p' Hp'; eapply IH; eassumption]. intros j Hj. lia.
    + destruct (np_axis n i) as [a|] eqn:Ea; [|discriminate]. destruct (np_axes shape idx) as [l'|] eqn:El; [|discriminate]. injection E as <-.
      apply Step; auto; [apply (axis_within n i a Ea)|intros p' Hp'; eapply IH; eassumption].
Qed.
(** So arrays whose elements are related stay so under indexing. *)
Lemma getitem_alike {A B} (Q : A -> B -> Prop) d d' n h w (f : nat -> nat -> nat -> A) (g : nat -> nat -> nat -> B) idx a :
  (forall t r c, t < n -> r < h -> c < w -> Q (f t r c) (g t r c)) ->
  np_getitem (nd3 d (mkArray3 (n, h, w) f)) idx = Some a ->
  exists b, np_getitem (nd3 d' (mkArray3 (n, h, w) g)) idx = Some b /\ alike Q a b.
Proof.
  intros HQ E. unfold np_getitem in *. cbn [nd3 nd_shape a3_shape] in *. destruct (np_axes [n; h; w] idx) as [l|] eqn:El; [|discriminate].
  injection E as <-. eexists. split; [reflexivity|]. split; [reflexivity|]. cbn [nd_shape nd_at]. intros p Hp.
  pose proof (source_within _ _ _ _ El Hp) as HS. inversion HS as [|t ? s1 ? Ht HS1]; subst. inversion HS1 as [|r ? s2 ? Hr HS2]; subst.
  inversion HS2 as [|c ? s3 ? Hc HS3]; subst. inversion HS3; subst. cbn [a3_at]. apply HQ; assumption.
Qed.
Lemma alike_trans {A B} (Q : A -> B -> Prop) a b c : PropertiesPython.same a b -> alike Q b c -> alike Q a c.
Proof. intros [H1 H2] [H3 H4]. split; [congruence|]. intros p Hp. rewrite H2 by exact Hp. apply H4. rewrite <- H1. exact Hp. Qed.

Lemma as_list_ok {A B C} (f : B -> outcome C) (g : A -> B) (h : A -> C) l : Forall (fun x => f (g x) = Value (h x)) l -> as_list f (map g l) = Value (map h l).
Proof. induction 1 as [|x l H _ IH]; [reflexivity|]. cbn [map as_list]. rewrite H, IH. reflexivity. Qed.
Lemma as_u32_ok n : fits32 n -> as_u32 (Z.of_nat n) = Value n.
Proof.
  unfold fits32, as_u32. intros H. replace ((0 <=? Z.of_nat n) && (Z.of_nat n <? 2 ^ 32))%Z with true by lia. rewrite Nat2Z.id. reflexivity.
Qed.
Lemma usize_ok n : fits32 n -> as_usize (Some (Z.of_nat n)) = Value n.
Proof. unfold fits32. intros H. apply as_usize_ok. lia. Qed.

Section Simulation.
  Variables (hash : bytes -> cid) (lc : nat -> nat) (lg : f64 -> nat) (order : list call -> list call) (fuel : nat).

  Definition numbers_fit (e : event) : Prop :=
    match e with
    | Add c => fits32 (cf_span c) /\ fits32 (cf_chunk c) /\ Forall fits32 (cf_levels c) /\ match cf_round c with Some b => fits8 b | None => True end
    | _ => True
    end.
  Lemma read_write_ok t a n h w : nd_shape a = [n; h; w] -> read_write t (NpArray t a true) = Value (mkArray3 (n, h, w) (fun i r c => nd_at a [i; r; c])).
  Proof. intros E. unfold read_write, as_array3. rewrite E. cbn [obind]. rewrite as_type_refl. reflexivity. Qed.
  Lemma step_sim d p e st : means p e -> numbers_fit e ->
    py_step hash lc lg order fuel d p st = let '(st', r) := run_event hash lc lg order fuel d e st in (st', of_res r).
  Proof.
    intros HM HN. destruct HM as [c bits HB|t name a n h w Es| |]; cbn [py_step run_event numbers_fit] in *.
    - destruct HN as (N1 & N2 & N3 & N4). unfold py_add_variable, pybind, pyret.
      assert (Ec : from_dtype (np_of (cf_type c)) = Value (Z.of_N (encoding_code (enc_of (cf_type c))))) by (destruct (cf_type c); reflexivity).
      rewrite Ec, !usize_ok by assumption.
      rewrite (as_list_ok as_u32 Z.of_nat (fun x => x)) by (eapply Forall_impl; [|exact N3]; intros x Hx; apply as_u32_ok, Hx). rewrite map_id.
      assert (Eb : as_usize (Some (Z.of_nat bits)) = Value bits).
      { apply as_usize_ok. destruct HB as [[_ HB]|HB]; [exact HB|]. rewrite HB in N4. unfold fits8 in N4. lia. }
      rewrite Eb.
      assert (Eu : as_u8 (Z.of_N (encoding_code (enc_of (cf_type c)))) = Value (encoding_code (enc_of (cf_type c)))) by (destruct (cf_type c); reflexivity).
      rewrite Eu. assert (Ee : of_res (encoding_of (encoding_code (enc_of (cf_type c)))) = Value (enc_of (cf_type c))) by (destruct (cf_type c); reflexivity).
      rewrite Ee. unfold block_on. replace (if match cf_round c with Some _ => true | None => false end then Some bits else None) with (cf_round c); [reflexivity|].
      destruct HB as [[-> _]| ->]; reflexivity.
    - assert (E : py_append hash lc lg order fuel d name (NpArray t a true) = bound_append hash lc lg order fuel t d name (NpArray t a true)) by (destruct t; reflexivity).
      rewrite E. unfold bound_append, pybind, pyret. rewrite (read_write_ok t a n h w Es). reflexivity.
    - unfold pybind, py_commit, block_on, DatasetModel.obind, pyret. destruct (dataset_commit hash d st) as [st' [x| | |]]; reflexivity.
    - unfold pybind, py_commit, block_on, DatasetModel.obind, pyret, py_get_dataset. destruct (dataset_commit hash d st) as [st' [x| | |]]; reflexivity.
  Qed.
  Lemma run_sim ps es : Forall2 means ps es -> Forall numbers_fit es -> forall d st,
    py_run hash lc lg order fuel d ps st = let '(st', r) := run hash lc lg order fuel d es st in (st', of_res r).
  Proof.
    induction 1 as [|p e ps es HM _ IH]; intros HN d st; [reflexivity|]. inversion_clear HN as [|? ? H1 H2].
    cbn [py_run]. unfold pybind at 1. rewrite (step_sim d p e st HM H1). unfold run. cbn [ofold]. unfold DatasetModel.obind at 1.
    destruct (run_event hash lc lg order fuel d e st) as [st' [d'| | |]]; cbn [of_res]; try reflexivity. apply (IH H2).
  Qed.
End Simulation.

Lemma kind_of v t : va_enc v = enc_of t -> py_kind v = Value t.
Proof. intros E. unfold py_kind, py_encoding. rewrite E. destruct t; reflexivity. Qed.
Lemma dtype_of v t : va_enc v = enc_of t -> py_dtype v = Value (np_of t).
Proof. intros E. unfold py_dtype, py_encoding. rewrite E. destruct t; reflexivity. Qed.

Section Program.
  Variables (hash : bytes -> cid) (lc : nat -> nat) (lg : f64 -> nat) (order : list call -> list call) (fuel rows cols N : nat)
            (coords : coordinate * coordinate * coordinate) (ps : list py_call) (es : list event).
  Hypothesis HS : setting hash lg order rows cols N coords.
  Hypothesis HV : valid lc fuel rows cols N es.
  Hypothesis HM : Forall2 means ps es.

  Lemma valid_numbers : Forall numbers_fit es.
  Proof.
    destruct HV as [V1 V2 V3 V4 V5]. apply Forall_forall. intros e He. destruct e as [c|t n a| |]; cbn [numbers_fit]; auto.
    assert (Hc : In c (configs es)).
    { apply in_split in He. destruct He as (b & a & ->). rewrite configs_app. apply in_or_app. right. left. reflexivity. }
    rewrite Forall_forall in V3. destruct (V3 c Hc) as [C1 C2 [C3 C3'] [C4 C4'] [C5 C5'] C6 C7 C8]. auto.
  Qed.
  Lemma program_sim st0 : py_program hash lc lg order fuel (let '(a, b, c) := coords in [a; b; c]) [Z.of_nat rows; Z.of_nat cols] ps st0 =
    let '(st', r) := run hash lc lg order fuel (dataset_new coords rows cols) es st0 in (st', of_res r).
  Proof.
    destruct HS as [S1 S2 SL [S3 S3'] [S4 S4'] S5 S6]. unfold py_program, pybind, pyret, py_new. destruct coords as [[a b] c].
    cbn [as_list]. rewrite !usize_ok by assumption. cbn [obind]. apply run_sim; [exact HM|exact valid_numbers].
  Qed.
End Program.

(** What a user sees of a variable: its settings, its shape, and its elements by any
    indices within it, which are those of the array [g] as far as the type keeps them
    ([kept], KindProofs.v: the same integer, NaN for NaN, the same number or its rounding). Indices
    that reach out of it are not answered. *)
Record seen (lg : f64 -> nat) (order : list call -> list call) (c : config) (rows cols T : nat) (g : nat -> nat -> nat -> carrier (cf_type c))
  (st : store) (fuel : nat) (v : variable) : Prop := {
    sn_name : va_name v = cf_name c;
    sn_dtype : py_dtype v = Value (np_of (cf_type c));
    sn_span : py_span_size v = cf_span c;
    sn_chunk : py_chunk_size v = cf_chunk c;
    sn_levels : py_k2_levels v = cf_levels c;
    sn_round : py_round v = true <-> cf_round c <> None;
    sn_bits : forall b, cf_round c = Some b -> py_fractional_bits v = b;
    sn_shape : py_shape lg st v = Value (T, rows, cols);
    sn_items : forall idx, 0 < T -> length idx <= 3 -> each inside [T; rows; cols] idx -> exists a b,
      py_getitem lg st fuel order v idx = Value (existT (fun t => nd (carrier t)) (cf_type c) a) /\
      np_getitem (nd3 (rd_zero (reader_of (cf_type c))) (mkArray3 (T, rows, cols) g)) idx = Some b /\
      alike (kept (cf_type c) (cf_round c)) a b;
    sn_only : forall idx a, py_getitem lg st fuel order v idx = Value a -> length idx <= 3 /\ each PropertiesPyExact.within [T; rows; cols] idx }.

(** A program that creates a dataset, adds variables to it, appends numpy arrays, commits it
    and loads it again, in any order and as often as it likes, gets a dataset with the
    coordinates, the shape and the variables it asked for; and indexing a variable gives
    what numpy gives for the arrays that were appended to it, laid end to end
    ([appended], HistoryProofs.v), in the store as it is then and in every later one. What is
    missing: data that cannot be stored ([valid], as in C24), and the indices for which the
    package and numpy differ (C43). *)
Theorem C58_program_partial : forall hash lc lg order fuel rows cols N t y x ps es st0 st r,
  setting hash lg order rows cols N (t, y, x) -> valid lc fuel rows cols N es -> Forall2 means ps es ->
  py_program hash lc lg order fuel [t; y; x] [Z.of_nat rows; Z.of_nat cols] ps st0 = (st, r) -> functional st ->
  exists d, r = Value d /\ coords_of d = [t; y; x] /\ (ds_rows d, ds_cols d) = (rows, cols) /\
    map va_name (ds_vars d) = map cf_name (configs es) /\
    forall c, In c (configs es) -> exists v depth, get_variable d (cf_name c) = Some v /\
      forall st' fuel', incl st st' -> functional st' -> depth <= fuel' ->
        seen lg order c rows cols (length_appended es c) (appended es c) st' fuel' v.
Proof.
  intros hash lc lg order fuel rows cols N t y x ps es st0 st r HS HV HM E HF.
  pose proof (program_sim hash lc lg order fuel rows cols N (t, y, x) ps es HS HV HM st0) as Sim. cbv iota in Sim. rewrite E in Sim.
  destruct (run hash lc lg order fuel (dataset_new (t, y, x) rows cols) es st0) as [st1 r1] eqn:Er. injection Sim as -> ->.
  destruct (run_result hash lc lg order fuel rows cols N (t, y, x) es HS HV st0) as (d & E1 & HI); rewrite Er in *; cbn [fst snd] in *; [exact HF|]. subst r1.
  exists d. split; [reflexivity|]. destruct (inv_holds hash lc lg order fuel rows cols N (t, y, x) es HS HV st1 d HI) as [HN HH].
  pose proof HI as [I1 I2 I3 I4 I5 I6]. split; [unfold coords_of; rewrite I3; reflexivity|]. split; [rewrite I1, I2; reflexivity|]. split; [exact HN|].
  intros c Hc. destruct (HH c Hc) as (v & Ev & m & depth & Hv). exists v, depth. split; [exact Ev|]. intros st' fuel' HI' HF' Hfu.
  destruct HV as [V1 V2 V3 V4 V5]. destruct (find_config _ _ _ (var_ok_name hash lc lg rows cols es st1 es) I6 V1 c Hc) as (v' & Ev' & Hvar & _).
  rewrite Ev in Ev'. injection Ev' as <-. destruct Hvar as (A1 & A2 & A3 & A4 & A5 & A6).
  destruct (Hv st' fuel' HI' HF' Hfu) as (Hd & (g' & HR & HK) & _).
  pose proof (kind_of v (cf_type c) A6) as Ek.
  assert (Ed : py_data lg st' v = Value (cf_type c, m)) by (unfold py_data; rewrite Ek; cbn [obind]; rewrite Hd; reflexivity).
  constructor.
  - exact A1.
  - apply dtype_of, A6.
  - exact A3.
  - exact A4.
  - exact A5.
  - unfold py_round. rewrite A2. destruct (cf_round c); split; congruence.
  - intros b Hb. unfold py_fractional_bits. rewrite A2, Hb. reflexivity.
  - unfold py_shape. rewrite Ed. cbn [obind snd]. rewrite (ra_shape _ _ _ _ _ _ _ _ HR). reflexivity.
  - intros idx HT HL Hin. destruct HS as [S1 S2 SL [S3 S3'] [S4 S4'] S5 S6].
    assert (H64 : forall n, fits32 n -> (Z.of_nat n < 2 ^ 64)%Z) by (unfold fits32; intros; lia).
    destruct (V5 c Hc) as [L _].
    destruct (C43_variable_indexed_partial _ (reader_of (cf_type c)) st' fuel' order m _ rows cols g' idx HR S2 HT S3 S4) as (a & b & Ea & Eb & Sab); auto.
    { apply H64. eapply fits32_le; [exact L|exact S5]. }
    destruct (getitem_alike (kept (cf_type c) (cf_round c)) _ (rd_zero (reader_of (cf_type c))) _ _ _ g' (appended es c) idx b HK Eb) as (b' & Eb' & Hb').
    exists a, b'. split; [|split; [exact Eb'|eapply alike_trans; eassumption]].
    unfold py_getitem. rewrite Ed. cbn [obind]. rewrite Ea. reflexivity.
  - intros idx a Ha. unfold py_getitem in Ha. rewrite Ed in Ha. cbn [obind] in Ha.
    destruct (var_getitem (reader_of (cf_type c)) st' fuel' order m idx) as [b| |] eqn:Eb; [|discriminate..].
    exact (PropertiesPyExact.C43_no_answer_outside _ _ _ _ _ _ _ _ _ _ _ _ HR Eb).
Qed.

(** ** Attributes *)

(** [ds.name] is the coordinate with that name or, if there is none, the variable with that
    name, unless the name is one of the names of the object itself. *)
Theorem C58_attributes_partial : forall inherited d name,
  ~ In name own_names -> inherited name = false ->
  py_getattr inherited d name =
    match get_coordinate d name, get_variable d name with
    | Some c, _ => Value (ACoordinate c)
    | None, Some v => Value (AVariable v)
    | None, None => Raises
    end.
Proof.
  intros inherited d name Ho Hi. unfold py_getattr, get_coordinate, get_variable, find_var. rewrite Hi.
  assert (E : existsb (bytes_eqb name) own_names = false).
  { apply Bool.not_true_iff_false. intros H. apply existsb_exists in H. destruct H as (o & Hin & Heq). apply bytes_eqb_spec in Heq. subst o. exact (Ho Hin). }
  rewrite E. cbn [orb]. destruct (find _ (coords_of d)); [reflexivity|]. destruct (find _ (ds_vars d)); reflexivity.
Qed.

(** ** Coordinates *)

Definition int_bits (t : np_type) : option Z := match t with NpInt32 => Some 32%Z | NpInt64 => Some 64%Z | _ => None end.
(** A coordinate of integers, as long as its numbers fit its type: its type, its length, and its
    elements by any index within it, which are those of the array of [start + i * step]. With
    [C58_program_partial], these are the coordinates of the dataset at the end of a program.
    What is missing is missing from C44. *)
Theorem C58_range_partial : forall name start step steps t c, py_range name start step steps t = Value c ->
  exists bits n, int_bits t = Some bits /\ steps = Z.of_nat n /\
    NodeModel.co_name c = name /\ py_coord_dtype c = Value t /\ coordinate_len c = Ok n /\
    forall i, step <> 0%Z -> int_in bits steps -> int_in bits (steps * step) -> (forall j, j < n -> int_in bits (element start step j)) ->
      inside n i -> (match i with PSlice _ _ (Some _) => False | _ => True end) ->
      exists y a, py_coord_getitem c i = Value y /\
        np_getitem (mkNd [n] (fun p => element start step (hd 0 p))) [i] = Some a /\ PropertiesPython.same y a.
Proof.
  intros name start step steps t c E.
  assert (HI : forall b z a, as_int b z = Value a -> a = z).
  { intros b z a. unfold as_int. destruct (_ && _); congruence. }
  assert (H64 : forall z n, as_usize (Some z) = Value n -> (Z.of_nat n < 2 ^ 64)%Z).
  { intros z n. unfold as_usize. destruct ((0 <=? z) && (z <? 2 ^ 64))%Z eqn:H; [|discriminate]. intros Hn. injection Hn as <-. lia. }
  unfold py_range in E. destruct t; try discriminate; apply PropertiesPython.obind_inv in E; destruct E as (a & Ea & E); apply PropertiesPython.obind_inv in E; destruct E as (b & Eb & E);
    apply PropertiesPython.obind_inv in E; destruct E as (n & En & E); injection E as <-; apply HI in Ea, Eb; subst a b; pose proof (H64 _ _ En) as Hn;
    apply as_usize_inv in En; injection En as ->.
  - exists 32%Z, n. repeat split. intros i Hs H1 H2 H3 H4 H5. apply (C44_int_coordinate_partial 32 start step n i); auto. lia.
  - exists 64%Z, n. repeat split. intros i Hs H1 H2 H3 H4 H5. apply (C44_int_coordinate_partial 64 start step n i); auto. lia.
Qed.
Theorem C58_time_partial : forall name start step c n, py_timeline name start step = Value c -> (Z.of_nat n < 2 ^ 64)%Z ->
  NodeModel.co_name c = name /\ py_coord_dtype c = Value NpDatetime64 /\
  forall i, (forall j, j < n -> int_in 64 (element start step j)) ->
    inside n i -> (match i with PSlice _ (Some _) None | PInt _ => True | _ => False end) ->
    exists y a, py_coord_getitem c i = Value y /\
      np_getitem (mkNd [n] (fun p => element start step (hd 0 p))) [i] = Some a /\ PropertiesPython.same y a.
Proof.
  intros name start step c n E Hn.
  assert (HI : forall b z a, as_int b z = Value a -> a = z).
  { intros b z a. unfold as_int. destruct (_ && _); congruence. }
  unfold py_timeline in E. apply PropertiesPython.obind_inv in E; destruct E as (a & Ea & E); apply PropertiesPython.obind_inv in E; destruct E as (b & Eb & E).
  injection E as <-. apply HI in Ea, Eb. subst a b. repeat split. intros i H1 H2 H3. apply (C44_time_coordinate_partial start step n i); auto.
Qed.

(** The constructors accept exactly the numbers that the type can hold. *)
Theorem C58_range_accepted :
  (forall name start step steps t,
     (exists c, py_range name start step steps t = Value c) <->
     exists bits, int_bits t = Some bits /\ int_in bits start /\ int_in bits step /\ (0 <= steps < 2 ^ 64)%Z) /\
  forall name start step,
    (exists c, py_timeline name start step = Value c) <-> int_in 64 start /\ int_in 64 step.
Proof.
  assert (HI : forall b z, int_in b z <-> as_int b z = Value z).
  { intros b z. unfold as_int, int_in. rewrite <- Z.leb_le, <- Z.ltb_lt, <- Bool.andb_true_iff. destruct (_ && _); split; congruence. }
  assert (HV : forall b z a, as_int b z = Value a -> int_in b z).
  { intros b z a H. apply HI. unfold as_int in *. destruct (_ && _); congruence. }
  assert (HU : forall z a, as_usize (Some z) = Value a -> (0 <= z < 2 ^ 64)%Z).
  { intros z a. unfold as_usize. rewrite <- Z.leb_le, <- Z.ltb_lt, <- Bool.andb_true_iff. destruct (_ && _); congruence. }
  assert (HW : forall z, (0 <= z < 2 ^ 64)%Z -> as_usize (Some z) = Value (Z.to_nat z)).
  { intros z. unfold as_usize. rewrite <- Z.leb_le, <- Z.ltb_lt, <- Bool.andb_true_iff. destruct (_ && _); congruence. }
  split.
  - intros name start step steps t. split.
    + intros (c & E). unfold py_range in E. destruct t; try discriminate.
      all: apply PropertiesPython.obind_inv in E; destruct E as (a & Ea & E); apply PropertiesPython.obind_inv in E; destruct E as (b & Eb & E);
        apply PropertiesPython.obind_inv in E; destruct E as (n & En & E).
      all: eexists; split; [reflexivity|]; split; [exact (HV _ _ _ Ea)|]; split; [exact (HV _ _ _ Eb)|exact (HU _ _ En)].
    + intros (b & Hb & H1 & H2 & H3). apply HI in H1, H2. apply HW in H3.
      destruct t; try discriminate; injection Hb as <-; unfold py_range; rewrite H1; cbn [obind]; rewrite H2; cbn [obind]; rewrite H3; cbn [obind]; eauto.
  - intros name start step. split.
    + intros (c & E). unfold py_timeline in E. apply PropertiesPython.obind_inv in E; destruct E as (a & Ea & E); apply PropertiesPython.obind_inv in E; destruct E as (b & Eb & E). eauto.
    + intros [H1 H2]. apply HI in H1, H2. unfold py_timeline. rewrite H1. cbn [obind]. rewrite H2. cbn [obind]. eauto.
Qed.

(** ** What does not hold *)

(** A variable is not reached as [ds.name] if a coordinate or the object itself has that name. *)
Theorem C58_hidden_refuted :
  (forall inherited d name v, get_variable d name = Some v -> get_coordinate d name <> None \/ In name own_names ->
     py_getattr inherited d name <> Value (AVariable v)) /\
  forall hash d name st, In name (map NodeModel.co_name (coords_of d) ++ own_names) -> get_variable d name = None ->
    exists st' d' v, py_add_variable hash d name 2 1 [1%Z] false 0 NpInt32 st = (st', Value d') /\ get_variable d' name = Some v /\ coords_of d' = coords_of d.
Proof.
  split.
  - intros inherited d name v Hv H E. unfold py_getattr in E. destruct (existsb (bytes_eqb name) own_names || inherited name) eqn:Ex; [discriminate|].
    destruct H as [H|H].
    + unfold get_coordinate in H. destruct (find _ (coords_of d)); [discriminate|]. apply H. reflexivity.
    + apply Bool.orb_false_iff in Ex. destruct Ex as [Ex _]. apply Bool.not_true_iff_false in Ex. apply Ex. apply existsb_exists. exists name.
      split; [exact H|]. apply bytes_eqb_spec. reflexivity.
  - intros hash d name st _ Hn. unfold py_add_variable, pybind, pyret. cbn [from_dtype as_list]. unfold block_on, add_variable, DatasetModel.obind, osave, oret.
    change (as_usize (Some 2%Z)) with (Value 2). change (as_usize (Some 1%Z)) with (Value 1). change (as_u32 1%Z) with (Value 1). change (as_usize (Some 0%Z)) with (Value 0).
    change (as_u8 py_i32) with (Value 4%N). cbn [obind]. change (of_res (encoding_of 4)) with (Value EncI32).
    cbv beta iota. match goal with |- context [save hash st ?n] => destruct (save hash st n) as [ci st'] end. cbn [of_res]. do 3 eexists. split; [reflexivity|].
    split; [|reflexivity]. unfold get_variable, find_var in *. cbn [ds_vars]. revert Hn. generalize (ds_vars d). intros vs.
    induction vs as [|x vs IH]; cbn [find app].
    + intros _. cbn [va_name]. rewrite (proj2 (bytes_eqb_spec name name) eq_refl). reflexivity.
    + destruct (bytes_eqb (va_name x) name); [discriminate|exact IH].
Qed.

(** The number of fractional bits is forgotten if the variable does not round; and a variable
    can be created with a type of which no data can be stored or read. *)
Theorem C58_settings_refuted : forall hash d name span chunk levels bits st,
  fits32 span -> fits32 chunk -> Forall fits32 levels -> (Z.of_nat bits < 2 ^ 64)%Z ->
  (forall t, t <> NpOther -> exists st' d' v,
     py_add_variable hash d name (Z.of_nat span) (Z.of_nat chunk) (map Z.of_nat levels) false (Z.of_nat bits) t st = (st', Value d') /\
     ds_vars d' = ds_vars d ++ [v] /\ py_fractional_bits v = 0) /\
  exists st' d' v, py_add_variable hash d name (Z.of_nat span) (Z.of_nat chunk) (map Z.of_nat levels) false (Z.of_nat bits) NpDatetime64 st = (st', Value d') /\
     ds_vars d' = ds_vars d ++ [v] /\ py_dtype v = Value NpDatetime64 /\
     forall lg st1 fuel order idx, py_getitem lg st1 fuel order v idx = Raises.
Proof.
  intros hash d name span chunk levels bits st H1 H2 H3 H4.
  assert (H : forall t, t <> NpOther -> exists st' d' v enc,
     py_add_variable hash d name (Z.of_nat span) (Z.of_nat chunk) (map Z.of_nat levels) false (Z.of_nat bits) t st = (st', Value d') /\
     ds_vars d' = ds_vars d ++ [v] /\ va_round v = None /\ va_enc v = enc /\ from_dtype t = Value (Z.of_N (encoding_code enc))).
  { intros t Ht. unfold py_add_variable, pybind, pyret.
    assert (Ec : exists enc, from_dtype t = Value (Z.of_N (encoding_code enc)) /\ as_u8 (Z.of_N (encoding_code enc)) = Value (encoding_code enc) /\ of_res (encoding_of (encoding_code enc)) = Value enc).
    { destruct t; [exists EncTime|exists EncI32|exists EncI64|exists EncF32|exists EncF64|congruence]; repeat split. }
    destruct Ec as (enc & Ec & Eu & Ee). rewrite Ec, !usize_ok by assumption.
    rewrite (as_list_ok as_u32 Z.of_nat (fun x => x)) by (eapply Forall_impl; [|exact H3]; intros x Hx; apply as_u32_ok, Hx). rewrite map_id.
    rewrite as_usize_ok by exact H4. rewrite Eu, Ee. unfold block_on, add_variable, DatasetModel.obind, osave, oret.
    cbv beta iota. match goal with |- context [save hash st ?n] => destruct (save hash st n) as [ci st'] end. cbn [of_res]. do 4 eexists. split; [reflexivity|]. repeat split. }
  split.
  - intros t Ht. destruct (H t Ht) as (st' & d' & v & enc & E1 & E2 & E3 & E4 & E5). exists st', d', v. split; [exact E1|]. split; [exact E2|].
    unfold py_fractional_bits. rewrite E3. reflexivity.
  - destruct (H NpDatetime64) as (st' & d' & v & enc & E1 & E2 & E3 & E4 & E5); [discriminate|]. exists st', d', v. split; [exact E1|]. split; [exact E2|].
    assert (Et : enc = EncTime) by (destruct enc; try discriminate E5; reflexivity). rewrite Et in E4. split; [unfold py_dtype, py_encoding; rewrite E4; reflexivity|].
    intros. unfold py_getitem, py_data, py_kind, py_encoding. rewrite E4. reflexivity.
Qed.

(** Arrays that may not be written to are refused: the bindings ask for write access. *)
Theorem C58_read_only_refuted : forall hash lc lg order fuel d name t a st,
  py_append hash lc lg order fuel d name (NpArray t a false) st = (st, Raises).
Proof. intros. unfold py_append. destruct t; reflexivity. Qed.

(** ** An example

    Two coordinates of integers and one of time; a variable ["a"] to which three arrays are appended. *)
From Verif Require PropertiesCanon.
Import PropertiesCanon.
Definition ex_lines : list py_call :=
  [PyAdd (text "a"%string) 2 2 [1%Z] false 0 NpInt32;
   PyAppend (text "a"%string) (NpArray I32 (nd3 0%Z (ex_slice 0 1)) true);
   PyAppend (text "a"%string) (NpArray I32 (nd3 0%Z (ex_slice 1 3)) true);
   PyReload;
   PyAppend (text "a"%string) (NpArray I32 (nd3 0%Z (ex_slice 4 3)) true);
   PyCommit].
Definition ex_meaning : list event :=
  [Add ex_one; Append I32 [97]%N (ex_slice 0 1); Append I32 [97]%N (ex_slice 1 3); Reload; Append I32 [97]%N (ex_slice 4 3); Commit].
Definition ex_t : coordinate := fst (fst ex_coords).
Definition ex_y : coordinate := snd (fst ex_coords).
Definition ex_x : coordinate := snd ex_coords.
Definition ex_ended : store * outcome dataset := py_program ex_hash ex_lc ex_lg (@rev call) 4 [ex_t; ex_y; ex_x] [2%Z; 2%Z] ex_lines [].
Definition ex_read (name : bytes) (idx : list index) : outcome (list nat * list Z) :=
  match ex_ended with
  | (st, Value d) =>
      match get_variable d name with
      | Some v => match py_getitem ex_lg st 5 (@rev call) v idx with
                  | Value (existT _ I32 a) => Value (nd_shape a, map (fun i => nd_at a [i; 1]) (seq 0 (hd 0 (nd_shape a))))
                  | _ => Raises
                  end
      | None => Raises
      end
  | _ => Raises
  end.
Example C58_example : setting ex_hash ex_lg (@rev call) 2 2 1000 (ex_t, ex_y, ex_x) /\ valid ex_lc 4 2 2 1000 ex_meaning /\
  Forall2 means ex_lines ex_meaning /\ functional (fst ex_ended) /\
  ex_read (text "a"%string) [PSlice (Some 1%Z) (Some 6%Z) None; PSlice (Some 0%Z) None None; PInt 1] =
    Value ([5; 2], map (fun t => ex_cells t 1 1) [1; 2; 3; 4; 5]) /\
  py_range (text "y"%string) 10 (-2) 4 NpInt32 = Value (mkCoord (text "y"%string) (KI32 10 (-2) 4)).
Proof.
  split; [exact ex_set|]. split.
  { apply ex_use; unfold ex_meaning.
    - cbn [configs map cf_name ex_one]. repeat constructor. cbn. tauto.
    - reflexivity.
    - intros c Hc. cbn in Hc |- *. tauto.
    - cbn [appends_to app].
      repeat match goal with
      | |- (exists c, _) /\ _ => split
      | |- exists c, _ => exists ex_one; cbn; now auto 10
      | |- True => exact Logic.I
      end.
    - intros name. cbn [batches as_type]. repeat match goal with |- context [bytes_eqb ?a ?b] => destruct (bytes_eqb a b) end; repeat constructor; eauto.
    - vm_compute. reflexivity. }
  split.
  { unfold ex_lines, ex_meaning. constructor; [|constructor; [|constructor; [|constructor; [|constructor; [|constructor; [|constructor]]]]]].
    - exact (MAdd ex_one 0 (or_introl (conj eq_refl eq_refl))).
    - exact (MAppend I32 [97]%N (nd3 0%Z (ex_slice 0 1)) 1 2 2 eq_refl).
    - exact (MAppend I32 [97]%N (nd3 0%Z (ex_slice 1 3)) 3 2 2 eq_refl).
    - exact MReload.
    - exact (MAppend I32 [97]%N (nd3 0%Z (ex_slice 4 3)) 3 2 2 eq_refl).
    - exact MCommit. }
  split; [apply functional_checked; vm_compute; reflexivity|]. split; [vm_compute; reflexivity|]. reflexivity.
Qed.

Print Assumptions C58_program_partial.
Print Assumptions C58_attributes_partial.
Print Assumptions C58_range_partial.
Print Assumptions C58_range_accepted.
Print Assumptions C58_time_partial.
Print Assumptions C58_hidden_refuted.
Print Assumptions C58_settings_refuted.
Print Assumptions C58_read_only_refuted.
