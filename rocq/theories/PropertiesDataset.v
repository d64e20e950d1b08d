(** * Properties C24, C25, C26, C28, C39 and C40: histories of datasets. *)
From Coq Require Import ZArith Reals Lra.
From Flocq Require Import Core.Core IEEE754.BinarySingleNaN.
From Verif Require Import Base BaseFacts Spec GeomModel GeomProofs BitmapModel DacModel StreamModel StreamProofs FixedModel FixedProofs ChunkModel ChunkStream ChunkReads
  NodeModel NodeProofs SuperModel SuperViews SuperProofs SuperInt ArrayModel ArrayProofs FloatModel FloatProofs FloatBuild DatasetModel DatasetProofs AppendProofs HistoryModel
  PropertiesLog PropertiesSuper PropertiesReads PropertiesFixed KindProofs HistoryProofs.
From Verif Require PropertiesNode PropertiesFloat.
Ltac Zify.zify_post_hook ::= Z.div_mod_to_equations.
Arguments Nat.pow : simpl never.
Open Scope nat_scope.

(** Where a history runs: identifiers have the form of the format, concurrent
    reads of the tail may write in any order, the logarithm is accurate enough, the
    shape and the number of instants fit the format. *)
Record setting (hash : bytes -> cid) (lg : f64 -> nat) (order : list call -> list call) (rows cols N : nat)
  (coords : coordinate * coordinate * coordinate) : Prop :=
  { se_hash : forall b, wf_cid (hash b);
    se_order : forall l, Permutation l (order l);
    se_log2 : log2_accurate lg;
    se_rows : 0 < rows /\ fits32 rows;
    se_cols : 0 < cols /\ fits32 cols;
    se_instants : fits32 N;
    se_coords : let '(c1, c2, c3) := coords in wf_coord c1 /\ wf_coord c2 /\ wf_coord c3 }.

(** [valid] (HistoryProofs.v): variables have different names and usable
    configurations ([config_ok]: chunk size at least 1, span size at least 2,
    levels that fit the shape, numbers that fit the format); arrays are appended to
    variables of the dataset, of their type and shape; and at every point of the
    history every chunk of what was appended so far can be stored ([chunk_fits],
    KindProofs.v). For 64-bit integers that means that the differences within
    a chunk fit 64 bits. For 32-bit integers it always holds: *)
Theorem C24_i32_always_fits : forall lc rows cols name round span chunk levels (g : nat -> nat -> nat -> Z) T,
  (forall t r k, t < T -> r < rows -> k < cols -> i32_range (g t r k)) ->
  chunks_fit lc rows cols (mkConfig name round span chunk levels I32) g T.
Proof.
  intros lc rows cols name round span chunk levels g T H i Hi. cbn in *. right. split; [reflexivity|]. split; [reflexivity|].
  intros t r k Hlt Hr Hk. apply H; lia.
Qed.

(** For floats it means that with some number of bits the values of a chunk can
    all be stored, with the number of bits to round to if there is one
    ([storable], FloatBuild.v: NaN, or not too large, and exact if there is no
    rounding), that no sub-array of the chunk is at risk from NaNs (C22), and that none
    has numbers further below zero than above it ([balanced], FloatProofs.v). Without
    NaNs and numbers below -1 the values are enough: *)
Theorem C24_numbers_fit : forall lc rows cols name round span chunk levels bits T,
  bits <= 61 -> (forall b, round = Some b -> bits = b) ->
  (forall g : nat -> nat -> nat -> f32,
    (forall t r k, t < T -> r < rows -> k < cols -> is_nan (g t r k) = false /\ storable round bits (g t r k) /\ (-1 <= B2R (g t r k))%R) ->
    chunks_fit lc rows cols (mkConfig name round span chunk levels F32) g T) /\
  (forall g : nat -> nat -> nat -> f64,
    (forall t r k, t < T -> r < rows -> k < cols -> is_nan (g t r k) = false /\ storable round bits (g t r k) /\ (-1 <= B2R (g t r k))%R) ->
    chunks_fit lc rows cols (mkConfig name round span chunk levels F64) g T).
Proof.
  intros lc rows cols name round span chunk levels bits T Hb HB.
  split; intros g H i Hi; cbn in *; exists bits; (split; [exact Hb|]); (split; [exact HB|]); (split; [|split]).
  1,4: intros t r k Ht Hr Hk; apply H; lia.
  1,3: apply nan_free_safe; [lia|]; intros t r k Ht Hr Hk; apply H; lia.
  all: apply above_balanced; intros t r k Ht Hr Hk _; apply H; lia.
Qed.

Section Proofs.
  Variables (hash : bytes -> cid) (lc : nat -> nat) (lg : f64 -> nat) (order : list call -> list call) (fuel rows cols N : nat)
            (coords : coordinate * coordinate * coordinate) (es : list event).
  Hypothesis HS : setting hash lg order rows cols N coords.
  Hypothesis HV : valid lc fuel rows cols N es.

  Lemma start_inv st : inv hash lc lg rows cols coords es st (dataset_new coords rows cols) [].
  Proof. constructor; cbn; auto. Qed.
  Lemma run_inv st0 : functional st0 -> ok_in (run hash lc lg order fuel (dataset_new coords rows cols) es) st0 (fun d st => inv hash lc lg rows cols coords es st d es).
  Proof.
    intros HF. destruct HS as [S1 S2 SL [S3 S3'] [S4 S4'] S5 S6].
    apply (ok_run hash lc lg order fuel rows cols N S1 S2 SL S3 S4 S3' S4' S5 coords es S6 HV es []); [reflexivity|exact HF|apply start_inv].
  Qed.
  Lemma run_result st0 : functional (fst (run hash lc lg order fuel (dataset_new coords rows cols) es st0)) ->
    exists d, snd (run hash lc lg order fuel (dataset_new coords rows cols) es st0) = Ok d /\
      inv hash lc lg rows cols coords es (fst (run hash lc lg order fuel (dataset_new coords rows cols) es st0)) d es.
  Proof.
    intros HF. destruct (run_inv st0) with (2 := HF) as (d & E & HI & _); [|eauto].
    eapply functional_incl; [|exact HF]. apply mono_incl, mono_run.
  Qed.
  Lemma run_written st0 : functional (fst (run hash lc lg order fuel (dataset_new coords rows cols) es st0)) -> written st0 ->
    written (fst (run hash lc lg order fuel (dataset_new coords rows cols) es st0)).
  Proof.
    intros HF. destruct (run_inv st0) with (2 := HF) as (d & E & HI & HW); [|exact (proj1 HW)].
    eapply functional_incl; [|exact HF]. apply mono_incl, mono_run.
  Qed.
  Lemma run_laid st0 : functional (fst (run hash lc lg order fuel (dataset_new coords rows cols) es st0)) -> laid st0 ->
    laid (fst (run hash lc lg order fuel (dataset_new coords rows cols) es st0)).
  Proof.
    intros HF. destruct (run_inv st0) with (2 := HF) as (d & E & HI & HW); [|exact (proj2 HW)].
    eapply functional_incl; [|exact HF]. apply mono_incl, mono_run.
  Qed.
  Lemma inv_holds st d : inv hash lc lg rows cols coords es st d es ->
    map va_name (ds_vars d) = map cf_name (configs es) /\
    forall c, In c (configs es) -> exists v, find_var (cf_name c) (ds_vars d) = Some v /\
      holds lc lg rows cols c st v (appended es c) (length_appended es c).
  Proof.
    intros HI. pose proof (in_vars _ _ _ _ _ _ _ _ _ _ HI) as H6. split.
    - clear -H6. induction H6 as [|c v cs vs H _ IH]; cbn [map]; [reflexivity|]. f_equal; [|exact IH]. apply var_ok_name in H. exact H.
    - intros c Hc. destruct HV as [V1 V2 V3 V4 V5].
      destruct (find_config _ _ _ (var_ok_name hash lc lg rows cols es st es) H6 V1 c Hc) as (v & Ev & Hvar & HT).
      exists v. split; [exact Ev|]. destruct HS as [S1 S2 SL [S3 S3'] [S4 S4'] S5 S6].
      rewrite Forall_forall in V3. eapply (tree_holds hash lc lg fuel rows cols); eauto.
  Qed.
End Proofs.

(** ** C24: appending is concatenation *)

(** Whatever the history of creating variables, appending arrays, committing and
    loading again: every variable can be opened, has as many instants as were
    appended to it in all, and every read and search sees the arrays one after the
    other. [holds lc lg rows cols c st v g T] (HistoryProofs.v) says this of the
    store [st] and of every larger one: [var_data] succeeds, it [reads_as] an array of
    shape [T x rows x cols] whose values are those of [g] as far as the type keeps them
    ([kept], KindProofs.v: the same integer, NaN for NaN, the same number or its
    rounding), and integers are found as [searches_as] says if the chunks can be searched
    (C06). What is missing from C24: data that cannot be stored, see [valid]. *)
Theorem C24_appends_concatenate_partial : forall hash lc lg order fuel rows cols N coords es st0 st r,
  setting hash lg order rows cols N coords -> valid lc fuel rows cols N es ->
  run hash lc lg order fuel (dataset_new coords rows cols) es st0 = (st, r) -> functional st ->
  exists d, r = Ok d /\ map va_name (ds_vars d) = map cf_name (configs es) /\
  forall c, In c (configs es) -> exists v, find_var (cf_name c) (ds_vars d) = Some v /\
    holds lc lg rows cols c st v (appended es c) (length_appended es c).
Proof.
  intros hash lc lg order fuel rows cols N coords es st0 st r HS HV E HF.
  destruct (run_result hash lc lg order fuel rows cols N coords es HS HV st0) as (d & E1 & HI); rewrite E in *; cbn [fst snd] in *; [exact HF|].
  exists d. split; [exact E1|]. apply (inv_holds hash lc lg order fuel rows cols N coords es HS HV st d HI).
Qed.

(** Only the concatenation counts, not how it was split into appends, nor what else
    happened. Two values read are [same_read]: the same integers, both NaN, or the
    same numbers. What is missing from C24: the two histories must both be valid,
    see [C24_float_split_matters_refuted]. *)
Definition same_read (t : vtype) : carrier t -> carrier t -> Prop :=
  match t with
  | I32 | I64 => eq
  | F32 | F64 => fun x y => (is_nan x = true /\ is_nan y = true) \/ (is_finite x = true /\ is_finite y = true /\ B2R x = B2R y)
  end.
Lemma kept_both t round x y z : kept t round x z -> kept t round y z -> same_read t x y.
Proof.
  destruct t; cbn [kept same_read carrier] in *; try congruence; unfold reads_back; intros H1 H2; destruct (is_nan z); [left|right|left|right]; auto;
    destruct H1 as (A & B), H2 as (C & D); repeat split; auto; congruence.
Qed.
Theorem C24_splits_do_not_matter_partial : forall hash lc lg order fuel rows cols N coords es1 es2 st1 st2 d1 d2 st1' st2' c,
  setting hash lg order rows cols N coords -> valid lc fuel rows cols N es1 -> valid lc fuel rows cols N es2 ->
  run hash lc lg order fuel (dataset_new coords rows cols) es1 st1 = (st1', Ok d1) -> functional st1' ->
  run hash lc lg order fuel (dataset_new coords rows cols) es2 st2 = (st2', Ok d2) -> functional st2' ->
  In c (configs es1) -> In c (configs es2) ->
  length_appended es1 c = length_appended es2 c ->
  (forall t r k, t < length_appended es1 c -> appended es1 c t r k = appended es2 c t r k) ->
  exists v1 v2, find_var (cf_name c) (ds_vars d1) = Some v1 /\ find_var (cf_name c) (ds_vars d2) = Some v2 /\
  exists m1 m2 depth, var_data (dt_of lg (cf_type c)) st1' v1 = Ok m1 /\ var_data (dt_of lg (cf_type c)) st2' v2 = Ok m2 /\
  mm_shape m1 = mm_shape m2 /\
  forall n t r k, depth <= n -> t < length_appended es1 c -> r < rows -> k < cols ->
    exists x y, arr_get (reader_of (cf_type c)) st1' n m1 t r k = Ok x /\ arr_get (reader_of (cf_type c)) st2' n m2 t r k = Ok y /\
      same_read (cf_type c) x y.
Proof.
  intros hash lc lg order fuel rows cols N coords es1 es2 st1 st2 d1 d2 st1' st2' c HS V1 V2 E1 F1 E2 F2 I1 I2 EL EA.
  destruct (C24_appends_concatenate_partial _ _ _ _ _ _ _ _ _ _ _ _ _ HS V1 E1 F1) as (d1' & X1 & _ & H1). injection X1 as <-.
  destruct (C24_appends_concatenate_partial _ _ _ _ _ _ _ _ _ _ _ _ _ HS V2 E2 F2) as (d2' & X2 & _ & H2). injection X2 as <-.
  destruct (H1 c I1) as (v1 & G1 & m1 & n1 & K1). destruct (H2 c I2) as (v2 & G2 & m2 & n2 & K2).
  exists v1, v2. split; [exact G1|]. split; [exact G2|]. exists m1, m2, (Nat.max n1 n2).
  pose proof (K1 st1' n1 (incl_refl _) F1 (le_n _)) as (A1 & (g1 & B1 & _) & _). pose proof (K2 st2' n2 (incl_refl _) F2 (le_n _)) as (A2 & (g2 & B2 & _) & _).
  split; [exact A1|]. split; [exact A2|]. split; [rewrite (ra_shape _ _ _ _ _ _ _ _ B1), (ra_shape _ _ _ _ _ _ _ _ B2), EL; reflexivity|].
  intros n t r k Hn Ht Hr Hk. clear g1 g2 B1 B2.
  destruct (K1 st1' n (incl_refl _) F1 ltac:(lia)) as (_ & (g1 & B1 & Q1) & _). destruct (K2 st2' n (incl_refl _) F2 ltac:(lia)) as (_ & (g2 & B2 & Q2) & _).
  exists (g1 t r k), (g2 t r k).
  rewrite (ra_get _ _ _ _ _ _ _ _ B1), (ra_get _ _ _ _ _ _ _ _ B2) by (assumption || lia). split; [reflexivity|]. split; [reflexivity|].
  apply (kept_both _ (cf_round c) _ _ (appended es1 c t r k)); [apply Q1; auto|]. rewrite EA by exact Ht. apply Q2; auto; lia.
Qed.

(** ** C25: appending never panics *)

(** No step of a valid history panics or fails. What is missing from C25: the
    configurations that [add_variable] accepts and [config_ok] excludes; the
    theorems after this one show that some of them do panic. *)
Theorem C25_valid_histories_succeed_partial : forall hash lc lg order fuel rows cols N coords es st0 st r,
  setting hash lg order rows cols N coords -> valid lc fuel rows cols N es ->
  run hash lc lg order fuel (dataset_new coords rows cols) es st0 = (st, r) -> functional st ->
  exists d, r = Ok d.
Proof.
  intros. edestruct C24_appends_concatenate_partial as (d & -> & _); eauto.
Qed.

(** ** C26: old versions stay readable *)

(** Whatever is done, and whether it succeeds, fails or panics, the store only
    gets longer: nothing that was written is changed or taken away. *)
Theorem C26_writes_only_add : forall hash lc lg order fuel d es st,
  exists l, fst (run hash lc lg order fuel d es st) = st ++ l.
Proof. intros. apply mono_run. Qed.

(** After any valid history, commit the dataset. Then do anything with any dataset,
    and stop after any number of writes: the committed identifier still loads the
    dataset, and the variables of the dataset in memory, which are those of the
    loaded one, still hold what was appended to them in the history. *)
Theorem C26_old_versions_partial : forall hash lc lg order fuel rows cols N coords es st0 st d c st1,
  setting hash lg order rows cols N coords -> valid lc fuel rows cols N es ->
  run hash lc lg order fuel (dataset_new coords rows cols) es st0 = (st, Ok d) ->
  dataset_commit hash d st = (st1, Ok c) ->
  forall d' later st2 r, run hash lc lg order fuel d' later st1 = (st2, r) -> functional st2 ->
  exists writes, st2 = st1 ++ writes /\
  forall n, let crashed := st1 ++ firstn n writes in
    (exists d1, get_dataset crashed c = Ok d1 /\ ds_vars d1 = ds_vars d /\ ds_coords d1 = coords /\
                ds_rows d1 = rows /\ ds_cols d1 = cols) /\
    forall cf, In cf (configs es) -> exists v, find_var (cf_name cf) (ds_vars d) = Some v /\
      holds lc lg rows cols cf crashed v (appended es cf) (length_appended es cf).
Proof.
  intros hash lc lg order fuel rows cols N coords es st0 st d c st1 HS HV E Ec d' later st2 r El HF.
  destruct (mono_run hash lc lg order fuel d' later st1) as [w Ew]. rewrite El in Ew. cbn [fst] in Ew.
  exists w. split; [exact Ew|]. intros n crashed.
  assert (IC : incl crashed st2).
  { rewrite Ew. unfold crashed. apply incl_app; [apply incl_appl, incl_refl|]. intros x Hx. apply in_or_app. right.
    rewrite <- (firstn_skipn n w). apply in_or_app. left. exact Hx. }
  pose proof (functional_incl _ _ IC HF) as FC.
  assert (I1 : incl st1 crashed) by (apply incl_appl, incl_refl).
  assert (F1 : functional st1) by (eapply functional_incl; [exact I1|exact FC]).
  unfold dataset_commit, osave, save in Ec. injection Ec as Es Ecid.
  assert (I0 : incl st st1) by (rewrite <- Es; apply incl_appl, incl_refl).
  assert (F0 : functional st) by (eapply functional_incl; eassumption).
  destruct (run_result hash lc lg order fuel rows cols N coords es HS HV st0) as (d0 & E1 & HI); rewrite E in *; cbn [fst snd] in *; [exact F0|].
  injection E1 as <-. destruct HS as [S1 S2 SL [S3 S3'] [S4 S4'] S5 S6].
  assert (Wd : wf_dataset d) by (eapply (inv_wf hash lc lg fuel rows cols N S3 S4 S3' S4' coords es S6 HV st d es []); [symmetry; apply app_nil_r|exact HI]).
  split.
  - exists (with_cid d (Some c)). split.
    + unfold get_dataset. rewrite <- Ecid. rewrite (retrieve_saved _ hash (NDataset d) Wd FC); [reflexivity|].
      apply I1. rewrite <- Es. apply in_or_app. right. left. reflexivity.
    + destruct HI as [J1 J2 J3 J4 J5 J6]. cbn. auto.
  - intros cf Hcf. destruct (inv_holds hash lc lg order fuel rows cols N coords es (Build_setting _ _ _ _ _ _ _ S1 S2 SL (conj S3 S3') (conj S4 S4') S5 S6) HV st d HI) as [_ HH].
    destruct (HH cf Hcf) as (v & Ev & m & depth & K). exists v. split; [exact Ev|]. exists m, depth.
    intros st' n' Hi Hf Hd. apply K; auto. eapply incl_tran; [exact I0|]. eapply incl_tran; [exact I1|exact Hi].
Qed.

(** ** C28: the chain of versions *)

(** Following the links from a committed dataset visits that version, then all
    earlier versions that were committed and loaded again before going on, newest
    first, and then stops. [versions] is that list, [run_versions] (HistoryModel.v)
    runs the history and notes it. What is missing from C28: versions that were
    committed without going on from the loaded dataset, see the next theorem. *)
Theorem C28_chain_partial : forall hash lc lg order fuel rows cols N coords es st0 st d versions c st1,
  setting hash lg order rows cols N coords -> valid lc fuel rows cols N es ->
  run_versions hash lc lg order fuel (dataset_new coords rows cols) es st0 = (st, Ok (d, versions)) ->
  dataset_commit hash d st = (st1, Ok c) ->
  forall st2, incl st1 st2 -> functional st2 ->
  forall n, S (length versions) <= n -> walk st2 n c = add_version c versions.
Proof.
  intros hash lc lg order fuel rows cols N coords es st0 st d versions c st1 HS HV E Ec st2 HI2 HF n Hn.
  unfold dataset_commit, osave in Ec. destruct (save hash st (NDataset d)) as [c' s'] eqn:Es. injection Ec as -> ->.
  assert (Ec : c = hash (node_bytes (NDataset d))) by (unfold save in Es; injection Es as <- _; reflexivity).
  assert (I0 : incl st st1) by (unfold save in Es; injection Es as _ <-; apply incl_appl, incl_refl).
  assert (F1 : functional st1) by (eapply functional_incl; eassumption).
  assert (F0 : functional st) by (eapply functional_incl; eassumption).
  destruct HS as [S1 S2 SL [S3 S3'] [S4 S4'] S5 S6].
  assert (M : mono (run_versions hash lc lg order fuel (dataset_new coords rows cols) es)) by (apply mono_ofold; intros; apply mono_versions_event).
  assert (Fs : functional st0). { eapply functional_incl; [|exact F0]. pose proof (mono_incl _ st0 M) as X. rewrite E in X. exact X. }
  pose proof (ok_versions hash lc lg order fuel rows cols N S1 S2 SL S3 S4 S3' S4' S5 coords es S6 HV es [] (dataset_new coords rows cols) [] st0 eq_refl Fs
    (start_inv hash lc lg rows cols coords es st0)) as K.
  unfold run_versions in E. unfold ok_in in K. rewrite E in K. cbn [fst snd] in K.
  destruct K as (x & Ex & (HI & HL) & _); [|exact F0|].
  { split; [|reflexivity]. intros l1 c0 l2 C. destruct l1; discriminate. }
  injection Ex as <-. cbn [fst snd] in *.
  assert (Wd : wf_dataset d) by (eapply (inv_wf hash lc lg fuel rows cols N S3 S4 S3' S4' coords es S6 HV st d es []); [symmetry; apply app_nil_r|exact HI]).
  destruct (lin_commit hash st st2 d versions HL Wd HF) as (G & Ch & Hh & _); [rewrite Es; exact HI2|]. rewrite <- Ec in *.
  destruct (add_version c versions) as [|y l] eqn:Ea; [discriminate|]. injection Hh as ->.
  apply walk_chain; [|exact Ch].
  assert (length (c :: l) <= S (length versions)).
  { rewrite <- Ea. unfold add_version. destruct versions as [|z vs]; [cbn; lia|]. destruct (cid_eqb c z); cbn [length]; lia. }
  cbn [length] in H. lia.
Qed.

(** ** C39 and C40: variables and their names *)

(** If no two variables have the same name, each is found under its name. What is
    missing from C39: [add_variable] does not refuse a name that is in use, see
    [C39_same_name_refuted]. *)
Theorem C39_found_by_name_partial : forall d, NoDup (map va_name (ds_vars d)) ->
  forall v, In v (ds_vars d) -> find_var (va_name v) (ds_vars d) = Some v.
Proof.
  intros d. induction (ds_vars d) as [|w vs IH]; intros HN v Hin; [destruct Hin|]. cbn [map] in HN. apply NoDup_cons_iff in HN. destruct HN as [Hw HN].
  unfold find_var. cbn [find]. destruct (bytes_eqb (va_name w) (va_name v)) eqn:E.
  - apply bytes_eqb_spec in E. destruct Hin as [->|Hin]; [reflexivity|]. exfalso. apply Hw. rewrite E. apply in_map. exact Hin.
  - destruct Hin as [->|Hin]; [rewrite (proj2 (bytes_eqb_spec _ _) eq_refl) in E; discriminate|]. apply IH; assumption.
Qed.

(** Appending to a variable changes nothing but what that variable holds: the
    coordinates and the shape stay, so do the names, the settings and the order of the
    variables, and the variables with other names are the same, holding the same
    objects. *)
Theorem C40_other_variables_untouched : forall A hash lc (D : dtype A) order fuel d name data st st' d',
  dataset_append hash lc D order fuel d name data st = (st', Ok d') ->
  ds_coords d' = ds_coords d /\ ds_rows d' = ds_rows d /\ ds_cols d' = ds_cols d /\
  Forall2 (fun v v' => va_name v' = va_name v /\ va_round v' = va_round v /\ va_span_size v' = va_span_size v /\
                       va_chunk_size v' = va_chunk_size v /\ va_levels v' = va_levels v /\ va_enc v' = va_enc v /\
                       (va_name v <> name -> v' = v)) (ds_vars d) (ds_vars d').
Proof.
  intros A hash lc D order fuel d name data st st' d'. unfold dataset_append. destruct (find_var name (ds_vars d)) as [v|] eqn:Ef; [|discriminate].
  unfold obind at 1. destruct (tail_data _ _ st) as [st1 [tail| | |]]; try discriminate.
  unfold obind at 1.
  match goal with |- context [let '(_, _) := ?m in _] => destruct m as [st2 [ci| | |]] end; try discriminate.
  unfold oret. intros H. injection H as _ <-. cbn [ds_coords ds_rows ds_cols ds_vars]. do 3 (split; [reflexivity|]).
  unfold find_var in Ef. revert Ef. induction (ds_vars d) as [|w vs IH]; cbn [find]; [discriminate|]. cbn [replace_var].
  assert (Hr : forall l : list variable, Forall2 (fun v v' => va_name v' = va_name v /\ va_round v' = va_round v /\ va_span_size v' = va_span_size v /\
                       va_chunk_size v' = va_chunk_size v /\ va_levels v' = va_levels v /\ va_enc v' = va_enc v /\
                       (va_name v <> name -> v' = v)) l l) by (induction l; constructor; auto 10).
  destruct (bytes_eqb (va_name w) name) eqn:Ew; intros Ef.
  - injection Ef as ->. cbn [with_var_cid va_name]. rewrite (proj2 (bytes_eqb_spec _ _) eq_refl). constructor; [|apply Hr].
    cbn. do 6 (split; [reflexivity|]). intros C. exfalso. apply C. apply bytes_eqb_spec. exact Ew.
  - assert (En : va_name v = name).
    { apply find_some in Ef. destruct Ef as [_ E]. apply bytes_eqb_spec in E. exact E. }
    cbn [with_var_cid va_name]. rewrite En, Ew. constructor; [auto 10|]. apply IH. exact Ef.
Qed.

(** ** Concrete cases *)
Import PropertiesNode PropertiesFloat.
Open Scope nat_scope.
Definition ex_lg : f64 -> nat := exact_log2_floor.
Notation dataset_commit := DatasetModel.dataset_commit.
Definition ex_coords : coordinate * coordinate * coordinate := ds_coords ex_dataset.
(** [ceil(log2 n)] *)
Definition ex_lc (n : nat) : nat := SnapshotModel.log_ceil 2 n.
Definition ex_data (seed n rows cols : nat) : array3 Z :=
  mkArray3 (n, rows, cols) (fun t r c => (Z.of_nat ((seed + 7 * t + 3 * r * t + 5 * c) mod 11) - 4)%Z).
Definition ex_a : config := mkConfig [97]%N None 2 2 [1; 2] I32.
Definition ex_b : config := mkConfig [98]%N None 3 1 [3] I64.
Definition ex_f : config := mkConfig [102]%N (Some 1) 2 2 [1; 2] F64.
(** Every third raster is NaN. *)
Definition ex_floats (seed n rows cols : nat) : array3 f64 :=
  mkArray3 (n, rows, cols) (fun t r c => if (seed + t) mod 3 =? 0 then B754_nan else fl64 (Z.of_nat ((seed + 7 * t + 3 * r * t + 5 * c) mod 11)) (-2)).
Definition ex_history : list event :=
  [Add ex_a; Append I32 [97]%N (ex_data 1 3 5 6); Reload; Add ex_b; Append I32 [97]%N (ex_data 2 4 5 6); Reload; Reload;
   Append I64 [98]%N (ex_data 3 2 5 6); Commit; Append I32 [97]%N (ex_data 4 0 5 6); Append I32 [97]%N (ex_data 5 2 5 6);
   Add ex_f; Append F64 [102]%N (ex_floats 1 3 5 6); Append F64 [102]%N (ex_floats 4 2 5 6)].

Lemma ex_setting : setting ex_hash ex_lg (@rev call) 5 6 1000 ex_coords.
Proof.
  constructor.
  - intros b. unfold ex_hash. apply wf_ex_cid.
  - apply Permutation_rev.
  - exact exact_log2_accurate.
  - split; [lia|reflexivity].
  - split; [lia|reflexivity].
  - reflexivity.
  - destruct wf_ex_dataset as [H _ _ _ _ _]. exact H.
Qed.
Lemma ex_config c : In c [ex_a; ex_b; ex_f] -> config_ok ex_lc 4 5 6 c.
Proof.
  assert (HS : forall n, n <= 2 -> sizes_ok 2 ex_lc n (Nat.max 5 6)).
  { intros n Hn. apply (C19_sizes 2 n 6 (le_n 2)). eapply fits32_le; [|exact (eq_refl : fits32 (2 * (6 * 2 * (6 * 2)) * 2))]. lia. }
  intros [<-|[<-|[<-|[]]]]; constructor; cbn [ex_a ex_b ex_f cf_name cf_round cf_span cf_chunk cf_levels cf_type length]; auto.
  - split; [vm_compute; reflexivity|repeat constructor].
  - split; [lia|reflexivity].
  - split; [lia|reflexivity].
  - split; [reflexivity|repeat constructor].
  - apply (proj1 (proj2 (C19_levels 2 ex_lc (le_n 2)))). reflexivity.
  - split; [vm_compute; reflexivity|repeat constructor].
  - split; [lia|reflexivity].
  - split; [lia|reflexivity].
  - split; [reflexivity|repeat constructor].
  - apply (proj1 (C19_levels 2 ex_lc (le_n 2))). reflexivity.
  - split; [vm_compute; reflexivity|repeat constructor].
  - reflexivity.
  - split; [lia|reflexivity].
  - split; [lia|reflexivity].
  - split; [reflexivity|repeat constructor].
  - apply (proj1 (proj2 (C19_levels 2 ex_lc (le_n 2)))). reflexivity.
Qed.
Lemma ex_range seed n rows cols t r c : (-4 <= a3_at (ex_data seed n rows cols) t r c <= 6)%Z.
Proof. cbn [a3_at ex_data]. set (x := seed + _ + _ + _). clearbody x. pose proof (Nat.mod_upper_bound x 11 ltac:(lia)). lia. Qed.
(** Each array is appended to one of the variables added before it. *)
Fixpoint appends_to (rows cols : nat) (seen : list config) (es : list event) : Prop :=
  match es with
  | [] => True
  | Add c :: es' => appends_to rows cols (seen ++ [c]) es'
  | Append t name data :: es' =>
      (exists c, In c seen /\ cf_name c = name /\ cf_type c = t /\ a3_shape data = (instants3 data, rows, cols)) /\ appends_to rows cols seen es'
  | _ :: es' => appends_to rows cols seen es'
  end.
Lemma appends_to_all rows cols es : forall seen, appends_to rows cols seen es ->
  forall before t name data after, es = before ++ Append t name data :: after ->
  exists c, In c (seen ++ configs before) /\ cf_name c = name /\ cf_type c = t /\ a3_shape data = (instants3 data, rows, cols).
Proof.
  induction es as [|e es IH]; intros seen H before t name data after E; [destruct before; discriminate|].
  destruct before as [|b before]; cbn [app] in E; injection E as E1 E2; subst e.
  - destruct H as (H & _). cbn [configs]. rewrite app_nil_r. exact H.
  - destruct b as [c|t' n' a'| |]; cbn [appends_to configs] in *; try (eapply IH; eassumption).
    + change (c :: configs before) with ([c] ++ configs before). rewrite app_assoc. eapply IH; eassumption.
    + destruct H as (_ & H). eapply IH; eassumption.
Qed.
Lemma joined_all {A} (P : A -> Prop) z (l : list (array3 A)) : P z -> Forall (fun a => forall t r c, P (a3_at a t r c)) l -> forall t r c, P (joined z l t r c).
Proof. intros Hz H. induction H as [|a l Ha _ IH]; intros t r c; cbn [joined]; [exact Hz|]. destruct (t <? _); [apply Ha|apply IH]. Qed.
Lemma ex_floats_raster l : Forall (fun a => exists s n, a = ex_floats s n 5 6) l -> forall t,
  (forall r c, is_nan (joined (B754_zero false : f64) l t r c) = true) \/
  (forall r c, is_nan (joined (B754_zero false : f64) l t r c) = false /\ storable (Some 1) 1 (joined (B754_zero false : f64) l t r c) /\
    (-1 <= B2R (joined (B754_zero false : f64) l t r c))%R).
Proof.
  intros H. induction H as [|a l (s & n & ->) _ IH]; intros t; cbn [joined].
  - right. intros r c. split; [reflexivity|]. split; [|cbn [B2R]; lra]. right. cbn [B2R]. split; [reflexivity|]. split; lra.
  - destruct (t <? _); [|apply IH]. cbn [a3_at ex_floats]. destruct ((s + t) mod 3 =? 0); [left; reflexivity|]. right. intros r c.
    set (x := _ mod 11). assert (Hx : x < 11) by (apply Nat.mod_upper_bound; lia). clearbody x.
    destruct (fl64_value (Z.of_nat x) (-2)) as (F & V); [lia|lia|]. split; [apply finite_not_nan; exact F|].
    rewrite V. change (bpow radix2 (-2)) with (/ 4)%R.
    assert (H1 : (0 <= IZR (Z.of_nat x))%R) by (apply IZR_le; lia). assert (H2 : (IZR (Z.of_nat x) <= 11)%R) by (apply IZR_le; lia).
    split; [|lra]. right. split; [exact F|]. rewrite V. change (bpow radix2 (-2)) with (/ 4)%R. split; lra.
Qed.
(** Rasters that are all NaN or have none. *)
Lemma plain_rasters_safe round lc levels : forall (g : nat -> nat -> nat -> f64) n h w,
  (forall t, t < n -> (forall r c, is_nan (g t r c) = true) \/ (forall r c, is_nan (g t r c) = false)) -> nan_safe_tree round 2 lc levels g n h w.
Proof.
  induction levels as [|level sub IH]; intros g n h w H; cbn [nan_safe_tree]; [exact I|]. cbv zeta. intros i j _ _. split.
  - left. intros t Ht N r c _ _. destruct (H t Ht) as [A|A]; [apply A|rewrite A in N; discriminate].
  - apply IH. intros t Ht. destruct (H t Ht) as [A|A]; [left|right]; intros; apply A.
Qed.

Lemma ex_valid : valid ex_lc 4 5 6 1000 ex_history.
Proof.
  constructor.
  - cbn [ex_history configs map cf_name ex_a ex_b ex_f]. repeat constructor; cbn; intuition discriminate.
  - reflexivity.
  - apply Forall_forall. exact ex_config.
  - apply (appends_to_all 5 6 ex_history []). unfold ex_history. cbn [appends_to app].
    repeat match goal with
    | |- (exists c, _) /\ _ => split
    | |- exists c, _ => first [exists ex_a; cbn; now auto 10 | exists ex_b; cbn; now auto 10 | exists ex_f; cbn; now auto 10]
    | |- True => exact I
    end.
  - assert (HR : forall l, Forall (fun a => exists s n, a = ex_data s n 5 6) l -> forall t r c, (-4 <= joined 0%Z l t r c <= 6)%Z).
    { intros l H. apply (joined_all (fun v => (-4 <= v <= 6)%Z)); [lia|]. eapply Forall_impl; [|exact H].
      intros a (s & n & ->) t r c. apply ex_range. }
    intros c [<-|[<-|[<-|[]]]]; (split; [vm_compute; lia|]); intros before after _; generalize (length_appended before); intros T.
    + apply C24_i32_always_fits. intros t r k _ _ _.
      assert (H : Forall (fun a => exists s n, a = ex_data s n 5 6) (batches I32 (cf_name ex_a) ex_history)) by (cbn; repeat constructor; eauto).
      pose proof (HR _ H t r k) as HB. change (i32_range (joined 0%Z (batches I32 (cf_name ex_a) ex_history) t r k)).
      generalize dependent (joined 0%Z (batches I32 (cf_name ex_a) ex_history) t r k). intros v HB. unfold i32_range. lia.
    + assert (H : Forall (fun a => exists s n, a = ex_data s n 5 6) (batches I64 (cf_name ex_b) ex_history)) by (cbn; repeat constructor; eauto).
      specialize (HR _ H). intros i Hi. left. split; [reflexivity|]. split; [reflexivity|]. split.
      * intros t r k _ _ _. specialize (HR (i * cf_chunk ex_b + t) r k).
        change (i64_range (joined 0%Z (batches I64 (cf_name ex_b) ex_history) (i * cf_chunk ex_b + t) r k)).
        revert HR. generalize (joined 0%Z (batches I64 (cf_name ex_b) ex_history) (i * cf_chunk ex_b + t) r k). intros v HB. unfold i64_range, two63. lia.
      * intros s t Hst Ht r k Hr Hk. pose proof (HR (i * cf_chunk ex_b + s) r k) as A. pose proof (HR (i * cf_chunk ex_b + t) r k) as B.
        change (i64_range (joined 0%Z (batches I64 (cf_name ex_b) ex_history) (i * cf_chunk ex_b + t) r k - joined 0%Z (batches I64 (cf_name ex_b) ex_history) (i * cf_chunk ex_b + s) r k)).
        revert A B. generalize (joined 0%Z (batches I64 (cf_name ex_b) ex_history) (i * cf_chunk ex_b + t) r k), (joined 0%Z (batches I64 (cf_name ex_b) ex_history) (i * cf_chunk ex_b + s) r k).
        intros v w A B. unfold i64_range, two63. lia.
    + assert (H : Forall (fun a => exists s n, a = ex_floats s n 5 6) (batches F64 (cf_name ex_f) ex_history)) by (cbn; repeat constructor; eauto).
      pose proof (ex_floats_raster _ H) as HF. intros i Hi. exists 1. split; [lia|]. split; [intros b E; injection E; auto|]. split; [|split].
      * intros t r k _ _ _. destruct (HF (i * cf_chunk ex_f + t)) as [A|A]; [left; apply A|apply A].
      * apply plain_rasters_safe. intros t _. destruct (HF (i * cf_chunk ex_f + t)) as [A|A]; [left; intros; apply A|right; intros; apply A].
      * apply above_balanced. intros t r k _ _ _ N. destruct (HF (i * cf_chunk ex_f + t)) as [A|A]; [|apply A].
        exfalso. pose proof (eq_trans (eq_sym (A r k)) N) as X. discriminate X.
Qed.

Definition ex_run : store * res dataset := run ex_hash ex_lc ex_lg (@rev call) 4 (dataset_new ex_coords 5 6) ex_history [].
Example C24_example : setting ex_hash ex_lg (@rev call) 5 6 1000 ex_coords /\ valid ex_lc 4 5 6 1000 ex_history /\ functional (fst ex_run) /\
  length_appended ex_history ex_a = 9 /\ length_appended ex_history ex_b = 2 /\ length_appended ex_history ex_f = 5.
Proof.
  split; [exact ex_setting|]. split; [exact ex_valid|]. split; [|vm_compute; auto].
  apply functional_checked. vm_compute. reflexivity.
Qed.

(** [add_variable] accepts span sizes 0 and 1, chunk size 0 and levels that do not
    fit the shape, but appending three instants of that shape then panics. *)
Definition ex_config_of (span chunk : nat) (levels : list nat) : config := mkConfig [97]%N None span chunk levels I32.
Theorem C25_accepted_configurations_refuted :
  Forall (fun x => let '(span, chunk, levels) := x in
    exists st d, run ex_hash ex_lc ex_lg (@rev call) 4 (dataset_new ex_coords 5 6) [Add (ex_config_of span chunk levels)] [] = (st, Ok d) /\
      snd (run ex_hash ex_lc ex_lg (@rev call) 4 d [Append I32 [97]%N (ex_data 1 3 5 6)] st) = Panic)
  [(0, 2, [3]); (1, 2, [3]); (2, 0, [3]); (2, 2, [2]); (2, 2, [1; 3]); (2, 2, [])].
Proof. repeat constructor; (eexists; eexists; split; [reflexivity|vm_compute; reflexivity]). Qed.

(** The type of the data is not checked against the type of the variable: 64-bit
    integers can be appended to a variable of 32-bit integers, and read back as
    something else. *)
Definition ex_wide : array3 Z := mkArray3 (1, 5, 6) (fun _ r c => (2 ^ 32 + Z.of_nat (r * c))%Z).
Theorem C24_type_unchecked_refuted :
  exists st d v m, run ex_hash ex_lc ex_lg (@rev call) 4 (dataset_new ex_coords 5 6) [Add ex_a; Append I64 [97]%N ex_wide] [] = (st, Ok d) /\
    functional st /\ find_var [97]%N (ds_vars d) = Some v /\ var_data dt_i32 st v = Ok m /\
    arr_get reader_i32 st 10 m 0 1 1 = Ok 1%Z /\ a3_at ex_wide 0 1 1 = (2 ^ 32 + 1)%Z /\ var_data dt_i64 st v <> Ok m.
Proof.
  eexists; eexists; eexists; eexists. split; [vm_compute; reflexivity|]. split; [apply functional_checked; vm_compute; reflexivity|].
  split; [reflexivity|]. split; [vm_compute; reflexivity|]. split; [vm_compute; reflexivity|]. split; [reflexivity|]. vm_compute. discriminate.
Qed.

(** How an array is split into appends can matter: two instants that are stored
    rightly together ([valid] holds) are not if they are appended one after the
    other, because the first alone is at risk from its NaN (C22). *)
Definition ex_late (t r c : nat) : f64 := if t =? 0 then ex_leading 0 r c else fl64 (Z.of_nat (3 * r + c)) 0.
Definition ex_whole : array3 f64 := mkArray3 (2, 4, 4) ex_late.
Definition ex_part (t : nat) : array3 f64 := mkArray3 (1, 4, 4) (fun _ => ex_late t).
Definition ex_g : config := mkConfig [103]%N None 2 2 [1; 1] F64.
Lemma ex_whole_valid : valid ex_lc 4 4 4 1000 [Add ex_g; Append F64 [103]%N ex_whole].
Proof.
  constructor.
  - repeat constructor; cbn; intuition discriminate.
  - reflexivity.
  - apply Forall_forall. intros c [<-|[]]. constructor; cbn [ex_g cf_name cf_span cf_chunk cf_round cf_levels].
    + split; [vm_compute; reflexivity|repeat constructor].
    + reflexivity.
    + split; [lia|reflexivity].
    + split; [lia|reflexivity].
    + split; [reflexivity|repeat constructor].
    + apply two_levels_fit. reflexivity.
    + apply (C19_sizes 2 2 4 (le_n 2)). reflexivity.
    + cbn. lia.
  - apply (appends_to_all 4 4 _ []). cbn [appends_to app]. split; [|exact I]. exists ex_g. cbn. auto.
  - intros c [<-|[]]. split; [vm_compute; lia|]. intros before after E.
    destruct before as [|b1 [|b2 [|b3 before]]]; cbn [app] in E; [| | |discriminate E].
    { intros i Hi. exfalso. change (length_appended [] ex_g) with 0 in Hi. lia. }
    { injection E as <- _. intros i Hi. exfalso. change (length_appended [Add ex_g] ex_g) with 0 in Hi. lia. }
    injection E as <- <- _. change (length_appended _ ex_g) with 2. intros i Hi. assert (i = 0) as -> by (cbn in Hi; lia). clear Hi.
    change (cf_chunk ex_g) with 2. change (Nat.min 2 (2 - 0 * 2)) with 2.
    exists 0. split; [lia|]. split; [intros b E; discriminate E|].
    assert (EA : forall t r c, t < 2 -> appended [Add ex_g; Append F64 [103]%N ex_whole] ex_g (0 * 2 + t) r c = ex_late t r c).
    { intros t r c Ht. destruct t as [|[|t]]; [reflexivity|reflexivity|lia]. }
    assert (HV : forall n, n <= 100 -> is_finite (fl64 (Z.of_nat n) 0) = true /\ B2R (fl64 (Z.of_nat n) 0) = IZR (Z.of_nat n)).
    { intros n Hn. destruct (fl64_value (Z.of_nat n) 0) as (F & V); [lia|lia|]. split; [exact F|]. rewrite V. change (bpow radix2 0) with 1%R. ring. }
    assert (HSt : forall n, n <= 100 -> storable None 0 (fl64 (Z.of_nat n) 0)).
    { intros n Hn. destruct (HV n Hn) as (F & V). right. split; [exact F|]. rewrite V.
      assert (P : (0 <= IZR (Z.of_nat n) <= 100)%R) by (split; apply IZR_le; lia). split; [lra|]. exists (Z.of_nat n). lra. }
    split; [|split].
    + intros t r c Ht Hr Hc. change (storable None 0 (appended [Add ex_g; Append F64 [103]%N ex_whole] ex_g (0 * 2 + t) r c)). rewrite EA by exact Ht.
      unfold ex_late, ex_leading. destruct (t =? 0); [|apply HSt; lia]. destruct ((r =? 0) && (c =? 0)); [left; reflexivity|].
      destruct ((r <? 2) && (c <? 2)); [apply (HSt 5); lia|apply HSt; lia].
    + assert (E4 : 2 ^ (ex_lc (Nat.max 4 4) - 1) = 2) by reflexivity. assert (E2 : 2 ^ (ex_lc (Nat.max 2 2) - 1) = 1) by reflexivity.
      change (cf_levels ex_g) with [1; 1]. cbn [nan_safe_tree]. cbv zeta. rewrite E4. intros i j Hi Hj.
      assert (Ei : Nat.min 2 (4 - i * 2) = 2) by lia. assert (Ej : Nat.min 2 (4 - j * 2) = 2) by lia.
      rewrite Ei, Ej, E2. split.
      * right. exists 1, 0, 0, 0, 1. do 5 (split; [lia|]).
        change (cf_round ex_g) with (@None nat). unfold value_of. rewrite !EA by lia. unfold ex_late. cbn [Nat.eqb].
        destruct (HV (3 * (i * 2 + 0) + (j * 2 + 0)) ltac:(lia)) as (F1 & V1). destruct (HV (3 * (i * 2 + 0) + (j * 2 + 1)) ltac:(lia)) as (F2 & V2).
        split; [apply finite_not_nan; exact F1|]. split; [apply finite_not_nan; exact F2|]. intros X.
        assert (Y : IZR (Z.of_nat (3 * (i * 2 + 0) + (j * 2 + 0))) = IZR (Z.of_nat (3 * (i * 2 + 0) + (j * 2 + 1)))) by (etransitivity; [symmetry; exact V1|]; etransitivity; [exact X|exact V2]).
        apply eq_IZR in Y. lia.
      * intros i' j' Hi' Hj'. split; [|exact I]. left. intros t Ht N r c Hr Hc. replace r with 0 by lia. replace c with 0 by lia. exact N.
    + apply above_balanced. intros t r c Ht Hr Hc _. change (-1 <= B2R (appended [Add ex_g; Append F64 [103]%N ex_whole] ex_g (0 * 2 + t) r c))%R. rewrite EA by exact Ht.
      assert (HP : forall n, n <= 100 -> (-1 <= B2R (fl64 (Z.of_nat n) 0))%R).
      { intros n Hn. destruct (HV n Hn) as (_ & V). rewrite V. apply IZR_le. lia. }
      unfold ex_late, ex_leading. destruct (t =? 0); [|apply HP; lia]. destruct ((r =? 0) && (c =? 0)); [cbn [B2R]; lra|].
      destruct ((r <? 2) && (c <? 2)); [apply (HP 5); lia|apply HP; lia].
Qed.
Theorem C24_float_split_matters_refuted :
  valid ex_lc 4 4 4 1000 [Add ex_g; Append F64 [103]%N ex_whole] /\
  (forall t r c, t < 2 -> joined (B754_zero false) [ex_whole] t r c = joined (B754_zero false) [ex_part 0; ex_part 1] t r c) /\
  is_nan (ex_late 0 0 0) = true /\
  exists st1 d1 v1 m1 st2 d2 v2 m2,
    run ex_hash ex_lc ex_lg (@rev call) 4 (dataset_new ex_coords 4 4) [Add ex_g; Append F64 [103]%N ex_whole] [] = (st1, Ok d1) /\
    run ex_hash ex_lc ex_lg (@rev call) 4 (dataset_new ex_coords 4 4) [Add ex_g; Append F64 [103]%N (ex_part 0); Append F64 [103]%N (ex_part 1)] [] = (st2, Ok d2) /\
    functional st1 /\ functional st2 /\
    find_var [103]%N (ds_vars d1) = Some v1 /\ var_data (dt_f64 ex_lg) st1 v1 = Ok m1 /\
    find_var [103]%N (ds_vars d2) = Some v2 /\ var_data (dt_f64 ex_lg) st2 v2 = Ok m2 /\
    reads_nan (arr_get reader_f64 st1 10 m1 0 0 0) = true /\
    reads_num (arr_get reader_f64 st2 10 m2 0 0 0) (fl64 5 0) = true.
Proof.
  split; [exact ex_whole_valid|]. split; [|split; [reflexivity|]].
  { intros t r c Ht. destruct t as [|[|t]]; [reflexivity|reflexivity|lia]. }
  eexists; eexists; eexists; eexists; eexists; eexists; eexists; eexists.
  split; [vm_compute; reflexivity|]. split; [vm_compute; reflexivity|].
  split; [apply functional_checked; vm_compute; reflexivity|]. split; [apply functional_checked; vm_compute; reflexivity|].
  split; [reflexivity|]. split; [vm_compute; reflexivity|]. split; [reflexivity|]. split; [vm_compute; reflexivity|].
  split; vm_compute; reflexivity.
Qed.

(** Appended numbers are read back as other numbers, and nothing reports it, if
    they are below zero: -30.25 as -30 from a variable that does not round (C19). *)
Definition ex_deep : array3 f64 := mkArray3 (1, 4, 4) ex_below.
Theorem C24_negative_refuted :
  B2R (a3_at ex_deep 0 0 0) = (-121 / 4)%R /\
  exists st d v m,
    run ex_hash ex_lc ex_lg (@rev call) 4 (dataset_new ex_coords 4 4) [Add ex_g; Append F64 [103]%N ex_deep] [] = (st, Ok d) /\
    functional st /\ find_var [103]%N (ds_vars d) = Some v /\ var_data (dt_f64 ex_lg) st v = Ok m /\
    reads_num (arr_get reader_f64 st 10 m 0 0 0) (fl64 (-30) 0) = true.
Proof.
  split; [apply (proj1 (C19_negative_refuted 0 (or_introl eq_refl)))|].
  eexists; eexists; eexists; eexists. split; [vm_compute; reflexivity|]. split; [apply functional_checked; vm_compute; reflexivity|].
  split; [reflexivity|]. split; [vm_compute; reflexivity|]. vm_compute. reflexivity.
Qed.

(** Appending to a chunk reads it first, and a part of the chunk that cannot be
    loaded counts as zeros: if one object is missing, the append succeeds and the
    new version holds zeros in its place, for good. *)
Definition ex_first : store * res dataset :=
  run ex_hash ex_lc ex_lg (@rev call) 4 (dataset_new ex_coords 5 6) [Add ex_a; Append I32 [97]%N (ex_data 1 1 5 6)] [].
Definition ex_lost : store := firstn 1 (fst ex_first) ++ skipn 2 (fst ex_first).
Theorem C24_missing_object_zeroed_refuted :
  exists d st2 d2 v m, snd ex_first = Ok d /\ functional st2 /\
    run ex_hash ex_lc ex_lg (@rev call) 4 d [Append I32 [97]%N (ex_data 2 1 5 6)] ex_lost = (st2, Ok d2) /\
    find_var [97]%N (ds_vars d2) = Some v /\ var_data dt_i32 (fst ex_first ++ st2) v = Ok m /\
    arr_get reader_i32 (fst ex_first ++ st2) 10 m 0 0 1 = Ok 0%Z /\ a3_at (ex_data 1 1 5 6) 0 0 1 = 2%Z.
Proof.
  eexists; eexists; eexists; eexists; eexists. split; [vm_compute; reflexivity|]. split; [|split; [vm_compute; reflexivity|]].
  - apply functional_checked. vm_compute. reflexivity.
  - split; [reflexivity|]. split; [vm_compute; reflexivity|]. split; vm_compute; reflexivity.
Qed.

(** Names are not checked: a second variable with the same name is accepted and
    can then not be reached, appends go to the first one. *)
Theorem C39_same_name_refuted :
  exists st d v w, run ex_hash ex_lc ex_lg (@rev call) 4 (dataset_new ex_coords 5 6)
      [Add ex_a; Add (mkConfig [97]%N None 7 5 [3] I64); Append I32 [97]%N (ex_data 1 1 5 6)] [] = (st, Ok d) /\
    ds_vars d = [v; w] /\ va_name v = va_name w /\ find_var (va_name w) (ds_vars d) = Some v /\ va_enc w = EncI64 /\
    exists m, get_mm st (va_cid w) = Ok m /\ mm_shape m = Ok (0, 5, 6).
Proof.
  eexists; eexists; eexists; eexists. split; [vm_compute; reflexivity|]. split; [reflexivity|]. split; [reflexivity|].
  split; [reflexivity|]. split; [reflexivity|]. eexists. split; vm_compute; reflexivity.
Qed.

(** Going on with the dataset in memory after committing it leaves that version out
    of the chain: [commit] does not note the identifier in the dataset. *)
Theorem C28_commit_in_memory_refuted :
  exists st1 d1 c1 st2 st3 d2 c2 st4,
    run ex_hash ex_lc ex_lg (@rev call) 4 (dataset_new ex_coords 5 6) [Add ex_a] [] = (st1, Ok d1) /\
    dataset_commit ex_hash d1 st1 = (st2, Ok c1) /\
    run ex_hash ex_lc ex_lg (@rev call) 4 d1 [Append I32 [97]%N (ex_data 1 1 5 6)] st2 = (st3, Ok d2) /\
    dataset_commit ex_hash d2 st3 = (st4, Ok c2) /\
    functional st4 /\ walk st4 10 c2 = [c2] /\ c1 <> c2 /\ walk st4 10 c1 = [c1].
Proof.
  eexists; eexists; eexists; eexists; eexists; eexists; eexists; eexists.
  split; [reflexivity|]. split; [reflexivity|]. split; [vm_compute; reflexivity|]. split; [vm_compute; reflexivity|].
  split; [apply functional_checked; vm_compute; reflexivity|]. split; [vm_compute; reflexivity|]. split; [vm_compute; discriminate|vm_compute; reflexivity].
Qed.

(** The chain of the example: two versions were loaded again, one of them was
    committed twice; one was committed in between. *)
Example C28_example : exists st d versions c st1,
  run_versions ex_hash ex_lc ex_lg (@rev call) 4 (dataset_new ex_coords 5 6) ex_history [] = (st, Ok (d, versions)) /\
  dataset_commit ex_hash d st = (st1, Ok c) /\ functional st1 /\ length versions = 2 /\ walk st1 10 c = c :: versions.
Proof.
  eexists; eexists; eexists; eexists; eexists. split; [vm_compute; reflexivity|]. split; [vm_compute; reflexivity|].
  split; [apply functional_checked; vm_compute; reflexivity|]. split; vm_compute; reflexivity.
Qed.

Print Assumptions C24_i32_always_fits.
Print Assumptions C24_numbers_fit.
Print Assumptions C24_appends_concatenate_partial.
Print Assumptions C24_splits_do_not_matter_partial.
Print Assumptions C24_float_split_matters_refuted.
Print Assumptions C24_negative_refuted.
Print Assumptions C24_type_unchecked_refuted.
Print Assumptions C24_missing_object_zeroed_refuted.
Print Assumptions C25_valid_histories_succeed_partial.
Print Assumptions C25_accepted_configurations_refuted.
Print Assumptions C26_writes_only_add.
Print Assumptions C26_old_versions_partial.
Print Assumptions C28_chain_partial.
Print Assumptions C28_commit_in_memory_refuted.
Print Assumptions C39_same_name_refuted.
Print Assumptions C39_found_by_name_partial.
Print Assumptions C40_other_variables_untouched.
