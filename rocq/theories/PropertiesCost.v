(** * How many objects are written (C65) *)
From Coq Require Import ZArith Permutation.
From Flocq Require Import Core.Core IEEE754.BinarySingleNaN.
From Verif Require Import Base BaseFacts Spec GeomModel StreamModel StreamProofs ChunkModel ChunkStream
  NodeModel NodeProofs SuperModel ArrayModel FloatModel DatasetModel DatasetProofs AppendProofs HistoryModel KindProofs HistoryProofs CostProofs.
From Verif Require PropertiesFixed PropertiesFloat PropertiesNode PropertiesDataset PropertiesCanon.
Import PropertiesFixed PropertiesFloat PropertiesNode PropertiesDataset PropertiesCanon.
Arguments Nat.pow : simpl never.
Open Scope nat_scope.

(** [chunk_objects levels] and [parts n size] are specified in CostProofs.v. The store of the
    model lists what was saved, so its length counts the objects that were given to the mapper,
    also those that it had already. *)

(** After any valid history an append to a variable writes, at most:
    - for each chunk that it adds or completes, the objects of the chunk and its root;
    - for each span of chunks that it begins, twice a path through the tree of spans;
    - once more a path through the tree, at the end.
    [depth] is any number of levels of spans, above those of chunks, that is enough for all
    instants. So the number depends on what is appended, and only with the logarithm on what
    was there before. *)
Theorem C65_appends_write_few : forall hash lc lg order fuel rows cols N coords es c data st0 st d st' d' depth,
  run hash lc lg order fuel (dataset_new coords rows cols) es st0 = (st, Ok d) ->
  run_event hash lc lg order fuel d (Append (cf_type c) (cf_name c) data) st = (st', Ok d') ->
  setting hash lg order rows cols N coords -> valid lc fuel rows cols N (es ++ [Append (cf_type c) (cf_name c) data]) -> functional st' ->
  In c (configs es) ->
  let before := length_appended es c in
  let chunks := parts (before mod cf_chunk c + instants3 data) (cf_chunk c) in
  let spans := parts (before + instants3 data) (cf_chunk c * cf_span c) - parts before (cf_chunk c * cf_span c) in
  before + instants3 data <= cf_chunk c * cf_span c ^ S depth ->
  length st' <= length st + chunks * (chunk_objects (cf_levels c) + 1) + spans * (2 * depth + 2) + (depth + 1).
Proof.
  intros hash lc lg order fuel rows cols N coords es c data st0 st d st' d' depth E1 E2 HS HV HF Hc. cbv zeta. intros Hd.
  set (e := Append (cf_type c) (cf_name c) data) in *. set (es' := es ++ [e]) in *.
  pose proof HS as [S1 S2 SL [S3 S3'] [S4 S4'] S5 S6].
  pose proof (mono_event hash lc lg order fuel d e st) as M2. rewrite E2 in M2. cbn [fst] in M2. apply extends_incl in M2.
  assert (HF1 : functional st) by (eapply functional_incl; eassumption).
  pose proof (mono_run hash lc lg order fuel (dataset_new coords rows cols) es st0) as M1. rewrite E1 in M1. cbn [fst] in M1. apply extends_incl in M1.
  assert (HF0 : functional st0) by (eapply functional_incl; eassumption).
  assert (HI : inv hash lc lg rows cols coords es' st d es).
  { assert (G : forall after before d0 s0 s1 d1, es = before ++ after -> functional s0 -> inv hash lc lg rows cols coords es' s0 d0 before ->
      run hash lc lg order fuel d0 after s0 = (s1, Ok d1) -> functional s1 -> inv hash lc lg rows cols coords es' s1 d1 es).
    { induction after as [|x after IH]; intros before d0 s0 s1 d1 Eb Hf Hi Er Hf1; unfold run in Er; cbn [ofold] in Er.
      - unfold oret in Er. injection Er as <- <-. rewrite app_nil_r in Eb. rewrite Eb. exact Hi.
      - unfold obind in Er. destruct (run_event hash lc lg order fuel d0 x s0) as [s2 r2] eqn:Ex. destruct r2 as [d2| | |]; try discriminate.
        assert (Hf2 : functional s2). { eapply functional_incl; [|exact Hf1]. pose proof (mono_run hash lc lg order fuel d2 after s2) as Mr.
          unfold run in Mr. rewrite Er in Mr. apply extends_incl. exact Mr. }
        pose proof (ok_event hash lc lg order fuel rows cols N S1 S2 SL S3 S4 S3' S4' S5 coords es' S6 HV before x (after ++ [e]) d0 s0) as Ho.
        unfold ok_in in Ho. rewrite Ex in Ho. cbn [fst snd] in Ho.
        destruct Ho as (y & Ey & Hy & _); auto.
        { unfold es'. rewrite Eb, <- app_assoc. reflexivity. }
        injection Ey as <-. apply (IH (before ++ [x]) d2 s2); auto. rewrite Eb, <- app_assoc. reflexivity. }
    apply (G es [] (dataset_new coords rows cols) st0); auto. constructor; cbn; auto. }
  pose proof HI as [I1 I2 I3 I4 I5 I6]. pose proof HV as [V1 V2 V3 V4 V5].
  assert (V1b : NoDup (map cf_name (configs es))) by (unfold es' in V1; rewrite configs_app, map_app in V1; apply NoDup_app_l in V1; exact V1).
  assert (Hin : In c (configs es')) by (unfold es'; rewrite configs_app; apply in_or_app; left; exact Hc).
  destruct (find_config _ _ _ (var_ok_name hash lc lg rows cols es' st es) I6 V1b c Hc) as (v & Ev & (W1 & W2 & W3 & W4 & W5 & W6) & (e0 & He0 & HT)).
  assert (Cok : config_ok lc fuel rows cols c) by (rewrite Forall_forall in V3; auto).
  destruct Cok as [C1 C2 [C3 C3'] [C4 C4'] C5 C6 C7 C8].
  destruct (V4 es (cf_type c) (cf_name c) data [] eq_refl) as (_ & _ & _ & _ & Sh).
  destruct (V5 c Hin) as (V5a & V5b). specialize (V5b es' [] (eq_sym (app_nil_r _))).
  assert (El : length_appended es' c = length_appended es c + instants3 data) by (unfold es', e; rewrite length_app, length_append; reflexivity).
  rewrite El in V5a, V5b.
  assert (Hcost : costs (parts (length_appended es c mod cf_chunk c + instants3 data) (cf_chunk c) * S (chunk_objects (cf_levels c)) +
      (parts (length_appended es c + instants3 data) (cf_chunk c * cf_span c) - parts (length_appended es c) (cf_chunk c * cf_span c)) * (2 * depth + 2) + (depth + 1) + 0)
      (fun _ => 0) (dataset_append hash lc (dt_of lg (cf_type c)) order fuel d (cf_name c) data) st).
  { apply (costs_dataset_append hash lc (dt_of lg (cf_type c)) order fuel (same_of (cf_type c) (cf_round c)) rows cols (cf_chunk c) (cf_span c)
      (cf_levels c) (enc_of (cf_type c)) (cf_round c) S1 S2 C8 S3 S4 C4 C3 S3' S4' C4' C3' N S5
      (same_of_sym (cf_type c) (cf_round c)) (chunk_fits lc rows cols (cf_type c) (cf_round c) (cf_levels c))
      (chunk_V hash lc lg rows cols (cf_levels c) (cf_round c) (cf_type c))) with (G := appended es' c) (e := e0) (v := v); auto.
    - intros g1 g2 k H. apply chunk_fits_same. exact H.
    - intros g1 g2 st1 k m. apply chunk_V_same. exact SL.
    - intros g1 st1 k m ((f & W & HP) & _). exists f. split; [exact W|]. rewrite reader_eq.
      intros t r c' Ht Hr' Hc'. apply HP; assumption.
    - intros g1 k st1 Hk HD. apply chunk_build; auto; [apply Hk|].
      intros m Hm. destruct (C7 m Hm) as [B1 B2]. split; [exact B1|]. eapply fits32_le; [|exact B2]. apply Nat.mul_le_mono_l. apply Hk.
    - intros t r k Ht Hr' Hk.
      assert (Ed : a3_at data t r k = appended es' c (length_appended es c + t) r k).
      { unfold appended, length_appended, es', e. rewrite batches_app. cbn [batches].
        rewrite as_type_refl, (proj2 (bytes_eqb_spec _ _) eq_refl), (joined_app lc rows cols S3 S4). cbn [joined]. destruct (Nat.ltb_spec t (instants3 data)); [reflexivity|lia]. }
      rewrite Ed. apply (chunks_fit_refl lc rows cols c (appended es' c) (length_appended es c + instants3 data) C4 V5b); auto. lia. }
  unfold costs in Hcost. cbn [run_event e] in E2. rewrite E2 in Hcost. cbn [fst snd] in Hcost. destruct (Hcost HF) as (Hle & _).
  rewrite Nat.add_1_r. rewrite Nat.add_0_r, !Nat.add_assoc in Hle. rewrite !Nat.add_assoc. exact Hle.
Qed.

(** Adding a variable writes one object, and so does a commit. *)
Theorem C65_others_write_one : forall hash lc lg order fuel d st,
  (forall c, length (fst (run_event hash lc lg order fuel d (Add c) st)) = length st + 1) /\
  length (fst (run_event hash lc lg order fuel d Commit st)) = length st + 1 /\
  length (fst (run_event hash lc lg order fuel d Reload st)) = length st + 1.
Proof.
  intros hash lc lg order fuel d st. cbn [run_event]. unfold add_variable, dataset_commit, obind, osave, save, oret. cbn [fst].
  repeat split; intros; cbn [fst]; rewrite app_length; reflexivity.
Qed.

(** An append of one instant rewrites the chunk it completes, and three paths at most. *)
Theorem C65_one_instant : forall hash lc lg order fuel rows cols N coords es c data st0 st d st' d' depth,
  run hash lc lg order fuel (dataset_new coords rows cols) es st0 = (st, Ok d) ->
  run_event hash lc lg order fuel d (Append (cf_type c) (cf_name c) data) st = (st', Ok d') ->
  setting hash lg order rows cols N coords -> valid lc fuel rows cols N (es ++ [Append (cf_type c) (cf_name c) data]) -> functional st' ->
  In c (configs es) -> instants3 data = 1 -> length_appended es c < cf_chunk c * cf_span c ^ S depth ->
  length st' <= length st + chunk_objects (cf_levels c) + 3 * depth + 4.
Proof.
  intros hash lc lg order fuel rows cols N coords es c data st0 st d st' d' depth E1 E2 HS HV HF Hc H1 Hd.
  pose proof (C65_appends_write_few hash lc lg order fuel rows cols N coords es c data st0 st d st' d' depth E1 E2 HS HV HF Hc) as H. cbv zeta in H. rewrite H1 in H.
  specialize (H ltac:(lia)).
  assert (Hin : In c (configs (es ++ [Append (cf_type c) (cf_name c) data]))) by (rewrite configs_app; apply in_or_app; left; exact Hc).
  destruct HV as [_ _ V3 _ _]. rewrite Forall_forall in V3. destruct (V3 c Hin) as [_ _ [C3 _] [C4 _] _ _ _ _].
  set (T := length_appended es c) in *. set (w := cf_chunk c * cf_span c) in *. set (q := cf_chunk c) in *.
  assert (A1 : parts (T mod q + 1) q <= 1).
  { unfold parts. apply Nat.lt_succ_r, Nat.div_lt_upper_bound; [lia|]. pose proof (Nat.mod_upper_bound T q ltac:(lia)). lia. }
  assert (W : 1 <= w) by (unfold w; nia).
  assert (A2 : parts (T + 1) w - parts T w <= 1).
  { unfold parts. assert ((T + 1 + w - 1) / w <= (T + w - 1 + 1 * w) / w) by (apply Nat.div_le_mono; lia). rewrite Nat.div_add in H0 by lia. lia. }
  assert (parts (T mod q + 1) q * (chunk_objects (cf_levels c) + 1) <= 1 * (chunk_objects (cf_levels c) + 1)) by (apply Nat.mul_le_mono_r; exact A1).
  assert ((parts (T + 1) w - parts T w) * (2 * depth + 2) <= 1 * (2 * depth + 2)) by (apply Nat.mul_le_mono_r; exact A2).
  revert H H0 H2. generalize (parts (T mod q + 1) q * (chunk_objects (cf_levels c) + 1)) ((parts (T + 1) w - parts T w) * (2 * depth + 2)). clear. intros; lia.
Qed.

(** The history of [C55_identifiers_example] in which seven instants are appended in three
    parts, in chunks of two and spans of two. The last part begins the second span, and the
    tree gets a second level: 10 objects are written, as many as the bound says. *)
Definition ex_before : list event := [Add ex_one; Append I32 [97]%N (ex_slice 0 1); Append I32 [97]%N (ex_slice 1 3)].
Notation ex_run1 := (run ex_hash ex_lc ex_lg (@rev call) 4 (dataset_new ex_coords 2 2) ex_before []).
Notation ex_run2 := (run ex_hash ex_lc ex_lg (@rev call) 4 (dataset_new ex_coords 2 2) ex_short []).
Lemma ex_counts : length (fst ex_run1) = 9 /\ length (fst ex_run2) = 19.
Proof. vm_compute. split; reflexivity. Qed.
Example C65_example : exists d d', ex_run1 = (fst ex_run1, Ok d) /\
  run_event ex_hash ex_lc ex_lg (@rev call) 4 d (Append I32 [97]%N (ex_slice 4 3)) (fst ex_run1) = (fst ex_run2, Ok d') /\
  setting ex_hash ex_lg (@rev call) 2 2 1000 ex_coords /\
  valid ex_lc 4 2 2 1000 (ex_before ++ [Append (cf_type ex_one) (cf_name ex_one) (ex_slice 4 3)]) /\ functional (fst ex_run2) /\
  In ex_one (configs ex_before) /\ length_appended ex_before ex_one + instants3 (ex_slice 4 3) <= cf_chunk ex_one * cf_span ex_one ^ 2 /\
  length (fst ex_run2) = length (fst ex_run1) +
    parts (length_appended ex_before ex_one mod 2 + 3) 2 * (chunk_objects [1] + 1) + (parts (4 + 3) (2 * 2) - parts 4 (2 * 2)) * (2 * 1 + 2) + (1 + 1).
Proof.
  assert (F : functional (fst ex_run2)) by (apply functional_checked; vm_compute; reflexivity).
  destruct (run_result ex_hash ex_lc ex_lg (@rev call) 4 2 2 1000 ex_coords ex_short ex_set (ex_valid ex_short ltac:(cbn; auto)) [] F) as (d' & E' & _).
  change ex_short with (ex_before ++ [Append I32 [97]%N (ex_slice 4 3)]) in E'.
  assert (A : forall l l' d s, run ex_hash ex_lc ex_lg (@rev call) 4 d (l ++ l') s =
    match run ex_hash ex_lc ex_lg (@rev call) 4 d l s with (s1, Ok d1) => run ex_hash ex_lc ex_lg (@rev call) 4 d1 l' s1 | (s1, Err e) => (s1, Err e) | (s1, Panic) => (s1, Panic) | (s1, Diverge) => (s1, Diverge) end).
  { unfold run. induction l as [|x l IH]; intros l' d s; cbn [app ofold]; [reflexivity|]. unfold obind.
    destruct (run_event ex_hash ex_lc ex_lg (@rev call) 4 d x s) as [s1 r1]. destruct r1; try reflexivity. apply IH. }
  assert (B : forall d s, run ex_hash ex_lc ex_lg (@rev call) 4 d [Append I32 [97]%N (ex_slice 4 3)] s = run_event ex_hash ex_lc ex_lg (@rev call) 4 d (Append I32 [97]%N (ex_slice 4 3)) s).
  { intros d s. unfold run. cbn [ofold]. unfold obind. destruct (run_event ex_hash ex_lc ex_lg (@rev call) 4 d (Append I32 [97]%N (ex_slice 4 3)) s) as [s1 r1]. destruct r1; reflexivity. }
  pose proof (A ex_before [Append I32 [97]%N (ex_slice 4 3)] (dataset_new ex_coords 2 2) []) as A1.
  pose proof ex_counts as (N1 & N2).
  change ex_short with (ex_before ++ [Append I32 [97]%N (ex_slice 4 3)]) in N2, F |- *.
  destruct ex_run1 as [s1 r1] eqn:E1. cbn [fst snd] in *. 
  destruct r1 as [d| | |]; try (rewrite A1 in E'; discriminate E'). rewrite B in A1. exists d, d'. split; [reflexivity|].
  split; [rewrite A1 in E' |- *; rewrite <- E'; apply surjective_pairing|]. split; [exact ex_set|].
  split; [exact (ex_valid ex_short ltac:(cbn; auto))|]. split; [exact F|]. split; [left; reflexivity|].
  split; [vm_compute; repeat constructor|]. rewrite N1, N2. vm_compute. reflexivity.
Qed.

Print Assumptions C65_appends_write_few.
Print Assumptions C65_others_write_one.
Print Assumptions C65_one_instant.
