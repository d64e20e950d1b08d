(** * C53: a dataset keeps what it and its variables were created with. *)
From Coq Require Import ZArith Permutation.
From Verif Require Import Base BaseFacts Spec GeomModel GeomProofs BitmapModel DacModel StreamModel StreamProofs ChunkModel ChunkStream ChunkReads
  NodeModel NodeProofs SuperModel SuperViews SuperProofs ArrayModel ArrayProofs FixedModel FloatModel DatasetModel DatasetProofs AppendProofs HistoryModel
  KindProofs HistoryProofs SessionModel SessionSpec SessionProofs StoryProofs.
From Verif Require SnapshotModel PropertiesNode PropertiesSuper PropertiesDataset PropertiesSession.
Import PropertiesNode PropertiesDataset PropertiesSession.
Arguments Nat.pow : simpl never.
Open Scope nat_scope.

(** What can be asked of a variable, but for its data; and what [add_variable] was given. *)
Definition settings (v : variable) : bytes * option nat * nat * nat * list nat * encoding :=
  (va_name v, va_round v, va_span_size v, va_chunk_size v, va_levels v, va_enc v).
Definition wanted (c : config) : bytes * option nat * nat * nat * list nat * encoding :=
  (cf_name c, cf_round c, cf_span c, cf_chunk c, cf_levels c, enc_of (cf_type c)).
(** [d] has the coordinates and the shape it was created with and the variables that were
    added, in this order. *)
Definition as_created (d : dataset) (s : story) : Prop :=
  ds_coords d = sy_coords s /\ (ds_rows d, ds_cols d) = (sy_rows s, sy_cols s) /\ map settings (ds_vars d) = map wanted (configs (sy_events s)).

Section Kept.
  Variables (hash : bytes -> cid) (lc : nat -> nat) (lg : f64 -> nat) (order : list call -> list call) (fuel : nat).

  Lemma replaced_settings name v vars c : find_var name vars = Some v -> map settings (replace_var (with_var_cid v c) vars) = map settings vars.
  Proof.
    unfold find_var. induction vars as [|x vars IH]; cbn [find replace_var map]; [discriminate|]. change (va_name (with_var_cid v c)) with (va_name v).
    destruct (bytes_eqb (va_name x) name) eqn:E.
    - intros H. injection H as <-. assert (R : bytes_eqb (va_name x) (va_name x) = true) by (apply bytes_eqb_spec; reflexivity). rewrite R. reflexivity.
    - intros H. pose proof (find_some _ _ H) as [_ Hv]. apply bytes_eqb_spec in Hv. rewrite Hv, E. cbn [map]. f_equal. apply IH, H.
  Qed.

  Lemma created_event d e st st' d' s : wf_dataset d -> functional st' -> run_event hash lc lg order fuel d e st = (st', Ok d') ->
    as_created d s -> as_created d' (and_then s e).
  Proof.
    intros Wd HF E (H1 & H2 & H3). unfold as_created. cbn [and_then sy_coords sy_rows sy_cols sy_events]. rewrite configs_app, map_app, <- H1, <- H2, <- H3.
    destruct e as [c|t n a| |]; cbn [run_event configs map] in *; rewrite ?app_nil_r.
    - unfold add_variable, obind, osave, save, oret in E. injection E as _ <-. cbn [ds_coords ds_rows ds_cols ds_vars]. rewrite map_app. auto.
    - unfold dataset_append in E. destruct (find_var n (ds_vars d)) as [v|] eqn:Ef; [|discriminate].
      unfold obind at 1 in E. destruct (tail_data _ _ st) as [st1 [tail| | |]]; try discriminate. unfold obind at 1 in E.
      match type of E with context [let '(_, _) := ?m in _] => destruct m as [st2 [ci| | |]] end; try discriminate.
      unfold oret in E. injection E as _ <-. cbn [ds_coords ds_rows ds_cols ds_vars]. rewrite (replaced_settings n v _ ci Ef). auto.
    - unfold dataset_commit, obind, osave, save, oret in E. injection E as _ <-. auto.
    - unfold dataset_commit, obind, osave, save in E. cbn [fst snd] in E. injection E as <- E.
      unfold get_dataset in E. rewrite (retrieve_saved _ hash (NDataset d) Wd HF) in E by (apply in_or_app; right; left; reflexivity).
      cbn [bind loaded] in E. injection E as <-. cbn [with_cid ds_coords ds_rows ds_cols ds_vars]. auto.
  Qed.

  Definition created_at (st : store) (l : list (option story)) : Prop := length l = length st /\ forall i c b o, nth_error st i = Some (c, b) -> nth_error l i = Some o ->
    match o with
    | Some s => exists d, b = node_bytes (NDataset d) /\ wf_dataset d /\ as_created d s
    | None => exists n, b = node_bytes n /\ not_dataset n
    end.
  Lemma created_app st l st1 l1 : created_at st l -> created_at st1 l1 -> created_at (st ++ st1) (l ++ l1).
  Proof.
    intros [EL H1] [EL' H2]. split; [rewrite !app_length; congruence|]. intros i c b o Hi Ho. destruct (Nat.lt_ge_cases i (length st)) as [L|L].
    - rewrite nth_error_app1 in Hi by exact L. rewrite nth_error_app1 in Ho by (rewrite EL; exact L). apply (H1 i c b o Hi Ho).
    - rewrite nth_error_app2 in Hi by exact L. rewrite nth_error_app2 in Ho by (rewrite EL; exact L). rewrite EL in Ho. apply (H2 _ c b o Hi Ho).
  Qed.
  Lemma created_prefix st l n : created_at st l -> created_at (firstn n st) (firstn n l).
  Proof.
    intros [EL H]. split; [rewrite !firstn_length; congruence|]. intros i c b o Hi Ho. assert (L : i < n).
    { assert (X : i < length (firstn n st)) by (apply nth_error_Some; congruence). rewrite firstn_length in X. clear -X; lia. }
    rewrite nth_error_firstn_lt in Hi by exact L. rewrite nth_error_firstn_lt in Ho by exact L. apply (H i c b o Hi Ho).
  Qed.
  Definition created_open (d : dataset) (o : option story) : Prop := exists s, o = Some s /\ as_created d s.
  Definition created_all (y : told) : Prop :=
    Forall2 created_open (se_open (to_session y)) (to_open y) /\ created_at (se_store (to_session y)) (to_store y).

  Lemma tell_session y a : to_session (tell hash lc lg order fuel y a) = run_action hash lc lg order fuel (to_session y) a.
  Proof.
    destruct a as [co r c|c|i e|n]; cbn [tell]; try reflexivity.
    - destruct (get_dataset _ _); reflexivity.
    - destruct (nth_error (se_open _) i) as [d|]; [|reflexivity]. destruct (nth_error (to_open y) i); [|reflexivity].
      destruct (run_event _ _ _ _ _ _ _ _); reflexivity.
  Qed.

  Section Step.
    Variables (N C S : nat).
    Hypothesis (HL : limits hash lc order N C S).

    Lemma created_tell y a : functional (se_ever (to_session (tell hash lc lg order fuel y a))) -> action_ok C S a -> action_fits N (to_session y) a ->
      good N C S (to_session y) -> created_all y -> created_all (tell hash lc lg order fuel y a).
    Proof.
      intros HF HA HB HG [K1 K2]. assert (HG' : good N C S (to_session (tell hash lc lg order fuel y a))).
      { rewrite tell_session in *. destruct HL as [L1 L2 L3 L4 L5]. apply good_action; assumption. }
      rewrite tell_session in HF, HG'. destruct HG as [G1 G2 G3 G4]. destruct HG' as [_ G2' _ _]. destruct y as [x op sr]. cbn [to_session to_open to_store] in *.
      destruct a as [co r c|c|i e|n]; unfold tell; cbn [to_session to_open to_store].
      - split; cbn [to_session to_open to_store run_action se_store se_open]; [|exact K2]. apply Forall2_app; [exact K1|]. constructor; [|constructor].
        eexists. split; [reflexivity|]. repeat split.
      - cbn [run_action]. pose proof (find_combine (se_store x) c sr (proj1 K2)) as Hfind.
        destruct (get_dataset (se_store x) c) as [d| | |] eqn:Eg; try (split; assumption). split; cbn [to_session to_open to_store se_store se_open]; [|exact K2].
        apply Forall2_app; [exact K1|]. constructor; [|constructor].
        unfold get_dataset, retrieve in Eg. destruct (store_get (se_store x) c) as [b|] eqn:Eb; [|discriminate]. destruct Hfind as (i & o & Hi & Ho & ->).
        cbn [bind] in Eg. destruct (node_read c b) as [[nd r]| | |] eqn:Er; try discriminate. cbn [bind fst] in Eg. destruct nd as [d'| |]; try discriminate. injection Eg as ->.
        pose proof (proj2 K2 i c b o Hi Ho) as T. destruct o as [s|]; [|exfalso; destruct T as (n & -> & Hn); exact (not_dataset_read n c d r Hn Er)].
        destruct T as (d0 & -> & Wd & H1 & H2 & H3). destruct (node_reads c (NDataset d0) [] Wd) as (r' & Er'). rewrite app_nil_r, Er in Er'. injection Er' as -> _.
        eexists. split; [reflexivity|]. unfold as_created. cbn [and_then sy_coords sy_rows sy_cols sy_events with_cid ds_coords ds_rows ds_cols ds_vars].
        rewrite configs_app. cbn [configs]. rewrite app_nil_r. auto.
      - cbn [run_action] in *. destruct (nth_error (se_open x) i) as [d|] eqn:Ei; [|split; assumption].
        destruct (Forall2_nth_error_l _ _ _ _ _ K1 Ei) as (o & Eo & s & -> & Hs). rewrite Eo.
        pose proof (proj1 (Forall_forall _ _) G4 d (nth_error_In _ _ Ei)) as [Sd _]. destruct HL as [L1 L2 L3 L4 L5].
        pose proof (proj1 (proj1 (sound_anchored lc N C S L5 L4 _ d Sd))) as Wd. cbn [wf_node] in Wd.
        pose proof (mono_event hash lc lg order fuel d e (se_store x)) as (w & Ew).
        assert (HQ : match e with Commit | Reload => w = [(hash (node_bytes (NDataset d)), node_bytes (NDataset d))] | _ => Forall (fun p => exists n, snd p = node_bytes n /\ not_dataset n) w end).
        { destruct e; cbn [run_event] in Ew.
          1: destruct (quiet_add hash d (cf_name c) (cf_round c) (cf_span c) (cf_chunk c) (cf_levels c) (enc_of (cf_type c)) (se_store x)) as (l & El & F).
          2: destruct (quiet_append hash lc (dt_of lg t) order fuel d name data (se_store x)) as (l & El & F).
          1-2: rewrite El in Ew; apply app_inv_head in Ew; subst w; exact F.
          1: unfold obind, dataset_commit, osave, save, oret in Ew; cbn [fst] in Ew; apply app_inv_head in Ew; symmetry; exact Ew.
          unfold obind, dataset_commit, osave, save in Ew; cbn [fst snd] in Ew; apply app_inv_head in Ew; symmetry; exact Ew. }
        destruct (run_event hash lc lg order fuel d e (se_store x)) as [st r] eqn:Er. cbn [fst snd se_store se_ever se_open to_session to_open to_store] in *. subst st.
        rewrite skipn_app, skipn_all, Nat.sub_diag in *. cbn [skipn app] in *.
        assert (Fs : functional (se_store x ++ w)) by (eapply functional_incl; [exact G2'|exact HF]).
        split; cbn [to_session to_open to_store se_store se_open].
        + destruct r as [d'| | |]; try exact K1. apply Forall2_app; [exact K1|]. constructor; [|constructor]. cbn [option_map]. eexists. split; [reflexivity|].
          exact (created_event d e (se_store x) _ d' s Wd Fs Er Hs).
        + apply created_app; [exact K2|]. rewrite app_length.
          replace (length (se_store x) + length w - length (se_store x)) with (length w) by (clear; lia).
          assert (Quiet : Forall (fun p : cid * bytes => exists n, snd p = node_bytes n /\ not_dataset n) w -> created_at w (repeat None (length w))).
          { intros F. split; [apply repeat_length|]. intros j c b o Hj Ho. apply nth_error_In, repeat_spec in Ho. subst o. rewrite Forall_forall in F. apply (F (c, b)). eapply nth_error_In, Hj. }
          assert (Comm : w = [(hash (node_bytes (NDataset d)), node_bytes (NDataset d))] -> created_at w [Some s]).
          { intros ->. split; [reflexivity|]. intros j c b o Hj Ho. destruct j as [|j]; [|destruct j; discriminate]. injection Hj as <- <-. injection Ho as <-. exists d. auto. }
          destruct e; [exact (Quiet HQ)|exact (Quiet HQ)|exact (Comm HQ)|exact (Comm HQ)].
      - split; cbn [to_session to_open to_store run_action se_store se_open]; [constructor|apply created_prefix, K2].
    Qed.

    Lemma created_run : forall l y, functional (se_ever (to_session (run_told hash lc lg order fuel y l))) -> Forall (action_ok C S) l ->
      all_fit N hash lc lg order fuel (to_session y) l -> good N C S (to_session y) -> created_all y -> created_all (run_told hash lc lg order fuel y l).
    Proof.
      induction l as [|a l IH]; intros y HF HA HB HG HY; [assumption|]. inversion_clear HA as [|? ? Ha HA']. destruct HB as [Hb HB].
      unfold run_told in *. cbn [fold_left] in *.
      assert (ET : forall l y, to_session (fold_left (tell hash lc lg order fuel) l y) = run_session hash lc lg order fuel (to_session y) l).
      { clear. induction l as [|a l IH]; intros y; [reflexivity|]. unfold run_session in *. cbn [fold_left]. rewrite IH, tell_session. reflexivity. }
      assert (HF1 : functional (se_ever (to_session (tell hash lc lg order fuel y a)))).
      { eapply functional_incl; [|exact HF]. rewrite ET. apply (ever_session hash lc lg order fuel l). }
      apply IH; auto.
      - rewrite tell_session. exact HB.
      - rewrite tell_session in *. destruct HL as [L1 L2 L3 L4 L5]. apply good_action; assumption.
      - apply created_tell; assumption.
    Qed.
  End Step.
End Kept.

(** In any session every dataset in use, however it came about, has the coordinates, the
    shape and the variables with the settings that it was created with, as its story says
    ([tell], SessionModel.v), whatever was appended, committed, loaded or lost. *)
Theorem C53_sessions : forall hash lc lg order fuel N C S l,
  limits hash lc order N C S -> Forall (action_ok C S) l -> all_fit N hash lc lg order fuel session_start l ->
  let y := run_told hash lc lg order fuel told_start l in
  functional (se_ever (run_session hash lc lg order fuel session_start l)) ->
  to_session y = run_session hash lc lg order fuel session_start l /\
  Forall2 (fun d o => exists s, o = Some s /\ as_created d s) (se_open (to_session y)) (to_open y).
Proof.
  intros hash lc lg order fuel N C S l HL HA HB y HF.
  assert (ET : forall l y, to_session (run_told hash lc lg order fuel y l) = run_session hash lc lg order fuel (to_session y) l).
  { clear. unfold run_told. induction l as [|a l IH]; intros y; [reflexivity|]. unfold run_session in *. cbn [fold_left]. rewrite IH, tell_session. reflexivity. }
  assert (E : to_session y = run_session hash lc lg order fuel session_start l) by apply ET. split; [exact E|].
  apply (created_run hash lc lg order fuel N C S HL l told_start).
  - fold y. rewrite E. exact HF.
  - exact HA.
  - exact HB.
  - exact (good_start N C S).
  - split; [constructor|]. split; [reflexivity|]. intros i c b o H. destruct i; discriminate.
Qed.
(** The session of PropertiesSession meets the hypotheses ([C45_sessions_example]); the last dataset in use there has two variables. *)
Example C53_example : nth_error (to_open ex_told) 5 = Some (Some (mkStory ex_coords 5 6 ex_story)) /\
  option_map (fun d => map settings (ds_vars d)) (nth_error (se_open ex_session) 5) = Some [wanted ex_a; wanted ex_b].
Proof. split; [apply C24_sessions_example|]. vm_compute. reflexivity. Qed.

Print Assumptions C53_sessions.
