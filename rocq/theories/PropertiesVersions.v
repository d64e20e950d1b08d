(** * C28 and C42 for sessions: the versions of datasets, and copies of them. *)
From Coq Require Import ZArith Permutation.
From Verif Require Import Base BaseFacts Spec GeomModel GeomProofs BitmapModel DacModel StreamModel StreamProofs ChunkModel ChunkStream ChunkReads
  NodeModel NodeProofs SuperModel SuperViews SuperProofs ArrayModel ArrayProofs FixedModel FloatModel DatasetModel DatasetProofs AppendProofs HistoryModel
  KindProofs HistoryProofs SessionModel SessionSpec SessionProofs StoryProofs.
From Verif Require SnapshotModel PropertiesNode PropertiesSuper PropertiesDataset PropertiesListing PropertiesClosed PropertiesSession.
Import PropertiesNode PropertiesDataset PropertiesListing PropertiesClosed PropertiesSession.
Arguments Nat.pow : simpl never.
Open Scope nat_scope.

(** ** Which versions come before which

    Nothing of this is in the code: it says, for the statement of C28, which versions each
    dataset descends from. *)

(** A session; for each dataset in use the versions it descends from, newest first, and
    whether it was changed since it was created or loaded; and for each version that was
    ever committed the version itself and those it descends from. *)
Record lines := mkLines { ln_session : session; ln_open : list (list cid * bool); ln_known : list (cid * list cid) }.
Definition lines_start : lines := mkLines session_start [] [].

(** The version that committing makes comes after those the dataset descends from. To
    commit what was loaded and not changed makes no new version. *)
Definition committed_as (c : cid) (line : list cid * bool) : list cid :=
  let '(from, changed) := line in
  if changed : bool then c :: from else match from with [] => [c] | _ => from end.
Definition versions_of (known : list (cid * list cid)) (c : cid) : list cid :=
  match find (fun p => cid_eqb c (fst p)) known with Some p => snd p | None => [] end.

Section Lines.
  Variables (hash : bytes -> cid) (lc : nat -> nat) (lg : f64 -> nat) (order : list call -> list call) (fuel : nat).

  (** Only loading makes a dataset descend from a version: one that goes on being used after
      [commit] is, for this definition, still the one from before it. *)
  Definition follow (y : lines) (a : action) : lines :=
    let x := ln_session y in
    let x' := run_action hash lc lg order fuel x a in
    match a with
    | New _ _ _ => mkLines x' (ln_open y ++ [([], false)]) (ln_known y)
    | Open c =>
        match get_dataset (se_store x) c with
        | Ok _ => mkLines x' (ln_open y ++ [(versions_of (ln_known y) c, false)]) (ln_known y)
        | _ => mkLines x' (ln_open y) (ln_known y)
        end
    | Do i e =>
        match nth_error (se_open x) i, nth_error (ln_open y) i with
        | Some d, Some line =>
            let c := fst (save hash (se_store x) (NDataset d)) in
            let new := match e with Commit | Reload => [(c, committed_as c line)] | Add _ | Append _ _ _ => [] end in
            let then_ := match e with Add _ | Append _ _ _ => (fst line, true) | Commit => line | Reload => (committed_as c line, false) end in
            mkLines x' (match snd (run_event hash lc lg order fuel d e (se_store x)) with Ok _ => ln_open y ++ [then_] | _ => ln_open y end) (ln_known y ++ new)
        | _, _ => mkLines x' (ln_open y) (ln_known y)
        end
    | Crash _ => mkLines x' [] (ln_known y)
    end.
  Definition run_lines (y : lines) (l : list action) : lines := fold_left follow l y.

  Lemma follow_session y a : ln_session (follow y a) = run_action hash lc lg order fuel (ln_session y) a.
  Proof.
    destruct a as [co r c|c|i e|n]; cbn [follow]; try reflexivity.
    - destruct (get_dataset _ _); reflexivity.
    - destruct (nth_error (se_open _) i); [|reflexivity]. destruct (nth_error (ln_open y) i); reflexivity.
  Qed.
  Lemma lines_session : forall l y, ln_session (run_lines y l) = run_session hash lc lg order fuel (ln_session y) l.
  Proof. induction l as [|a l IH]; intros y; [reflexivity|]. unfold run_lines, run_session in *. cbn [fold_left]. rewrite IH, follow_session. reflexivity. Qed.

  (** What holds of the list of versions whatever is in the store now. *)
  Definition known_ok (ever : store) (known : list (cid * list cid)) : Prop := forall c l, In (c, l) known ->
    exists b d r rest, In (c, b) ever /\ node_read c b = Ok (NDataset d, r) /\ l = c :: rest /\ ds_prev d = hd_error rest /\
      match rest with [] => True | p :: _ => In (p, rest) known end.
  Definition in_known (known : list (cid * list cid)) (l : list cid) : Prop := match l with [] => True | c :: _ => In (c, l) known end.
  Definition line_ok (st : store) (known : list (cid * list cid)) (d : dataset) (line : list cid * bool) : Prop :=
    lin hash st d (fst line) /\ in_known known (fst line) /\ ds_cid d = if snd line then None else hd_error (fst line).
  Definition listed (st : store) (known : list (cid * list cid)) : Prop := forall c b d r, In (c, b) st -> node_read c b = Ok (NDataset d, r) ->
    c = hash (node_bytes (NDataset d)) /\ exists l, In (c, l) known.
  Record lined (y : lines) : Prop := {
    lo_known : known_ok (se_ever (ln_session y)) (ln_known y);
    lo_open : Forall2 (line_ok (se_store (ln_session y)) (ln_known y)) (se_open (ln_session y)) (ln_open y);
    lo_listed : listed (se_store (ln_session y)) (ln_known y) }.

  Lemma known_head ever known c l : known_ok ever known -> In (c, l) known -> hd_error l = Some c.
  Proof. intros H Hc. destruct (H c l Hc) as (b & d & r & rest & _ & _ & -> & _). reflexivity. Qed.
  Lemma known_more ever ever' known new : incl ever ever' -> known_ok ever known ->
    (forall c l, In (c, l) new -> In (c, l) known \/ exists b d r rest, In (c, b) ever' /\ node_read c b = Ok (NDataset d, r) /\ l = c :: rest /\ ds_prev d = hd_error rest /\
      match rest with [] => True | p :: _ => In (p, rest) known end) -> known_ok ever' (known ++ new).
  Proof.
    intros HI HK HN c l Hc. apply in_app_or in Hc.
    assert (HO : In (c, l) known -> exists b d r rest, In (c, b) ever' /\ node_read c b = Ok (NDataset d, r) /\ l = c :: rest /\ ds_prev d = hd_error rest /\
      match rest with [] => True | p :: _ => In (p, rest) known end).
    { intros Hk. destruct (HK c l Hk) as (b & d & r & rest & H1 & H2). exists b, d, r, rest. split; [apply HI, H1|exact H2]. }
    assert (HH : exists b d r rest, In (c, b) ever' /\ node_read c b = Ok (NDataset d, r) /\ l = c :: rest /\ ds_prev d = hd_error rest /\
      match rest with [] => True | p :: _ => In (p, rest) known end).
    { destruct Hc as [Hc|Hc]; [apply HO, Hc|]. destruct (HN c l Hc) as [Hk|H]; [apply HO, Hk|exact H]. }
    destruct HH as (b & d & r & rest & H1 & H2 & H3 & H4 & H5). exists b, d, r, rest. repeat (split; [assumption|]).
    destruct rest; [exact Logic.I|]. apply in_or_app. left. exact H5.
  Qed.
  Lemma get_read st ever c b d r : functional ever -> incl st ever -> has st c -> In (c, b) ever -> node_read c b = Ok (NDataset d, r) -> get_dataset st c = Ok d.
  Proof.
    intros HF HI Hc Hb Hr. destruct (has_got st c Hc) as (b' & Eb). unfold get_dataset, retrieve. rewrite Eb.
    assert (b' = b) as -> by (apply (HF c); [apply HI, store_get_some, Eb|exact Hb]). rewrite Hr. reflexivity.
  Qed.
  Lemma known_chain st ever known : functional ever -> incl st ever -> laid st -> known_ok ever known -> forall l c, In (c, l) known -> has st c -> chain st l.
  Proof.
    intros HF HI HL HK. induction l as [|x l IH]; intros c Hc Hs; destruct (HK _ _ Hc) as (b & d & r & rest & H1 & H2 & H3 & H4 & H5); [discriminate|]. injection H3 as -> <-.
    pose proof (get_read _ _ _ _ _ _ HF HI Hs H1 H2) as G. refine (chain_cons _ c l _ G H4 _). destruct l as [|p rest]; [intros l1 c0 l2 E; destruct l1; discriminate|].
    apply (IH p H5). cbn [hd_error] in H4. unfold get_dataset in G. apply bind_inv in G. destruct G as (n & R & G). destruct n as [d'| |]; try discriminate. injection G as ->.
    apply (laid_retrieve st c _ HL R). cbn [refs]. rewrite H4. apply in_or_app. right. left. reflexivity.
  Qed.
  Lemma line_incl st st' known new d line : incl st st' -> functional st' -> line_ok st known d line -> line_ok st' (known ++ new) d line.
  Proof.
    intros HI HF (H1 & H2 & H3). split; [eapply lin_incl; eassumption|]. split; [|exact H3]. unfold in_known in *. destruct (fst line); [exact Logic.I|]. apply in_or_app. left. exact H2.
  Qed.
  Lemma listed_app st known l new : listed st known -> (forall c b d r, In (c, b) l -> node_read c b = Ok (NDataset d, r) ->
    c = hash (node_bytes (NDataset d)) /\ exists l, In (c, l) (known ++ new)) -> listed (st ++ l) (known ++ new).
  Proof.
    intros H1 H2 c b d r Hb Hr. apply in_app_or in Hb. destruct Hb as [Hb|Hb]; [|apply (H2 _ _ _ _ Hb Hr)].
    destruct (H1 _ _ _ _ Hb Hr) as (E & vs & Hv). split; [exact E|]. exists vs. apply in_or_app. left. exact Hv.
  Qed.
  Lemma listed_quiet st st' known : quietly st st' -> listed st known -> listed st' known.
  Proof.
    intros (l & -> & F) H. rewrite <- (app_nil_r known). apply listed_app; [exact H|]. intros c b d r Hb Hr. exfalso. rewrite Forall_forall in F.
    destruct (F (c, b) Hb) as (n & En & Hn). cbn [snd] in En. subst b. exact (not_dataset_read n c d r Hn Hr).
  Qed.

  (** What a commit adds. *)
  Lemma commit_line st ever known d line : wf_dataset d -> line_ok st known d line -> known_ok ever known ->
    let b := node_bytes (NDataset d) in let c := hash b in
    functional (st ++ [(c, b)]) -> incl st ever ->
    known_ok (ever ++ [(c, b)]) (known ++ [(c, committed_as c line)]) /\
    line_ok (st ++ [(c, b)]) (known ++ [(c, committed_as c line)]) (with_cid d (Some c)) (committed_as c line, false) /\
    get_dataset (st ++ [(c, b)]) c = Ok (with_cid d (Some c)) /\
    exists r, node_read c b = Ok (NDataset (with_cid d (Some c)), r).
  Proof.
    intros Wd HLn HK b c HF HI. destruct line as [from changed]. destruct HLn as (H1 & H2 & H3). cbn [fst snd] in *.
    destruct (lin_commit hash st (st ++ [(c, b)]) d from H1 Wd HF (incl_refl _)) as (G & _ & _ & _). fold b in G. fold c in G.
    destruct (node_reads c (NDataset d) [] Wd) as (r & Er). rewrite app_nil_r in Er. fold b in Er. cbn [loaded] in Er.
    pose proof (lin_incl hash st (st ++ [(c, b)]) d from (incl_appl _ (incl_refl _)) HF H1) as [Ch L].
    assert (Hin : In (c, b) (ever ++ [(c, b)])) by (apply in_or_app; right; left; reflexivity).
    assert (Hch : chain (st ++ [(c, b)]) (committed_as c (from, changed)) /\ hd_error (committed_as c (from, changed)) = Some c /\
      (In (c, committed_as c (from, changed)) known \/ exists rest, committed_as c (from, changed) = c :: rest /\ ds_prev d = hd_error rest /\ in_known known rest)).
    { destruct changed.
      - cbn [committed_as]. rewrite H3 in L. split; [exact (chain_cons _ c from _ G L Ch)|]. split; [reflexivity|]. right. exists from. auto.
      - destruct from as [|p from]; cbn [hd_error committed_as] in *.
        + rewrite H3 in L. split; [exact (chain_cons _ c [] _ G L Ch)|]. split; [reflexivity|]. right. exists []. auto.
        + rewrite H3 in L. destruct L as (L1 & L2 & L3). fold b in L1. fold c in L1. subst p. split; [exact Ch|]. split; [reflexivity|]. left. exact H2. }
    destruct Hch as (C1 & C2 & C3). split; [|split; [|split; [exact G|exists r; exact Er]]].
    - apply (known_more ever); [apply incl_appl, incl_refl|exact HK|]. intros c' l [E|[]]. injection E as <- <-. destruct C3 as [C3|(rest & C3 & C4 & C5)]; [left; exact C3|right].
      exists b, (with_cid d (Some c)), r, rest. repeat (split; [assumption|]). exact C5.
    - unfold line_ok. cbn [fst snd]. split; [|split].
      + split; [exact C1|]. cbn [with_cid ds_cid]. rewrite cid_bytes. split; [reflexivity|]. split; [exact C2|exact G].
      + unfold in_known. destruct (committed_as c (from, changed)) as [|y ys]; [exact Logic.I|]. injection C2 as ->. apply in_or_app. right. left. reflexivity.
      + cbn [with_cid ds_cid]. symmetry. exact C2.
  Qed.

  Section Step.
    Variables (N C S : nat).
    Hypothesis (HL : limits hash lc order N C S).

    Lemma good_follow y a : functional (se_ever (ln_session (follow y a))) -> action_ok C S a -> action_fits N (ln_session y) a -> good N C S (ln_session y) ->
      good N C S (ln_session (follow y a)).
    Proof. rewrite follow_session. destruct HL as [L1 L2 L3 L4 L5]. apply good_action; assumption. Qed.

    Lemma lined_follow y a : functional (se_ever (ln_session (follow y a))) -> action_ok C S a -> action_fits N (ln_session y) a -> good N C S (ln_session y) ->
      lined y -> lined (follow y a).
    Proof.
      intros HF HA HB HG [K1 K2 K3]. pose proof (good_follow y a HF HA HB HG) as HG'. rewrite follow_session in HF, HG'.
      destruct HG as [G1 G2 G3 G4]. destruct HG' as [G1' G2' _ _].
      destruct a as [co r c|c|i e|n]; cbn [follow].
      - constructor; cbn [ln_session ln_open ln_known run_action se_store se_ever se_open]; auto. apply Forall2_app; [exact K2|]. constructor; [|constructor].
        split; [|split; [exact Logic.I|reflexivity]]. split; [intros l1 c0 l2 E; destruct l1; discriminate|]. reflexivity.
      - cbn [run_action] in *. destruct (get_dataset (se_store (ln_session y)) c) as [d| | |] eqn:Eg; try (constructor; assumption).
        constructor; cbn [ln_session ln_open ln_known se_store se_ever se_open]; auto. apply Forall2_app; [exact K2|]. constructor; [|constructor].
        pose proof Eg as Eg0. unfold get_dataset, retrieve in Eg. destruct (store_get (se_store (ln_session y)) c) as [b|] eqn:Eb; [|discriminate]. apply store_get_some in Eb.
        cbn [bind] in Eg. destruct (node_read c b) as [[nd r]| | |] eqn:Er; try discriminate. cbn [bind fst] in Eg. destruct nd as [d'| |]; try discriminate. injection Eg as ->.
        destruct (K3 c b d r Eb Er) as (Eh & l0 & Hl0).
        assert (Hv : In (c, versions_of (ln_known y) c) (ln_known y)).
        { unfold versions_of. destruct (find _ (ln_known y)) as [[c' l']|] eqn:Ef.
          - apply find_some in Ef. destruct Ef as [E1 E2]. cbn [fst] in E2. apply cid_eqb_spec in E2. subst c'. exact E1.
          - pose proof (find_none _ _ Ef _ Hl0) as X. cbn [fst] in X. rewrite cid_eqb_refl in X. discriminate. }
        pose proof (known_head _ _ _ _ K1 Hv) as Hh.
        assert (Ec : ds_cid d = Some c).
        { clear -Er. unfold node_read, rbind in Er. apply bind_inv in Er. destruct Er as (t & _ & Er). destruct (_ =? _)%N in Er.
          - apply bind_inv in Er. destruct Er as (y & _ & Er). unfold rret in Er. injection Er as <- _. reflexivity.
          - destruct (_ =? _)%N in Er; [apply bind_inv in Er; destruct Er as (y & _ & Er); discriminate|].
            destruct (_ =? _)%N in Er; [apply bind_inv in Er; destruct Er as (y & _ & Er); discriminate|discriminate]. }
        unfold line_ok. cbn [fst snd]. split; [|split].
        + split.
          * apply (known_chain _ (se_ever (ln_session y)) (ln_known y) HF G2 G1 K1 _ c Hv). exists b. exact Eb.
          * rewrite Ec. split; [symmetry; exact Eh|]. split; [exact Hh|exact Eg0].
        + unfold in_known. destruct (versions_of (ln_known y) c) as [|z zs]; [exact Logic.I|]. injection Hh as ->. exact Hv.
        + rewrite Ec. symmetry. exact Hh.
      - cbn [run_action] in HF, G1', G2' |- *. destruct (nth_error (se_open (ln_session y)) i) as [d|] eqn:Ei; [|constructor; assumption].
        assert (HX : exists line, nth_error (ln_open y) i = Some line /\ line_ok (se_store (ln_session y)) (ln_known y) d line).
        { clear -K2 Ei. revert i Ei. induction K2 as [|u v us vs Huv K IH]; intros [|i] Ei; try discriminate; cbn [nth_error] in *; [injection Ei as ->; eauto|apply IH, Ei]. }
        destruct HX as (line & El & HLn).
        rewrite El. pose proof (proj1 (Forall_forall _ _) G4 d (nth_error_In _ _ Ei)) as [Sd _]. destruct HL as [L1 L2 L3 L4 L5].
        pose proof (proj1 (proj1 (sound_anchored lc N C S L5 L4 _ d Sd))) as Wd. cbn [wf_node] in Wd.
        pose proof (mono_event hash lc lg order fuel d e (se_store (ln_session y))) as (w & Ew).
        pose proof (step_next hash lc lg order fuel d e (se_store (ln_session y))) as HN.
        assert (HQ : match e with Commit | Reload => True | _ => quietly (se_store (ln_session y)) (fst (run_event hash lc lg order fuel d e (se_store (ln_session y)))) end).
        { destruct e; try exact Logic.I; [apply quiet_add|apply quiet_append]. }
        assert (HE : match e with
                     | Commit => run_event hash lc lg order fuel d e (se_store (ln_session y)) = (snd (save hash (se_store (ln_session y)) (NDataset d)), Ok d)
                     | Reload => run_event hash lc lg order fuel d e (se_store (ln_session y)) =
                         (snd (save hash (se_store (ln_session y)) (NDataset d)), get_dataset (snd (save hash (se_store (ln_session y)) (NDataset d))) (fst (save hash (se_store (ln_session y)) (NDataset d))))
                     | _ => True end) by (destruct e; try exact Logic.I; reflexivity).
        destruct (run_event hash lc lg order fuel d e (se_store (ln_session y))) as [st r] eqn:Er. cbn [fst snd se_store se_ever se_open] in *. subst st.
        rewrite skipn_app, skipn_all, Nat.sub_diag in *. cbn [skipn app] in *.
        assert (Fs : functional (se_store (ln_session y) ++ w)) by (eapply functional_incl; [exact G2'|exact HF]).
        assert (Is : incl (se_store (ln_session y)) (se_store (ln_session y) ++ w)) by apply incl_appl, incl_refl.
        assert (Old : forall new, Forall2 (line_ok (se_store (ln_session y) ++ w) (ln_known y ++ new)) (se_open (ln_session y)) (ln_open y)).
        { intros new. eapply Forall2_impl; [|exact K2]. intros u v Huv. eapply line_incl; eassumption. }
        assert (Quiet : match e with Commit | Reload => False | _ => True end -> lined (mkLines (mkSession (se_store (ln_session y) ++ w) (se_ever (ln_session y) ++ w)
            (match r with Ok d' => se_open (ln_session y) ++ [d'] | _ => se_open (ln_session y) end))
            (match r with Ok _ => ln_open y ++ [(fst line, true)] | _ => ln_open y end) (ln_known y ++ []))).
        { intros Hq. constructor; cbn [ln_session ln_open ln_known se_store se_ever se_open].
          - apply (known_more (se_ever (ln_session y))); [apply incl_appl, incl_refl|exact K1|]. intros c l [].
          - destruct r as [d'| | |]; try apply Old. apply Forall2_app; [apply Old|]. constructor; [|constructor].
            assert (HS : ds_cid d' = None /\ ds_prev d' = next_prev d) by (specialize (HN _ _ eq_refl); destruct e; try contradiction; exact HN).
            destruct HS as [S1 S2]. pose proof (line_incl _ _ _ [] _ _ Is Fs HLn) as (N1 & N2 & N3). unfold line_ok. cbn [fst snd].
            split; [|split; [exact N2|exact S1]]. split; [apply N1|]. rewrite S1, S2. apply (lin_prev hash _ _ _ N1).
          - rewrite app_nil_r. apply (listed_quiet (se_store (ln_session y))); [|exact K3]. destruct e; try contradiction; exact HQ. }
        destruct e as [cf|t nm dat| |]; [apply Quiet; exact Logic.I|apply Quiet; exact Logic.I| |]; clear Quiet HQ.
        + set (b := node_bytes (NDataset d)) in *. set (c := hash b) in *.
          assert (Ew : w = [(c, b)] /\ r = Ok d) by (unfold save in HE; injection HE as HE1 HE2; split; [apply app_inv_head in HE1; exact HE1|exact HE2]). destruct Ew as [-> ->].
          destruct (commit_line (se_store (ln_session y)) (se_ever (ln_session y)) (ln_known y) d line Wd HLn K1 Fs G2) as (M1 & M2 & M3 & r0 & M4).
          cbn [fst save]. fold b. fold c. fold b in M1, M2, M3, M4. fold c in M1, M2, M3, M4.
          constructor; cbn [ln_session ln_open ln_known se_store se_ever se_open].
          * exact M1.
          * apply Forall2_app; [apply Old|]. constructor; [|constructor]. eapply line_incl; eassumption.
          * apply listed_app; [exact K3|]. intros c' b' d' r' [E|[]] Hr. injection E as <- <-. rewrite M4 in Hr. injection Hr as <- _. split; [reflexivity|].
            eexists. apply in_or_app. right. left. reflexivity.
        + set (b := node_bytes (NDataset d)) in *. set (c := hash b) in *.
          assert (Ew : w = [(c, b)] /\ r = get_dataset (se_store (ln_session y) ++ [(c, b)]) c).
          { unfold save in HE. cbn [fst snd] in HE. injection HE as HE1 HE2. split; [apply app_inv_head in HE1; exact HE1|exact HE2]. }
          destruct Ew as [-> ->].
          destruct (commit_line (se_store (ln_session y)) (se_ever (ln_session y)) (ln_known y) d line Wd HLn K1 Fs G2) as (M1 & M2 & M3 & r0 & M4).
          cbn [fst save]. fold b. fold c. fold b in M1, M2, M3, M4. fold c in M1, M2, M3, M4. rewrite M3.
          constructor; cbn [ln_session ln_open ln_known se_store se_ever se_open].
          * exact M1.
          * apply Forall2_app; [apply Old|]. constructor; [exact M2|constructor].
          * apply listed_app; [exact K3|]. intros c' b' d' r' [E|[]] Hr. injection E as <- <-. rewrite M4 in Hr. injection Hr as <- _. split; [reflexivity|].
            eexists. apply in_or_app. right. left. reflexivity.
      - constructor; cbn [ln_session ln_open ln_known run_action se_store se_ever se_open]; [exact K1|constructor|].
        intros c b d r Hb. apply K3. rewrite <- (firstn_skipn n (se_store (ln_session y))). apply in_or_app. left. exact Hb.
    Qed.

    Lemma lined_run : forall l y, functional (se_ever (ln_session (run_lines y l))) -> Forall (action_ok C S) l ->
      all_fit N hash lc lg order fuel (ln_session y) l -> good N C S (ln_session y) -> lined y -> lined (run_lines y l) /\ good N C S (ln_session (run_lines y l)).
    Proof.
      induction l as [|a l IH]; intros y HF HA HB HG HY; [split; assumption|]. inversion_clear HA as [|? ? Ha HA']. destruct HB as [Hb HB].
      unfold run_lines in *. cbn [fold_left] in *.
      assert (HF1 : functional (se_ever (ln_session (follow y a)))).
      { eapply functional_incl; [|exact HF]. fold (run_lines (follow y a) l). rewrite lines_session. apply (ever_session hash lc lg order fuel l). }
      apply IH; auto.
      - rewrite follow_session. exact HB.
      - apply good_follow; assumption.
      - apply lined_follow; assumption.
    Qed.
  End Step.
End Lines.

(** ** C28 *)

(** [w] was stored before [v]. *)
Definition stored_before (st : store) (w v : cid) : Prop := exists k, has (firstn k st) w /\ ~ has (firstn k st) v.
Definition newest_first (st : store) (versions : list cid) : Prop :=
  forall i j v w, nth_error versions i = Some v -> nth_error versions j = Some w -> i < j -> stored_before st w v.

Lemma has_more st i j c : i <= j -> has (firstn i st) c -> has (firstn j st) c.
Proof.
  intros L (b & Hb). exists b. rewrite <- (firstn_skipn i (firstn j st)), firstn_firstn, Nat.min_l by exact L. apply in_or_app. left. exact Hb.
Qed.
Lemma before_trans st u v w : stored_before st w v -> stored_before st v u -> stored_before st w u.
Proof.
  intros (i & A1 & A2) (j & B1 & B2). exists j. split; [|exact B2]. destruct (Nat.le_ge_cases i j) as [L|L]; [eapply has_more; eassumption|].
  exfalso. apply A2. eapply has_more; eassumption.
Qed.
Lemma first_at st c b : store_get st c = Some b -> exists i, nth_error st i = Some (c, b) /\ ~ has (firstn i st) c.
Proof.
  unfold store_get. induction st as [|[c' b'] st IH]; cbn [find fst]; [discriminate|]. destruct (cid_eqb c c') eqn:E.
  - intros H. injection H as <-. apply cid_eqb_spec in E. subst c'. exists 0. split; [reflexivity|]. intros (b & []).
  - intros H. destruct (IH H) as (i & H1 & H2). exists (S i). split; [exact H1|]. cbn [firstn]. intros (b0 & [X|X]); [|apply H2; exists b0; exact X].
    injection X as -> _. rewrite cid_eqb_refl in E. discriminate.
Qed.
Lemma prev_before st c d p : laid st -> get_dataset st c = Ok d -> ds_prev d = Some p -> stored_before st p c.
Proof.
  intros HL G HP. unfold get_dataset, retrieve in G. destruct (store_get st c) as [b|] eqn:Eb; [|discriminate]. destruct (first_at st c b Eb) as (i & H1 & H2).
  destruct (HL i _ H1) as (n & En & (W & _) & HR). cbn [snd] in En. subst b. destruct (node_reads c n [] W) as (r & Er). rewrite app_nil_r in Er. rewrite Er in G. cbn [bind fst] in G.
  exists i. split; [|exact H2]. apply HR. destruct n as [d'|l|m]; cbn [loaded] in G; try discriminate. injection G as <-. cbn [refs with_cid ds_prev] in *. rewrite HP. apply in_or_app. right. left. reflexivity.
Qed.
Lemma chain_newest st : laid st -> forall l, chain st l -> newest_first st l.
Proof.
  intros HL l HC. assert (Next : forall i v w, nth_error l i = Some v -> nth_error l (S i) = Some w -> stored_before st w v).
  { intros i v w Hv Hw. destruct (nth_error_split l i Hv) as (l1 & l2 & -> & <-). destruct (HC l1 v l2 eq_refl) as (d & G & P).
    apply (prev_before st v d w HL G). rewrite P. rewrite nth_error_app2 in Hw by lia. replace (S (length l1) - length l1) with 1 in Hw by lia. destruct l2; exact Hw. }
  intros i j v w Hv Hw L. remember (j - i - 1) as k eqn:Ek. assert (j = S (i + k)) as -> by lia. clear Ek L. revert i v Hv Hw.
  induction k as [|k IH]; intros i v Hv Hw; [rewrite Nat.add_0_r in Hw; eapply Next; eassumption|].
  destruct (nth_error l (S i)) as [u|] eqn:Eu.
  - eapply before_trans; [|eapply Next; eassumption]. apply (IH (S i) u Eu). replace (S (S i + k)) with (S (i + S k)) by lia. exact Hw.
  - exfalso. apply nth_error_None in Eu. assert (S (i + S k) < length l) by (apply nth_error_Some; congruence). lia.
Qed.

(** In any session, at any moment of it, also after crashes, and with several versions in
    use at once: following the links from any version that is in the store visits exactly
    the versions it descends from, newest first, and comes to an end; and every dataset in
    the store is such a version. What is missing from C28: a dataset that is used after a
    [commit] without loading it again ([C28_commit_in_memory_refuted]). *)
Theorem C28_sessions_partial : forall hash lc lg order fuel N C S l,
  limits hash lc order N C S -> Forall (action_ok C S) l -> all_fit N hash lc lg order fuel session_start l ->
  let y := run_lines hash lc lg order fuel lines_start l in
  let x := run_session hash lc lg order fuel session_start l in functional (se_ever x) ->
  ln_session y = x /\
  forall writes, let st := firstn writes (se_store x) in
    (forall c versions, In (c, versions) (ln_known y) -> has st c ->
       (forall n, length versions <= n -> walk st n c = versions) /\ newest_first st versions) /\
    forall c d, get_dataset st c = Ok d -> exists versions, In (c, versions) (ln_known y).
Proof.
  intros hash lc lg order fuel N C S l HL HA HB y x HF.
  assert (E : ln_session y = x) by apply lines_session. split; [exact E|].
  destruct (lined_run hash lc lg order fuel N C S HL l lines_start) as [[K1 _ K3] [G1 G2 _ _]].
  { fold y. rewrite E. exact HF. } { exact HA. } { exact HB. } { exact (good_start N C S). }
  { constructor; [intros c vs []|constructor|intros c b d r []]. }
  fold y in K1, K3, G1, G2. rewrite E in K1, K3, G1, G2. intros writes st.
  assert (HI : incl st (se_store x)) by (intros p Hp; rewrite <- (firstn_skipn writes (se_store x)); apply in_or_app; left; exact Hp).
  pose proof (laid_prefix (se_store x) writes G1) as Ls. fold st in Ls. split.
  - intros c vs Hc Hs. pose proof (known_chain st (se_ever x) _ HF (incl_tran HI G2) Ls K1 vs c Hc Hs) as Ch. split; [|apply chain_newest; assumption].
    intros n Hn. pose proof (known_head _ _ _ _ K1 Hc) as Hh. destruct vs as [|z vs]; [discriminate|]. injection Hh as ->. apply walk_chain; [exact Hn|exact Ch].
  - intros c d G. unfold get_dataset, retrieve in G. destruct (store_get st c) as [b|] eqn:Eb; [|discriminate]. apply store_get_some in Eb.
    cbn [bind] in G. destruct (node_read c b) as [[nd r]| | |] eqn:Er; try discriminate. cbn [bind fst] in G. destruct nd as [d'| |]; try discriminate.
    exact (proj2 (K3 c b d' r (HI _ Eb) Er)).
Qed.

(** ** C42 *)

(** In any session, at any moment: whatever is met by listing an object that is in the
    store is there, and any store that has the same under the identifiers met answers every
    read of every object met as this one, and lists the same. *)
Theorem C42_sessions : forall hash lc lg order fuel N C S l,
  limits hash lc order N C S -> Forall (action_ok C S) l -> all_fit N hash lc lg order fuel session_start l ->
  let x := run_session hash lc lg order fuel session_start l in functional (se_ever x) ->
  forall writes, let st := firstn writes (se_store x) in forall root, has st root ->
    (forall c, reached st root c -> has st c /\ exists entries, resolver_ls st c = Ok entries) /\
    forall st', (forall c, reached st root c -> store_get st' c = store_get st c) ->
      (forall c, reached st root c <-> reached st' root c) /\ forall c, reached st root c -> same_answers st st' c.
Proof.
  intros hash lc lg order fuel N C S l [L1 L2 L3 L4 L5] HA HB x HF writes st root Hr.
  pose proof (good_session hash lc lg order fuel N C S L1 L2 L3 L5 L4 l session_start HF HA HB (good_start N C S)) as [G1 _ _ _].
  pose proof (laid_prefix (se_store x) writes G1) as Ls. fold st in Ls.
  pose proof (written_walkable st root (laid_written st Ls)) as HW. split.
  - intros c Hc. pose proof (laid_reached st root c Ls Hr Hc) as Hs. split; [exact Hs|]. destruct (laid_loads st c Ls Hs) as (n & R). exact (proj2 (HW c n Hc R)).
  - intros st' HC. split; [intros c; symmetry; apply (C42_same_reached st st' root HW HC)|]. intros c Hc. apply (C42_listing_is_enough st st' root HW HC c Hc).
Qed.

(** ** An example: three versions one after the other, the third of which a crash loses;
    then the second one is loaded and committed again without a change, and the first one
    is loaded and changed in another way. [ex_known] has the versions. *)
Definition ex_lines (l : list action) : lines := run_lines ex_hash ex_lc ex_lg (@rev call) 4 lines_start l.
Definition ex_more (i seed : nat) : action := Do i (Append I32 [97]%N (ex_data seed 1 2 2)).
Definition ex_small : config := mkConfig [97]%N None 2 2 [1] I32.
Definition ex_before : list action := [New ex_coords 2 2; Do 0 (Add ex_small); ex_more 1 1; Do 2 Reload; ex_more 3 2; Do 4 Reload; ex_more 5 3; Do 6 Reload].
Definition ex_version (i : nat) : cid := nth i (map fst (ln_known (ex_lines ex_before))) (ex_hash []).
Definition ex_fork : list action :=
  ex_before ++ [Crash (length (se_store (ex_start ex_before)) - 1); Open (ex_version 1); Do 0 Commit; Open (ex_version 0); ex_more 2 9; Do 3 Reload].
Definition ex_known : list (cid * list cid) := ln_known (ex_lines ex_fork).
Lemma all_fit_start : all_fit 1000 ex_hash ex_lc ex_lg (@rev call) 4 session_start ex_fork.
Proof. apply fit_run_ok. vm_compute. reflexivity. Qed.
Definition at_known (i : nat) : cid := nth i (map fst ex_known) (ex_hash []).
Lemma has_not st c : existsb (fun p => cid_eqb c (fst p)) st = false -> ~ has st c.
Proof. intros E (b & H). assert (X : existsb (fun p => cid_eqb c (fst p)) st = true) by (apply existsb_exists; exists (c, b); split; [exact H|apply cid_eqb_refl]). congruence. Qed.
Example C28_sessions_example : limits ex_hash ex_lc (@rev call) 1000 2 7 /\ Forall (action_ok 2 7) ex_fork /\
  all_fit 1000 ex_hash ex_lc ex_lg (@rev call) 4 session_start ex_fork /\ functional (se_ever (ex_start ex_fork)) /\
  map snd ex_known = [ [at_known 0]; [at_known 1; at_known 0]; [at_known 2; at_known 1; at_known 0]; [at_known 1; at_known 0]; [at_known 4; at_known 0] ] /\
  at_known 3 = at_known 1 /\ ~ has (se_store (ex_start ex_fork)) (at_known 2) /\
  walk (se_store (ex_start ex_fork)) 7 (at_known 1) = [at_known 1; at_known 0] /\ walk (se_store (ex_start ex_fork)) 7 (at_known 4) = [at_known 4; at_known 0].
Proof.
  split; [exact ex_limits|]. split.
  { unfold ex_fork, ex_before. cbn [app].
    assert (HD : forall i seed, action_ok 2 7 (ex_more i seed)) by (intros; apply ex_data_ok; lia).
    assert (HN : action_ok 2 7 (New ex_coords 2 2)) by (split; [destruct ex_setting as [_ _ _ _ _ _ H]; exact H|lia]).
    assert (HC : action_ok 2 7 (Do 0 (Add ex_small))).
    { cbn [action_ok event_ok ex_small cf_name cf_round cf_span cf_chunk cf_levels length].
      repeat match goal with |- _ /\ _ => split end; try exact Logic.I; try reflexivity; try lia; repeat constructor; vm_compute; reflexivity. }
    repeat apply Forall_cons; try exact (Forall_nil _); try apply HD; try exact HN; try exact HC; exact Logic.I. }
  split; [exact all_fit_start|]. split; [apply functional_checked; vm_compute; reflexivity|]. split; [vm_compute; reflexivity|]. split; [vm_compute; reflexivity|].
  split; [|split; vm_compute; reflexivity].
  apply has_not. vm_compute. reflexivity.
Qed.
(** What is met from the last version is a part of the store, and the copy with just that. *)
Definition ex_fork_met : list cid := met (se_store (ex_start ex_fork), Ok (at_known 4)).
Definition ex_fork_copy : store := filter (fun p => existsb (cid_eqb (fst p)) ex_fork_met) (se_store (ex_start ex_fork)).
Lemma met_met st c l : collect st 12 c = Some l -> copied st (filter (fun p => existsb (cid_eqb (fst p)) (met (st, Ok c))) st) c.
Proof. intros E. unfold met. cbn [fst snd]. rewrite E. exact (met_copied st 12 c l E). Qed.
Example C42_sessions_example : has (se_store (ex_start ex_fork)) (at_known 4) /\
  (forall c, reached (se_store (ex_start ex_fork)) (at_known 4) c -> store_get ex_fork_copy c = store_get (se_store (ex_start ex_fork)) c) /\
  length ex_fork_copy < length (se_store (ex_start ex_fork)).
Proof.
  assert (E : exists l, collect (se_store (ex_start ex_fork)) 12 (at_known 4) = Some l) by (eexists; vm_compute; reflexivity).
  destruct E as (l & E). split; [|split].
  - assert (G : exists b, store_get (se_store (ex_start ex_fork)) (at_known 4) = Some b) by (eexists; vm_compute; reflexivity). destruct G as (b & G). eapply has_get, G.
  - exact (met_met _ _ l E).
  - apply Nat.ltb_lt. vm_compute. reflexivity.
Qed.

Print Assumptions C28_sessions_partial.
Print Assumptions C42_sessions.
