(** * Every dataset in use holds what its story says. *)
From Coq Require Import ZArith Permutation.
From Verif Require Import Base BaseFacts Spec FixedModel GeomModel GeomProofs BitmapModel DacModel DacProofs StreamModel StreamProofs ChunkModel ChunkProofs
  ChunkReads ChunkStream NodeModel NodeProofs SuperModel SuperViews SuperProofs ArrayModel ArrayProofs FloatModel DatasetModel DatasetProofs
  AppendProofs KindProofs HistoryModel HistoryProofs SessionModel SessionSpec SessionProofs.
From Verif Require PropertiesDataset.
Import PropertiesDataset.
Arguments Nat.pow : simpl never.
Open Scope nat_scope.

Section Told.
  Variables (hash : bytes -> cid) (lc : nat -> nat) (lg : f64 -> nat) (order : list call -> list call) (fuel : nat).
  Notation run_action := (run_action hash lc lg order fuel).
  Notation run_session := (run_session hash lc lg order fuel).
  Notation run_event := (run_event hash lc lg order fuel).
  Notation tell := (tell hash lc lg order fuel).
  Notation run_told := (run_told hash lc lg order fuel).

  (** However the story goes on, if it is valid, [d] is as after its events. *)
  Definition story_ok (st : store) (d : dataset) (s : story) : Prop := forall N after,
    setting hash lg order (sy_rows s) (sy_cols s) N (sy_coords s) -> valid lc fuel (sy_rows s) (sy_cols s) N (sy_events s ++ after) ->
    inv hash lc lg (sy_rows s) (sy_cols s) (sy_coords s) (sy_events s ++ after) st d (sy_events s).

  Lemma inv_incl rows cols coords es st st' d before : incl st st' -> functional st' -> inv hash lc lg rows cols coords es st d before -> inv hash lc lg rows cols coords es st' d before.
  Proof.
    intros HI HF [I1 I2 I3 I4 I5 I6]. constructor; auto; try (eapply opt_incl; eassumption).
    eapply Forall2_impl; [|exact I6]. intros c v Hv. eapply var_ok_incl; [exact HI|exact HF|reflexivity|exact Hv].
  Qed.
  Lemma story_incl st st' d s : incl st st' -> functional st' -> story_ok st d s -> story_ok st' d s.
  Proof. intros HI HF H N after HS HV. eapply inv_incl; [exact HI|exact HF|]. eapply H; eassumption. Qed.

  Lemma app_cons {A} (l : list A) x l' : (l ++ [x]) ++ l' = l ++ x :: l'.
  Proof. rewrite <- app_assoc. reflexivity. Qed.

  Lemma story_event st d s e st' d' : functional st' -> story_ok st d s -> run_event d e st = (st', Ok d') -> story_ok st' d' (and_then s e).
  Proof.
    intros HF H E N after HS HV. cbn [and_then sy_coords sy_rows sy_cols sy_events] in *. rewrite app_cons in *. pose proof HS as [S1 S2 SL [S3 S3'] [S4 S4'] S5 S6].
    assert (F0 : functional st).
    { pose proof (mono_incl _ st (mono_event hash lc lg order fuel d e)) as M. rewrite E in M. eapply functional_incl; [exact M|exact HF]. }
    destruct (ok_event hash lc lg order fuel (sy_rows s) (sy_cols s) N S1 S2 SL S3 S4 S3' S4' S5 (sy_coords s) _ S6 HV (sy_events s) e after d st eq_refl F0 (H N (e :: after) HS HV)) as (d1 & E1 & HI & _).
    { rewrite E. exact HF. }
    rewrite E in E1, HI. cbn [fst snd] in *. injection E1 as <-. exact HI.
  Qed.

  Record telling (y : told) : Prop := {
    te_ever : incl (se_store (to_session y)) (se_ever (to_session y));
    te_open : Forall2 (fun d o => exists s, o = Some s /\ story_ok (se_store (to_session y)) d s) (se_open (to_session y)) (to_open y);
    te_length : length (to_store y) = length (se_store (to_session y));
    te_store : forall i c b o, nth_error (se_store (to_session y)) i = Some (c, b) -> nth_error (to_store y) i = Some o ->
      match o with
      | Some s => exists d, b = node_bytes (NDataset d) /\ c = hash b /\ story_ok (firstn i (se_store (to_session y))) d s
      | None => exists n, b = node_bytes n /\ not_dataset n
      end }.

  Definition stored_story (st : store) (l : list (option story)) : Prop := forall i c b o, nth_error st i = Some (c, b) -> nth_error l i = Some o ->
    match o with
    | Some s => exists d, b = node_bytes (NDataset d) /\ c = hash b /\ story_ok (firstn i st) d s
    | None => exists n, b = node_bytes n /\ not_dataset n
    end.
  Lemma stored_story_app st l st1 l1 : length l = length st -> stored_story st l ->
    (forall j c b o, nth_error st1 j = Some (c, b) -> nth_error l1 j = Some o ->
      match o with
      | Some s => exists d, b = node_bytes (NDataset d) /\ c = hash b /\ story_ok (st ++ firstn j st1) d s
      | None => exists n, b = node_bytes n /\ not_dataset n
      end) -> stored_story (st ++ st1) (l ++ l1).
  Proof.
    intros EL H1 H2 i c b o Hi Ho. destruct (Nat.lt_ge_cases i (length st)) as [L|L].
    - rewrite nth_error_app1 in Hi by exact L. rewrite nth_error_app1 in Ho by (rewrite EL; exact L). rewrite firstn_app. replace (i - length st) with 0 by (clear -L; lia). rewrite app_nil_r.
      apply (H1 i c b o Hi Ho).
    - rewrite nth_error_app2 in Hi by exact L. rewrite nth_error_app2 in Ho by (rewrite EL; exact L). rewrite EL in Ho. rewrite firstn_app, firstn_all2 by exact L. apply (H2 _ c b o Hi Ho).
  Qed.

  Lemma find_combine (st : store) c : forall l, length l = length st -> 
    match store_get st c with
    | Some b => exists i o, nth_error st i = Some (c, b) /\ nth_error l i = Some o /\ story_at st l c = o
    | None => True
    end.
  Proof.
    unfold store_get, story_at. induction st as [|[c1 b1] st IH]; intros [|o l] E; cbn [find combine length fst snd] in *; try exact I; try discriminate.
    destruct (cid_eqb c c1) eqn:Ec.
    - apply cid_eqb_spec in Ec. subst c1. cbn. exists 0, o. auto.
    - injection E as E. specialize (IH l E). destruct (find _ st) as [[c2 b2]|]; [|exact I]. cbn in IH |- *.
      destruct IH as (i & o' & H1 & H2 & H3). exists (S i), o'. auto.
  Qed.

  Lemma telling_start : telling told_start.
  Proof. constructor; cbn; [apply incl_refl|constructor|reflexivity|intros i c b o H; destruct i; discriminate]. Qed.

  Lemma telling_action y a : functional (se_ever (run_action (to_session y) a)) -> telling y -> telling (tell y a) /\ to_session (tell y a) = run_action (to_session y) a.
  Proof.
    intros HF [T1 T2 T3 T4]. destruct y as [x op sr]. cbn [to_session to_open to_store] in *.
    assert (Fx : functional (se_store x)) by (eapply functional_incl; [eapply incl_tran; [exact T1|apply (ever_action hash lc lg order fuel x a)]|exact HF]).
    destruct a as [co r c|c|i e|n]; unfold SessionModel.tell; cbn [to_session to_open to_store SessionModel.run_action] in *.
    - split; [|reflexivity]. constructor; cbn [to_session to_open to_store se_store se_ever se_open]; auto.
      apply Forall2_app; [exact T2|]. constructor; [|constructor]. eexists. split; [reflexivity|].
      intros N after HS HV. apply start_inv.
    - pose proof (find_combine (se_store x) c sr T3) as Hfind.
      destruct (get_dataset (se_store x) c) as [d| | |] eqn:Eg; (split; [|reflexivity]); [|constructor; assumption|constructor; assumption|constructor; assumption].
      constructor; cbn [to_session to_open to_store se_store se_ever se_open]; auto.
      apply Forall2_app; [exact T2|]. constructor; [|constructor].
      unfold get_dataset, retrieve in Eg. destruct (store_get (se_store x) c) as [b|] eqn:Eb; [|discriminate].
      destruct Hfind as (i & o & Hi & Ho & ->).
      cbn [bind] in Eg. destruct (node_read c b) as [[nd r]| | |] eqn:Er; try discriminate. cbn [bind fst] in Eg. destruct nd as [d'| |]; try discriminate. injection Eg as ->.
      pose proof (T4 i c b o Hi Ho) as T. destruct o as [s|].
      + destruct T as (d0 & Ebd & Ec & Hs). exists (and_then s Reload). split; [reflexivity|].
        assert (HI : incl (firstn i (se_store x)) (se_store x)) by (intros p Hp; rewrite <- (firstn_skipn i (se_store x)); apply in_or_app; left; exact Hp).
        apply (story_incl _ _ _ _ HI Fx) in Hs.
        intros N after HS HV. cbn [and_then sy_coords sy_rows sy_cols sy_events] in *. rewrite app_cons in *. pose proof HS as [S1 S2 SL [S3 S3'] [S4 S4'] S5 S6].
        pose proof (Hs N (Reload :: after) HS HV) as Hinv.
        pose proof (inv_wf hash lc lg fuel (sy_rows s) (sy_cols s) N S3 S4 S3' S4' (sy_coords s) _ S6 HV _ _ _ _ eq_refl Hinv) as Wd.
        destruct (node_reads c (NDataset d0) [] Wd) as (r' & Er'). rewrite app_nil_r, <- Ebd, Er in Er'. injection Er' as -> _.
        destruct Hinv as [I1 I2 I3 I4 I5 I6]. constructor; cbn [with_cid ds_rows ds_cols ds_coords ds_cid ds_prev ds_vars]; auto.
        * split; [rewrite Ec; apply S1|]. exists b. eapply nth_error_In, Hi.
        * rewrite configs_app. cbn [configs]. rewrite app_nil_r. eapply Forall2_impl; [|exact I6]. intros c0 v0 Hv0. eapply var_ok_incl; [apply incl_refl|exact Fx| |exact Hv0].
          rewrite length_app. symmetry. apply Nat.add_0_r.
      + exfalso. destruct T as (n & -> & Hn). exact (not_dataset_read n c d r Hn Er).
    - destruct (nth_error (se_open x) i) as [d|] eqn:Ei.
      + destruct (Forall2_nth_error_l _ _ _ _ _ T2 Ei) as (o & Eo & s & -> & Hs). rewrite Eo.
        pose proof (mono_event hash lc lg order fuel d e (se_store x)) as (l & El).
        assert (Hsr : stored_story (fst (run_event d e (se_store x))) (sr ++ match e with Commit | Reload => [Some s] | _ => repeat None (length (fst (run_event d e (se_store x))) - length (se_store x)) end)
          /\ length (sr ++ match e with Commit | Reload => [Some s] | _ => repeat None (length (fst (run_event d e (se_store x))) - length (se_store x)) end) = length (fst (run_event d e (se_store x)))).
        { assert (HQ : quietly (se_store x) (fst (run_event d e (se_store x))) ->
            stored_story (fst (run_event d e (se_store x))) (sr ++ repeat None (length (fst (run_event d e (se_store x))) - length (se_store x))) /\
            length (sr ++ repeat None (length (fst (run_event d e (se_store x))) - length (se_store x))) = length (fst (run_event d e (se_store x)))).
          { intros (l' & -> & F). split.
            - apply stored_story_app; [exact T3|exact T4|]. intros j c b o Hj Ho. apply nth_error_In, repeat_spec in Ho. subst o.
              rewrite Forall_forall in F. apply (F (c, b)). eapply nth_error_In, Hj.
            - rewrite app_length, repeat_length, T3. rewrite app_length. clear; lia. }
          assert (HCm : stored_story (snd (save hash (se_store x) (NDataset d))) (sr ++ [Some s]) /\ length (sr ++ [Some s]) = length (snd (save hash (se_store x) (NDataset d)))).
          { unfold save. cbn [snd]. split; [|rewrite !app_length, T3; reflexivity].
            apply stored_story_app; [exact T3|exact T4|]. intros j c b o Hj Ho. destruct j as [|j]; [|destruct j; discriminate]. injection Hj as <- <-. injection Ho as <-.
            exists d. split; [reflexivity|]. split; [reflexivity|]. cbn [firstn]. rewrite app_nil_r. exact Hs. }
          destruct e as [c|t name data| |].
          - apply HQ. apply quiet_add.
          - apply HQ. apply quiet_append.
          - exact HCm.
          - cbn [HistoryModel.run_event]. unfold obind, dataset_commit, osave. unfold save in *. cbn [fst snd] in *. exact HCm. }
        destruct (run_event d e (se_store x)) as [st r] eqn:Erun. cbn [fst snd se_store se_ever se_open to_session to_open to_store] in *. split; [|reflexivity]. subst st.
        rewrite skipn_app, skipn_all, Nat.sub_diag in HF |- *. cbn [skipn app] in HF |- *.
        assert (HE : incl (se_store x ++ l) (se_ever x ++ l)).
        { intros p Hp. apply in_app_or in Hp. apply in_or_app. destruct Hp as [Hp|Hp]; [left; apply T1, Hp|right; exact Hp]. }
        assert (Fs : functional (se_store x ++ l)) by (eapply functional_incl; [exact HE|exact HF]).
        constructor; cbn [se_store se_ever se_open to_session to_open to_store].
        * exact HE.
        * assert (T2' : Forall2 (fun d o => exists s, o = Some s /\ story_ok (se_store x ++ l) d s) (se_open x) op).
          { eapply Forall2_impl; [|exact T2]. intros d0 o0 (s0 & E0 & H0). exists s0. split; [exact E0|]. eapply story_incl; [apply incl_appl, incl_refl|exact Fs|exact H0]. }
          destruct r as [d'| | |]; try exact T2'. apply Forall2_app; [exact T2'|]. constructor; [|constructor]. cbn [option_map]. eexists. split; [reflexivity|].
          eapply story_event; [exact Fs|exact Hs|exact Erun].
        * apply Hsr.
        * apply Hsr.
      + split; [|reflexivity]. constructor; auto.
    - split; [|reflexivity]. constructor; cbn [se_store se_ever se_open to_session to_open to_store].
      + eapply incl_tran; [|exact T1]. intros p Hp. rewrite <- (firstn_skipn n (se_store x)). apply in_or_app. left. exact Hp.
      + constructor.
      + rewrite !firstn_length, T3. reflexivity.
      + intros i c b o Hi Ho. assert (L : i < n).
        { assert (i < length (firstn n (se_store x))) by (apply nth_error_Some; congruence). rewrite firstn_length in H. clear -H; lia. }
        rewrite nth_error_firstn_lt in Hi by exact L. rewrite nth_error_firstn_lt in Ho by exact L.
        rewrite firstn_firstn. replace (Nat.min i n) with i by (clear -L; lia). apply (T4 i c b o Hi Ho).
  Qed.

  Lemma telling_session : forall l y, functional (se_ever (run_session (to_session y) l)) -> telling y ->
    telling (run_told y l) /\ to_session (run_told y l) = run_session (to_session y) l.
  Proof.
    induction l as [|a l IH]; intros y HF HT; [split; [exact HT|reflexivity]|].
    unfold SessionModel.run_session, SessionModel.run_told in *. cbn [fold_left] in *.
    destruct (telling_action y a) as [H1 H2]; [|exact HT|].
    - eapply functional_incl; [|exact HF]. apply (ever_session hash lc lg order fuel l).
    - rewrite <- H2 in *. apply IH; assumption.
  Qed.
End Told.
