(** * With room for all objects none is loaded twice: lemmas *)
From Coq Require Import Permutation.
From Verif Require Import Base BaseFacts CacheModel CacheSpec CacheProofs GeomModel BitmapModel DacModel StreamModel ChunkModel NodeModel NodeProofs SuperModel ChunkReads ArrayModel RequestModel RequestProofs.
Arguments Nat.pow : simpl never.

Section Once.
  Variables (size : node -> nat) (limit : nat) (st : store) (objs : list (cid * node)).
  Hypothesis HA : forall c, answers (retrieve st c).
  Hypothesis HO : forall c n, retrieve st c = Ok n -> In (c, n) objs.
  Hypothesis HL : sum_sizes size objs <= limit.

  Definition present (c : cid) : bool := match retrieve st c with Ok _ => true | _ => false end.

  Lemma sum_app (l1 l2 : list (cid * node)) : sum_sizes size (l1 ++ l2) = sum_sizes size l1 + sum_sizes size l2.
  Proof. clear. unfold sum_sizes. induction l1 as [|x l1 IH]; cbn [app fold_right]; [reflexivity|]. rewrite IH. lia. Qed.
  Lemma sum_incl (l : list (cid * node)) : NoDup l -> forall l', incl l l' -> sum_sizes size l <= sum_sizes size l'.
  Proof.
    clear. induction 1 as [|x l Hx HN IH]; intros l' HI; [cbn; lia|]. destruct (in_split x l' (HI x (or_introl eq_refl))) as (a & b & ->).
    assert (I : incl l (a ++ b)).
    { intros y Hy. specialize (HI y (or_intror Hy)). apply in_app_or in HI. apply in_or_app. destruct HI as [H|[->|H]]; [auto|contradiction|auto]. }
    apply IH in I. rewrite sum_app in I |- *. unfold sum_sizes in *. cbn [fold_right]. lia.
  Qed.

  Definition kept_of (s : entries cid node) (l : list (cid * node)) : Prop :=
    holds_list cid_eqb size limit s l /\ Forall (fun p => retrieve st (fst p) = Ok (snd p)) l.
  Lemma kept_fits s l c n : kept_of s l -> retrieve st c = Ok n -> ~ In c (keys l) -> sum_sizes size ((c, n) :: l) <= limit.
  Proof using HL HO.
    intros [HH HF] E Hn. etransitivity; [|exact HL]. apply sum_incl.
    - constructor; [intros H; apply Hn; apply (in_map fst) in H; exact H|]. eapply NoDup_map_inv. exact (rp_nodup _ _ _ _ (hl_rep _ _ _ _ _ HH)).
    - rewrite Forall_forall in HF. intros x [<-|Hx]; [apply HO, E|]. destruct x as [c' n']. apply HO. exact (HF _ Hx).
  Qed.

  Lemma cache_once {A} (p : ask A) : forall s l, kept_of s l ->
    exists s' loads l', ask_cache size st s p = Ok (s', loads, ask_store st p) /\ kept_of s' l' /\ incl (keys l) (keys l') /\
      NoDup (filter present loads) /\ (forall c, In c loads -> present c = true -> ~ In c (keys l) /\ In c (keys l')).
  Proof.
    induction p as [x|c k IH]; intros s l HK; cbn [ask_cache ask_store].
    - exists s, [], l. split; [reflexivity|]. split; [exact HK|]. split; [apply incl_refl|]. split; [constructor|intros c []].
    - pose proof HK as [HH HF]. destruct (cache_get_rep cid_eqb size cid_eqb_spec limit s l c (retrieve st c) HH (HA c)) as (s1 & E & H1). rewrite E. cbn [bind].
      unfold lru_get in *. destruct (found cid_eqb c l) as [v|] eqn:EF; cbn [fst snd] in *.
      + destruct (found_split cid_eqb cid_eqb_spec _ _ _ EF) as (l1 & l2 & El & _).
        assert (R : retrieve st c = Ok v). { rewrite Forall_forall in HF. apply (HF (c, v)). rewrite El. apply in_or_app. right. left. reflexivity. }
        assert (K1 : kept_of s1 ((c, v) :: without cid_eqb c l)).
        { split; [exact H1|]. constructor; [exact R|]. rewrite Forall_forall in HF |- *. intros q Hq. apply filter_In in Hq. apply HF, Hq. }
        rewrite <- R. destruct (IH (retrieve st c) s1 _ K1) as (s2 & loads & l' & E2 & K2 & I2 & N2 & P2). rewrite E2. cbn [bind app]. exists s2, loads, l'.
        assert (I1 : incl (keys l) (keys ((c, v) :: without cid_eqb c l))).
        { intros y Hy. unfold keys in *. cbn [map fst]. destruct (cid_eq_dec y c) as [->|N]; [left; reflexivity|right]. apply in_map_iff in Hy.
          destruct Hy as (q & <- & Hq). apply in_map_iff. exists q. split; [reflexivity|]. apply filter_In. split; [exact Hq|].
          destruct (cid_eqb c (fst q)) eqn:Q; [apply cid_eqb_spec in Q; congruence|reflexivity]. }
        split; [reflexivity|]. split; [exact K2|]. split; [eapply incl_tran; eassumption|]. split; [exact N2|].
        intros y Hy Py. destruct (P2 y Hy Py) as [Q1 Q2]. split; [intros Z; apply Q1, I1, Z|exact Q2].
      + apply (found_none cid_eqb cid_eqb_spec) in EF.
        destruct (retrieve st c) as [n|e| |] eqn:R; try (exfalso; specialize (HA c); rewrite R in HA; exact HA).
        * pose proof (kept_fits s l c n HK R EF) as F. rewrite fitting_all in H1 by exact F.
          assert (K1 : kept_of s1 ((c, n) :: l)) by (split; [exact H1|constructor; [exact R|exact HF]]).
          destruct (IH (Ok n) s1 _ K1) as (s2 & loads & l' & E2 & K2 & I2 & N2 & P2). rewrite E2. cbn [bind app]. exists s2, (c :: loads), l'.
          split; [reflexivity|]. split; [exact K2|]. split; [intros y Hy; apply I2; right; exact Hy|].
          assert (Pc : present c = true) by (unfold present; rewrite R; reflexivity).
          split.
          -- cbn [filter]. rewrite Pc. constructor; [|exact N2]. intros H. apply filter_In in H. destruct H as [H H']. destruct (P2 c H H') as [Q _]. apply Q. left. reflexivity.
          -- intros y [<-|Hy] Py; [split; [exact EF|apply I2; left; reflexivity]|]. destruct (P2 y Hy Py) as [Q1 Q2]. split; [intros Z; apply Q1; right; exact Z|exact Q2].
        * assert (K1 : kept_of s1 l) by (split; [exact H1|exact HF]).
          destruct (IH (Err e) s1 _ K1) as (s2 & loads & l' & E2 & K2 & I2 & N2 & P2). rewrite E2. cbn [bind app]. exists s2, (c :: loads), l'.
          split; [reflexivity|]. split; [exact K2|]. split; [exact I2|].
          assert (Pc : present c = false) by (unfold present; rewrite R; reflexivity).
          split; [cbn [filter]; rewrite Pc; exact N2|]. intros y [<-|Hy] Py; [congruence|exact (P2 y Hy Py)].
  Qed.

  Lemma each_once {A} (ps : list (ask A)) : forall s l, kept_of s l ->
    exists s' out, ask_each size s (map (pair st) ps) = Ok (s', out) /\ NoDup (filter present (concat (map fst out))) /\
      (forall c, In c (concat (map fst out)) -> present c = true -> ~ In c (keys l)).
  Proof.
    induction ps as [|p ps IH]; intros s l HK; cbn [map ask_each].
    - exists s, []. split; [reflexivity|]. split; [constructor|intros c []].
    - destruct (cache_once p s l HK) as (s1 & loads & l1 & E & K1 & I1 & N1 & P1). rewrite E. cbn [bind].
      destruct (IH s1 l1 K1) as (s2 & out & E2 & N2 & P2). rewrite E2. cbn [bind]. eexists. eexists. split; [reflexivity|]. cbn [map fst concat]. split.
      + rewrite filter_app. apply NoDup_app'; [exact N1|exact N2|]. intros y Hy Hy'. apply filter_In in Hy, Hy'. destruct Hy as [Hy Py], Hy' as [Hy' _].
        apply (P2 y Hy' Py). exact (proj2 (P1 y Hy Py)).
      + intros y Hy Py. apply in_app_or in Hy. destruct Hy as [Hy|Hy]; [exact (proj1 (P1 y Hy Py))|]. intros Z. apply (P2 y Hy Py), I1, Z.
  Qed.
End Once.
