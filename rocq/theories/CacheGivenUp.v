(** * Gets that are given up, on one thread: when the cache panics *)
From Verif Require Import Base BaseFacts CacheModel CacheSpec CacheProofs CacheConc.
From Verif Require CacheCancel.

Section GivenUp.
  Context {K V : Type}.
  Variables (keqb : K -> K -> bool) (size : V -> nat).
  Hypothesis Heq : forall a b, keqb a b = true <-> a = b.
  Notation task := (task K V).
  Notation state := (state K V).
  Notation kset := (kset keqb).
  Variables (n : nat) (kt : nat -> K) (other : K).
  Notation P := (fun (_ : K) (_ : V) => True).
  Notation F := (fun (_ : K) => True).
  Notation inv := (CacheCancel.inv keqb n kt other P F).
  Notation kset_same := (kset_same keqb Heq).
  Notation kset_other := (kset_other keqb Heq).
  Variable limit : nat.

  (** Between two turns. [W u lo]: the task [u] was given up while it waited for the loader
      [lo]. *)
  Record quiet (W : nat -> nat -> Prop) (kof : nat -> K) (s : state) (l : list (K * V)) : Prop :=
    { q_inv : inv kof s;
      q_list : holds_list keqb size limit (c_entries s) l;
      q_await : forall t, awaits (c_task s t) = true \/ exists k, c_task s t = TLookup k;
      q_apart : forall k, In k (keys l) -> c_loaders s k = None;
      q_object : forall k lo, c_loaders s k = Some lo -> c_object s lo = None;
      q_wait : forall u lo k, In u (c_waiters s lo) -> c_loaders s k = Some lo -> u < n /\ kt u = k;
      q_gone : forall u lo k, In u (c_waiters s lo) -> c_task s u = TGone k -> W u lo;
      q_old : forall u lo, W u lo -> lo < c_next s;
      q_stays : forall u lo k, W u lo -> c_loaders s k = Some lo -> In u (c_waiters s lo) /\ gone (c_task s u) = true }.

  Lemma step_kept kof s t r s' : inv kof s -> (forall k lo, c_task s t = TLoading k lo -> answers r) -> step keqb size s t r = Some (Ok s') -> exists kof', inv kof' s'.
  Proof using Heq.
    intros HI Ha E. refine (CacheCancel.step_inv keqb size Heq n kt other P F kof s t r s' HI _ E).
    intros k lo Et. specialize (Ha k lo Et). destruct r; try destruct Ha; exact I.
  Qed.

  (** From the end of the load on. *)
  Lemma finish_turn kof s t k lo a r m : inv kof s -> c_task s t = TFinish k lo a ->
    (existsb (fun w => gone (c_task s w)) (c_waiters s lo) = true /\ run_on keqb size (S (S (S (S m)))) s t r = Panic) \/
    exists s' kof', existsb (fun w => gone (c_task s w)) (c_waiters s lo) = false /\ run_on keqb size (S (S (S (S m)))) s t r = Ok s' /\ inv kof' s' /\ c_task s' t = TDone k a /\ others s s' t /\
      c_next s' = c_next s /\ c_entries s' = c_entries s /\ c_loaders s' = kset (c_loaders s) k None /\ c_waiters s' = nset (c_waiters s) lo [] /\ c_object s' = nset (c_object s) lo (Some (told a)).
  Proof using Heq.
    intros HI Et.
    set (s1 := mkState (c_entries s) (c_loaders s) (c_next s) (nset (c_object s) lo (Some (told a))) (c_waiters s) (nset (c_task s) t (TNotify k lo a))).
    assert (E1 : step keqb size s t r = Some (Ok s1)) by (unfold step; rewrite Et; reflexivity).
    destruct (step_kept kof s t r s1 HI ltac:(rewrite Et; discriminate) E1) as [kof1 H1].
    assert (T1 : c_task s1 t = TNotify k lo a) by (cbn [s1 c_task]; apply nset_same).
    destruct (existsb (fun w => gone (c_task s1 w)) (c_waiters s1 lo)) eqn:Eg.
    - left. assert (E2 : step keqb size s1 t r = Some Panic) by (unfold step; rewrite T1, Eg; reflexivity). split.
      + apply existsb_exists in Eg. destruct Eg as (w & Hw & Gw). apply existsb_exists. exists w. split; [exact Hw|]. cbn [s1 c_task] in Gw.
        destruct (Nat.eq_dec w t) as [->|Nw]; [rewrite nset_same in Gw; discriminate|rewrite nset_other in Gw by exact Nw; exact Gw].
      + rewrite (run_step keqb size _ s t r s1); [|rewrite Et; reflexivity|exact E1]. cbn [run_on]. rewrite T1, E2. reflexivity.
    - right.
      set (s2 := mkState (c_entries s1) (c_loaders s1) (c_next s1) (c_object s1) (nset (c_waiters s1) lo [])
                         (nset (wake (c_task s1) (told a) (c_waiters s1 lo)) t (TRemove k lo a))).
      assert (E2 : step keqb size s1 t r = Some (Ok s2)) by (unfold step; rewrite T1, Eg; reflexivity).
      destruct (step_kept kof1 s1 t r s2 H1 ltac:(rewrite T1; discriminate) E2) as [kof2 H2].
      assert (T2 : c_task s2 t = TRemove k lo a) by (cbn [s2 c_task]; apply nset_same).
      set (s3 := mkState (c_entries s2) (kset (c_loaders s2) k None) (c_next s2) (c_object s2) (c_waiters s2) (nset (c_task s2) t (TDone k a))).
      assert (E3 : step keqb size s2 t r = Some (Ok s3)) by (unfold step; rewrite T2; reflexivity).
      destruct (step_kept kof2 s2 t r s3 H2 ltac:(rewrite T2; discriminate) E3) as [kof3 H3].
      assert (T3 : c_task s3 t = TDone k a) by (cbn [s3 c_task]; apply nset_same).
      exists s3, kof3. split; [|split; [|split; [exact H3|split; [exact T3|split; [|repeat split; reflexivity]]]]].
      + apply Bool.not_true_iff_false. intros C. apply Bool.not_true_iff_false in Eg. apply Eg. apply existsb_exists in C. destruct C as (w & Hw & Gw). apply existsb_exists. exists w. split; [exact Hw|].
        cbn [s1 c_task]. destruct (Nat.eq_dec w t) as [->|Nw]; [rewrite Et in Gw; discriminate|rewrite nset_other by exact Nw; exact Gw].
      + rewrite (run_step keqb size _ s t r s1), (run_step keqb size _ s1 t r s2), (run_step keqb size _ s2 t r s3), run_end; rewrite ?Et, ?T1, ?T2, ?T3; auto.
      + apply (others_trans s s1); [apply others_nset|]. apply (others_trans s1 s2); [|apply others_nset].
        intros u Nu. cbn [s2 c_task]. rewrite nset_other by exact Nu. rewrite wake_at. destruct (c_task s1 u) as [ | | | | | | | |k' lo'| | ] eqn:Eu; auto.
        destruct (in_dec _ _ _); [right; exists k', lo', (told a); auto|auto].
  Qed.

  (** What a turn leaves of the tasks that were given up. *)
  Lemma gone_before (s s' : state) t u k : others s s' t -> awaits (c_task s' t) = true -> (forall k, c_task s' t <> TGone k) -> c_task s' u = TGone k -> c_task s u = TGone k.
  Proof.
    intros HO _ Ht E. destruct (Nat.eq_dec u t) as [->|Nu]; [exfalso; exact (Ht _ E)|]. destruct (HO u Nu) as [<-|(k' & lo & a & _ & E')]; [exact E|congruence].
  Qed.

  Lemma gone_after (s s' : state) t u : others s s' t -> gone (c_task s t) = false -> gone (c_task s u) = true -> gone (c_task s' u) = true.
  Proof.
    intros HO Ht E. destruct (Nat.eq_dec u t) as [->|Nu]; [congruence|]. destruct (HO u Nu) as [->|(k' & lo & a & E' & _)]; [exact E|]. rewrite E' in E. discriminate.
  Qed.

  Lemma quiet_turn W kof s l t r : quiet W kof s l -> answers r ->
    (exists s' kof' l', turn keqb size s t r = Ok s' /\ quiet W kof' s' l' /\ forall k lo u, c_task s t = TLoading k lo -> ~ W u lo) \/
    (turn keqb size s t r = Panic /\ exists k lo u, c_task s t = TLoading k lo /\ W u lo /\ u < n /\ kt u = k /\ c_task s u = TGone k).
  Proof using Heq.
    intros HQ Hr. pose proof HQ as [HI HL HA HS HO HW HG HD HT]. destruct (HA t) as [Ha|[k Et]].
    - destruct (c_task s t) as [k|k|k lo|k lo v|k lo a|k lo a|k lo a|k lo|k lo|k a|k] eqn:Et; try discriminate.
      2-4: (left; exists s, kof, l; unfold turn, step; rewrite Et; split; [reflexivity|split; [exact HQ|discriminate]]).
      (* the load ends *)
      assert (El : c_loaders s k = Some lo) by (pose proof (CacheCancel.i_own _ _ _ _ _ _ _ _ HI t lo) as D; rewrite Et in D; exact (D eq_refl)).
      assert (Nk : ~ In k (keys l)) by (intros C; apply HS in C; congruence).
      assert (Fin : exists s1 kof1 l' m, inv kof1 s1 /\ c_task s1 t = TFinish k lo r /\ c_loaders s1 = c_loaders s /\ c_waiters s1 = c_waiters s /\ c_object s1 = c_object s /\ c_next s1 = c_next s /\ others s s1 t /\
                holds_list keqb size limit (c_entries s1) l' /\ l' = match r with Ok v => fitting size limit ((k, v) :: l) | _ => l end /\
                turn keqb size s t r = run_on keqb size (S (S (S (S m)))) s1 t r).
      { destruct r as [v|e| |]; try destruct Hr.
        - destruct (insert_rep keqb size Heq limit (c_entries s) l k v HL Nk) as (e & Ei & HL').
          set (s1 := with_task s t (TInsert k lo v)).
          assert (E1 : step keqb size s t (Ok v) = Some (Ok s1)) by (unfold step; rewrite Et; reflexivity).
          destruct (step_kept kof s t (Ok v) s1 HI ltac:(intros; exact Logic.I) E1) as [kof1 H1].
          assert (T1 : c_task s1 t = TInsert k lo v) by (cbn [s1 with_task c_task]; apply nset_same).
          set (s2 := with_task (with_entries s1 e) t (TFinish k lo (Ok v))).
          assert (E2 : step keqb size s1 t (Ok v) = Some (Ok s2)).
          { unfold step. rewrite T1. replace (c_entries s1) with (c_entries s) by reflexivity. rewrite Ei. reflexivity. }
          destruct (step_kept kof1 s1 t (Ok v) s2 H1 ltac:(rewrite T1; discriminate) E2) as [kof2 H2].
          exists s2, kof2, (fitting size limit ((k, v) :: l)), 0. split; [exact H2|]. split; [cbn [s2 with_task c_task]; apply nset_same|]. split; [reflexivity|]. split; [reflexivity|]. split; [reflexivity|]. split; [reflexivity|].
          split; [apply (others_trans s s1); [apply others_nset|exact (others_nset s1 e (c_loaders s1) (c_next s1) (c_object s1) (c_waiters s1) t _)]|]. split; [exact HL'|]. split; [reflexivity|].
          unfold turn. rewrite E1. cbn [bind]. rewrite (run_step keqb size _ s1 t (Ok v) s2); [reflexivity|rewrite T1; reflexivity|exact E2].
        - set (s1 := with_task s t (TFinish k lo (Err e))).
          assert (E1 : step keqb size s t (Err e) = Some (Ok s1)) by (unfold step; rewrite Et; reflexivity).
          destruct (step_kept kof s t (Err e) s1 HI ltac:(intros; exact Logic.I) E1) as [kof1 H1].
          exists s1, kof1, l, 1. split; [exact H1|]. split; [cbn [s1 with_task c_task]; apply nset_same|]. split; [reflexivity|]. split; [reflexivity|]. split; [reflexivity|]. split; [reflexivity|]. split; [apply others_nset|]. split; [exact HL|]. split; [reflexivity|].
          unfold turn. rewrite E1. reflexivity. }
      destruct Fin as (s1 & kof1 & l' & m & H1 & T1 & L1 & W1 & B1 & X1 & O1 & HL1 & El' & ET).
      destruct (finish_turn kof1 s1 t k lo r r m H1 T1) as [(Eg & ER)|(s2 & kof2 & Eg & ER & H2 & T2 & O2 & X2 & En2 & L2 & W2 & B2)].
      + right. split; [rewrite ET; exact ER|]. apply existsb_exists in Eg. destruct Eg as (u & Hu & Gu). rewrite W1 in Hu.
        destruct (c_task s1 u) as [ | | | | | | | | | |k'] eqn:Eu; try discriminate.
        assert (Es : c_task s u = TGone k').
        { destruct (Nat.eq_dec u t) as [->|Nu]; [congruence|]. destruct (O1 u Nu) as [E'|(k2 & lo2 & a2 & _ & E')]; congruence. }
        destruct (HW u lo k Hu El) as [Lu Ku]. exists k, lo, u. split; [reflexivity|]. split; [exact (HG u lo k' Hu Es)|]. split; [exact Lu|]. split; [exact Ku|].
        pose proof (CacheCancel.i_key _ _ _ _ _ _ _ _ HI u Lu) as K0. rewrite Es in K0. cbn [task_key] in K0. congruence.
      + left. exists s2, kof2, l'. split; [rewrite ET; exact ER|].
        assert (NW : forall u, ~ W u lo).
        { intros u Hu. destruct (HT u lo k Hu El) as [Hin Hg]. apply Bool.not_true_iff_false in Eg. apply Eg. apply existsb_exists. exists u. rewrite W1. split; [exact Hin|].
          apply (gone_after s s1 t u O1); [rewrite Et; reflexivity|exact Hg]. }
        split; [|intros k' lo' u E'; injection E' as <- <-; apply NW].
        assert (LE : forall k' lo', c_loaders s2 k' = Some lo' -> c_loaders s k' = Some lo' /\ lo' <> lo).
        { intros k' lo' E'. rewrite L2, L1 in E'. destruct (key_dec keqb Heq k' k) as [->|Nk']; [rewrite kset_same in E'; discriminate|]. rewrite kset_other in E' by exact Nk'. split; [exact E'|].
          intros ->. apply Nk'. destruct (CacheCancel.i_lt _ _ _ _ _ _ _ _ HI _ _ E') as [_ Q1]. destruct (CacheCancel.i_lt _ _ _ _ _ _ _ _ HI _ _ El) as [_ Q2]. congruence. }
        constructor.
        * exact H2.
        * rewrite En2. exact HL1.
        * apply (others_await s s2 t (others_trans _ _ _ _ O1 O2)); [rewrite T2; reflexivity|exact HA].
        * rewrite L2, L1. intros k' Hin. destruct (key_dec keqb Heq k' k) as [->|Nk']; [apply kset_same|]. rewrite kset_other by exact Nk'. apply HS.
          rewrite El' in Hin. destruct r as [v|e| |]; try exact Hin. destruct (fitting_prefix size ((k, v) :: l) limit) as [q Eq].
          assert (Hin' : In k' (keys ((k, v) :: l))) by (rewrite Eq; unfold keys; rewrite map_app; apply in_or_app; left; exact Hin).
          destruct Hin' as [C|Hin']; [cbn in C; congruence|exact Hin'].
        * intros k' lo' E'. destruct (LE _ _ E') as [E2 N2]. rewrite B2, B1, nset_other by exact N2. exact (HO _ _ E2).
        * intros u lo' k' Hin E'. destruct (LE _ _ E') as [E2 N2]. rewrite W2, W1, nset_other in Hin by exact N2. exact (HW _ _ _ Hin E2).
        * intros u lo' k' Hin Eu. rewrite W2, W1 in Hin. destruct (Nat.eq_dec lo' lo) as [->|N2]; [rewrite nset_same in Hin; destruct Hin|]. rewrite nset_other in Hin by exact N2.
          apply (HG u lo' k' Hin). apply (gone_before s s2 t u k' (others_trans _ _ _ _ O1 O2)); [rewrite T2; reflexivity|rewrite T2; discriminate|exact Eu].
        * intros u lo' Hu. rewrite X2, X1. exact (HD _ _ Hu).
        * intros u lo' k' Hu E'. destruct (LE _ _ E') as [E2 N2]. rewrite W2, W1, nset_other by exact N2. destruct (HT u lo' k' Hu E2) as [Q1 Q2]. split; [exact Q1|].
          apply (gone_after s s2 t u (others_trans _ _ _ _ O1 O2)); [rewrite Et; reflexivity|exact Q2].
    - (* the look up *) left. pose proof (lookup_rep keqb size Heq limit (c_entries s) l k HL) as LK. destruct (found keqb k l) as [v|] eqn:Ef.
      + destruct LK as (e & Ek & HL'). set (s1 := with_task (with_entries s e) t (TDone k (Ok v))).
        assert (E1 : step keqb size s t r = Some (Ok s1)) by (unfold step; rewrite Et, Ek; reflexivity).
        destruct (step_kept kof s t r s1 HI ltac:(intros; exact Hr) E1) as [kof1 H1].
        assert (T1 : c_task s1 t = TDone k (Ok v)) by (cbn [s1 with_task c_task]; apply nset_same).
        assert (O1 : others s s1 t) by exact (others_nset s e (c_loaders s) (c_next s) (c_object s) (c_waiters s) t _).
        exists s1, kof1, ((k, v) :: without keqb k l). split; [|split; [|rewrite Et; discriminate]].
        * unfold turn. rewrite E1. cbn [bind]. apply run_end. rewrite T1. reflexivity.
        * constructor; [exact H1|exact HL'| | |exact HO|exact HW| |exact HD|].
          -- apply (others_await s s1 t O1); [rewrite T1; reflexivity|exact HA].
          -- intros k' Hin. change (c_loaders s1) with (c_loaders s). apply HS. destruct Hin as [C|Hin].
             ++ cbn in C. subst k'. apply (found_split keqb Heq) in Ef. destruct Ef as (l1 & l2 & -> & _). unfold keys. rewrite map_app. apply in_or_app. right. left. reflexivity.
             ++ unfold keys, without in Hin. apply in_map_iff in Hin. destruct Hin as (q & <- & Hq). apply filter_In in Hq. apply in_map. tauto.
          -- intros u lo k' Hin Eu. apply (HG u lo k' Hin). apply (gone_before s s1 t u k' O1); [rewrite T1; reflexivity|rewrite T1; discriminate|exact Eu].
          -- intros u lo k' Hu E'. destruct (HT u lo k' Hu E') as [Q1 Q2]. split; [exact Q1|]. apply (gone_after s s1 t u O1); [rewrite Et; reflexivity|exact Q2].
      + set (s1 := with_task (with_entries s (c_entries s)) t (TRegister k)).
        assert (E1 : step keqb size s t r = Some (Ok s1)) by (unfold step; rewrite Et, LK; reflexivity).
        destruct (step_kept kof s t r s1 HI ltac:(intros; exact Hr) E1) as [kof1 H1].
        assert (T1 : c_task s1 t = TRegister k) by (cbn [s1 with_task c_task]; apply nset_same).
        assert (O1 : others s s1 t) by exact (others_nset s (c_entries s) (c_loaders s) (c_next s) (c_object s) (c_waiters s) t _).
        assert (Ht : t < n) by (apply (CacheCancel.in_tasks keqb n kt other P F kof s t HI); rewrite Et; discriminate).
        assert (Kt : kt t = k) by (pose proof (CacheCancel.i_key _ _ _ _ _ _ _ _ HI t Ht) as Q; rewrite Et in Q; symmetry; exact Q).
        destruct (c_loaders s k) as [lo|] eqn:El.
        * set (s2 := with_task s1 t (TWait k lo)).
          assert (E2 : step keqb size s1 t r = Some (Ok s2)) by (unfold step; rewrite T1; change (c_loaders s1) with (c_loaders s); rewrite El; reflexivity).
          destruct (step_kept kof1 s1 t r s2 H1 ltac:(rewrite T1; discriminate) E2) as [kof2 H2].
          assert (T2 : c_task s2 t = TWait k lo) by (cbn [s2 with_task c_task]; apply nset_same).
          assert (EO : c_object s2 lo = None) by exact (HO _ _ El).
          set (s3 := mkState (c_entries s2) (c_loaders s2) (c_next s2) (c_object s2) (nset (c_waiters s2) lo (c_waiters s2 lo ++ [t])) (nset (c_task s2) t (TBlocked k lo))).
          assert (E3 : step keqb size s2 t r = Some (Ok s3)) by (unfold step; rewrite T2, EO; reflexivity).
          destruct (step_kept kof2 s2 t r s3 H2 ltac:(rewrite T2; discriminate) E3) as [kof3 H3].
          assert (T3 : c_task s3 t = TBlocked k lo) by (cbn [s3 c_task]; apply nset_same).
          assert (O3 : others s s3 t) by (apply (others_trans s s1); [exact O1|apply (others_trans s1 s2); apply others_nset]).
          assert (WI : forall u lo', In u (c_waiters s3 lo') -> In u (c_waiters s lo') \/ u = t /\ lo' = lo).
          { intros u lo'. cbn [s3 c_waiters]. change (c_waiters s2) with (c_waiters s). destruct (Nat.eq_dec lo' lo) as [->|N2]; [rewrite nset_same|rewrite nset_other by exact N2; auto].
            intros Hin. apply in_app_or in Hin. destruct Hin as [Hin|[<-|[]]]; auto. }
          exists s3, kof3, l. split; [|split; [|rewrite Et; discriminate]].
          -- unfold turn. rewrite E1. cbn [bind]. rewrite (run_step keqb size _ s1 t r s2), (run_step keqb size _ s2 t r s3), run_end; rewrite ?T1, ?T2, ?T3; auto.
          -- constructor; [exact H3|exact HL| |exact HS|exact HO| | |exact HD|].
             ++ apply (others_await s s3 t O3); [rewrite T3; reflexivity|exact HA].
             ++ intros u lo' k' Hin E'. change (c_loaders s3) with (c_loaders s) in E'. destruct (WI _ _ Hin) as [Hin'|[-> ->]]; [exact (HW _ _ _ Hin' E')|]. split; [exact Ht|].
                destruct (CacheCancel.i_lt _ _ _ _ _ _ _ _ HI _ _ E') as [_ Q1]. destruct (CacheCancel.i_lt _ _ _ _ _ _ _ _ HI _ _ El) as [_ Q2]. congruence.
             ++ intros u lo' k' Hin Eu. assert (Es : c_task s u = TGone k') by (apply (gone_before s s3 t u k' O3); [rewrite T3; reflexivity|rewrite T3; discriminate|exact Eu]).
                destruct (WI _ _ Hin) as [Hin'|[-> ->]]; [exact (HG _ _ _ Hin' Es)|congruence].
             ++ intros u lo' k' Hu E'. destruct (HT u lo' k' Hu E') as [Q1 Q2]. split; [|apply (gone_after s s3 t u O3); [rewrite Et; reflexivity|exact Q2]].
                cbn [s3 c_waiters]. change (c_waiters s2) with (c_waiters s). destruct (Nat.eq_dec lo' lo) as [->|N2]; [rewrite nset_same; apply in_or_app; left; exact Q1|rewrite nset_other by exact N2; exact Q1].
        * set (lo := c_next s1).
          set (s2 := mkState (c_entries s1) (kset (c_loaders s1) k (Some lo)) (S (c_next s1)) (nset (c_object s1) lo None) (nset (c_waiters s1) lo []) (nset (c_task s1) t (TLoading k lo))).
          assert (E2 : step keqb size s1 t r = Some (Ok s2)) by (unfold step; rewrite T1; change (c_loaders s1) with (c_loaders s) at 1; rewrite El; reflexivity).
          destruct (step_kept kof1 s1 t r s2 H1 ltac:(rewrite T1; discriminate) E2) as [kof2 H2].
          assert (T2 : c_task s2 t = TLoading k lo) by (cbn [s2 c_task]; apply nset_same).
          assert (O2 : others s s2 t) by (apply (others_trans s s1); [exact O1|apply others_nset]).
          exists s2, kof2, l. split; [|split; [|rewrite Et; discriminate]].
          -- unfold turn. rewrite E1. cbn [bind]. rewrite (run_step keqb size _ s1 t r s2), run_end; rewrite ?T1, ?T2; auto.
          -- constructor; [exact H2|exact HL| | | | | | |].
             ++ apply (others_await s s2 t O2); [rewrite T2; reflexivity|exact HA].
             ++ intros k' Hin. cbn [s2 c_loaders]. rewrite kset_other; [apply HS; exact Hin|]. intros ->. apply (found_none keqb Heq) in Ef. contradiction.
             ++ intros k' lo' E'. cbn [s2 c_loaders c_object] in *. destruct (Nat.eq_dec lo' lo) as [->|N2]; [apply nset_same|]. rewrite nset_other by exact N2.
                destruct (key_dec keqb Heq k' k) as [->|Nk']; [rewrite kset_same in E'; congruence|]. rewrite kset_other in E' by exact Nk'. exact (HO _ _ E').
             ++ intros u lo' k' Hin E'. cbn [s2 c_loaders c_waiters] in *. destruct (Nat.eq_dec lo' lo) as [->|N2]; [rewrite nset_same in Hin; destruct Hin|]. rewrite nset_other in Hin by exact N2.
                destruct (key_dec keqb Heq k' k) as [->|Nk']; [rewrite kset_same in E'; congruence|]. rewrite kset_other in E' by exact Nk'. exact (HW _ _ _ Hin E').
             ++ intros u lo' k' Hin Eu. cbn [s2 c_waiters] in Hin. destruct (Nat.eq_dec lo' lo) as [->|N2]; [rewrite nset_same in Hin; destruct Hin|]. rewrite nset_other in Hin by exact N2.
                apply (HG _ _ k' Hin). apply (gone_before s s2 t u k' O2); [rewrite T2; reflexivity|rewrite T2; discriminate|exact Eu].
             ++ intros u lo' Hu. pose proof (HD _ _ Hu). cbn [s2 c_next]. change (c_next s1) with (c_next s). lia.
             ++ intros u lo' k' Hu E'. pose proof (HD _ _ Hu) as Lo. cbn [s2 c_loaders c_waiters] in *. assert (N2 : lo' <> lo) by (unfold lo; change (c_next s1) with (c_next s); lia).
                destruct (key_dec keqb Heq k' k) as [->|Nk']; [rewrite kset_same in E'; congruence|]. rewrite kset_other in E' by exact Nk'. destruct (HT u lo' k' Hu E') as [Q1 Q2].
                split; [rewrite nset_other by exact N2; exact Q1|]. apply (gone_after s s2 t u O2); [rewrite Et; reflexivity|exact Q2].
  Qed.

  Lemma quiet_ext (W W' : nat -> nat -> Prop) kof s l : (forall u lo, W' u lo <-> W u lo) -> quiet W kof s l -> quiet W' kof s l.
  Proof.
    intros H [A B C D E G I J L]. constructor; auto.
    - intros u lo k Hin Eu. apply H. exact (I _ _ _ Hin Eu).
    - intros u lo Hu. apply H in Hu. exact (J _ _ Hu).
    - intros u lo k Hu. apply H in Hu. exact (L _ _ _ Hu).
  Qed.

  (** A get is given up. *)
  Lemma quiet_drop (W W' : nat -> nat -> Prop) kof s l t : (forall u lo, W' u lo <-> W u lo \/ u = t /\ exists k, c_task s t = TBlocked k lo) ->
    quiet W kof s l -> quiet W' kof (drop_task s t) l.
  Proof using Heq.
    intros HWW HQ. pose proof HQ as [HI HL HA HS HO HW HG HD HT].
    assert (Eq : (drop_task s t = s /\ forall k lo, c_task s t <> TBlocked k lo) \/ exists k, drop_task s t = with_task s t (TGone k)).
    { unfold drop_task. destruct (c_task s t); eauto; left; (split; [reflexivity|discriminate]). }
    pose proof (CacheCancel.drop_inv keqb Heq n kt other P F kof s t HI) as HI'.
    destruct Eq as [[Eq NB]|[k Eq]]; rewrite Eq in *.
    { apply (quiet_ext W W'); [|exact HQ]. intros u lo. rewrite HWW. split; [intros [H|(_ & k & H)]; [exact H|destruct (NB _ _ H)]|auto]. }
    assert (KG : forall u, gone (c_task s u) = true -> gone (nset (c_task s) t (TGone k) u) = true).
    { intros u Hu. destruct (Nat.eq_dec u t) as [->|Nu]; [rewrite nset_same; reflexivity|rewrite nset_other by exact Nu; exact Hu]. }
    constructor; cbn [with_task c_task c_entries c_loaders c_next c_object c_waiters]; auto.
    - intros u. destruct (Nat.eq_dec u t) as [->|Nu]; [rewrite nset_same; left; reflexivity|rewrite nset_other by exact Nu; apply HA].
    - intros u lo k' Hin Eu. apply HWW. destruct (Nat.eq_dec u t) as [->|Nu]; [|rewrite nset_other in Eu by exact Nu; left; exact (HG _ _ _ Hin Eu)].
      destruct (CacheCancel.i_waiters _ _ _ _ _ _ _ _ HI t lo Hin) as [[k2 E2]|[k2 E2]]; [right; split; [reflexivity|eauto]|left; exact (HG _ _ _ Hin E2)].
    - intros u lo Hu. apply HWW in Hu. destruct Hu as [Hu|(-> & k' & E')]; [exact (HD _ _ Hu)|]. destruct (CacheCancel.i_blocked _ _ _ _ _ _ _ _ HI _ _ _ E') as (Q & _). exact Q.
    - intros u lo k' Hu El. apply HWW in Hu. destruct Hu as [Hu|(-> & k2 & E')]; [destruct (HT u lo k' Hu El) as [Q1 Q2]; auto|].
      destruct (CacheCancel.i_blocked _ _ _ _ _ _ _ _ HI _ _ _ E') as (_ & _ & Q & _). split; [exact Q|rewrite nset_same; reflexivity].
  Qed.

  Notation gave_up := (gave_up keqb size).

  Lemma turns_dropping_app a : forall s b, turns_dropping keqb size s (a ++ b) = bind (turns_dropping keqb size s a) (fun s' => turns_dropping keqb size s' b).
  Proof using.
    induction a as [|[t r|t] a IH]; intros s b; cbn [app turns_dropping]; [reflexivity| |apply IH].
    destruct (turn keqb size s t r) as [s1| | |]; cbn [bind]; auto.
  Qed.

  Lemma gave_up_snoc s0 past x s u lo : turns_dropping keqb size s0 past = Ok s ->
    gave_up s0 (past ++ [x]) u lo <-> gave_up s0 past u lo \/ x = Dropped u /\ exists k, c_task s u = TBlocked k lo.
  Proof using.
    intros E. split.
    - intros (b & a & s' & k & Eq & E1 & E2). destruct (exists_last (l := Dropped u :: a)) as (a' & y & Ea); [discriminate|].
      rewrite Ea, app_assoc in Eq. apply app_inj_tail in Eq. destruct Eq as [Ep Ex]. destruct a' as [|d a'].
      + right. cbn in Ea. injection Ea as E3 E4. rewrite app_nil_r in Ep. subst. split; [reflexivity|]. exists k. congruence.
      + left. cbn in Ea. injection Ea as E3 E4. subst. exists b, a', s', k. auto.
    - intros [(b & a & s' & k & -> & E1 & E2)|(-> & k & E2)].
      + exists b, (a ++ [x]), s', k. rewrite <- app_assoc. auto.
      + exists past, [], s, k. auto.
  Qed.

  (** The run panics in the turn of a task that loads for someone who was given up, and in no
      other. *)
  Lemma quiet_turns s0 rest : forall past kof s l, turns_dropping keqb size s0 past = Ok s -> quiet (gave_up s0 past) kof s l ->
    Forall (fun x => match x with Moves _ r => answers r | Dropped _ => True end) rest ->
    (exists s' kof' l', turns_dropping keqb size s rest = Ok s' /\ quiet (gave_up s0 (past ++ rest)) kof' s' l' /\
      forall before t r after s1 k lo u, rest = before ++ Moves t r :: after -> turns_dropping keqb size s before = Ok s1 -> c_task s1 t = TLoading k lo -> ~ gave_up s0 (past ++ before) u lo) \/
    (turns_dropping keqb size s rest = Panic /\
     exists before t r after s1 k lo u, rest = before ++ Moves t r :: after /\ turns_dropping keqb size s before = Ok s1 /\ c_task s1 t = TLoading k lo /\
       u < n /\ kt u = k /\ gave_up s0 (past ++ before) u lo).
  Proof using Heq.
    induction rest as [|x rest IH]; intros past kof s l E HQ HA.
    - left. exists s, kof, l. rewrite app_nil_r. split; [reflexivity|split; [exact HQ|]]. intros before t r after s1 k lo u C. destruct before; discriminate.
    - pose proof (Forall_inv HA) as Hx. apply Forall_inv_tail in HA. replace (past ++ x :: rest) with ((past ++ [x]) ++ rest) by (rewrite <- app_assoc; reflexivity).
      destruct x as [t r|t].
      + destruct (quiet_turn (gave_up s0 past) kof s l t r HQ Hx) as [(s1 & kof1 & l1 & E1 & HQ1 & NG)|(E1 & k & lo & u & Et & G & Lu & Ku & _)].
        * assert (E2 : turns_dropping keqb size s0 (past ++ [Moves t r]) = Ok s1) by (rewrite turns_dropping_app, E; cbn [bind turns_dropping]; rewrite E1; reflexivity).
          cbn [turns_dropping]. rewrite E1. cbn [bind].
          assert (HQ2 : quiet (gave_up s0 (past ++ [Moves t r])) kof1 s1 l1).
          { refine (quiet_ext _ _ _ _ _ _ HQ1). intros u lo. rewrite (gave_up_snoc s0 past (Moves t r) s u lo E). split; [intros [H|[H _]]; [exact H|discriminate]|auto]. }
          destruct (IH _ _ _ _ E2 HQ2 HA) as [(s' & kof' & l' & R1 & R2 & R3)|(R & before & t' & r' & after & s2 & k & lo & u & -> & E3 & H)].
          -- left. exists s', kof', l'. split; [exact R1|]. split; [exact R2|]. intros before t' r' after s2 k lo u Eq E3 Et. destruct before as [|y before].
             ++ injection Eq as <- <- <-. rewrite app_nil_r. injection E3 as <-. exact (NG _ _ _ Et).
             ++ injection Eq as <- Eq. cbn [turns_dropping] in E3. rewrite E1 in E3. cbn [bind] in E3.
                replace (past ++ Moves t r :: before) with ((past ++ [Moves t r]) ++ before) by (rewrite <- app_assoc; reflexivity). exact (R3 _ _ _ _ _ _ _ _ Eq E3 Et).
          -- right. split; [exact R|]. exists (Moves t r :: before), t', r', after, s2, k, lo, u. split; [reflexivity|]. split; [cbn [turns_dropping]; rewrite E1; exact E3|].
             rewrite <- app_assoc in H. exact H.
        * right. cbn [turns_dropping]. rewrite E1. split; [reflexivity|]. exists [], t, r, rest, s, k, lo, u. rewrite app_nil_r. auto 10.
      + assert (E2 : turns_dropping keqb size s0 (past ++ [Dropped t]) = Ok (drop_task s t)) by (rewrite turns_dropping_app, E; reflexivity).
        assert (HQ1 : quiet (gave_up s0 (past ++ [Dropped t])) kof (drop_task s t) l).
        { refine (quiet_drop _ _ kof s l t _ HQ). intros u lo. rewrite (gave_up_snoc s0 past (Dropped t) s u lo E). split; (intros [H|[H1 H2]]; [left; exact H|right]).
          - injection H1 as <-. auto.
          - subst u. auto. }
        cbn [turns_dropping].
        destruct (IH _ _ _ _ E2 HQ1 HA) as [(s' & kof' & l' & R1 & R2 & R3)|(R & before & t' & r' & after & s2 & k & lo & u & -> & E3 & H)].
        * left. exists s', kof', l'. split; [exact R1|]. split; [exact R2|]. intros before t' r' after s2 k lo u Eq E3 Et. destruct before as [|y before]; [discriminate|]. injection Eq as <- Eq.
          replace (past ++ Dropped t :: before) with ((past ++ [Dropped t]) ++ before) by (rewrite <- app_assoc; reflexivity). exact (R3 _ _ _ _ _ _ _ _ Eq E3 Et).
        * right. split; [exact R|]. exists (Dropped t :: before), t', r', after, s2, k, lo, u. split; [reflexivity|]. split; [exact E3|].
          rewrite <- app_assoc in H. exact H.
  Qed.
End GivenUp.

Lemma start_quiet {K V} (keqb : K -> K -> bool) (size : V -> nat) (Heq : forall a b, keqb a b = true <-> a = b) limit ks other (W : nat -> nat -> Prop) : (forall u lo, ~ W u lo) ->
  quiet keqb size (length ks) (fun t => nth t ks other) other limit W (fun _ => other) (start (V := V) limit ks other) [].
Proof.
  intros HW. pose proof (start_coop keqb size Heq limit ks other (fun _ _ => True) (fun _ => True)) as HC.
  constructor.
  - apply CacheCancel.start_inv.
  - exact (co_list _ _ _ _ _ _ _ _ _ _ _ HC).
  - exact (co_await _ _ _ _ _ _ _ _ _ _ _ HC).
  - exact (co_apart _ _ _ _ _ _ _ _ _ _ _ HC).
  - intros k lo E. discriminate.
  - intros u lo k [].
  - intros u lo k [].
  - intros u lo C. destruct (HW _ _ C).
  - intros u lo k C. destruct (HW _ _ C).
Qed.
