(** * Gets that are given up: what happens to the others *)
From Verif Require Import Base BaseFacts CacheModel CacheSpec CacheProofs CacheConc.

Section Drop.
  Context {K V : Type}.
  Variables (keqb : K -> K -> bool) (size : V -> nat).
  Hypothesis Heq : forall a b, keqb a b = true <-> a = b.
  Notation task := (task K V).
  Notation state := (state K V).
  Notation kset := (kset keqb).

  (** The loader [lo] is registered for [k], and no task works for it. [D] are the
      tasks that have returned. *)
  Variables (k : K) (lo : nat) (D : nat -> Prop).
  Definition hanging (x : task) (t : nat) : Prop :=
    match x with
    | TLookup _ | TRegister _ | TGone _ => True
    | TWait _ l | TBlocked _ l => l = lo
    | TDone _ _ => D t
    | _ => False
    end.
  Record stuck (s : state) : Prop :=
    { st_loader : c_loaders s k = Some lo;
      st_lt : lo < c_next s;
      st_object : c_object s lo = None;
      st_owner : forall t, owner (c_task s t) <> Some lo;
      st_hang : forall t, task_key (c_task s t) = k -> hanging (c_task s t) t;
      st_waiters : forall t l, In t (c_waiters s l) -> exists k', c_task s t = TBlocked k' l \/ c_task s t = TGone k';
      st_absent : stored keqb (fun k' _ => k' <> k) (c_entries s) }.

  Ltac case_task t' t := destruct (Nat.eq_dec t' t) as [->|?]; [rewrite ?nset_same in *|rewrite ?nset_other in * by assumption].

  Lemma stuck_move s t x e : stuck s -> stored keqb (fun k' _ => k' <> k) e -> owner x <> Some lo -> (task_key x = k -> hanging x t) ->
    (forall k' l, c_task s t <> TBlocked k' l) -> gone (c_task s t) = false -> stuck (with_task (with_entries s e) t x).
  Proof.
    intros [A B C E F G H] He Ho Hh Nb Ng. constructor; cbn [with_task with_entries c_task c_entries c_loaders c_next c_object c_waiters]; auto.
    - intros t'. case_task t' t; auto.
    - intros t' Hk. case_task t' t; auto.
    - intros t' l Hin. destruct (G t' l Hin) as (k' & Hk'). exists k'. rewrite nset_other; [exact Hk'|]. intros ->. destruct Hk' as [C1|C1]; [exact (Nb _ _ C1)|rewrite C1 in Ng; discriminate].
  Qed.
  Lemma stuck_move' s t x : stuck s -> owner x <> Some lo -> (task_key x = k -> hanging x t) ->
    (forall k' l, c_task s t <> TBlocked k' l) -> gone (c_task s t) = false -> stuck (with_task s t x).
  Proof. intros HS. replace (with_task s t x) with (with_task (with_entries s (c_entries s)) t x) by (rewrite same_entries; reflexivity). intros. apply stuck_move; auto. apply (st_absent _ HS). Qed.

  Lemma stuck_step s t r s' : stuck s -> step keqb size s t r = Some (Ok s') -> stuck s'.
  Proof using Heq.
    intros HS E. pose proof (st_hang _ HS t) as Hh. pose proof (st_owner _ HS t) as Ho. unfold step in E.
    destruct (c_task s t) as [k'|k'|k' l|k' l v|k' l a|k' l a|k' l a|k' l|k' l|k' a|k'] eqn:Et; try discriminate; injection E as E; cbn [task_key owner telling working] in Hh, Ho.
    - apply bind_inv in E. destruct E as ([e o] & E1 & E). destruct (stored_lookup keqb Heq _ _ _ _ _ (st_absent _ HS) E1) as [H1 H2]. injection E as <-.
      apply stuck_move; auto; rewrite ?Et; try discriminate; try reflexivity; destruct o; try discriminate; cbn [task_key hanging]; auto. intros ->. destruct (H2 eq_refl).
    - destruct (c_loaders s k') as [l|] eqn:El; subst s'.
      + apply stuck_move'; auto; rewrite ?Et; try discriminate; try reflexivity. cbn [task_key hanging]. intros ->. pose proof (st_loader _ HS). congruence.
      + destruct HS as [A B C E F G H]. constructor; cbn [c_task c_entries c_loaders c_next c_object c_waiters]; auto.
        * rewrite (kset_other keqb Heq); [exact A|]. intros ->. congruence.
        * rewrite nset_other by lia. exact C.
        * intros t'. case_task t' t; [|apply E]. cbn. intros C1. injection C1 as C1. lia.
        * intros t' Hk. case_task t' t; [|auto]. cbn in Hk. subst k'. congruence.
        * intros t' l Hin. destruct (Nat.eq_dec l (c_next s)) as [->|Nl]; [rewrite nset_same in Hin; destruct Hin|]. rewrite nset_other in Hin by exact Nl.
          destruct (G t' l Hin) as (k2 & Hk2). exists k2. rewrite nset_other; [exact Hk2|]. intros ->. destruct Hk2; congruence.
    - destruct r as [v|e| |]; try discriminate; injection E as <-; (apply stuck_move'; auto; rewrite ?Et; try discriminate; try reflexivity; cbn [task_key hanging]; exact Hh).
    - apply bind_inv in E. destruct E as (e & E1 & E). injection E as <-. apply stuck_move; auto; rewrite ?Et; try discriminate; try reflexivity; try exact Hh.
      refine (stored_insert keqb size Heq _ _ _ _ _ (st_absent _ HS) _ E1). intros ->. exact (Hh eq_refl).
    - subst s'. assert (Nl : l <> lo) by congruence. destruct HS as [A B C E F G H]. constructor; cbn [c_task c_entries c_loaders c_next c_object c_waiters]; auto.
      + rewrite nset_other by congruence. exact C.
      + intros t'. case_task t' t; [exact Ho|apply E].
      + intros t' Hk. case_task t' t; [exact (Hh Hk)|auto].
      + intros t' l' Hin. destruct (G t' l' Hin) as (k2 & Hk2). exists k2. rewrite nset_other; [exact Hk2|]. intros ->. destruct Hk2; congruence.
    - destruct (existsb _ _) eqn:Eg; [discriminate|]. injection E as <-. assert (Nl : l <> lo) by congruence. destruct HS as [A B C E F G H].
      set (f := wake (c_task s) (told a) (c_waiters s l)) in *.
      assert (W : forall u, f u = c_task s u \/ exists k2, c_task s u = TBlocked k2 l /\ f u = TDone k2 (told a)).
      { intros u. unfold f. rewrite wake_at. destruct (c_task s u) eqn:Eu; auto. destruct (in_dec _ _ _) as [Hin|_]; [right|left; reflexivity].
        destruct (G _ _ Hin) as (k2 & [E2|E2]); [|congruence]. exists k2. split; congruence. }
      constructor; cbn [c_task c_entries c_loaders c_next c_object c_waiters]; auto.
      + intros t'. case_task t' t; [exact Ho|]. destruct (W t') as [->|(k2 & _ & ->)]; [apply E|discriminate].
      + intros t' Hk. case_task t' t; [exact (Hh Hk)|]. destruct (W t') as [W1|(k2 & W1 & W2)]; [rewrite W1 in *; auto|]. rewrite W2 in Hk. cbn in Hk. subst k2.
        exfalso. apply Nl. pose proof (F t') as F1. rewrite W1 in F1. exact (F1 eq_refl).
      + intros t' l' Hin. destruct (Nat.eq_dec l' l) as [->|Nl']; [rewrite nset_same in Hin; destruct Hin|]. rewrite nset_other in Hin by exact Nl'.
        destruct (G t' l' Hin) as (k2 & Hk2). exists k2. assert (Nt : t' <> t) by (intros ->; destruct Hk2; congruence). rewrite nset_other by exact Nt.
        destruct (W t') as [->|(k3 & W1 & _)]; [exact Hk2|]. destruct Hk2; congruence.
    - subst s'. assert (Nl : l <> lo) by congruence. destruct HS as [A B C E F G H]. constructor; cbn [c_task c_entries c_loaders c_next c_object c_waiters]; auto.
      + rewrite (kset_other keqb Heq); [exact A|]. intros ->. exact (Hh eq_refl).
      + intros t'. case_task t' t; [discriminate|apply E].
      + intros t' Hk. case_task t' t; [destruct (Hh Hk)|auto].
      + intros t' l' Hin. destruct (G t' l' Hin) as (k2 & Hk2). exists k2. rewrite nset_other; [exact Hk2|]. intros ->. destruct Hk2; congruence.
    - destruct (c_object s l) as [a|] eqn:Eo; subst s'.
      + apply stuck_move'; auto; rewrite ?Et; try discriminate; try reflexivity. cbn [task_key hanging]. intros ->. pose proof (st_object _ HS). rewrite (Hh eq_refl) in Eo. congruence.
      + destruct HS as [A B C E F G H]. constructor; cbn [c_task c_entries c_loaders c_next c_object c_waiters]; auto.
        * intros t'. case_task t' t; [discriminate|apply E].
        * intros t' Hk. case_task t' t; [exact (Hh Hk)|auto].
        * intros t' l' Hin. destruct (Nat.eq_dec t' t) as [->|Nt].
          -- rewrite nset_same. exists k'. left. destruct (Nat.eq_dec l' l) as [->|Nl]; [reflexivity|]. rewrite nset_other in Hin by exact Nl. destruct (G t l' Hin) as (k2 & [C1|C1]); congruence.
          -- rewrite nset_other by exact Nt. destruct (Nat.eq_dec l' l) as [->|Nl]; [|rewrite nset_other in Hin by exact Nl; exact (G _ _ Hin)].
             rewrite nset_same in Hin. apply in_app_or in Hin. destruct Hin as [Hin|[Hin|[]]]; [exact (G _ _ Hin)|congruence].
  Qed.
  Lemma stuck_exec schedule : forall s s', stuck s -> exec keqb size s schedule = Ok s' -> stuck s'.
  Proof using Heq.
    induction schedule as [|[t r] rest IH]; intros s s' HS E; cbn [exec] in E; [injection E as <-; exact HS|].
    destruct (step keqb size s t r) as [x|] eqn:Es; [|eauto]. apply bind_inv in E. destruct E as (s1 & -> & E). exact (IH _ _ (stuck_step _ _ _ _ HS Es) E).
  Qed.

  (** A task that is loading, while all others await, is dropped. *)
  Lemma drop_stuck n kt other P F limit kof s l t : coop keqb size n kt other P F limit kof s l -> c_task s t = TLoading k lo ->
    (forall u, D u <-> exists r, c_task s u = TDone k r) -> stuck (drop_task s t).
  Proof using Heq.
    intros HC Et HD. pose proof (co_inv _ _ _ _ _ _ _ _ _ _ _ HC) as HI.
    assert (Eo : owner (c_task s t) = Some lo) by (rewrite Et; reflexivity). pose proof (i_own _ _ _ _ _ _ _ _ HI _ _ Eo) as El. rewrite Et in El. cbn [task_key] in El.
    destruct (i_lt _ _ _ _ _ _ _ _ HI _ _ El) as [Hlt Hkl].
    unfold drop_task. rewrite Et. constructor; cbn [with_task c_task c_entries c_loaders c_next c_object c_waiters]; auto.
    - apply (i_none _ _ _ _ _ _ _ _ HI t). rewrite Et. reflexivity.
    - intros u. case_task u t; [discriminate|]. intros C. apply n0. exact (i_one _ _ _ _ _ _ _ _ HI _ _ _ C Eo).
    - intros u Hk. case_task u t; [exact I|]. assert (HO : owner (c_task s u) <> Some lo) by (intros C; apply n0; exact (i_one _ _ _ _ _ _ _ _ HI _ _ _ C Eo)).
      assert (HO2 : forall l', owner (c_task s u) <> Some l') by (intros l' C; pose proof (i_own _ _ _ _ _ _ _ _ HI _ _ C) as D1; rewrite Hk, El in D1; congruence).
      pose proof (co_await _ _ _ _ _ _ _ _ _ _ _ HC u) as HA.
      destruct (c_task s u) as [k'|k'|k' l'|k' l' v|k' l' a|k' l' a|k' l' a|k' l'|k' l'|k' a|k'] eqn:Eu; cbn [hanging task_key] in *; auto; try (exfalso; exact (HO2 _ eq_refl)).
      + destruct HA as [HA|[x HA]]; discriminate.
      + subst k'. destruct (i_blocked _ _ _ _ _ _ _ _ HI _ _ _ Eu) as (_ & _ & t2 & H3). pose proof (telling_owner _ _ H3) as H4. pose proof (i_own _ _ _ _ _ _ _ _ HI _ _ H4) as H5.
        destruct (i_lt _ _ _ _ _ _ _ _ HI _ _ H5) as [_ H6]. destruct (i_blocked _ _ _ _ _ _ _ _ HI _ _ _ Eu) as (H7 & _). rewrite <- H6, H7, El in H5. congruence.
      + apply HD. subst k'. eauto.
    - intros u l' Hin. destruct (i_waiters _ _ _ _ _ _ _ _ HI _ _ Hin) as [k' Hk']. exists k'. left. rewrite nset_other; [exact Hk'|]. intros ->. congruence.
    - intros k' e Ee. destruct (i_entries _ _ _ _ _ _ _ _ HI k' e Ee) as [H1 _]. split; [exact H1|]. intros ->.
      assert (Nk : ~ In k (keys l)) by (intros C; apply (co_apart _ _ _ _ _ _ _ _ _ _ _ HC) in C; congruence).
      rewrite (rp_only _ _ _ _ (hl_rep _ _ _ _ _ (co_list _ _ _ _ _ _ _ _ _ _ _ HC)) k Nk) in Ee. discriminate.
  Qed.

  (** A task that waits is dropped: the task it waits for panics. *)
  Lemma drop_panics n kt other P F limit kof s l t u r : coop keqb size n kt other P F limit kof s l -> c_task s t = TLoading k lo -> c_task s u = TBlocked k lo ->
    answers r -> turn keqb size (drop_task s u) t r = Panic.
  Proof using Heq.
    intros HC Et Eu Hr. pose proof (co_inv _ _ _ _ _ _ _ _ _ _ _ HC) as HI. assert (Nu : u <> t) by (intros ->; congruence).
    destruct (i_blocked _ _ _ _ _ _ _ _ HI _ _ _ Eu) as (_ & Hin & _).
    unfold drop_task. rewrite Eu. set (s0 := with_task s u (TGone k)). assert (T0 : c_task s0 t = TLoading k lo) by (cbn [s0 with_task c_task]; rewrite nset_other by congruence; exact Et).
    assert (El : c_loaders s k = Some lo) by (pose proof (i_own _ _ _ _ _ _ _ _ HI t lo) as D1; rewrite Et in D1; exact (D1 eq_refl)).
    assert (Nk : ~ In k (keys l)) by (intros C; apply (co_apart _ _ _ _ _ _ _ _ _ _ _ HC) in C; congruence).
    assert (Fin : forall s1 m a, c_task s1 t = TFinish k lo a -> c_task s1 u = TGone k -> In u (c_waiters s1 lo) -> run_on keqb size (S (S m)) s1 t r = Panic).
    { intros s1 m a T1 U1 I1. cbn [run_on]. rewrite T1. cbn [awaits]. unfold step at 1. rewrite T1. cbn [bind c_task]. rewrite nset_same. cbn [awaits].
      unfold step. cbn [c_task c_waiters]. rewrite nset_same.
      replace (existsb _ _) with true; [reflexivity|]. symmetry. apply existsb_exists. exists u. split; [exact I1|]. rewrite nset_other by exact Nu. rewrite U1. reflexivity. }
    unfold turn, step. rewrite T0. destruct r as [v|e| |]; try destruct Hr; cbn [bind].
    - destruct (insert_rep keqb size Heq limit (c_entries s) l k v (co_list _ _ _ _ _ _ _ _ _ _ _ HC) Nk) as (e & Ei & _).
      set (s1 := with_task s0 t (TInsert k lo v)). assert (T1 : c_task s1 t = TInsert k lo v) by (cbn [s1 with_task c_task]; apply nset_same).
      set (s2 := with_task (with_entries s1 e) t (TFinish k lo (Ok v))).
      rewrite (run_step keqb size _ s1 t (Ok v) s2).
      + apply (Fin s2 _ (Ok v)).
        * cbn [s2 with_task c_task]. apply nset_same.
        * cbn [s2 s1 s0 with_task with_entries c_task]. rewrite !nset_other by exact Nu. apply nset_same.
        * exact Hin.
      + rewrite T1. reflexivity.
      + unfold step. rewrite T1. change (c_entries s1) with (c_entries s). rewrite Ei. reflexivity.
    - apply (Fin (with_task s0 t (TFinish k lo (Err e))) _ (Err e)).
      + cbn [with_task c_task]. apply nset_same.
      + cbn [s0 with_task c_task]. rewrite nset_other by exact Nu. apply nset_same.
      + exact Hin.
  Qed.
End Drop.
