(** * Concurrent gets, some of which are given up: what every interleaving keeps true *)
From Verif Require Import Base BaseFacts CacheModel CacheSpec CacheProofs CacheConc.

Section Cancel.
  Context {K V : Type}.
  Variables (keqb : K -> K -> bool) (size : V -> nat).
  Hypothesis Heq : forall a b, keqb a b = true <-> a = b.
  Notation task := (task K V).
  Notation state := (state K V).
  Notation kset := (kset keqb).
  Variables (n : nat) (kt : nat -> K) (other : K).
  Variables (P : K -> V -> Prop) (F : K -> Prop).
  Notation good := (good P F).
  Notation kset_same := (kset_same keqb Heq).
  Notation kset_other := (kset_other keqb Heq).
  Notation stored := (stored keqb).

  (** A get of [k] was given up. *)
  Definition lost (f : nat -> task) (k : K) : Prop := exists t, f t = TGone k.
  Lemma lost_keep (f g : nat -> task) t x k : (forall k, f t <> TGone k) -> (forall u k, f u = TGone k -> g u = TGone k) -> lost f k -> lost (nset g t x) k.
  Proof. intros H1 H2 (u & E). exists u. rewrite nset_other; [apply H2; exact E|]. intros ->. exact (H1 _ E). Qed.
  Lemma lost_set (f : nat -> task) t x k : (forall k, f t <> TGone k) -> lost f k -> lost (nset f t x) k.
  Proof. intros H. apply lost_keep; auto. Qed.

  (** As [inv] of CacheConc.v, but the loaders of keys of which a get was given up may have
      nobody who works for them. *)
  Record inv (kof : nat -> K) (s : state) : Prop :=
    { i_key : forall t, t < n -> task_key (c_task s t) = kt t;
      i_out : forall t, n <= t -> c_task s t = TDone other (Err ELoad);
      i_own : forall t l, owner (c_task s t) = Some l -> c_loaders s (task_key (c_task s t)) = Some l;
      i_one : forall t t' l, owner (c_task s t) = Some l -> owner (c_task s t') = Some l -> t = t';
      i_has : forall k l, c_loaders s k = Some l -> (exists t, owner (c_task s t) = Some l) \/ lost (c_task s) k;
      i_lt : forall k l, c_loaders s k = Some l -> l < c_next s /\ kof l = k;
      i_wait : forall t k l, c_task s t = TWait k l ->
                 l < c_next s /\ kof l = k /\ (c_object s l <> None \/ (exists t', working (c_task s t') = Some l) \/ lost (c_task s) k);
      i_blocked : forall t k l, c_task s t = TBlocked k l ->
                 l < c_next s /\ kof l = k /\ In t (c_waiters s l) /\ ((exists t', telling (c_task s t') = Some l) \/ lost (c_task s) k);
      i_waiters : forall t l, In t (c_waiters s l) -> (exists k, c_task s t = TBlocked k l) \/ exists k, c_task s t = TGone k;
      i_none : forall t l, working (c_task s t) = Some l -> c_object s l = None;
      i_set : forall t l, owner (c_task s t) = Some l -> working (c_task s t) = None -> c_object s l <> None;
      i_object : forall l r, l < c_next s -> c_object s l = Some r -> good (kof l) r;
      i_result : forall t r, t < n -> result (c_task s t) = Some r -> good (task_key (c_task s t)) r;
      i_entries : stored P (c_entries s) }.

  Lemma in_tasks kof s t : inv kof s -> (forall r, c_task s t <> TDone other r) -> t < n.
  Proof. intros HI H. destruct (Nat.lt_ge_cases t n) as [L|L]; [exact L|]. exfalso. exact (H _ (i_out _ _ HI t L)). Qed.

  Ltac case_task t' t := destruct (Nat.eq_dec t' t) as [->|?]; [rewrite ?nset_same in *|rewrite ?nset_other in * by assumption].
  Ltac keep X := (eapply lost_keep; [| |exact X]; [intros ? ?; congruence|auto]).

  (** A task moves on by itself, without touching loaders. *)
  Lemma move kof s t x e :
    inv kof s -> t < n -> stored P e ->
    task_key x = task_key (c_task s t) -> (forall k, x <> TGone k) -> (forall k, c_task s t <> TGone k) ->
    owner x = owner (c_task s t) -> telling x = telling (c_task s t) -> working x = working (c_task s t) ->
    (forall k l, x = TWait k l -> l < c_next s /\ kof l = k /\ (c_object s l <> None \/ (exists t', working (c_task s t') = Some l) \/ lost (c_task s) k)) ->
    (forall k l, x <> TBlocked k l) -> (forall k l, c_task s t <> TBlocked k l) ->
    (forall r, result x = Some r -> good (task_key x) r) ->
    inv kof (with_task (with_entries s e) t x).
  Proof.
    intros [A B D E F0 G H I J L Q M N O] Ht He Hk Hg Hg' Ho Htl Hw Nw Nb Nt Hr.
    pose proof (fun k => lost_set (c_task s) t x k Hg') as LS.
    constructor; cbn [with_task with_entries c_task c_entries c_loaders c_next c_object c_waiters]; auto.
    - intros t' L'. case_task t' t; [rewrite Hk|]; auto.
    - intros t' L'. rewrite nset_other by lia. auto.
    - intros t' l. case_task t' t; [rewrite Ho, Hk|]; auto.
    - intros t1 t2 l. intros E1 E2. apply (E t1 t2 l); [revert E1; clear E2|revert E2; clear E1].
      + case_task t1 t; [rewrite Ho|]; auto.
      + case_task t2 t; [rewrite Ho|]; auto.
    - intros k l E'. destruct (F0 k l E') as [[t' Et']|X]; [left|right; apply LS, X]. exists t'. case_task t' t; [rewrite Ho|]; auto.
    - intros t' k l E'. assert (HW : l < c_next s /\ kof l = k /\ (c_object s l <> None \/ (exists t', working (c_task s t') = Some l) \/ lost (c_task s) k)) by (case_task t' t; [exact (Nw _ _ E')|exact (H _ _ _ E')]).
      clear E'. destruct HW as (H1 & H2 & [H3|[[t2 H3]|X]]); [tauto| |repeat split; auto]. repeat split; auto. right. left. exists t2. case_task t2 t; [rewrite Hw|]; auto.
    - intros t' k l E'. case_task t' t; [exfalso; exact (Nb _ _ E')|]. destruct (I _ _ _ E') as (H0 & H1 & H2 & [[t2 H3]|X]); [|repeat split; auto].
      repeat split; auto. left. exists t2. case_task t2 t; [rewrite Htl|]; auto.
    - intros t' l Hin. destruct (J t' l Hin) as [[k E']|[k E']]; [left|right]; exists k; (rewrite nset_other; [exact E'|]); intros ->; [exact (Nt _ _ E')|exact (Hg' _ E')].
    - intros t' l. case_task t' t; [rewrite Hw|]; apply L.
    - intros t' l. case_task t' t; [rewrite Ho, Hw|]; apply Q.
    - intros t' r L' E'. revert E'. case_task t' t; auto.
  Qed.

  Lemma same_entries (s : state) : with_entries s (c_entries s) = s.
  Proof. destruct s. reflexivity. Qed.
  Lemma move' kof s t x :
    inv kof s -> t < n ->
    task_key x = task_key (c_task s t) -> (forall k, x <> TGone k) -> (forall k, c_task s t <> TGone k) ->
    owner x = owner (c_task s t) -> telling x = telling (c_task s t) -> working x = working (c_task s t) ->
    (forall k l, x = TWait k l -> l < c_next s /\ kof l = k /\ (c_object s l <> None \/ (exists t', working (c_task s t') = Some l) \/ lost (c_task s) k)) ->
    (forall k l, x <> TBlocked k l) -> (forall k l, c_task s t <> TBlocked k l) ->
    (forall r, result x = Some r -> good (task_key x) r) ->
    inv kof (with_task s t x).
  Proof. intros HI H1 H2 H3 H4 H5 H6 H7 H8 H9 H10 H11. replace (with_task s t x) with (with_task (with_entries s (c_entries s)) t x) by (rewrite same_entries; reflexivity).
    apply move; auto. apply (i_entries _ _ HI). Qed.

  Lemma step_inv kof s t r s' : inv kof s -> (forall k l, c_task s t = TLoading k l -> good k r) -> step keqb size s t r = Some (Ok s') ->
    exists kof', inv kof' s'.
  Proof using Heq.
    intros HI Hload E. unfold step in E. destruct (c_task s t) as [k|k|k l|k l v|k l a|k l a|k l a|k l|k l|k a|k] eqn:Et; try discriminate;
      (assert (Ht : t < n) by (apply (in_tasks kof s t HI); rewrite Et; discriminate)); injection E as E.
    - (* lookup *) apply bind_inv in E. destruct E as ([e o] & E1 & E). destruct (stored_lookup keqb Heq _ _ _ _ _ (i_entries _ _ HI) E1) as [H1 H2]. injection E as <-.
      exists kof. apply move; rewrite ?Et; try reflexivity; auto; destruct o; try discriminate; try reflexivity.
      cbn [result]. intros r0 E0. injection E0 as <-. exact H2.
    - (* register *) destruct (c_loaders s k) as [l|] eqn:El; subst s'.
      + exists kof. apply move'; rewrite ?Et; try reflexivity; auto; try discriminate. intros k' l' E'. injection E' as <- <-.
        destruct (i_lt _ _ HI _ _ El) as [H1 H2]. repeat split; auto. destruct (i_has _ _ HI _ _ El) as [[t' E']|X]; [|right; right; exact X].
        destruct (working (c_task s t')) as [l'|] eqn:Ew.
        * right. left. exists t'. rewrite Ew. pose proof (telling_owner _ _ (working_telling _ _ Ew)). congruence.
        * left. exact (i_set _ _ HI _ _ E' Ew).
      + set (l := c_next s) in *. pose proof HI as HI0. destruct HI as [A B D E F0 G H I J L Q M N O].
        assert (Fresh : forall t', owner (c_task s t') <> Some l) by (intros t' E'; destruct (G _ _ (D _ _ E')) as [C1 _]; unfold l in C1; lia).
        assert (NotOld : forall k l', c_loaders s k = Some l' -> l' <> l) by (intros k' l' E'; destruct (G _ _ E') as [C1 _]; unfold l; lia).
        exists (nset kof l k). constructor; cbn [c_task c_entries c_loaders c_next c_object c_waiters]; auto.
        * intros t' L'. case_task t' t; [rewrite <- (A t Ht), Et; reflexivity|auto].
        * intros t' L'. rewrite nset_other by lia. auto.
        * intros t' l' E'. case_task t' t.
          -- cbn in E'. injection E' as <-. cbn [task_key]. apply kset_same.
          -- pose proof (D _ _ E') as E2. rewrite kset_other; [exact E2|]. intros C'. rewrite C' in E2. congruence.
        * intros t1 t2 l' E1 E2. case_task t1 t; case_task t2 t; try reflexivity.
          -- cbn in E1. injection E1 as <-. exfalso. exact (Fresh _ E2).
          -- cbn in E2. injection E2 as <-. exfalso. exact (Fresh _ E1).
          -- exact (E _ _ _ E1 E2).
        * intros k' l' E'. destruct (key_dec keqb Heq k' k) as [->|Nk].
          -- rewrite kset_same in E'. injection E' as <-. left. exists t. rewrite nset_same. reflexivity.
          -- rewrite kset_other in E' by exact Nk. destruct (F0 _ _ E') as [[t' E2]|X]; [left|right; keep X]. exists t'. rewrite nset_other; [exact E2|]. intros ->. rewrite Et in E2. discriminate.
        * intros k' l' E'. destruct (key_dec keqb Heq k' k) as [->|Nk].
          -- rewrite kset_same in E'. injection E' as <-. rewrite nset_same. split; [unfold l; lia|reflexivity].
          -- rewrite kset_other in E' by exact Nk. pose proof (NotOld _ _ E'). rewrite nset_other by assumption. destruct (G _ _ E') as [G1 G2]. split; [lia|exact G2].
        * intros t' k' l' E'. case_task t' t; [discriminate|]. destruct (H _ _ _ E') as (H1 & H2 & H3). assert (l' <> l) by (unfold l; lia). rewrite !nset_other by assumption.
          split; [lia|]. split; [exact H2|]. destruct H3 as [H3|[[t2 H3]|X]]; [left; exact H3|right; left|right; right; keep X]. exists t2. rewrite nset_other; [exact H3|]. intros ->. rewrite Et in H3. discriminate.
        * intros t' k' l' E'. case_task t' t; [discriminate|]. destruct (I _ _ _ E') as (H0 & H1 & H2 & H3). assert (l' <> l) by (unfold l; lia).
          rewrite !nset_other by assumption. repeat split; auto. destruct H3 as [[t2 H3]|X]; [left|right; keep X]. exists t2. rewrite nset_other; [exact H3|]. intros ->. rewrite Et in H3. discriminate.
        * intros t' l' Hin. destruct (Nat.eq_dec l' l) as [->|Nl]; [rewrite nset_same in Hin; destruct Hin|]. rewrite nset_other in Hin by exact Nl. destruct (J _ _ Hin) as [[k' E']|[k' E']]; [left|right];
          exists k'; (rewrite nset_other; [exact E'|]); intros ->; congruence.
        * intros t' l' E'. destruct (Nat.eq_dec l' l) as [->|Nl]; [apply nset_same|]. rewrite nset_other by exact Nl. case_task t' t; [cbn in E'; congruence|exact (L _ _ E')].
        * intros t' l' E1 E2. case_task t' t; [discriminate|]. destruct (Nat.eq_dec l' l) as [->|Nl]; [exfalso; exact (Fresh _ E1)|]. rewrite nset_other by exact Nl. exact (Q _ _ E1 E2).
        * intros l' r' L' E'. destruct (Nat.eq_dec l' l) as [->|Nl]; [rewrite nset_same in E'; discriminate|]. rewrite nset_other by exact Nl. rewrite nset_other in E' by exact Nl. apply M; [unfold l in *; lia|exact E'].
        * intros t' r' L' E'. case_task t' t; [discriminate|auto].
    - (* load *) specialize (Hload k l eq_refl). destruct r as [v|e| |]; try discriminate; injection E as <-; exists kof; (apply move'; rewrite ?Et; try reflexivity; auto; try discriminate);
      cbn [result]; intros r0 E0; injection E0 as <-; exact Hload.
    - (* insert *) apply bind_inv in E. destruct E as (e & E1 & E). injection E as <-. assert (Hv : P k v) by (pose proof (i_result _ _ HI t (Ok v) Ht) as R; rewrite Et in R; exact (R eq_refl)).
      exists kof. apply move; rewrite ?Et; try reflexivity; auto; try discriminate.
      + exact (stored_insert keqb size Heq _ _ _ _ _ (i_entries _ _ HI) Hv E1).
      + cbn [result]. intros r0 E0; injection E0 as <-; exact Hv.
    - (* finish *) subst s'. assert (Ha : good k a) by (pose proof (i_result _ _ HI t a Ht) as R; rewrite Et in R; exact (R eq_refl)).
      pose proof HI as HI0. destruct HI as [A B D E F0 G H I J L Q M N O]. assert (Eo : owner (c_task s t) = Some l) by (rewrite Et; reflexivity).
      assert (El : c_loaders s k = Some l) by (pose proof (D _ _ Eo) as D1; rewrite Et in D1; exact D1). destruct (G _ _ El) as [Hl Hkl].
      exists kof. constructor; cbn [c_task c_entries c_loaders c_next c_object c_waiters]; auto.
      + intros t' L'. case_task t' t; [rewrite <- (A t Ht), Et; reflexivity|auto].
      + intros t' L'. rewrite nset_other by lia. auto.
      + intros t' l' E'. case_task t' t; [cbn in *; congruence|exact (D _ _ E')].
      + intros t1 t2 l' E1 E2. apply (E t1 t2 l').
        * case_task t1 t; [rewrite Et|]; assumption.
        * case_task t2 t; [rewrite Et|]; assumption.
      + intros k' l' E'. destruct (F0 _ _ E') as [[t' E2]|X]; [left|right; keep X]. exists t'. case_task t' t; [rewrite Et in E2; exact E2|exact E2].
      + intros t' k' l' E'. case_task t' t; [discriminate|]. destruct (H _ _ _ E') as (H1 & H2 & H3). repeat split; auto.
        destruct (Nat.eq_dec l' l) as [->|Nl]; [left; rewrite nset_same; discriminate|]. rewrite nset_other by exact Nl. destruct H3 as [H3|[[t2 H3]|X]]; [left; exact H3|right; left|right; right; keep X].
        exists t2. rewrite nset_other; [exact H3|]. intros ->. rewrite Et in H3. cbn in H3. congruence.
      + intros t' k' l' E'. case_task t' t; [discriminate|]. destruct (I _ _ _ E') as (H0 & H1 & H2 & H3). repeat split; auto. destruct H3 as [[t2 H3]|X]; [left|right; keep X]. exists t2. case_task t2 t; [rewrite Et in H3; exact H3|exact H3].
      + intros t' l' Hin. destruct (J _ _ Hin) as [[k' E']|[k' E']]; [left|right]; exists k'; (rewrite nset_other; [exact E'|]); intros ->; congruence.
      + intros t' l' E'. case_task t' t; [discriminate|]. assert (l' <> l) by (intros ->; apply n0; exact (E _ _ _ (telling_owner _ _ (working_telling _ _ E')) Eo)).
        rewrite nset_other by assumption. exact (L _ _ E').
      + intros t' l' E1 E2. destruct (Nat.eq_dec l' l) as [->|Nl]; [rewrite nset_same; discriminate|]. rewrite nset_other by exact Nl. case_task t' t; [cbn in E1; congruence|exact (Q _ _ E1 E2)].
      + intros l' r' L' E'. destruct (Nat.eq_dec l' l) as [->|Nl].
        * rewrite nset_same in E'. injection E' as <-. rewrite Hkl. apply good_told. exact Ha.
        * rewrite nset_other in E' by exact Nl. exact (M _ _ L' E').
      + intros t' r' L' E'. case_task t' t; [cbn in E'; injection E' as <-; exact Ha|auto].
    - (* notify *) destruct (existsb _ _) eqn:Eg; [discriminate|]. clear Eg. injection E as <-. assert (Ha : good k a) by (pose proof (i_result _ _ HI t a Ht) as R; rewrite Et in R; exact (R eq_refl)).
      pose proof HI as HI0. destruct HI as [A B D E F0 G H I J L Q M N O]. assert (Eo : owner (c_task s t) = Some l) by (rewrite Et; reflexivity).
      assert (El : c_loaders s k = Some l) by (pose proof (D _ _ Eo) as D1; rewrite Et in D1; exact D1). destruct (G _ _ El) as [Hl Hkl].
      set (f := wake (c_task s) (told a) (c_waiters s l)) in *.
      assert (W : forall t', f t' = c_task s t' \/ exists k', c_task s t' = TBlocked k' l /\ f t' = TDone k' (told a)).
      { intros t'. unfold f. rewrite wake_at. destruct (c_task s t') eqn:E'; auto. destruct (in_dec _ _ _) as [Hin|_]; [right|left; reflexivity].
        destruct (J _ _ Hin) as [[k' E2]|[k' E2]]; [exists k'; split; congruence|congruence]. }
      assert (WG : forall u k', c_task s u = TGone k' -> f u = TGone k') by (intros u k' Eu; unfold f; rewrite wake_at, Eu; reflexivity).
      assert (WB : forall t' k' l', f t' = TBlocked k' l' -> c_task s t' = TBlocked k' l' /\ l' <> l).
      { intros t' k' l' E'. destruct (W t') as [W1|(k2 & W1 & W2)]; [|congruence]. rewrite W1 in E'. split; [exact E'|]. intros ->. destruct (I _ _ _ E') as (_ & _ & Hin & _).
        unfold f in W1. rewrite wake_at, E' in W1. destruct (in_dec _ _ _); [discriminate|contradiction]. }
      assert (WO : forall t', owner (f t') = owner (c_task s t')) by (intros t'; destruct (W t') as [->|(k2 & -> & ->)]; reflexivity).
      assert (WT : forall t', telling (f t') = telling (c_task s t')) by (intros t'; destruct (W t') as [->|(k2 & -> & ->)]; reflexivity).
      assert (WW : forall t', working (f t') = working (c_task s t')) by (intros t'; destruct (W t') as [->|(k2 & -> & ->)]; reflexivity).
      assert (WK : forall t', task_key (f t') = task_key (c_task s t')) by (intros t'; destruct (W t') as [->|(k2 & -> & ->)]; reflexivity).
      exists kof. constructor; cbn [c_task c_entries c_loaders c_next c_object c_waiters]; auto.
      + intros t' L'. case_task t' t; [rewrite <- (A t Ht), Et; reflexivity|rewrite WK; auto].
      + intros t' L'. rewrite nset_other by lia. destruct (W t') as [->|(k2 & W1 & _)]; auto. rewrite (B _ L') in W1. discriminate.
      + intros t' l' E'. case_task t' t; [cbn in *; congruence|]. rewrite WO in E'. rewrite WK. exact (D _ _ E').
      + intros t1 t2 l' E1 E2. apply (E t1 t2 l').
        * case_task t1 t; [rewrite Et; assumption|rewrite WO in E1; exact E1].
        * case_task t2 t; [rewrite Et; assumption|rewrite WO in E2; exact E2].
      + intros k' l' E'. destruct (F0 _ _ E') as [[t' E2]|X]; [left|right; keep X]. exists t'. case_task t' t; [rewrite Et in E2; exact E2|rewrite WO; exact E2].
      + intros t' k' l' E'. case_task t' t; [discriminate|]. assert (E2 : c_task s t' = TWait k' l') by (destruct (W t') as [<-|(k2 & _ & W2)]; [exact E'|congruence]).
        destruct (H _ _ _ E2) as (H1 & H2 & H3). repeat split; auto. destruct H3 as [H3|[[t2 H3]|X]]; [left; exact H3|right; left|right; right; keep X].
        exists t2. case_task t2 t; [rewrite Et in H3; discriminate|rewrite WW; exact H3].
      + intros t' k' l' E'. case_task t' t; [discriminate|]. destruct (WB _ _ _ E') as [E2 Nl]. destruct (I _ _ _ E2) as (H0 & H1 & H2 & H3). rewrite nset_other by exact Nl. repeat split; auto.
        destruct H3 as [[t2 H3]|X]; [left|right; keep X]. exists t2. case_task t2 t; [rewrite Et in H3; cbn in H3; congruence|rewrite WT; exact H3].
      + intros t' l' Hin. destruct (Nat.eq_dec l' l) as [->|Nl]; [rewrite nset_same in Hin; destruct Hin|]. rewrite nset_other in Hin by exact Nl. destruct (J _ _ Hin) as [[k' E']|[k' E']]; [left|right]; exists k';
        (assert (Nt : t' <> t) by (intros ->; congruence)); rewrite nset_other by exact Nt; (destruct (W t') as [->|(k2 & W1 & _)]; [exact E'|congruence]).
      + intros t' l' E'. case_task t' t; [discriminate|]. rewrite WW in E'. exact (L _ _ E').
      + intros t' l' E1 E2. case_task t' t.
        * cbn in E1. injection E1 as <-. apply (Q t l Eo). rewrite Et. reflexivity.
        * rewrite WO in E1. rewrite WW in E2. exact (Q _ _ E1 E2).
      + intros t' r' L' E'. case_task t' t; [cbn in E'; injection E' as <-; exact Ha|]. rewrite WK. destruct (W t') as [W1|(k2 & W1 & W2)].
        * rewrite W1 in E'. auto.
        * rewrite W2 in E'. cbn in E'. injection E' as <-. rewrite W1. cbn [task_key]. destruct (I _ _ _ W1) as (_ & <- & _). rewrite Hkl. apply good_told. exact Ha.
    - (* remove *) subst s'. assert (Ha : good k a) by (pose proof (i_result _ _ HI t a Ht) as R; rewrite Et in R; exact (R eq_refl)).
      pose proof HI as HI0. destruct HI as [A B D E F0 G H I J L Q M N O]. assert (Eo : owner (c_task s t) = Some l) by (rewrite Et; reflexivity).
      assert (El : c_loaders s k = Some l) by (pose proof (D _ _ Eo) as D1; rewrite Et in D1; exact D1).
      exists kof. constructor; cbn [c_task c_entries c_loaders c_next c_object c_waiters]; auto.
      + intros t' L'. case_task t' t; [rewrite <- (A t Ht), Et; reflexivity|auto].
      + intros t' L'. rewrite nset_other by lia. auto.
      + intros t' l' E'. case_task t' t; [discriminate|]. pose proof (D _ _ E') as E2. rewrite kset_other; [exact E2|]. intros C'. rewrite C' in E2.
        apply n0. apply (E t' t l); congruence.
      + intros t1 t2 l' E1 E2. case_task t1 t; [discriminate|]. case_task t2 t; [discriminate|]. exact (E _ _ _ E1 E2).
      + intros k' l' E'. destruct (key_dec keqb Heq k' k) as [->|Nk]; [rewrite kset_same in E'; discriminate|]. rewrite kset_other in E' by exact Nk.
        destruct (F0 _ _ E') as [[t' E2]|X]; [left|right; keep X]. exists t'. rewrite nset_other; [exact E2|]. intros ->. apply Nk. destruct (G _ _ E') as [_ <-]. destruct (G _ _ El) as [_ <-]. congruence.
      + intros k' l' E'. destruct (key_dec keqb Heq k' k) as [->|Nk]; [rewrite kset_same in E'; discriminate|]. rewrite kset_other in E' by exact Nk. exact (G _ _ E').
      + intros t' k' l' E'. case_task t' t; [discriminate|]. destruct (H _ _ _ E') as (H1 & H2 & H3). repeat split; auto. destruct H3 as [H3|[[t2 H3]|X]]; [left; exact H3|right; left|right; right; keep X].
        exists t2. rewrite nset_other; [exact H3|]. intros ->. rewrite Et in H3. discriminate.
      + intros t' k' l' E'. case_task t' t; [discriminate|]. destruct (I _ _ _ E') as (H0 & H1 & H2 & H3). repeat split; auto. destruct H3 as [[t2 H3]|X]; [left|right; keep X]. exists t2. rewrite nset_other; [exact H3|]. intros ->. rewrite Et in H3. discriminate.
      + intros t' l' Hin. destruct (J _ _ Hin) as [[k' E']|[k' E']]; [left|right]; exists k'; (rewrite nset_other; [exact E'|]); intros ->; congruence.
      + intros t' l' E'. case_task t' t; [discriminate|exact (L _ _ E')].
      + intros t' l' E1 E2. case_task t' t; [discriminate|exact (Q _ _ E1 E2)].
      + intros t' r' L' E'. case_task t' t; [cbn in E'; injection E' as <-; exact Ha|auto].
    - (* wait *) destruct (i_wait _ _ HI _ _ _ Et) as (Hl & Hk & Hw). destruct (c_object s l) as [a|] eqn:Eobj; subst s'.
      + exists kof. apply move'; rewrite ?Et; try reflexivity; auto; try discriminate. cbn [result]. intros r0 E0. injection E0 as <-. cbn [task_key]. rewrite <- Hk. exact (i_object _ _ HI _ _ Hl Eobj).
      + destruct Hw as [Hw|Hw]; [congruence|]. pose proof HI as HI0. destruct HI as [A B D E F0 G H I J L Q M N O].
        exists kof. constructor; cbn [c_task c_entries c_loaders c_next c_object c_waiters]; auto.
        * intros t' L'. case_task t' t; [rewrite <- (A t Ht), Et; reflexivity|auto].
        * intros t' L'. rewrite nset_other by lia. auto.
        * intros t' l' E'. case_task t' t; [discriminate|exact (D _ _ E')].
        * intros t1 t2 l' E1 E2. case_task t1 t; [discriminate|]. case_task t2 t; [discriminate|]. exact (E _ _ _ E1 E2).
        * intros k' l' E'. destruct (F0 _ _ E') as [[t' E2]|X]; [left|right; keep X]. exists t'. rewrite nset_other; [exact E2|]. intros ->. rewrite Et in E2. discriminate.
        * intros t' k' l' E'. case_task t' t; [discriminate|]. destruct (H _ _ _ E') as (H1 & H2 & H3). repeat split; auto. destruct H3 as [H3|[[t2 H3]|X]]; [left; exact H3|right; left|right; right; keep X].
          exists t2. rewrite nset_other; [exact H3|]. intros ->. rewrite Et in H3. discriminate.
        * intros t' k' l' E'. case_task t' t.
          -- injection E' as <- <-. rewrite nset_same. split; [exact Hl|]. split; [exact Hk|]. split; [apply in_or_app; right; left; reflexivity|]. destruct Hw as [[tw Hw]|X]; [left|right; keep X].
             exists tw. rewrite nset_other; [exact (working_telling _ _ Hw)|]. intros ->. rewrite Et in Hw. discriminate.
          -- destruct (I _ _ _ E') as (H0 & H1 & H2 & H3). split; [exact H0|]. split; [exact H1|]. split.
             ++ destruct (Nat.eq_dec l' l) as [->|Nl]; [rewrite nset_same; apply in_or_app; left; exact H2|rewrite nset_other by exact Nl; exact H2].
             ++ destruct H3 as [[t2 H3]|X]; [left|right; keep X]. exists t2. rewrite nset_other; [exact H3|]. intros ->. rewrite Et in H3. discriminate.
        * intros t' l' Hin. destruct (Nat.eq_dec t' t) as [->|Nt].
          -- rewrite nset_same. destruct (Nat.eq_dec l' l) as [->|Nl]; [left; exists k; reflexivity|]. rewrite nset_other in Hin by exact Nl. destruct (J _ _ Hin) as [[k' E']|[k' E']]; congruence.
          -- rewrite nset_other by exact Nt. destruct (Nat.eq_dec l' l) as [->|Nl]; [|rewrite nset_other in Hin by exact Nl; exact (J _ _ Hin)].
             rewrite nset_same in Hin. apply in_app_or in Hin. destruct Hin as [Hin|[Hin|[]]]; [exact (J _ _ Hin)|congruence].
        * intros t' l' E'. case_task t' t; [discriminate|exact (L _ _ E')].
        * intros t' l' E1 E2. case_task t' t; [discriminate|exact (Q _ _ E1 E2)].
        * intros t' r' L' E'. case_task t' t; [discriminate|auto].
  Qed.


  (** A get is given up. *)
  Lemma drop_inv kof s t : inv kof s -> inv kof (drop_task s t).
  Proof.
    intros HI.
    assert (D : forall k, task_key (c_task s t) = k -> (forall r, c_task s t <> TDone k r) -> (forall k', c_task s t <> TGone k') -> 
      (telling (c_task s t) = working (c_task s t)) -> owner (c_task s t) = telling (c_task s t) -> inv kof (with_task s t (TGone k))).
    { intros k Hk Hd Hg Htw Hot.
      assert (Ht : t < n) by (apply (in_tasks kof s t HI); intros r C; apply (Hd r); rewrite C in Hk; cbn in Hk; congruence).
      assert (L0 : forall k', lost (c_task s) k' -> lost (nset (c_task s) t (TGone k)) k') by (intros k'; apply lost_set; exact Hg).
      assert (L1 : lost (nset (c_task s) t (TGone k)) k) by (exists t; apply nset_same).
      destruct HI as [A B D E F0 G H I J L Q M N O].
      constructor; cbn [with_task c_task c_entries c_loaders c_next c_object c_waiters]; auto.
      - intros t' L'. case_task t' t; [rewrite <- (A t Ht), Hk; reflexivity|auto].
      - intros t' L'. rewrite nset_other by lia. auto.
      - intros t' l E'. case_task t' t; [discriminate|exact (D _ _ E')].
      - intros t1 t2 l E1 E2. case_task t1 t; [discriminate|]. case_task t2 t; [discriminate|]. exact (E _ _ _ E1 E2).
      - intros k' l E'. destruct (F0 _ _ E') as [[t' E2]|X]; [|right; auto]. destruct (Nat.eq_dec t' t) as [->|Nt].
        + right. pose proof (D _ _ E2) as E3. destruct (G _ _ E3) as [_ G3]. destruct (G _ _ E') as [_ G4]. rewrite Hk in G3. replace k' with k by congruence. exact L1.
        + left. exists t'. rewrite nset_other by exact Nt. exact E2.
      - intros t' k' l E'. case_task t' t; [discriminate|]. destruct (H _ _ _ E') as (H1 & H2 & H3). split; [exact H1|]. split; [exact H2|].
        destruct H3 as [H3|[[t2 H3]|X]]; [left; exact H3| |right; right; auto]. right. destruct (Nat.eq_dec t2 t) as [->|Nt]; [right|left; exists t2; rewrite nset_other by exact Nt; exact H3].
        pose proof (D _ _ (telling_owner _ _ (working_telling _ _ H3))) as E3. destruct (G _ _ E3) as [_ G3]. rewrite Hk in G3. replace k' with k by congruence. exact L1.
      - intros t' k' l E'. case_task t' t; [discriminate|]. destruct (I _ _ _ E') as (H0 & H1 & H2 & H3). split; [exact H0|]. split; [exact H1|]. split; [exact H2|].
        destruct H3 as [[t2 H3]|X]; [|right; auto]. destruct (Nat.eq_dec t2 t) as [->|Nt]; [right|left; exists t2; rewrite nset_other by exact Nt; exact H3].
        pose proof (D _ _ (telling_owner _ _ H3)) as E3. destruct (G _ _ E3) as [_ G3]. rewrite Hk in G3. replace k' with k by congruence. exact L1.
      - intros t' l Hin. case_task t' t; [right; eauto|]. exact (J _ _ Hin).
      - intros t' l E'. case_task t' t; [discriminate|exact (L _ _ E')].
      - intros t' l E1 E2. case_task t' t; [discriminate|exact (Q _ _ E1 E2)].
      - intros t' r' L' E'. case_task t' t; [discriminate|auto]. }
    unfold drop_task. destruct (c_task s t) as [k|k|k l|k l v|k l a|k l a|k l a|k l|k l|k a|k] eqn:Et; try exact HI; apply D; try reflexivity; discriminate.
  Qed.

  (** While a get of [k] has not returned and no get of [k] was given up, some get of
      [k] can go on. *)
  Lemma key_progress kof s t k : inv kof s -> t < n -> kt t = k -> (forall r, c_task s t <> TDone k r) -> (forall u, u < n -> c_task s u <> TGone k) ->
    exists t', t' < n /\ kt t' = k /\ forall r, step keqb size s t' r <> None.
  Proof.
    intros HI Ht Hk Hd Hg. pose proof (i_key _ _ HI t Ht) as K0. rewrite Hk in K0.
    assert (NL : ~ lost (c_task s) k).
    { intros (u & Eu). apply (Hg u); [|exact Eu]. apply (in_tasks kof s u HI). intros r. rewrite Eu. discriminate. }
    destruct (c_task s t) as [k'|k'|k' l|k' l v|k' l a|k' l a|k' l a|k' l|k' l|k' a|k'] eqn:Et; cbn [task_key] in K0; subst k';
      try (exists t; split; [exact Ht|]; split; [exact Hk|]; intros r; unfold step; rewrite Et; discriminate).
    - destruct (i_blocked _ _ HI _ _ _ Et) as (_ & H1 & _ & [(t' & E)|X]); [|contradiction].
      assert (Ht' : t' < n) by (apply (in_tasks kof s t' HI); intros r C; rewrite C in E; discriminate).
      exists t'. split; [exact Ht'|]. split.
      + pose proof (i_own _ _ HI _ _ (telling_owner _ _ E)) as E2. destruct (i_lt _ _ HI _ _ E2) as [_ E3]. rewrite <- (i_key _ _ HI t' Ht'). congruence.
      + intros r. unfold step. destruct (c_task s t'); discriminate.
    - exfalso. exact (Hd _ eq_refl).
    - exfalso. exact (Hg t Ht Et).
  Qed.

  Definition loads_good (schedule : list (happening (V := V))) : Prop :=
    forall t r, In (Moves t r) schedule -> t < n -> match r with Ok v => P (kt t) v | Err _ => F (kt t) | _ => True end.
  Lemma exec_inv schedule : forall kof s s', inv kof s -> loads_good schedule -> exec_dropping keqb size s schedule = Ok s' -> exists kof', inv kof' s'.
  Proof using Heq.
    induction schedule as [|[t r|t] rest IH]; intros kof s s' HI HL E; cbn [exec_dropping] in E; [injection E as <-; eauto| |].
    - assert (HL' : loads_good rest) by (intros t' r' Hin; apply HL; right; exact Hin).
      destruct (step keqb size s t r) as [x|] eqn:Es; [|eauto]. apply bind_inv in E. destruct E as (s1 & -> & E).
      destruct (step_inv kof s t r s1 HI) with (2 := Es) as [kof1 H1]; [|exact (IH _ _ _ H1 HL' E)].
      intros k l Et. assert (Ht : t < n) by (apply (in_tasks kof s t HI); rewrite Et; discriminate). pose proof (HL t r (or_introl eq_refl) Ht) as HG.
      pose proof (i_key _ _ HI t Ht) as Hk. rewrite Et in Hk. cbn in Hk. subst k. unfold step in Es. rewrite Et in Es. destruct r; try discriminate; exact HG.
    - apply (IH kof (drop_task s t) s'); [apply drop_inv; exact HI|intros t' r' Hin; apply HL; right; exact Hin|exact E].
  Qed.
End Cancel.

(** At the start nothing was given up. *)
Lemma start_inv {K V} (keqb : K -> K -> bool) limit ks other P F :
  inv keqb (length ks) (fun t => nth t ks other) other P F (fun _ => other) (start (V := V) limit ks other).
Proof.
  destruct (CacheConc.start_inv keqb limit ks other P F) as [A B C D E F0 G H I J L Q M N O].
  constructor; auto.
  - intros k l E'. left. exact (F0 _ _ E').
  - intros t k l E'. destruct (H _ _ _ E') as (H1 & H2 & [H3|H3]); auto.
  - intros t k l E'. exfalso. destruct (I _ _ _ E') as (_ & Hin & _). destruct Hin.
Qed.

(** A get that is gone was given up. *)
Lemma gone_dropped {K V} (keqb : K -> K -> bool) (size : V -> nat) schedule : forall s s', exec_dropping keqb size s schedule = Ok s' ->
  forall u (k : K), (forall k, c_task s u <> TGone k) -> c_task s' u = TGone k -> In (Dropped u) schedule.
Proof.
  induction schedule as [|[t r|t] rest IH]; intros s s' E u k H0 Eu; cbn [exec_dropping] in E.
  - injection E as <-. exfalso. exact (H0 _ Eu).
  - right. destruct (step keqb size s t r) as [x|] eqn:Es; [|exact (IH _ _ E u k H0 Eu)]. apply bind_inv in E. destruct E as (s1 & -> & E). apply (IH s1 s' E u k); [|exact Eu].
    intros k' C. apply (H0 k'). revert C. unfold step in Es. destruct (c_task s t) as [k0|k0|k0 l|k0 l v|k0 l a|k0 l a|k0 l a|k0 l|k0 l|k0 a|k0] eqn:Et; try discriminate; injection Es as Es.
    + apply bind_inv in Es. destruct Es as ([e o] & _ & Es). injection Es as <-. cbn [with_task with_entries c_task]. destruct (Nat.eq_dec u t) as [->|N]; [rewrite nset_same; destruct o; discriminate|rewrite nset_other by exact N; auto].
    + destruct (c_loaders s k0); subst s1; cbn [with_task c_task]; (destruct (Nat.eq_dec u t) as [->|N]; [rewrite nset_same; discriminate|rewrite nset_other by exact N; auto]).
    + destruct r; try discriminate; injection Es as <-; cbn [with_task c_task]; (destruct (Nat.eq_dec u t) as [->|N]; [rewrite nset_same; discriminate|rewrite nset_other by exact N; auto]).
    + apply bind_inv in Es. destruct Es as (e & _ & Es). injection Es as <-. cbn [with_task with_entries c_task]. destruct (Nat.eq_dec u t) as [->|N]; [rewrite nset_same; discriminate|rewrite nset_other by exact N; auto].
    + subst s1. cbn [c_task]. destruct (Nat.eq_dec u t) as [->|N]; [rewrite nset_same; discriminate|rewrite nset_other by exact N; auto].
    + destruct (existsb _ _); [discriminate|]. injection Es as <-. cbn [c_task]. destruct (Nat.eq_dec u t) as [->|N]; [rewrite nset_same; discriminate|rewrite nset_other by exact N].
      rewrite wake_at. destruct (c_task s u); try discriminate; auto. destruct (in_dec _ _ _); discriminate.
    + subst s1. cbn [c_task]. destruct (Nat.eq_dec u t) as [->|N]; [rewrite nset_same; discriminate|rewrite nset_other by exact N; auto].
    + destruct (c_object s l); subst s1; cbn [with_task c_task]; (destruct (Nat.eq_dec u t) as [->|N]; [rewrite nset_same; discriminate|rewrite nset_other by exact N; auto]).
  - destruct (Nat.eq_dec u t) as [->|N]; [left; reflexivity|right]. apply (IH _ _ E u k); [|exact Eu]. intros k' C. apply (H0 k'). revert C. unfold drop_task.
    destruct (c_task s t); cbn [with_task c_task]; rewrite ?nset_other by exact N; auto.
Qed.
