(** * Concurrent gets: what every interleaving keeps true *)
From Verif Require Import Base BaseFacts CacheModel CacheSpec CacheProofs.

Section Conc.
  Context {K V : Type}.
  Variables (keqb : K -> K -> bool) (size : V -> nat).
  Hypothesis Heq : forall a b, keqb a b = true <-> a = b.
  Notation entry := (entry K V).
  Notation entries := (entries K V).
  Notation task := (task K V).
  Notation state := (state K V).
  Notation kset := (kset keqb).

  (** ** The objects in the map, whatever the links *)
  Section Stored.
    Variable G : K -> V -> Prop.
    Definition stored_map (m : emap (K := K) (V := V)) : Prop := forall k e, eget keqb m k = Some e -> en_key e = k /\ G k (en_obj e).
    Definition stored (s : entries) : Prop := stored_map (es_map s).

    Lemma stored_put m k e : stored_map m -> en_key e = k -> G k (en_obj e) -> stored_map (eput keqb m k e).
    Proof using Heq.
      intros HM H1 H2 k' e' E. rewrite (eget_put keqb Heq) in E. destruct (keqb k k') eqn:Ek; [|apply HM; exact E].
      apply Heq in Ek. injection E as <-. subst k'. split; assumption.
    Qed.
    Lemma stored_take m k : stored_map m -> stored_map (etake keqb m k).
    Proof using Heq. intros HM k' e' E. rewrite (eget_take keqb Heq) in E. destruct (keqb k k'); [discriminate|apply HM; exact E]. Qed.
    Lemma stored_update m k x more less : stored_map m -> eget keqb m k = Some x -> stored_map (eput keqb m k (en_update x more less)).
    Proof using Heq. intros HM E. destruct (HM k x E) as [H1 H2]. apply stored_put; [exact HM|exact H1|exact H2]. Qed.

    Lemma stored_push s e s' : stored s -> G (en_key e) (en_obj e) -> push_most_recent keqb s e = Ok s' -> stored s'.
    Proof using Heq.
      unfold stored, push_most_recent. intros HM HG. destruct (es_most s) as [head|].
      - destruct (keqb head (en_key e)); [intros E; injection E as <-; exact HM|].
        destruct (eget keqb (es_map s) head) as [old|] eqn:Eo; cbn [unwrap bind]; [|discriminate]. intros E. injection E as <-. cbn [es_map].
        apply stored_put; [|reflexivity|exact HG]. apply stored_update; assumption.
      - intros E. injection E as <-. cbn [es_map]. apply stored_put; [exact HM|reflexivity|exact HG].
    Qed.
    Lemma stored_remove s k s' o : stored s -> remove keqb s k = Ok (s', o) ->
      stored s' /\ match o with Some e => en_key e = k /\ G k (en_obj e) | None => True end.
    Proof using Heq.
      unfold stored, remove. intros HM. destruct (eget keqb (es_map s) k) as [e|] eqn:Ee; [|intros E; injection E as <- <-; auto].
      destruct (es_most s) as [most|]; cbn [unwrap bind]; [|discriminate]. destruct (es_least s) as [least|]; cbn [unwrap bind]; [|discriminate].
      pose proof (stored_take _ k HM) as H0. set (m0 := etake keqb (es_map s) k) in *. intros E. apply bind_inv in E. destruct E as (m1 & E1 & E).
      assert (H1 : stored_map m1).
      { destruct (en_less e) as [x|]; [|injection E1 as <-; exact H0]. destruct (eget keqb m0 x) as [y|] eqn:Ey; cbn [unwrap bind] in E1; [|discriminate].
        injection E1 as <-. apply stored_update; assumption. }
      apply bind_inv in E. destruct E as (m2 & E2 & E).
      assert (H2 : stored_map m2).
      { destruct (en_more e) as [x|]; [|injection E2 as <-; exact H1]. destruct (eget keqb m1 x) as [y|] eqn:Ey; cbn [unwrap bind] in E2; [|discriminate].
        injection E2 as <-. apply stored_update; assumption. }
      injection E as <- <-. cbn [es_map]. split; [exact H2|]. apply HM. exact Ee.
    Qed.
    Lemma stored_evict fuel : forall s s', stored s -> evict keqb fuel s = Ok s' -> stored s'.
    Proof using Heq.
      induction fuel as [|fuel IH]; intros s s' HM; cbn [evict]; [discriminate|]. destruct (_ <? _); [|intros E; injection E as <-; exact HM].
      destruct (es_least s) as [k|]; cbn [unwrap bind]; [|discriminate]. intros E. apply bind_inv in E. destruct E as ([s1 o] & E1 & E).
      destruct (stored_remove _ _ _ _ HM E1) as [H1 _]. destruct o as [e|]; cbn [unwrap bind] in E; [|discriminate].
      apply bind_inv in E. destruct E as (n & _ & E). eapply IH; [|exact E]. exact H1.
    Qed.
    Lemma stored_insert s k v s' : stored s -> G k v -> insert keqb size s k v = Ok s' -> stored s'.
    Proof using Heq.
      intros HM HG E. unfold insert in E. apply bind_inv in E. destruct E as (s1 & E1 & E). eapply stored_evict; [|exact E].
      refine (stored_push _ _ _ _ _ E1); [exact HM|exact HG].
    Qed.
    Lemma stored_lookup s k s' o : stored s -> lookup keqb s k = Ok (s', o) -> stored s' /\ match o with Some v => G k v | None => True end.
    Proof using Heq.
      intros HM E. unfold lookup in E. apply bind_inv in E. destruct E as ([s1 x] & E1 & E). destruct (stored_remove _ _ _ _ HM E1) as [H1 H2].
      destruct x as [e|]; [|injection E as <- <-; auto]. destruct H2 as [H2 H3]. apply bind_inv in E. destruct E as (s2 & E2 & E). injection E as <- <-.
      split; [|exact H3]. eapply stored_push; [exact H1| |exact E2]. rewrite H2. exact H3.
    Qed.
  End Stored.

  (** ** Functions changed at one place *)
  Lemma nset_same {A} (f : nat -> A) i x : nset f i x i = x.
  Proof. unfold nset. rewrite Nat.eqb_refl. reflexivity. Qed.
  Lemma nset_other {A} (f : nat -> A) i x j : j <> i -> nset f i x j = f j.
  Proof. unfold nset. intros H. destruct (Nat.eqb_spec i j); [congruence|reflexivity]. Qed.
  Lemma kset_same {A} (f : K -> A) k x : kset f k x k = x.
  Proof using Heq. unfold CacheModel.kset. rewrite (keqb_refl keqb Heq). reflexivity. Qed.
  Lemma kset_other {A} (f : K -> A) k x j : j <> k -> kset f k x j = f j.
  Proof using Heq. unfold CacheModel.kset. intros H. rewrite (keqb_neq keqb Heq) by congruence. reflexivity. Qed.
  Lemma wake_at r ws : forall (f : nat -> task) t,
    wake f r ws t = match f t with TBlocked k l => if in_dec Nat.eq_dec t ws then TDone k r else TBlocked k l | x => x end.
  Proof.
    unfold wake. induction ws as [|w ws IH]; intros f t; cbn [fold_left].
    - destruct (f t); reflexivity.
    - rewrite IH. destruct (Nat.eq_dec t w) as [->|N].
      + destruct (f w) eqn:E; rewrite ?E; try reflexivity. rewrite nset_same. destruct (in_dec Nat.eq_dec w (w :: ws)) as [_|C]; [reflexivity|]. exfalso. apply C. left. reflexivity.
      + replace (match f w with TBlocked k _ => nset f w (TDone k r) | _ => f end t) with (f t) by (destruct (f w); rewrite ?nset_other by exact N; reflexivity).
        destruct (f t); try reflexivity. destruct (in_dec Nat.eq_dec t ws) as [I|I]; destruct (in_dec Nat.eq_dec t (w :: ws)) as [J|J]; try reflexivity; exfalso.
        * apply J. right. exact I.
        * destruct J as [J|J]; [congruence|contradiction].
  Qed.

  (** ** The invariant *)
  Definition task_key (x : task) : K :=
    match x with
    | TLookup k | TRegister k | TLoading k _ | TInsert k _ _ | TFinish k _ _ | TNotify k _ _ | TRemove k _ _
    | TWait k _ | TBlocked k _ | TDone k _ | TGone k => k
    end.
  (** The loader a task works for: before its object is set, before its waiters are
      told, before it is removed. *)
  Definition working (x : task) : option nat :=
    match x with TLoading _ l | TInsert _ l _ | TFinish _ l _ => Some l | _ => None end.
  Definition telling (x : task) : option nat :=
    match x with TNotify _ l _ => Some l | _ => working x end.
  Definition owner (x : task) : option nat :=
    match x with TRemove _ l _ => Some l | _ => telling x end.
  Definition result (x : task) : option (res V) :=
    match x with TInsert _ _ v => Some (Ok v) | TFinish _ _ r | TNotify _ _ r | TRemove _ _ r | TDone _ r => Some r | _ => None end.

  Variables (n : nat) (kt : nat -> K) (other : K).
  Variables (P : K -> V -> Prop) (F : K -> Prop).
  Definition good (k : K) (r : res V) : Prop :=
    match r with Ok v => P k v | Err _ => F k | _ => False end.
  Lemma good_told k r : good k r -> good k (told r).
  Proof. destruct r; trivial. Qed.

  Record inv (kof : nat -> K) (s : state) : Prop :=
    { i_key : forall t, t < n -> task_key (c_task s t) = kt t;
      i_out : forall t, n <= t -> c_task s t = TDone other (Err ELoad);
      i_gone : forall t, gone (c_task s t) = false;
      i_own : forall t l, owner (c_task s t) = Some l -> c_loaders s (task_key (c_task s t)) = Some l;
      i_one : forall t t' l, owner (c_task s t) = Some l -> owner (c_task s t') = Some l -> t = t';
      i_has : forall k l, c_loaders s k = Some l -> exists t, owner (c_task s t) = Some l;
      i_lt : forall k l, c_loaders s k = Some l -> l < c_next s /\ kof l = k;
      i_wait : forall t k l, c_task s t = TWait k l ->
                 l < c_next s /\ kof l = k /\ (c_object s l <> None \/ exists t', working (c_task s t') = Some l);
      i_blocked : forall t k l, c_task s t = TBlocked k l ->
                 kof l = k /\ In t (c_waiters s l) /\ exists t', telling (c_task s t') = Some l;
      i_waiters : forall t l, In t (c_waiters s l) -> exists k, c_task s t = TBlocked k l;
      i_none : forall t l, working (c_task s t) = Some l -> c_object s l = None;
      i_set : forall t l, owner (c_task s t) = Some l -> working (c_task s t) = None -> c_object s l <> None;
      i_object : forall l r, l < c_next s -> c_object s l = Some r -> good (kof l) r;
      i_result : forall t r, t < n -> result (c_task s t) = Some r -> good (task_key (c_task s t)) r;
      i_entries : stored P (c_entries s) }.

  Lemma working_telling x l : working x = Some l -> telling x = Some l.
  Proof. destruct x; cbn; auto; discriminate. Qed.
  Lemma telling_owner x l : telling x = Some l -> owner x = Some l.
  Proof. destruct x; cbn; auto; discriminate. Qed.
  Lemma in_tasks kof s t : inv kof s -> (forall r, c_task s t <> TDone other r) -> t < n.
  Proof. intros HI H. destruct (Nat.lt_ge_cases t n) as [L|L]; [exact L|]. exfalso. exact (H _ (i_out _ _ HI t L)). Qed.

  Ltac case_task t' t := destruct (Nat.eq_dec t' t) as [->|?]; [rewrite ?nset_same in *|rewrite ?nset_other in * by assumption].

  (** A task moves on by itself, without touching loaders. *)
  Lemma move kof s t x e :
    inv kof s -> t < n -> stored P e ->
    task_key x = task_key (c_task s t) -> gone x = false ->
    owner x = owner (c_task s t) -> telling x = telling (c_task s t) -> working x = working (c_task s t) ->
    (forall k l, x = TWait k l -> l < c_next s /\ kof l = k /\ (c_object s l <> None \/ exists t', working (c_task s t') = Some l)) ->
    (forall k l, x <> TBlocked k l) -> (forall k l, c_task s t <> TBlocked k l) ->
    (forall r, result x = Some r -> good (task_key x) r) ->
    inv kof (with_task (with_entries s e) t x).
  Proof.
    intros [A B C D E F0 G H I J L Q M N O] Ht He Hk Hg Ho Htl Hw Nw Nb Nt Hr.
    constructor; cbn [with_task with_entries c_task c_entries c_loaders c_next c_object c_waiters]; auto.
    - intros t' L'. case_task t' t; [rewrite Hk|]; auto.
    - intros t' L'. rewrite nset_other by lia. auto.
    - intros t'. case_task t' t; auto.
    - intros t' l. case_task t' t; [rewrite Ho, Hk|]; auto.
    - intros t1 t2 l. intros E1 E2. apply (E t1 t2 l); [revert E1; clear E2|revert E2; clear E1].
      + case_task t1 t; [rewrite Ho|]; auto.
      + case_task t2 t; [rewrite Ho|]; auto.
    - intros k l E'. destruct (F0 k l E') as [t' Et']. exists t'. case_task t' t; [rewrite Ho|]; auto.
    - intros t' k l E'. assert (HW : l < c_next s /\ kof l = k /\ (c_object s l <> None \/ exists t', working (c_task s t') = Some l)) by (case_task t' t; [exact (Nw _ _ E')|exact (H _ _ _ E')]).
      clear E'. destruct HW as (H1 & H2 & [H3|[t2 H3]]); [tauto|]. repeat split; auto. right. exists t2. case_task t2 t; [rewrite Hw|]; auto.
    - intros t' k l E'. case_task t' t; [exfalso; exact (Nb _ _ E')|]. destruct (I _ _ _ E') as (H1 & H2 & [t2 H3]).
      repeat split; auto. exists t2. case_task t2 t; [rewrite Htl|]; auto.
    - intros t' l Hin. destruct (J t' l Hin) as [k E']. exists k. rewrite nset_other; [exact E'|]. intros ->. exact (Nt _ _ E').
    - intros t' l. case_task t' t; [rewrite Hw|]; apply L.
    - intros t' l. case_task t' t; [rewrite Ho, Hw|]; apply Q.
    - intros t' r L' E'. revert E'. case_task t' t; auto.
  Qed.

  Lemma same_entries (s : state) : with_entries s (c_entries s) = s.
  Proof. destruct s. reflexivity. Qed.
  Lemma move' kof s t x :
    inv kof s -> t < n ->
    task_key x = task_key (c_task s t) -> gone x = false ->
    owner x = owner (c_task s t) -> telling x = telling (c_task s t) -> working x = working (c_task s t) ->
    (forall k l, x = TWait k l -> l < c_next s /\ kof l = k /\ (c_object s l <> None \/ exists t', working (c_task s t') = Some l)) ->
    (forall k l, x <> TBlocked k l) -> (forall k l, c_task s t <> TBlocked k l) ->
    (forall r, result x = Some r -> good (task_key x) r) ->
    inv kof (with_task s t x).
  Proof. intros HI H1 H2 H3 H4 H5 H6 H7 H8 H9 H10. replace (with_task s t x) with (with_task (with_entries s (c_entries s)) t x) by (rewrite same_entries; reflexivity).
    apply move; auto. apply (i_entries _ _ HI). Qed.

  Lemma step_inv kof s t r s' : inv kof s -> (forall k l, c_task s t = TLoading k l -> good k r) -> step keqb size s t r = Some (Ok s') ->
    exists kof', inv kof' s'.
  Proof using Heq.
    intros HI Hload E. unfold step in E. destruct (c_task s t) as [k|k|k l|k l v|k l a|k l a|k l a|k l|k l|k a|k] eqn:Et; try discriminate;
      (assert (Ht : t < n) by (apply (in_tasks kof s t HI); rewrite Et; discriminate)); injection E as E.
    - (* lookup *) apply bind_inv in E. destruct E as ([e o] & E1 & E). destruct (stored_lookup _ _ _ _ _ (i_entries _ _ HI) E1) as [H1 H2]. injection E as <-.
      exists kof. apply move; rewrite ?Et; try reflexivity; auto; destruct o; try discriminate; try reflexivity.
      cbn [result]. intros r0 E0. injection E0 as <-. exact H2.
    - (* register *) destruct (c_loaders s k) as [l|] eqn:El; subst s'.
      + exists kof. apply move'; rewrite ?Et; try reflexivity; auto; try discriminate. intros k' l' E'. injection E' as <- <-.
        destruct (i_lt _ _ HI _ _ El) as [H1 H2]. repeat split; auto. destruct (i_has _ _ HI _ _ El) as [t' E'].
        destruct (working (c_task s t')) as [l'|] eqn:Ew.
        * right. exists t'. rewrite Ew. pose proof (telling_owner _ _ (working_telling _ _ Ew)). congruence.
        * left. exact (i_set _ _ HI _ _ E' Ew).
      + set (l := c_next s) in *. destruct HI as [A B C D E F0 G H I J L Q M N O].
        assert (Fresh : forall t', owner (c_task s t') <> Some l) by (intros t' E'; destruct (G _ _ (D _ _ E')) as [C1 _]; unfold l in C1; lia).
        assert (NotOld : forall k l', c_loaders s k = Some l' -> l' <> l) by (intros k' l' E'; destruct (G _ _ E') as [C1 _]; unfold l; lia).
        exists (nset kof l k). constructor; cbn [c_task c_entries c_loaders c_next c_object c_waiters]; auto.
        * intros t' L'. case_task t' t; [rewrite <- (A t Ht), Et; reflexivity|auto].
        * intros t' L'. rewrite nset_other by lia. auto.
        * intros t'. case_task t' t; auto.
        * intros t' l' E'. case_task t' t.
          -- cbn in E'. injection E' as <-. cbn [task_key]. apply kset_same.
          -- pose proof (D _ _ E') as E2. rewrite kset_other; [exact E2|]. intros C'. rewrite C' in E2. congruence.
        * intros t1 t2 l' E1 E2. case_task t1 t; case_task t2 t; try reflexivity.
          -- cbn in E1. injection E1 as <-. exfalso. exact (Fresh _ E2).
          -- cbn in E2. injection E2 as <-. exfalso. exact (Fresh _ E1).
          -- exact (E _ _ _ E1 E2).
        * intros k' l' E'. destruct (key_dec keqb Heq k' k) as [->|Nk].
          -- rewrite kset_same in E'. injection E' as <-. exists t. rewrite nset_same. reflexivity.
          -- rewrite kset_other in E' by exact Nk. destruct (F0 _ _ E') as [t' E2]. exists t'. rewrite nset_other; [exact E2|]. intros ->. rewrite Et in E2. discriminate.
        * intros k' l' E'. destruct (key_dec keqb Heq k' k) as [->|Nk].
          -- rewrite kset_same in E'. injection E' as <-. rewrite nset_same. split; [unfold l; lia|reflexivity].
          -- rewrite kset_other in E' by exact Nk. pose proof (NotOld _ _ E'). rewrite nset_other by assumption. destruct (G _ _ E') as [G1 G2]. split; [lia|exact G2].
        * intros t' k' l' E'. case_task t' t; [discriminate|]. destruct (H _ _ _ E') as (H1 & H2 & H3). assert (l' <> l) by (unfold l; lia). rewrite !nset_other by assumption.
          split; [lia|]. split; [exact H2|]. destruct H3 as [H3|[t2 H3]]; [left; exact H3|right]. exists t2. rewrite nset_other; [exact H3|]. intros ->. rewrite Et in H3. discriminate.
        * intros t' k' l' E'. case_task t' t; [discriminate|]. destruct (I _ _ _ E') as (H1 & H2 & t2 & H3). assert (l' <> l) by (intros ->; exact (Fresh _ (telling_owner _ _ H3))).
          rewrite !nset_other by assumption. repeat split; auto. exists t2. rewrite nset_other; [exact H3|]. intros ->. rewrite Et in H3. discriminate.
        * intros t' l' Hin. destruct (Nat.eq_dec l' l) as [->|Nl]; [rewrite nset_same in Hin; destruct Hin|]. rewrite nset_other in Hin by exact Nl. destruct (J _ _ Hin) as [k' E'].
          exists k'. rewrite nset_other; [exact E'|]. intros ->. congruence.
        * intros t' l' E'. destruct (Nat.eq_dec l' l) as [->|Nl]; [apply nset_same|]. rewrite nset_other by exact Nl. case_task t' t; [cbn in E'; congruence|exact (L _ _ E')].
        * intros t' l' E1 E2. case_task t' t; [discriminate|]. destruct (Nat.eq_dec l' l) as [->|Nl]; [exfalso; exact (Fresh _ E1)|]. rewrite nset_other by exact Nl. exact (Q _ _ E1 E2).
        * intros l' r' L' E'. destruct (Nat.eq_dec l' l) as [->|Nl]; [rewrite nset_same in E'; discriminate|]. rewrite nset_other by exact Nl. rewrite nset_other in E' by exact Nl. apply M; [unfold l in *; lia|exact E'].
        * intros t' r' L' E'. case_task t' t; [discriminate|auto].
    - (* load *) specialize (Hload k l eq_refl). destruct r as [v|e| |]; try discriminate; injection E as <-; exists kof; (apply move'; rewrite ?Et; try reflexivity; auto; try discriminate);
      cbn [result]; intros r0 E0; injection E0 as <-; exact Hload.
    - (* insert *) apply bind_inv in E. destruct E as (e & E1 & E). injection E as <-. assert (Hv : P k v) by (pose proof (i_result _ _ HI t (Ok v) Ht) as R; rewrite Et in R; exact (R eq_refl)).
      exists kof. apply move; rewrite ?Et; try reflexivity; auto; try discriminate.
      + exact (stored_insert _ _ _ _ _ (i_entries _ _ HI) Hv E1).
      + cbn [result]. intros r0 E0; injection E0 as <-; exact Hv.
    - (* finish *) subst s'. assert (Ha : good k a) by (pose proof (i_result _ _ HI t a Ht) as R; rewrite Et in R; exact (R eq_refl)).
      destruct HI as [A B C D E F0 G H I J L Q M N O]. assert (Eo : owner (c_task s t) = Some l) by (rewrite Et; reflexivity).
      assert (El : c_loaders s k = Some l) by (pose proof (D _ _ Eo) as D1; rewrite Et in D1; exact D1). destruct (G _ _ El) as [Hl Hkl].
      exists kof. constructor; cbn [c_task c_entries c_loaders c_next c_object c_waiters]; auto.
      + intros t' L'. case_task t' t; [rewrite <- (A t Ht), Et; reflexivity|auto].
      + intros t' L'. rewrite nset_other by lia. auto.
      + intros t'. case_task t' t; auto.
      + intros t' l' E'. case_task t' t; [cbn in *; congruence|exact (D _ _ E')].
      + intros t1 t2 l' E1 E2. apply (E t1 t2 l').
        * case_task t1 t; [rewrite Et|]; assumption.
        * case_task t2 t; [rewrite Et|]; assumption.
      + intros k' l' E'. destruct (F0 _ _ E') as [t' E2]. exists t'. case_task t' t; [rewrite Et in E2; exact E2|exact E2].
      + intros t' k' l' E'. case_task t' t; [discriminate|]. destruct (H _ _ _ E') as (H1 & H2 & H3). repeat split; auto.
        destruct (Nat.eq_dec l' l) as [->|Nl]; [left; rewrite nset_same; discriminate|]. rewrite nset_other by exact Nl. destruct H3 as [H3|[t2 H3]]; [left; exact H3|right].
        exists t2. rewrite nset_other; [exact H3|]. intros ->. rewrite Et in H3. cbn in H3. congruence.
      + intros t' k' l' E'. case_task t' t; [discriminate|]. destruct (I _ _ _ E') as (H1 & H2 & t2 & H3). repeat split; auto. exists t2. case_task t2 t; [rewrite Et in H3; exact H3|exact H3].
      + intros t' l' Hin. destruct (J _ _ Hin) as [k' E']. exists k'. rewrite nset_other; [exact E'|]. intros ->. congruence.
      + intros t' l' E'. case_task t' t; [discriminate|]. assert (l' <> l) by (intros ->; apply n0; exact (E _ _ _ (telling_owner _ _ (working_telling _ _ E')) Eo)).
        rewrite nset_other by assumption. exact (L _ _ E').
      + intros t' l' E1 E2. destruct (Nat.eq_dec l' l) as [->|Nl]; [rewrite nset_same; discriminate|]. rewrite nset_other by exact Nl. case_task t' t; [cbn in E1; congruence|exact (Q _ _ E1 E2)].
      + intros l' r' L' E'. destruct (Nat.eq_dec l' l) as [->|Nl].
        * rewrite nset_same in E'. injection E' as <-. rewrite Hkl. apply good_told. exact Ha.
        * rewrite nset_other in E' by exact Nl. exact (M _ _ L' E').
      + intros t' r' L' E'. case_task t' t; [cbn in E'; injection E' as <-; exact Ha|auto].
    - (* notify *) destruct (existsb _ _) eqn:Eg; [discriminate|]. clear Eg. injection E as <-. assert (Ha : good k a) by (pose proof (i_result _ _ HI t a Ht) as R; rewrite Et in R; exact (R eq_refl)).
      destruct HI as [A B C D E F0 G H I J L Q M N O]. assert (Eo : owner (c_task s t) = Some l) by (rewrite Et; reflexivity).
      assert (El : c_loaders s k = Some l) by (pose proof (D _ _ Eo) as D1; rewrite Et in D1; exact D1). destruct (G _ _ El) as [Hl Hkl].
      set (f := wake (c_task s) (told a) (c_waiters s l)) in *.
      assert (W : forall t', f t' = c_task s t' \/ exists k', c_task s t' = TBlocked k' l /\ f t' = TDone k' (told a)).
      { intros t'. unfold f. rewrite wake_at. destruct (c_task s t') eqn:E'; auto. destruct (in_dec _ _ _) as [Hin|_]; [right|left; reflexivity].
        destruct (J _ _ Hin) as [k' E2]. exists k'. split; congruence. }
      assert (WB : forall t' k' l', f t' = TBlocked k' l' -> c_task s t' = TBlocked k' l' /\ l' <> l).
      { intros t' k' l' E'. destruct (W t') as [W1|(k2 & W1 & W2)]; [|congruence]. rewrite W1 in E'. split; [exact E'|]. intros ->. destruct (I _ _ _ E') as (_ & Hin & _).
        unfold f in W1. rewrite wake_at, E' in W1. destruct (in_dec _ _ _); [discriminate|contradiction]. }
      assert (WO : forall t', owner (f t') = owner (c_task s t')) by (intros t'; destruct (W t') as [->|(k2 & -> & ->)]; reflexivity).
      assert (WT : forall t', telling (f t') = telling (c_task s t')) by (intros t'; destruct (W t') as [->|(k2 & -> & ->)]; reflexivity).
      assert (WW : forall t', working (f t') = working (c_task s t')) by (intros t'; destruct (W t') as [->|(k2 & -> & ->)]; reflexivity).
      assert (WK : forall t', task_key (f t') = task_key (c_task s t')) by (intros t'; destruct (W t') as [->|(k2 & -> & ->)]; reflexivity).
      exists kof. constructor; cbn [c_task c_entries c_loaders c_next c_object c_waiters]; auto.
      + intros t' L'. case_task t' t; [rewrite <- (A t Ht), Et; reflexivity|rewrite WK; auto].
      + intros t' L'. rewrite nset_other by lia. destruct (W t') as [->|(k2 & W1 & _)]; auto. rewrite (B _ L') in W1. discriminate.
      + intros t'. case_task t' t; auto. destruct (W t') as [->|(k2 & _ & ->)]; auto.
      + intros t' l' E'. case_task t' t; [cbn in *; congruence|]. rewrite WO in E'. rewrite WK. exact (D _ _ E').
      + intros t1 t2 l' E1 E2. apply (E t1 t2 l').
        * case_task t1 t; [rewrite Et; assumption|rewrite WO in E1; exact E1].
        * case_task t2 t; [rewrite Et; assumption|rewrite WO in E2; exact E2].
      + intros k' l' E'. destruct (F0 _ _ E') as [t' E2]. exists t'. case_task t' t; [rewrite Et in E2; exact E2|rewrite WO; exact E2].
      + intros t' k' l' E'. case_task t' t; [discriminate|]. assert (E2 : c_task s t' = TWait k' l') by (destruct (W t') as [<-|(k2 & _ & W2)]; [exact E'|congruence]).
        destruct (H _ _ _ E2) as (H1 & H2 & H3). repeat split; auto. destruct H3 as [H3|[t2 H3]]; [left; exact H3|right].
        exists t2. case_task t2 t; [rewrite Et in H3; discriminate|rewrite WW; exact H3].
      + intros t' k' l' E'. case_task t' t; [discriminate|]. destruct (WB _ _ _ E') as [E2 Nl]. destruct (I _ _ _ E2) as (H1 & H2 & t2 & H3). rewrite nset_other by exact Nl. repeat split; auto.
        exists t2. case_task t2 t; [rewrite Et in H3; cbn in H3; congruence|rewrite WT; exact H3].
      + intros t' l' Hin. destruct (Nat.eq_dec l' l) as [->|Nl]; [rewrite nset_same in Hin; destruct Hin|]. rewrite nset_other in Hin by exact Nl. destruct (J _ _ Hin) as [k' E']. exists k'.
        assert (Nt : t' <> t) by (intros ->; congruence). rewrite nset_other by exact Nt. destruct (W t') as [->|(k2 & W1 & _)]; [exact E'|congruence].
      + intros t' l' E'. case_task t' t; [discriminate|]. rewrite WW in E'. exact (L _ _ E').
      + intros t' l' E1 E2. case_task t' t.
        * cbn in E1. injection E1 as <-. apply (Q t l Eo). rewrite Et. reflexivity.
        * rewrite WO in E1. rewrite WW in E2. exact (Q _ _ E1 E2).
      + intros t' r' L' E'. case_task t' t; [cbn in E'; injection E' as <-; exact Ha|]. rewrite WK. destruct (W t') as [W1|(k2 & W1 & W2)].
        * rewrite W1 in E'. auto.
        * rewrite W2 in E'. cbn in E'. injection E' as <-. rewrite W1. cbn [task_key]. destruct (I _ _ _ W1) as (<- & _). rewrite Hkl. apply good_told. exact Ha.
    - (* remove *) subst s'. assert (Ha : good k a) by (pose proof (i_result _ _ HI t a Ht) as R; rewrite Et in R; exact (R eq_refl)).
      destruct HI as [A B C D E F0 G H I J L Q M N O]. assert (Eo : owner (c_task s t) = Some l) by (rewrite Et; reflexivity).
      assert (El : c_loaders s k = Some l) by (pose proof (D _ _ Eo) as D1; rewrite Et in D1; exact D1).
      exists kof. constructor; cbn [c_task c_entries c_loaders c_next c_object c_waiters]; auto.
      + intros t' L'. case_task t' t; [rewrite <- (A t Ht), Et; reflexivity|auto].
      + intros t' L'. rewrite nset_other by lia. auto.
      + intros t'. case_task t' t; auto.
      + intros t' l' E'. case_task t' t; [discriminate|]. pose proof (D _ _ E') as E2. rewrite kset_other; [exact E2|]. intros C'. rewrite C' in E2.
        apply n0. apply (E t' t l); congruence.
      + intros t1 t2 l' E1 E2. case_task t1 t; [discriminate|]. case_task t2 t; [discriminate|]. exact (E _ _ _ E1 E2).
      + intros k' l' E'. destruct (key_dec keqb Heq k' k) as [->|Nk]; [rewrite kset_same in E'; discriminate|]. rewrite kset_other in E' by exact Nk.
        destruct (F0 _ _ E') as [t' E2]. exists t'. rewrite nset_other; [exact E2|]. intros ->. apply Nk. destruct (G _ _ E') as [_ <-]. destruct (G _ _ El) as [_ <-]. congruence.
      + intros k' l' E'. destruct (key_dec keqb Heq k' k) as [->|Nk]; [rewrite kset_same in E'; discriminate|]. rewrite kset_other in E' by exact Nk. exact (G _ _ E').
      + intros t' k' l' E'. case_task t' t; [discriminate|]. destruct (H _ _ _ E') as (H1 & H2 & H3). repeat split; auto. destruct H3 as [H3|[t2 H3]]; [left; exact H3|right].
        exists t2. rewrite nset_other; [exact H3|]. intros ->. rewrite Et in H3. discriminate.
      + intros t' k' l' E'. case_task t' t; [discriminate|]. destruct (I _ _ _ E') as (H1 & H2 & t2 & H3). repeat split; auto. exists t2. rewrite nset_other; [exact H3|]. intros ->. rewrite Et in H3. discriminate.
      + intros t' l' Hin. destruct (J _ _ Hin) as [k' E']. exists k'. rewrite nset_other; [exact E'|]. intros ->. congruence.
      + intros t' l' E'. case_task t' t; [discriminate|exact (L _ _ E')].
      + intros t' l' E1 E2. case_task t' t; [discriminate|exact (Q _ _ E1 E2)].
      + intros t' r' L' E'. case_task t' t; [cbn in E'; injection E' as <-; exact Ha|auto].
    - (* wait *) destruct (i_wait _ _ HI _ _ _ Et) as (Hl & Hk & Hw). destruct (c_object s l) as [a|] eqn:Eobj; subst s'.
      + exists kof. apply move'; rewrite ?Et; try reflexivity; auto; try discriminate. cbn [result]. intros r0 E0. injection E0 as <-. cbn [task_key]. rewrite <- Hk. exact (i_object _ _ HI _ _ Hl Eobj).
      + destruct Hw as [Hw|[tw Hw]]; [congruence|]. destruct HI as [A B C D E F0 G H I J L Q M N O].
        exists kof. constructor; cbn [c_task c_entries c_loaders c_next c_object c_waiters]; auto.
        * intros t' L'. case_task t' t; [rewrite <- (A t Ht), Et; reflexivity|auto].
        * intros t' L'. rewrite nset_other by lia. auto.
        * intros t'. case_task t' t; auto.
        * intros t' l' E'. case_task t' t; [discriminate|exact (D _ _ E')].
        * intros t1 t2 l' E1 E2. case_task t1 t; [discriminate|]. case_task t2 t; [discriminate|]. exact (E _ _ _ E1 E2).
        * intros k' l' E'. destruct (F0 _ _ E') as [t' E2]. exists t'. rewrite nset_other; [exact E2|]. intros ->. rewrite Et in E2. discriminate.
        * intros t' k' l' E'. case_task t' t; [discriminate|]. destruct (H _ _ _ E') as (H1 & H2 & H3). repeat split; auto. destruct H3 as [H3|[t2 H3]]; [left; exact H3|right].
          exists t2. rewrite nset_other; [exact H3|]. intros ->. rewrite Et in H3. discriminate.
        * intros t' k' l' E'. case_task t' t.
          -- injection E' as <- <-. rewrite nset_same. split; [exact Hk|]. split; [apply in_or_app; right; left; reflexivity|]. exists tw. rewrite nset_other; [exact (working_telling _ _ Hw)|]. intros ->. rewrite Et in Hw. discriminate.
          -- destruct (I _ _ _ E') as (H1 & H2 & t2 & H3). split; [exact H1|]. split.
             ++ destruct (Nat.eq_dec l' l) as [->|Nl]; [rewrite nset_same; apply in_or_app; left; exact H2|rewrite nset_other by exact Nl; exact H2].
             ++ exists t2. rewrite nset_other; [exact H3|]. intros ->. rewrite Et in H3. discriminate.
        * intros t' l' Hin. destruct (Nat.eq_dec t' t) as [->|Nt].
          -- rewrite nset_same. destruct (Nat.eq_dec l' l) as [->|Nl]; [exists k; reflexivity|]. rewrite nset_other in Hin by exact Nl. destruct (J _ _ Hin) as [k' E']. congruence.
          -- rewrite nset_other by exact Nt. destruct (Nat.eq_dec l' l) as [->|Nl]; [|rewrite nset_other in Hin by exact Nl; exact (J _ _ Hin)].
             rewrite nset_same in Hin. apply in_app_or in Hin. destruct Hin as [Hin|[Hin|[]]]; [exact (J _ _ Hin)|congruence].
        * intros t' l' E'. case_task t' t; [discriminate|exact (L _ _ E')].
        * intros t' l' E1 E2. case_task t' t; [discriminate|exact (Q _ _ E1 E2)].
        * intros t' r' L' E'. case_task t' t; [discriminate|auto].
  Qed.

  (** Telling the waiters never finds one gone. *)
  Lemma nobody_gone kof s l : inv kof s -> existsb (fun w => gone (c_task s w)) (c_waiters s l) = false.
  Proof. intros HI. destruct (existsb _ _) eqn:E; [|reflexivity]. apply existsb_exists in E. destruct E as (w & _ & E). rewrite (i_gone _ _ HI) in E. discriminate. Qed.

  (** While a task has not returned, some task can go on. *)
  Lemma progress kof s t : inv kof s -> (forall k r, c_task s t <> TDone k r) -> exists t', forall r, step keqb size s t' r <> None.
  Proof.
    intros HI Ht. pose proof (i_gone _ _ HI t) as Hg. unfold step. destruct (c_task s t) as [k|k|k l|k l v|k l a|k l a|k l a|k l|k l|k a|k] eqn:Et; try discriminate.
    10: exfalso; exact (Ht _ _ eq_refl).
    9: { destruct (i_blocked _ _ HI _ _ _ Et) as (_ & _ & t' & E). exists t'. intros r. destruct (c_task s t'); discriminate. }
    all: exists t; intros r; rewrite Et; discriminate.
  Qed.

  (** ** Every step is progress *)
  Definition rank (x : task) : nat :=
    match x with
    | TLookup _ => 7 | TRegister _ => 6 | TLoading _ _ => 5 | TInsert _ _ _ => 4 | TFinish _ _ _ => 3 | TNotify _ _ _ => 2 | TRemove _ _ _ => 1
    | TWait _ _ => 2 | TBlocked _ _ => 1 | TDone _ _ => 0 | TGone _ => 0
    end.
  Definition total (f : nat -> task) : nat := fold_right (fun t m => rank (f t) + m) 0 (seq 0 n).
  Lemma total_le (ts : list nat) (f g : nat -> task) : (forall t, In t ts -> rank (g t) <= rank (f t)) ->
    fold_right (fun t m => rank (g t) + m) 0 ts <= fold_right (fun t m => rank (f t) + m) 0 ts.
  Proof. clear. induction ts as [|t ts IH]; cbn [fold_right]; intros H; [lia|]. pose proof (H t (or_introl eq_refl)). pose proof (IH (fun x h => H x (or_intror h))). lia. Qed.
  Lemma total_lt (ts : list nat) (f g : nat -> task) t : In t ts -> (forall t, rank (g t) <= rank (f t)) -> rank (g t) < rank (f t) ->
    fold_right (fun t m => rank (g t) + m) 0 ts < fold_right (fun t m => rank (f t) + m) 0 ts.
  Proof.
    clear. induction ts as [|u ts IH]; cbn [fold_right]; intros Hin Hle Hlt; [destruct Hin|]. destruct Hin as [->|Hin].
    - pose proof (total_le ts f g (fun x _ => Hle x)). lia.
    - pose proof (IH Hin Hle Hlt). pose proof (Hle u). lia.
  Qed.
  Lemma nset_rank (f g : nat -> task) t x : rank x < rank (f t) -> (forall u, rank (g u) <= rank (f u)) ->
    (forall u, rank (nset g t x u) <= rank (f u)) /\ rank (nset g t x t) < rank (f t).
  Proof. intros H H2. split; [|rewrite nset_same; exact H]. intros u. destruct (Nat.eq_dec u t) as [->|Nu]; [rewrite nset_same; lia|rewrite nset_other by exact Nu; apply H2]. Qed.
  Lemma step_rank kof s t r s' : inv kof s -> step keqb size s t r = Some (Ok s') -> total (c_task s') < total (c_task s).
  Proof.
    intros HI E. assert (Ht : t < n).
    { apply (in_tasks kof s t HI). intros a Ea. unfold step in E. rewrite Ea in E. discriminate. }
    assert (HR : (forall u, rank (c_task s' u) <= rank (c_task s u)) /\ rank (c_task s' t) < rank (c_task s t)).
    { unfold step in E. destruct (c_task s t) as [k|k|k l|k l v|k l a|k l a|k l a|k l|k l|k a|k] eqn:Et; try discriminate; injection E as E.
      - apply bind_inv in E. destruct E as ([e o] & _ & E). injection E as <-. cbn [with_task with_entries c_task]. rewrite <- Et. apply nset_rank; [rewrite Et; destruct o; cbn; lia|auto].
      - destruct (c_loaders s k); subst s'; cbn [with_task c_task]; rewrite <- Et; (apply nset_rank; [rewrite Et; cbn; lia|auto]).
      - destruct r; try discriminate; injection E as <-; cbn [with_task c_task]; rewrite <- Et; (apply nset_rank; [rewrite Et; cbn; lia|auto]).
      - apply bind_inv in E. destruct E as (e & _ & E). injection E as <-. cbn [with_task with_entries c_task]. rewrite <- Et. apply nset_rank; [rewrite Et; cbn; lia|auto].
      - subst s'. cbn [c_task]. rewrite <- Et. apply nset_rank; [rewrite Et; cbn; lia|auto].
      - destruct (existsb _ _); [discriminate|]. injection E as <-. cbn [c_task]. rewrite <- Et. apply nset_rank; [rewrite Et; cbn; lia|]. intros u. rewrite wake_at.
        destruct (c_task s u); try reflexivity. destruct (in_dec _ _ _); cbn; lia.
      - subst s'. cbn [c_task]. rewrite <- Et. apply nset_rank; [rewrite Et; cbn; lia|auto].
      - destruct (c_object s l); subst s'; cbn [with_task c_task]; rewrite <- Et; (apply nset_rank; [rewrite Et; cbn; lia|auto]). }
    destruct HR as [HR1 HR2]. unfold total. apply (total_lt _ _ _ t); [apply in_seq; lia|exact HR1|exact HR2].
  Qed.

  Lemma can_step kof s t r x : inv kof s -> step keqb size s t r = Some x -> 1 <= total (c_task s).
  Proof.
    intros HI E. assert (Ht : t < n).
    { apply (in_tasks kof s t HI). intros a Ea. unfold step in E. rewrite Ea in E. discriminate. }
    assert (H1 : 1 <= rank (c_task s t)) by (unfold step in E; destruct (c_task s t); try discriminate; cbn; lia).
    assert (HT : forall ts, In t ts -> rank (c_task s t) <= fold_right (fun t m => rank (c_task s t) + m) 0 ts).
    { clear. induction ts as [|u ts IH]; intros H; cbn [fold_right]; [destruct H|]. destruct H as [->|H]; [lia|pose proof (IH H); lia]. }
    unfold total. pose proof (HT (seq 0 n) ltac:(apply in_seq; lia)). lia.
  Qed.

  (** ** Whole schedules *)
  Definition loads_good (schedule : list (nat * res V)) : Prop :=
    forall t r, In (t, r) schedule -> t < n -> match r with Ok v => P (kt t) v | Err _ => F (kt t) | _ => True end.
  Lemma step_loads kof s t r s' : inv kof s -> (t < n -> match r with Ok v => P (kt t) v | Err _ => F (kt t) | _ => True end) ->
    step keqb size s t r = Some (Ok s') -> exists kof', inv kof' s'.
  Proof using Heq.
    intros HI HL E. apply (step_inv kof s t r s' HI); [|exact E]. intros k l Et. assert (Ht : t < n) by (apply (in_tasks kof s t HI); rewrite Et; discriminate).
    specialize (HL Ht). pose proof (i_key _ _ HI t Ht) as Hk. rewrite Et in Hk. cbn in Hk. subst k. unfold step in E. rewrite Et in E. destruct r; try discriminate; exact HL.
  Qed.
  Lemma exec_inv schedule : forall kof s s', inv kof s -> loads_good schedule -> exec keqb size s schedule = Ok s' -> exists kof', inv kof' s'.
  Proof using Heq.
    induction schedule as [|[t r] rest IH]; intros kof s s' HI HL E; cbn [exec] in E; [injection E as <-; eauto|].
    assert (HL' : loads_good rest) by (intros t' r' Hin; apply HL; right; exact Hin).
    destruct (step keqb size s t r) as [x|] eqn:Es; [|eauto]. apply bind_inv in E. destruct E as (s1 & -> & E).
    destruct (step_loads kof s t r s1 HI (HL t r (or_introl eq_refl)) Es) as [kof1 H1]. exact (IH _ _ _ H1 HL' E).
  Qed.
  Lemma moved_bound schedule : forall kof s, inv kof s -> loads_good schedule -> moved keqb size s schedule <= total (c_task s).
  Proof using Heq.
    induction schedule as [|[t r] rest IH]; intros kof s HI HL; cbn [moved]; [lia|].
    assert (HL' : loads_good rest) by (intros t' r' Hin; apply HL; right; exact Hin).
    destruct (step keqb size s t r) as [x|] eqn:Es; [|eauto]. destruct x as [s1|e| |].
    - destruct (step_loads kof s t r s1 HI (HL t r (or_introl eq_refl)) Es) as [kof1 H1]. pose proof (IH _ _ H1 HL'). pose proof (step_rank _ _ _ _ _ HI Es). lia.
    - pose proof (can_step _ _ _ _ _ HI Es). lia.
    - pose proof (can_step _ _ _ _ _ HI Es). lia.
    - pose proof (can_step _ _ _ _ _ HI Es). lia.
  Qed.

  (** ** One thread *)
  Variable limit : nat.
  Record coop (kof : nat -> K) (s : state) (l : list (K * V)) : Prop :=
    { co_inv : inv kof s;
      co_list : holds_list keqb size limit (c_entries s) l;
      co_await : forall t, awaits (c_task s t) = true \/ exists k, c_task s t = TLookup k;
      co_apart : forall k, In k (keys l) -> c_loaders s k = None }.

  (** What a turn of task [t] does. *)
  Definition turned (s : state) (l : list (K * V)) (t : nat) (r : res V) (s' : state) (l' : list (K * V)) : Prop :=
    match c_task s t with
    | TLookup k =>
        match found keqb k l with
        | Some v => c_task s' t = TDone k (Ok v) /\ l' = (k, v) :: without keqb k l /\ c_loaders s' = c_loaders s
        | None =>
            l' = l /\
            match c_loaders s k with
            | Some lo => c_task s' t = TBlocked k lo /\ c_loaders s' = c_loaders s
            | None => exists lo, c_task s' t = TLoading k lo /\ c_loaders s' = kset (c_loaders s) k (Some lo)
            end
        end
    | TLoading k _ =>
        c_task s' t = TDone k r /\ c_loaders s' = kset (c_loaders s) k None /\
        l' = match r with Ok v => fitting size limit ((k, v) :: l) | _ => l end
    | _ => s' = s /\ l' = l
    end.

  (** What a step leaves to the other tasks. *)
  Definition others (s s' : state) (t : nat) : Prop :=
    forall u, u <> t -> c_task s' u = c_task s u \/ (exists k lo a, c_task s u = TBlocked k lo /\ c_task s' u = TDone k a).
  Lemma others_refl s t : others s s t.
  Proof. intros u _. left. reflexivity. Qed.
  Lemma others_trans s1 s2 s3 t : others s1 s2 t -> others s2 s3 t -> others s1 s3 t.
  Proof.
    intros H1 H2 u Nu. destruct (H1 u Nu) as [E1|(k & lo & a & E1 & E2)]; destruct (H2 u Nu) as [E3|(k' & lo' & a' & E3 & E4)].
    - left. congruence.
    - right. exists k', lo', a'. split; congruence.
    - right. exists k, lo, a. split; congruence.
    - congruence.
  Qed.
  Lemma others_await s s' t : others s s' t -> awaits (c_task s' t) = true ->
    (forall u, awaits (c_task s u) = true \/ exists k, c_task s u = TLookup k) -> forall u, awaits (c_task s' u) = true \/ exists k, c_task s' u = TLookup k.
  Proof.
    intros HO Ht HA u. destruct (Nat.eq_dec u t) as [->|Nu]; [left; exact Ht|]. destruct (HO u Nu) as [->|(k & lo & a & _ & ->)]; [apply HA|left; reflexivity].
  Qed.
  Lemma run_step m s t r s1 : awaits (c_task s t) = false -> step keqb size s t r = Some (Ok s1) -> run_on keqb size (S m) s t r = run_on keqb size m s1 t r.
  Proof. intros H E. cbn [run_on]. rewrite H, E. reflexivity. Qed.
  Lemma run_end m s t r : awaits (c_task s t) = true -> run_on keqb size (S m) s t r = Ok s.
  Proof. intros H. cbn [run_on]. rewrite H. reflexivity. Qed.
  Lemma others_nset s e lds nx ob wt t x : others s (mkState e lds nx ob wt (nset (c_task s) t x)) t.
  Proof. intros u Nu. left. cbn [c_task]. apply nset_other. exact Nu. Qed.

  (** From the end of the load on: the object is set, the waiters are told, the loader is removed. *)
  Lemma coop_finish kof s t k lo a r m : inv kof s -> c_task s t = TFinish k lo a ->
    exists s' kof', run_on keqb size (S (S (S (S m)))) s t r = Ok s' /\ inv kof' s' /\ c_task s' t = TDone k a /\ others s s' t /\
      c_entries s' = c_entries s /\ c_loaders s' = kset (c_loaders s) k None.
  Proof using Heq.
    intros HI Et.
    set (s1 := mkState (c_entries s) (c_loaders s) (c_next s) (nset (c_object s) lo (Some (told a))) (c_waiters s) (nset (c_task s) t (TNotify k lo a))).
    assert (E1 : step keqb size s t r = Some (Ok s1)) by (unfold step; rewrite Et; reflexivity).
    destruct (step_inv kof s t r s1 HI ltac:(rewrite Et; discriminate) E1) as [kof1 H1].
    assert (T1 : c_task s1 t = TNotify k lo a) by (cbn [s1 c_task]; apply nset_same).
    set (s2 := mkState (c_entries s1) (c_loaders s1) (c_next s1) (c_object s1) (nset (c_waiters s1) lo [])
                       (nset (wake (c_task s1) (told a) (c_waiters s1 lo)) t (TRemove k lo a))).
    assert (E2 : step keqb size s1 t r = Some (Ok s2)) by (unfold step; rewrite T1, (nobody_gone _ _ lo H1); reflexivity).
    destruct (step_inv kof1 s1 t r s2 H1 ltac:(rewrite T1; discriminate) E2) as [kof2 H2].
    assert (T2 : c_task s2 t = TRemove k lo a) by (cbn [s2 c_task]; apply nset_same).
    set (s3 := mkState (c_entries s2) (kset (c_loaders s2) k None) (c_next s2) (c_object s2) (c_waiters s2) (nset (c_task s2) t (TDone k a))).
    assert (E3 : step keqb size s2 t r = Some (Ok s3)) by (unfold step; rewrite T2; reflexivity).
    destruct (step_inv kof2 s2 t r s3 H2 ltac:(rewrite T2; discriminate) E3) as [kof3 H3].
    assert (T3 : c_task s3 t = TDone k a) by (cbn [s3 c_task]; apply nset_same).
    exists s3, kof3. split; [|split; [exact H3|split; [exact T3|split; [|split; reflexivity]]]].
    - rewrite (run_step _ s t r s1), (run_step _ s1 t r s2), (run_step _ s2 t r s3), run_end; rewrite ?Et, ?T1, ?T2, ?T3; auto.
    - apply (others_trans s s1); [apply others_nset|]. apply (others_trans s1 s2); [|apply others_nset].
      intros u Nu. cbn [s2 c_task]. rewrite nset_other by exact Nu. rewrite wake_at. destruct (c_task s1 u) as [ | | | | | | | |k' lo'| | ] eqn:Eu; auto.
      destruct (in_dec _ _ _); [right; exists k', lo', (told a); auto|auto].
  Qed.

  Lemma coop_turn kof s l t r : coop kof s l -> (forall k lo, c_task s t = TLoading k lo -> good k r) ->
    exists s' kof' l', turn keqb size s t r = Ok s' /\ coop kof' s' l' /\ turned s l t r s' l'.
  Proof using Heq.
    intros [HI HL HA HS] Hload. unfold turned. destruct (HA t) as [Ha|[k Et]].
    - destruct (c_task s t) as [k|k|k lo|k lo v|k lo a|k lo a|k lo a|k lo|k lo|k a|k] eqn:Et; try discriminate.
      2-4: (exists s, kof, l; unfold turn, step; rewrite Et; split; [reflexivity|split; [constructor; auto|auto]]).
      (* the load ends *)
      assert (Hr : good k r) by exact (Hload k lo eq_refl).
      assert (Ht : t < n) by (apply (in_tasks kof s t HI); rewrite Et; discriminate).
      assert (El : c_loaders s k = Some lo) by (pose proof (i_own _ _ HI t lo) as D; rewrite Et in D; exact (D eq_refl)).
      assert (Nk : ~ In k (keys l)) by (intros C; apply HS in C; congruence).
      assert (Fin : exists s1 kof1 l' m, inv kof1 s1 /\ c_task s1 t = TFinish k lo r /\ c_loaders s1 = c_loaders s /\ others s s1 t /\
                holds_list keqb size limit (c_entries s1) l' /\ l' = match r with Ok v => fitting size limit ((k, v) :: l) | _ => l end /\
                turn keqb size s t r = run_on keqb size (S (S (S (S m)))) s1 t r).
      { destruct r as [v|e| |]; try destruct Hr.
        - destruct (insert_rep keqb size Heq limit (c_entries s) l k v HL Nk) as (e & Ei & HL').
          set (s1 := with_task s t (TInsert k lo v)).
          assert (E1 : step keqb size s t (Ok v) = Some (Ok s1)) by (unfold step; rewrite Et; reflexivity).
          destruct (step_inv kof s t (Ok v) s1 HI ltac:(rewrite Et; exact Hload) E1) as [kof1 H1].
          assert (T1 : c_task s1 t = TInsert k lo v) by (cbn [s1 with_task c_task]; apply nset_same).
          set (s2 := with_task (with_entries s1 e) t (TFinish k lo (Ok v))).
          assert (E2 : step keqb size s1 t (Ok v) = Some (Ok s2)).
          { unfold step. rewrite T1. replace (c_entries s1) with (c_entries s) by reflexivity. rewrite Ei. reflexivity. }
          destruct (step_inv kof1 s1 t (Ok v) s2 H1 ltac:(rewrite T1; discriminate) E2) as [kof2 H2].
          exists s2, kof2, (fitting size limit ((k, v) :: l)), 0. split; [exact H2|]. split; [cbn [s2 with_task c_task]; apply nset_same|]. split; [reflexivity|].
          split; [apply (others_trans s s1); [apply others_nset|exact (others_nset s1 e (c_loaders s1) (c_next s1) (c_object s1) (c_waiters s1) t _)]|]. split; [exact HL'|]. split; [reflexivity|].
          unfold turn. rewrite E1. cbn [bind]. rewrite (run_step _ s1 t (Ok v) s2); [reflexivity|rewrite T1; reflexivity|exact E2].
        - set (s1 := with_task s t (TFinish k lo (Err e))).
          assert (E1 : step keqb size s t (Err e) = Some (Ok s1)) by (unfold step; rewrite Et; reflexivity).
          destruct (step_inv kof s t (Err e) s1 HI ltac:(rewrite Et; exact Hload) E1) as [kof1 H1].
          exists s1, kof1, l, 1. split; [exact H1|]. split; [cbn [s1 with_task c_task]; apply nset_same|]. split; [reflexivity|]. split; [apply others_nset|]. split; [exact HL|]. split; [reflexivity|].
          unfold turn. rewrite E1. reflexivity. }
      destruct Fin as (s1 & kof1 & l' & m & H1 & T1 & L1 & O1 & HL1 & El' & ET).
      destruct (coop_finish kof1 s1 t k lo r r m H1 T1) as (s2 & kof2 & ER & H2 & T2 & O2 & En2 & L2).
      exists s2, kof2, l'. split; [rewrite ET; exact ER|]. split; [|rewrite T2, L2, L1; auto]. constructor.
      + exact H2.
      + rewrite En2. exact HL1.
      + apply (others_await s s2 t (others_trans _ _ _ _ O1 O2)); [rewrite T2; reflexivity|exact HA].
      + rewrite L2, L1. intros k' Hin. destruct (key_dec keqb Heq k' k) as [->|Nk']; [apply kset_same|]. rewrite kset_other by exact Nk'. apply HS.
        rewrite El' in Hin. destruct r as [v|e| |]; try exact Hin. destruct (fitting_prefix size ((k, v) :: l) limit) as [q Eq].
        assert (Hin' : In k' (keys ((k, v) :: l))) by (rewrite Eq; unfold keys; rewrite map_app; apply in_or_app; left; exact Hin).
        destruct Hin' as [C|Hin']; [cbn in C; congruence|exact Hin'].
    - (* the look up *) rewrite Et. pose proof (lookup_rep keqb size Heq limit (c_entries s) l k HL) as LK. destruct (found keqb k l) as [v|] eqn:Ef.
      + destruct LK as (e & Ek & HL'). set (s1 := with_task (with_entries s e) t (TDone k (Ok v))).
        assert (E1 : step keqb size s t r = Some (Ok s1)) by (unfold step; rewrite Et, Ek; reflexivity).
        destruct (step_inv kof s t r s1 HI Hload E1) as [kof1 H1].
        assert (T1 : c_task s1 t = TDone k (Ok v)) by (cbn [s1 with_task c_task]; apply nset_same).
        exists s1, kof1, ((k, v) :: without keqb k l). split; [|split; [|rewrite T1; auto]].
        * unfold turn. rewrite E1. cbn [bind]. apply run_end. rewrite T1. reflexivity.
        * constructor; [exact H1|exact HL'| |].
          -- apply (others_await s s1 t (others_nset s e (c_loaders s) (c_next s) (c_object s) (c_waiters s) t _)); [rewrite T1; reflexivity|exact HA].
          -- intros k' Hin. change (c_loaders s1) with (c_loaders s). apply HS. destruct Hin as [C|Hin].
             ++ cbn in C. subst k'. apply (found_split keqb Heq) in Ef. destruct Ef as (l1 & l2 & -> & _). unfold keys. rewrite map_app. apply in_or_app. right. left. reflexivity.
             ++ unfold keys, without in Hin. apply in_map_iff in Hin. destruct Hin as (q & <- & Hq). apply filter_In in Hq. apply in_map. tauto.
      + set (s1 := with_task (with_entries s (c_entries s)) t (TRegister k)).
        assert (E1 : step keqb size s t r = Some (Ok s1)) by (unfold step; rewrite Et, LK; reflexivity).
        destruct (step_inv kof s t r s1 HI Hload E1) as [kof1 H1].
        assert (T1 : c_task s1 t = TRegister k) by (cbn [s1 with_task c_task]; apply nset_same).
        assert (O1 : others s s1 t) by exact (others_nset s (c_entries s) (c_loaders s) (c_next s) (c_object s) (c_waiters s) t _).
        destruct (c_loaders s k) as [lo|] eqn:El.
        * set (s2 := with_task s1 t (TWait k lo)).
          assert (E2 : step keqb size s1 t r = Some (Ok s2)) by (unfold step; rewrite T1; change (c_loaders s1) with (c_loaders s); rewrite El; reflexivity).
          destruct (step_inv kof1 s1 t r s2 H1 ltac:(rewrite T1; discriminate) E2) as [kof2 H2].
          assert (T2 : c_task s2 t = TWait k lo) by (cbn [s2 with_task c_task]; apply nset_same).
          assert (EO : c_object s2 lo = None).
          { change (c_object s2) with (c_object s). destruct (i_has _ _ HI _ _ El) as [u Eu]. apply (i_none _ _ HI u).
            destruct (HA u) as [Au|[k' Au]]; [|rewrite Au in Eu; discriminate]. destruct (c_task s u); try discriminate; exact Eu. }
          set (s3 := mkState (c_entries s2) (c_loaders s2) (c_next s2) (c_object s2) (nset (c_waiters s2) lo (c_waiters s2 lo ++ [t])) (nset (c_task s2) t (TBlocked k lo))).
          assert (E3 : step keqb size s2 t r = Some (Ok s3)) by (unfold step; rewrite T2, EO; reflexivity).
          destruct (step_inv kof2 s2 t r s3 H2 ltac:(rewrite T2; discriminate) E3) as [kof3 H3].
          assert (T3 : c_task s3 t = TBlocked k lo) by (cbn [s3 c_task]; apply nset_same).
          assert (O3 : others s s3 t) by (apply (others_trans s s1); [exact O1|apply (others_trans s1 s2); apply others_nset]).
          exists s3, kof3, l. split; [|split; [|split; [reflexivity|rewrite T3; auto]]].
          -- unfold turn. rewrite E1. cbn [bind]. rewrite (run_step _ s1 t r s2), (run_step _ s2 t r s3), run_end; rewrite ?T1, ?T2, ?T3; auto.
          -- constructor; [exact H3|exact HL| |exact HS]. apply (others_await s s3 t O3); [rewrite T3; reflexivity|exact HA].
        * set (lo := c_next s1).
          set (s2 := mkState (c_entries s1) (kset (c_loaders s1) k (Some lo)) (S (c_next s1)) (nset (c_object s1) lo None) (nset (c_waiters s1) lo []) (nset (c_task s1) t (TLoading k lo))).
          assert (E2 : step keqb size s1 t r = Some (Ok s2)) by (unfold step; rewrite T1; change (c_loaders s1) with (c_loaders s) at 1; rewrite El; reflexivity).
          destruct (step_inv kof1 s1 t r s2 H1 ltac:(rewrite T1; discriminate) E2) as [kof2 H2].
          assert (T2 : c_task s2 t = TLoading k lo) by (cbn [s2 c_task]; apply nset_same).
          assert (O2 : others s s2 t) by (apply (others_trans s s1); [exact O1|apply others_nset]).
          exists s2, kof2, l. split; [|split; [|split; [reflexivity|exists lo; rewrite T2; auto]]].
          -- unfold turn. rewrite E1. cbn [bind]. rewrite (run_step _ s1 t r s2), run_end; rewrite ?T1, ?T2; auto.
          -- constructor; [exact H2|exact HL| |].
             ++ apply (others_await s s2 t O2); [rewrite T2; reflexivity|exact HA].
             ++ intros k' Hin. cbn [s2 c_loaders]. rewrite kset_other; [apply HS; exact Hin|]. intros ->. apply (found_none keqb Heq) in Ef. contradiction.
  Qed.

  Lemma coop_turns schedule : forall kof s l, coop kof s l -> loads_good schedule -> Forall (fun x => answers (snd x)) schedule ->
    exists s' kof' l', turns keqb size s schedule = Ok s' /\ coop kof' s' l'.
  Proof using Heq.
    induction schedule as [|[t r] rest IH]; intros kof s l HC HL HA; cbn [turns]; [exists s, kof, l; split; [reflexivity|exact HC]|].
    assert (HL' : loads_good rest) by (intros t' r' Hin; apply HL; right; exact Hin).
    destruct (coop_turn kof s l t r HC) as (s1 & kof1 & l1 & -> & H1 & _).
    { intros k lo Et. pose proof (co_inv _ _ _ HC) as HI. assert (Ht : t < n) by (apply (in_tasks kof s t HI); rewrite Et; discriminate).
      pose proof (HL t r (or_introl eq_refl) Ht) as H. pose proof (i_key _ _ HI t Ht) as Hk. rewrite Et in Hk. cbn in Hk. rewrite <- Hk in H. apply Forall_inv in HA. destruct r; try destruct HA; exact H. }
    cbn [bind]. exact (IH kof1 s1 l1 H1 HL' (Forall_inv_tail HA)).
  Qed.
End Conc.

Section Start.
  Context {K V : Type}.
  Variables (keqb : K -> K -> bool) (size : V -> nat).
  Hypothesis Heq : forall a b, keqb a b = true <-> a = b.
  Variables (limit : nat) (ks : list K) (other : K).
  Notation kt := (fun t => nth t ks other).

  Lemma start_task t : c_task (start (V := V) limit ks other) t = if t <? length ks then TLookup (nth t ks other) else TDone other (Err ELoad).
  Proof.
    cbn [start c_task]. destruct (Nat.ltb_spec t (length ks)) as [H|H].
    - rewrite (nth_error_nth' ks other H). reflexivity.
    - rewrite (proj2 (nth_error_None ks t) H). reflexivity.
  Qed.
  Lemma start_inv P F : inv keqb (length ks) kt other P F (fun _ => other) (start (V := V) limit ks other).
  Proof using Type.
    clear Heq size.
    assert (HO : forall t, owner (c_task (start (V := V) limit ks other) t) = None) by (intros t; rewrite start_task; destruct (_ <? _); reflexivity).
    constructor.
    - intros t H. rewrite start_task. destruct (Nat.ltb_spec t (length ks)); [reflexivity|lia].
    - intros t H. rewrite start_task. destruct (Nat.ltb_spec t (length ks)); [lia|reflexivity].
    - intros t. rewrite start_task. destruct (_ <? _); reflexivity.
    - intros t l E. rewrite HO in E. discriminate.
    - intros t t' l E. rewrite HO in E. discriminate.
    - cbn. discriminate.
    - cbn. discriminate.
    - intros t k l. rewrite start_task. destruct (_ <? _); discriminate.
    - intros t k l. rewrite start_task. destruct (_ <? _); discriminate.
    - intros t l [].
    - intros t l. rewrite start_task. destruct (_ <? _); discriminate.
    - intros t l E. rewrite HO in E. discriminate.
    - cbn. discriminate.
    - intros t r H. rewrite start_task. destruct (Nat.ltb_spec t (length ks)); [discriminate|lia].
    - intros k e E. discriminate.
  Qed.
  Lemma start_coop P F : coop keqb size (length ks) kt other P F limit (fun _ => other) (start (V := V) limit ks other) [].
  Proof using Heq.
    constructor.
    - apply start_inv.
    - constructor; cbn; try lia; try reflexivity. apply rep_new.
    - intros t. rewrite start_task. destruct (_ <? _); [right; eauto|left; reflexivity].
    - intros k [].
  Qed.
  Lemma start_total : total (length ks) (c_task (start (V := V) limit ks other)) <= 7 * length ks.
  Proof.
    clear Heq. unfold total. enough (H : forall ts, fold_right (fun t m => rank (c_task (start (V := V) limit ks other) t) + m) 0 ts <= 7 * length ts) by (rewrite <- (seq_length (length ks) 0) at 2; apply H).
    induction ts as [|t ts IH]; cbn [fold_right length]; [lia|]. rewrite start_task at 1. destruct (_ <? _); cbn [rank]; lia.
  Qed.

  (** ** Nothing is loaded twice as long as everything fits *)
  Variable val : K -> V.
  Definition all_sizes (ds : list K) : nat := fold_right (fun k m => size (val k) + m) 0 ds.
  Lemma all_sizes_app a b : all_sizes (a ++ b) = all_sizes a + all_sizes b.
  Proof. clear. unfold all_sizes. induction a as [|x a IH]; cbn [app fold_right]; [reflexivity|]. rewrite IH. lia. Qed.
  Lemma sum_within (l : list (K * V)) : forall ds, NoDup (keys l) -> (forall k v, In (k, v) l -> v = val k /\ In k ds) -> sum_sizes size l <= all_sizes ds.
  Proof.
    clear Heq. induction l as [|[k v] l IH]; intros ds HN HI; [cbn; lia|]. cbn [sum_sizes fold_right snd]. fold (sum_sizes size l).
    destruct (HI k v (or_introl eq_refl)) as [-> Hin]. apply in_split in Hin. destruct Hin as (d1 & d2 & ->).
    unfold keys in HN. cbn [map fst] in HN. apply NoDup_cons_iff in HN. destruct HN as [Hk HN].
    assert (HI' : forall k' v', In (k', v') l -> v' = val k' /\ In k' (d1 ++ d2)).
    { intros k' v' H'. destruct (HI k' v' (or_intror H')) as [-> H2]. split; [reflexivity|]. apply in_app_or in H2. apply in_or_app. destruct H2 as [H2|[<-|H2]]; auto.
      exfalso. apply Hk. apply in_map_iff. exists (k, val k). auto. }
    specialize (IH (d1 ++ d2) HN HI'). rewrite all_sizes_app in IH. rewrite all_sizes_app. cbn [all_sizes fold_right]. fold (all_sizes d2). lia.
  Qed.
  Lemma linked_in m l : forall more less k v, linked keqb size m more l less -> In (k, v) l -> exists e, eget keqb m k = Some e /\ en_obj e = v.
  Proof.
    clear. induction l as [|p l IH]; intros more less k v; cbn [linked]; [intros _ []|]. intros [E HL] [->|Hin]; [|eauto]. cbn [fst snd] in E. eexists. split; [exact E|reflexivity].
  Qed.

  Lemma loads_once schedule : forall started kof s l,
    coop keqb size (length ks) kt other (fun k v => v = val k /\ In k ks) (fun _ => False) limit kof s l ->
    (forall t r, In (t, r) schedule -> t < length ks -> r = Ok (val (kt t))) ->
    all_sizes (nodup (key_dec keqb Heq) ks) <= limit ->
    NoDup started -> (forall k, In k started -> In k (keys l) \/ c_loaders s k <> None) ->
    NoDup (started ++ loads keqb size s schedule).
  Proof using Heq.
    induction schedule as [|[t r] rest IH]; intros started kof s l HC HG HB HN HS; cbn [loads]; [rewrite app_nil_r; exact HN|].
    pose proof (co_inv _ _ _ _ _ _ _ _ _ _ _ HC) as HI.
    destruct (coop_turn keqb size Heq _ _ _ _ _ _ kof s l t r HC) as (s1 & kof1 & l1 & -> & H1 & HT).
    { intros k lo Et. assert (Ht : t < length ks) by (eapply in_tasks; [exact HI|rewrite Et; discriminate]).
      rewrite (HG t r (or_introl eq_refl) Ht). pose proof (i_key _ _ _ _ _ _ _ _ HI t Ht) as Hk. rewrite Et in Hk. cbn [task_key] in Hk. subst k. cbn [good]. split; [reflexivity|apply nth_In; exact Ht]. }
    assert (HG' : forall t r, In (t, r) rest -> t < length ks -> r = Ok (val (kt t))) by (intros t' r' H'; apply HG; right; exact H').
    rewrite app_assoc. apply (IH _ kof1 s1 l1 H1 HG' HB).
    - unfold turned in HT. unfold begins. destruct (c_task s t) as [k| | | | | | | | | | ] eqn:Et; try (rewrite app_nil_r; exact HN).
      destruct (found keqb k l) as [v|] eqn:Ef; [destruct HT as [-> _]; rewrite app_nil_r; exact HN|]. destruct HT as [_ HT].
      destruct (c_loaders s k) as [lo|] eqn:El; [destruct HT as [-> _]; rewrite app_nil_r; exact HN|]. destruct HT as (lo & -> & _).
      apply (found_none keqb Heq) in Ef. assert (Nk : ~ In k started) by (intros C; destruct (HS k C) as [C'|C']; [contradiction|congruence]).
      apply NoDup_rev in HN. rewrite <- (rev_involutive (started ++ [k])). apply NoDup_rev. rewrite rev_app_distr. cbn [rev app]. constructor; [rewrite <- in_rev; exact Nk|exact HN].
    - intros k Hin. apply in_app_or in Hin. unfold turned in HT. unfold begins in Hin. destruct (c_task s t) as [k0|k0|k0 lo0|k0 lo0 v0|k0 lo0 a0|k0 lo0 a0|k0 lo0 a0|k0 lo0|k0 lo0|k0 a0|k0] eqn:Et;
        try (destruct HT as [-> ->]; destruct Hin as [Hin|[]]; exact (HS k Hin)).
      + destruct (found keqb k0 l) as [v|] eqn:Ef.
        * destruct HT as (T1 & -> & ->). rewrite T1 in Hin. destruct Hin as [Hin|[]]. destruct (HS k Hin) as [H|H]; [left|right; exact H].
          unfold keys. cbn [map fst]. destruct (key_dec keqb Heq k k0) as [->|Nk]; [left; reflexivity|right]. fold (keys (without keqb k0 l)). rewrite (keys_without keqb). apply filter_In. split; [exact H|].
          rewrite (keqb_neq keqb Heq) by congruence. reflexivity.
        * destruct HT as (-> & HT). destruct (c_loaders s k0) as [lo|] eqn:El.
          -- destruct HT as (T1 & ->). rewrite T1 in Hin. destruct Hin as [Hin|[]]. exact (HS k Hin).
          -- destruct HT as (lo & T1 & ->). rewrite T1 in Hin. destruct (key_dec keqb Heq k k0) as [->|Nk]; [right; rewrite (kset_same keqb Heq); discriminate|].
             rewrite (kset_other keqb Heq) by exact Nk. destruct Hin as [Hin|[Hin|[]]]; [exact (HS k Hin)|congruence].
      + destruct HT as (T1 & -> & ->). assert (Ht : t < length ks) by (eapply in_tasks; [exact HI|rewrite Et; discriminate]).
        rewrite (HG t r (or_introl eq_refl) Ht) in *. pose proof (i_key _ _ _ _ _ _ _ _ HI t Ht) as Hk. rewrite Et in Hk. cbn [task_key] in Hk.
        assert (Efit : fitting size limit ((k0, val (nth t ks other)) :: l) = (k0, val (nth t ks other)) :: l).
        { apply fitting_all. transitivity (all_sizes (nodup (key_dec keqb Heq) ks)); [|exact HB]. apply sum_within.
          - unfold keys. cbn [map fst]. constructor.
            + intros C. apply (co_apart _ _ _ _ _ _ _ _ _ _ _ HC) in C. pose proof (i_own _ _ _ _ _ _ _ _ HI t lo0) as D. rewrite Et in D. specialize (D eq_refl). cbn [task_key] in D. congruence.
            + exact (rp_nodup _ _ _ _ (hl_rep _ _ _ _ _ (co_list _ _ _ _ _ _ _ _ _ _ _ HC))).
          - intros k' v' [H|H].
            + injection H as <- <-. rewrite Hk. split; [reflexivity|]. apply nodup_In. apply nth_In. exact Ht.
            + destruct (linked_in _ _ _ _ _ _ (rp_links _ _ _ _ (hl_rep _ _ _ _ _ (co_list _ _ _ _ _ _ _ _ _ _ _ HC))) H) as (e & Ee & <-).
              destruct (i_entries _ _ _ _ _ _ _ _ HI k' e Ee) as [_ [Hv Hin']]. split; [exact Hv|]. apply nodup_In. exact Hin'. }
        rewrite Efit. destruct Hin as [Hin|[]]. unfold keys. cbn [map fst In]. destruct (key_dec keqb Heq k k0) as [->|Nk]; [left; left; reflexivity|].
        rewrite (kset_other keqb Heq) by exact Nk. destruct (HS k Hin) as [H|H]; [left; right; exact H|right; exact H].
  Qed.
End Start.
