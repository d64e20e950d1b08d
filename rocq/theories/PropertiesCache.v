(** * Properties of the cache of loaded objects (C29, C30, C31, C41)

    The specification is CacheSpec.v: a list of objects, the most recently used
    first. In the theorems [load] is an oracle: each get comes with what [load]
    would answer at that time. Keys are of any type with a decidable equality. *)
From Verif Require Import Base BaseFacts StreamModel CacheModel CacheSpec CacheProofs CacheConc CacheDrop CacheGivenUp.
From Verif Require CacheCancel.
From Verif Require Import NodeModel NodeProofs PropertiesNode.

Definition decides {K} (keqb : K -> K -> bool) : Prop := forall a b, keqb a b = true <-> a = b.

(** ** C29: the cache is transparent *)

(** Every get of a sequence answers what loading answers at that time, if stored
    objects do not change. *)
Theorem C29_transparent :
  forall (K V : Type) (keqb : K -> K -> bool) (size : V -> nat) (limit : nat) (requests : list (K * res V)),
    decides keqb -> stable requests -> Forall (fun x => answers (snd x)) requests ->
    exists s out,
      gets keqb size (entries_new limit) requests = Ok (s, out) /\
      map snd out = map snd requests.
Proof.
  intros K V keqb size limit requests Heq HS HA.
  assert (H0 : holds_list keqb size limit (entries_new limit) []) by (constructor; cbn; try lia; [apply rep_new|reflexivity..]).
  destruct (gets_rep keqb size Heq limit requests _ _ H0 HA) as (s & E & _). eexists. eexists. split; [exact E|].
  apply (lru_transparent keqb size Heq); [intros k v r []|exact HS].
Qed.

(** What a store holds if only this library writes to it. *)
Definition written (hash : bytes -> cid) (st : store) : Prop :=
  Forall (fun p => exists nd, wf_node nd /\ p = (hash (node_bytes nd), node_bytes nd)) st.

(** The resolver: gets of identifiers, each made when the store is in some state. The
    store only grows, and no two of its objects with one identifier differ. The
    answers are those of the store, for every limit and every way to count sizes. *)
Theorem C29_resolver :
  forall (hash : bytes -> cid) (size : node -> nat) (limit : nat) (requests : list (store * cid)),
    (forall before st between st' after, map fst requests = before ++ st :: between ++ st' :: after -> incl st st') ->
    Forall (fun x => functional (fst x) /\ written hash (fst x)) requests ->
    exists s out,
      gets cid_eqb size (entries_new limit) (map (fun x => (snd x, retrieve (fst x) (snd x))) requests) = Ok (s, out) /\
      map snd out = map (fun x => retrieve (fst x) (snd x)) requests.
Proof.
  intros hash size limit requests HG HF.
  destruct (C29_transparent cid node cid_eqb size limit (map (fun x => (snd x, retrieve (fst x) (snd x))) requests)) as (s & out & E & EO).
  - exact cid_eqb_spec.
  - intros before k v between r after E.
    assert (HE : exists b1 x b2 y b3, requests = b1 ++ x :: b2 ++ y :: b3 /\ snd x = k /\ retrieve (fst x) (snd x) = Ok v /\ snd y = k /\ retrieve (fst y) (snd y) = r).
    { apply map_eq_app in E. destruct E as (b1 & m1 & -> & _ & E). destruct m1 as [|x m1]; [discriminate|]. cbn [map] in E. injection E as E1 E2 E3.
      apply map_eq_app in E3. destruct E3 as (b2 & m2 & -> & _ & E3). destruct m2 as [|y b3]; [discriminate|]. cbn [map] in E3. injection E3 as E4 E5 E6.
      exists b1, x, b2, y, b3. auto. }
    destruct HE as (b1 & x & b2 & y & b3 & -> & Hx & Rx & Hy & <-). rewrite Hy. rewrite <- Hx. apply (retrieve_incl (fst x)); [| |exact Rx].
    + apply (HG (map fst b1) (fst x) (map fst b2) (fst y) (map fst b3)). rewrite map_app. cbn [map]. rewrite map_app. reflexivity.
    + rewrite Forall_forall in HF. apply (HF y). apply in_or_app. right. right. apply in_or_app. right. left. reflexivity.
  - rewrite Forall_forall in *. intros p Hp. apply in_map_iff in Hp. destruct Hp as ([st c] & <- & Hin). destruct (HF _ Hin) as [Hf Hw]. cbn [fst snd] in *.
    unfold retrieve. destruct (store_get st c) as [b|] eqn:Eg; [|exact I]. apply store_get_some in Eg. unfold written in Hw. rewrite Forall_forall in Hw.
    destruct (Hw _ Eg) as (nd & Wn & En). injection En as -> ->. pose proof (retrieve_saved st hash nd Wn Hf Eg) as R. unfold retrieve in R.
    rewrite (store_get_in _ _ _ Hf Eg) in R. rewrite R. exact I.
  - exists s, out. split; [exact E|]. rewrite EO, map_map. reflexivity.
Qed.

(** A store that grows between two gets: the first finds nothing, the second finds the
    dataset, the third has it from the cache. *)
Example C29_resolver_example :
  let n := NDataset ex_dataset in
  let c := ex_hash (node_bytes n) in
  let st := [(c, node_bytes n)] in
  let requests := [([], c); (st, c); (st, c)] in
  (forall before st between st' after, map fst requests = before ++ st :: between ++ st' :: after -> incl st st') /\
  Forall (fun x => functional (fst x) /\ written ex_hash (fst x)) requests /\
  exists s a, gets cid_eqb (fun _ => 1) (entries_new 2) (map (fun x => (snd x, retrieve (fst x) (snd x))) requests) =
              Ok (s, [(true, Err ENotFound); (true, Ok a); (false, Ok a)]).
Proof.
  cbv zeta. set (n := NDataset ex_dataset). set (c := ex_hash (node_bytes n)).
  assert (HF : functional [(c, node_bytes n)]) by (intros c' b1 b2 [E1|[]] [E2|[]]; congruence).
  assert (HW : written ex_hash [(c, node_bytes n)]) by (constructor; [exists n; split; [exact wf_ex_dataset|reflexivity]|constructor]).
  split; [|split].
  - intros before st between st' after E. cbn [map fst] in E. destruct before as [|x before].
    + injection E as <- _. intros p [].
    + injection E as _ E. destruct before as [|y before].
      * injection E as <- E. destruct between as [|z between]; [injection E as <- _; apply incl_refl|]. injection E as _ E. destruct between; discriminate.
      * injection E as _ E. destruct before as [|z before]; [injection E as _ E; destruct between; discriminate|]. injection E as _ E. destruct before; discriminate.
  - repeat (constructor; [split; [first [exact HF|intros c' b1 b2 []]|first [exact HW|constructor]]|]). constructor.
  - eexists. eexists. vm_compute. reflexivity.
Qed.

(** ** C30: the limit, and what is evicted *)

(** The cache works as the list of CacheSpec.v does: what is loaded, what is answered. *)
Theorem C30_least_recently_used :
  forall (K V : Type) (keqb : K -> K -> bool) (size : V -> nat) (limit : nat) (requests : list (K * res V)),
    decides keqb -> Forall (fun x => answers (snd x)) requests ->
    exists s, gets keqb size (entries_new limit) requests = Ok (s, snd (lru keqb size limit [] requests)).
Proof.
  intros K V keqb size limit requests Heq HA.
  assert (H0 : holds_list keqb size limit (entries_new limit) []) by (constructor; cbn; try lia; [apply rep_new|reflexivity..]).
  destruct (gets_rep keqb size Heq limit requests _ _ H0 HA) as (s & E & _). eauto.
Qed.

(** After any sequence of gets the cache holds a list of objects with distinct keys.
    Their sizes are at most the limit together, and their sum is the recorded size.
    The keys are the last used ones: the first of the keys of all successful gets,
    ordered by last use. The next get calls [load] exactly for keys that are not in
    the list, and answers the objects of the list otherwise. *)
Theorem C30_limit_and_recency :
  forall (K V : Type) (keqb : K -> K -> bool) (size : V -> nat) (limit : nat) (requests : list (K * res V)),
    decides keqb -> Forall (fun x => answers (snd x)) requests ->
    exists s out l,
      gets keqb size (entries_new limit) requests = Ok (s, out) /\
      NoDup (keys l) /\ es_size s = sum_sizes size l /\ sum_sizes size l <= limit /\
      (exists older, recent keqb (used requests out) = keys l ++ older) /\
      (forall k r, answers r -> exists s',
         cache_get keqb size s k r =
           match found keqb k l with Some v => Ok (s', false, Ok v) | None => Ok (s', true, r) end).
Proof.
  intros K V keqb size limit requests Heq HA.
  assert (H0 : holds_list keqb size limit (entries_new limit) []) by (constructor; cbn; try lia; [apply rep_new|reflexivity..]).
  destruct (gets_rep keqb size Heq limit requests _ _ H0 HA) as (s & E & HL). set (l := fst (lru keqb size limit [] requests)) in *.
  exists s, (snd (lru keqb size limit [] requests)), l. split; [exact E|]. split; [exact (rp_nodup _ _ _ _ (hl_rep _ _ _ _ _ HL))|].
  split; [exact (hl_size _ _ _ _ _ HL)|]. split; [exact (hl_fits _ _ _ _ _ HL)|]. split.
  - destruct (lru_recent keqb size Heq limit requests [] [] [] eq_refl) as (t & Et). exists t. symmetry. exact Et.
  - intros k r Hr. destruct (cache_get_rep keqb size Heq limit s l k r HL Hr) as (s' & E' & _). exists s'. rewrite E'. unfold lru_get. destruct (found keqb k l); reflexivity.
Qed.

(** Nothing is evicted before it has to be: as long as an object fits besides the ones
    held, they all stay. *)
Theorem C30_no_needless_eviction :
  forall (K V : Type) (keqb : K -> K -> bool) (size : V -> nat) (limit : nat) (s : entries K V) (l : list (K * V)) (k : K) (v : V),
    decides keqb -> holds_list keqb size limit s l -> found keqb k l = None -> sum_sizes size ((k, v) :: l) <= limit ->
    exists s', cache_get keqb size s k (Ok v) = Ok (s', true, Ok v) /\ holds_list keqb size limit s' ((k, v) :: l).
Proof.
  intros K V keqb size limit s l k v Heq HL Hf HS. destruct (cache_get_rep keqb size Heq limit s l k (Ok v) HL I) as (s' & E & HL').
  exists s'. rewrite E. unfold lru_get in *. rewrite Hf in *. cbn [fst] in HL'. rewrite fitting_all in HL' by exact HS. split; [reflexivity|exact HL'].
Qed.

(** An example: room for two objects. *)
Definition ex_requests : list (nat * res nat) := [(1, Ok 10); (2, Ok 20); (1, Ok 10); (3, Ok 30); (4, Err ENotFound); (2, Ok 20); (1, Ok 10)].
Example C29_example : stable ex_requests /\ Forall (fun x => answers (snd x)) ex_requests.
Proof.
  split; [|repeat constructor].
  intros before k v between r after E.
  assert (H : forall t t' x x', nth_error ex_requests t = Some x -> nth_error ex_requests t' = Some x' -> fst x = fst x' -> snd x = snd x').
  { intros t t' x x' E1 E2. do 7 (try (destruct t as [|t]; [do 7 (try (destruct t' as [|t']; [cbn in E1, E2; injection E1 as <-; injection E2 as <-; cbn; try discriminate; reflexivity|])); destruct t'; discriminate|])). destruct t; discriminate. }
  symmetry. apply (H (length before) (length before + S (length between)) (k, Ok v) (k, r)); [| |reflexivity]; rewrite E.
  - rewrite nth_error_app2, Nat.sub_diag by lia. reflexivity.
  - rewrite nth_error_app2 by lia. replace (length before + S (length between) - length before) with (S (length between)) by lia. cbn [nth_error].
    rewrite nth_error_app2, Nat.sub_diag by lia. reflexivity.
Qed.
Example C30_example : snd (lru Nat.eqb (fun _ => 1) 2 [] ex_requests) =
  [(true, Ok 10); (true, Ok 20); (false, Ok 10); (true, Ok 30); (true, Err ENotFound); (true, Ok 20); (true, Ok 10)].
Proof. vm_compute. reflexivity. Qed.

(** ** C31: concurrent gets

    Tasks [0], [1], ... get the keys [ks]. [exec] runs them step by step in any
    interleaving at the granularity of the locks of cache.rs. In [schedule] each step
    comes with what [load] answers if that step is the end of a load. *)

(** An error that a task returns is that of its own load, or [ELoad]. *)
Section OwnErrors.
  Context {K V : Type}.
  Variables (keqb : K -> K -> bool) (size : V -> nat) (Q : nat -> err -> Prop).
  Hypothesis HQ : forall t, Q t ELoad.
  Record own_errors (s : @state K V) : Prop :=
    { oe_task : forall t e, result (c_task s t) = Some (Err e) -> Q t e;
      oe_object : forall l e, c_object s l = Some (Err e) -> e = ELoad }.

  Lemma told_error r e : @told V r = Err e -> e = ELoad.
  Proof using. unfold told. destruct r; congruence. Qed.
  Lemma wake_errors r ws : (forall e, r = Err e -> e = ELoad) ->
    forall f, (forall t e, result (f t) = Some (Err e) -> Q t e) -> forall t e, result (wake (K := K) (V := V) f r ws t) = Some (Err e) -> Q t e.
  Proof using HQ.
    intros Hr. unfold wake. induction ws as [|w ws IH]; intros f Hf; [exact Hf|]. cbn [fold_left]. apply IH. clear IH.
    destruct (f w) eqn:E; try exact Hf. intros t e. unfold nset. destruct (Nat.eqb_spec w t) as [->|]; [|apply Hf].
    cbn [result]. intros X. injection X as X. rewrite (Hr e X). apply HQ.
  Qed.
  Lemma own_errors_step s t r s' : (forall e, r = Err e -> Q t e) -> own_errors s -> step keqb size s t r = Some (Ok s') -> own_errors s'.
  Proof using HQ.
    intros Hr [H1 H2] E. unfold step in E.
    assert (HT : forall x, (forall e, result x = Some (Err e) -> Q t e) -> forall u e, result (nset (c_task s) t x u) = Some (Err e) -> Q u e).
    { intros x Hx u e. unfold nset. destruct (Nat.eqb_spec t u) as [<-|]; [apply Hx|apply H1]. }
    pose proof (H1 t) as Ht. destruct (c_task s t) as [k|k|k l|k l v|k l a|k l a|k l a|k l|k l|k a|k] eqn:Et; try discriminate; injection E as E.
    - apply bind_inv in E. destruct E as ([en o] & _ & E). injection E as <-. constructor; [|exact H2]. cbn. apply HT.
      destruct o; cbn; intros e X; discriminate.
    - subst s'. destruct (c_loaders s k); (constructor; cbn; [apply HT; cbn; intros e X; discriminate|]); [exact H2|].
      intros l e. unfold nset. destruct (c_next s =? l); [discriminate|apply H2].
    - destruct r as [v|e| |]; try discriminate; injection E as <-; (constructor; [|exact H2]); cbn; apply HT; cbn; intros e' X; [discriminate|].
      injection X as <-. apply Hr. reflexivity.
    - apply bind_inv in E. destruct E as (en & _ & E). injection E as <-. constructor; [|exact H2]. cbn. apply HT. cbn. intros e X; discriminate.
    - subst s'. constructor; cbn; [apply HT; exact Ht|]. intros l' e. unfold nset. destruct (l =? l'); [|apply H2].
      intros X. injection X as X. exact (told_error _ _ X).
    - destruct (existsb _ _); [discriminate|]. injection E as <-. constructor; [|exact H2]. cbn. intros u e. unfold nset.
      destruct (Nat.eqb_spec t u) as [<-|]; [apply Ht|]. apply wake_errors; [intros e'; apply told_error|exact H1].
    - subst s'. constructor; [|exact H2]. cbn. apply HT. exact Ht.
    - subst s'. destruct (c_object s l) as [a|] eqn:Eo; (constructor; [|exact H2]); cbn; apply HT; cbn; intros e X; [|discriminate].
      injection X as ->. rewrite (H2 l e Eo). apply HQ.
  Qed.
  Lemma own_errors_exec schedule : (forall t e, In (t, Err e) schedule -> Q t e) -> forall s s', own_errors s -> exec keqb size s schedule = Ok s' -> own_errors s'.
  Proof using HQ.
    induction schedule as [|[t r] rest IH]; intros Hs s s' Ho E; cbn [exec] in E; [injection E as <-; exact Ho|].
    assert (Hrest : forall t e, In (t, Err e) rest -> Q t e) by (intros u e Hu; apply Hs; right; exact Hu).
    destruct (step keqb size s t r) as [x|] eqn:Es; [|exact (IH Hrest s s' Ho E)].
    apply bind_inv in E. destruct E as (s1 & -> & E). apply (IH Hrest s1 s'); [|exact E].
    apply (own_errors_step s t r s1); [|exact Ho|exact Es]. intros e ->. apply Hs. left. reflexivity.
  Qed.
End OwnErrors.

(** Whatever the interleaving, a task that returns an object returns one that was
    loaded for the key it asked for; a task that returns an error does so because
    loading that key failed, and the error is that of its own load or, if it waited
    for another task's, [ELoad]. *)
Theorem C31_answers_loaded :
  forall (K V : Type) (keqb : K -> K -> bool) (size : V -> nat) (limit : nat) (ks : list K) (other : K) schedule s,
    decides keqb -> exec keqb size (start limit ks other) schedule = Ok s ->
    forall t k k' a, nth_error ks t = Some k -> c_task s t = TDone k' a ->
      k' = k /\
      match a with
      | Ok v => exists t', nth_error ks t' = Some k /\ In (t', Ok v) schedule
      | Err e => (In (t, Err e) schedule \/ e = ELoad) /\ exists t' e', nth_error ks t' = Some k /\ In (t', Err e') schedule
      | _ => False
      end.
Proof.
  intros K V keqb size limit ks other schedule s Heq E t k k' a Ht Et.
  assert (HO : own_errors (fun t e => In (t, Err e) schedule \/ e = ELoad) s).
  { apply (own_errors_exec keqb size _ (fun _ => or_intror eq_refl) schedule (fun t e H => or_introl H) (start limit ks other)); [|exact E].
    constructor; [|discriminate]. intros u e. cbn [start c_task]. destruct (nth_error ks u); cbn [result]; [discriminate|].
    intros X. injection X as <-. right. reflexivity. }
  set (P := fun k (v : V) => exists t', nth_error ks t' = Some k /\ In (t', Ok v) schedule).
  set (F := fun k => exists t' e, nth_error ks t' = Some k /\ In (t', Err e : res V) schedule).
  destruct (exec_inv keqb size Heq (length ks) (fun t => nth t ks other) other P F schedule _ _ s (start_inv keqb limit ks other P F)) as [kof HI]; [|exact E|].
  { intros t' r Hin Hl. pose proof (nth_error_nth' ks other Hl) as En. destruct r as [v|e| |]; try exact I; [exists t'|exists t', e]; split; assumption. }
  assert (Hl : t < length ks) by (apply nth_error_Some; congruence).
  pose proof (i_key _ _ _ _ _ _ _ _ HI t Hl) as Hk. pose proof (i_result _ _ _ _ _ _ _ _ HI t a Hl) as Hr. rewrite Et in Hk, Hr. cbn [task_key] in Hk, Hr.
  cbn beta in Hk. rewrite (nth_error_nth ks t other Ht) in Hk. subst k'. split; [reflexivity|]. specialize (Hr eq_refl).
  destruct a as [v|e| |]; [exact Hr| |exact Hr|exact Hr]. split; [|exact Hr]. apply (oe_task _ _ HO). rewrite Et. reflexivity.
Qed.

(** At no time are two tasks loading the same object. *)
Theorem C31_one_load_at_a_time :
  forall (K V : Type) (keqb : K -> K -> bool) (size : V -> nat) (limit : nat) (ks : list K) (other : K) schedule s,
    decides keqb -> exec keqb size (start limit ks other) schedule = Ok s ->
    forall t t' k lo lo', c_task s t = TLoading k lo -> c_task s t' = TLoading k lo' -> t = t'.
Proof.
  intros K V keqb size limit ks other schedule s Heq E t t' k lo lo' E1 E2.
  destruct (exec_inv keqb size Heq (length ks) (fun t => nth t ks other) other (fun _ _ => True) (fun _ => True) schedule _ _ s (start_inv keqb limit ks other _ _)) as [kof HI]; [|exact E|].
  { intros t0 r _ _. destruct r; exact I. }
  pose proof (i_own _ _ _ _ _ _ _ _ HI t lo) as O1. pose proof (i_own _ _ _ _ _ _ _ _ HI t' lo') as O2. rewrite E1 in O1. rewrite E2 in O2. specialize (O1 eq_refl). specialize (O2 eq_refl).
  cbn [task_key] in O1, O2. assert (lo' = lo) by congruence. subst lo'. apply (i_one _ _ _ _ _ _ _ _ HI t t' lo); [rewrite E1|rewrite E2]; reflexivity.
Qed.

(** No task waits for ever: while a task has not returned, some task can go on, and
    no schedule makes tasks go on more than 7 times each on average. Loads end in the
    model when the schedule says so; that they do is up to the store. *)
Theorem C31_no_deadlock :
  forall (K V : Type) (keqb : K -> K -> bool) (size : V -> nat) (limit : nat) (ks : list K) (other : K) schedule s,
    decides keqb -> exec keqb size (start limit ks other) schedule = Ok s ->
    forall t, (forall k r, c_task s t <> TDone k r) -> exists t', forall r, step keqb size s t' r <> None.
Proof.
  intros K V keqb size limit ks other schedule s Heq E t Ht.
  destruct (exec_inv keqb size Heq (length ks) (fun t => nth t ks other) other (fun _ _ => True) (fun _ => True) schedule _ _ s (start_inv keqb limit ks other _ _)) as [kof HI]; [|exact E|].
  { intros t0 r _ _. destruct r; exact I. }
  exact (progress keqb size _ _ _ _ _ kof s t HI Ht).
Qed.
Theorem C31_finite_steps :
  forall (K V : Type) (keqb : K -> K -> bool) (size : V -> nat) (limit : nat) (ks : list K) (other : K) schedule,
    decides keqb -> moved keqb size (start limit ks other) schedule <= 7 * length ks.
Proof.
  intros K V keqb size limit ks other schedule Heq.
  transitivity (total (length ks) (c_task (start (V := V) limit ks other))); [|apply (start_total keqb)].
  apply (moved_bound keqb size Heq (length ks) (fun t => nth t ks other) other (fun _ _ => True) (fun _ => True) schedule (fun _ => other)).
  - apply start_inv.
  - intros t0 r _ _. destruct r; exact I.
Qed.

(** *** On one thread

    [turns] runs tasks on an executor with one thread, where a task is not interrupted
    between two awaits. Then nothing panics, the objects held fit the limit, their
    sizes add up to the recorded size, and an object that is held is not being
    loaded. *)
Theorem C31_one_thread_partial :
  forall (K V : Type) (keqb : K -> K -> bool) (size : V -> nat) (limit : nat) (ks : list K) (other : K) schedule,
    decides keqb -> Forall (fun x => answers (snd x)) schedule ->
    exists s l,
      turns keqb size (start limit ks other) schedule = Ok s /\
      (forall k v, In (k, v) l <-> exists e, eget keqb (es_map (c_entries s)) k = Some e /\ en_obj e = v) /\
      NoDup (keys l) /\ es_size (c_entries s) = sum_sizes size l /\ sum_sizes size l <= limit /\
      (forall t k lo, c_task s t = TLoading k lo -> ~ In k (keys l)).
Proof.
  intros K V keqb size limit ks other schedule Heq HA.
  destruct (coop_turns keqb size Heq (length ks) (fun t => nth t ks other) other (fun _ _ => True) (fun _ => True) limit schedule _ _ _ (start_coop keqb size Heq limit ks other _ _)) as (s & kof & l & E & HC); [|exact HA|].
  { intros t0 r _ _. destruct r; exact I. }
  pose proof (co_list _ _ _ _ _ _ _ _ _ _ _ HC) as HL. pose proof (co_inv _ _ _ _ _ _ _ _ _ _ _ HC) as HI.
  exists s, l. split; [exact E|]. split; [|split; [exact (rp_nodup _ _ _ _ (hl_rep _ _ _ _ _ HL))|split; [exact (hl_size _ _ _ _ _ HL)|split; [exact (hl_fits _ _ _ _ _ HL)|]]]].
  - intros k v. split; [apply (linked_in keqb size _ _ _ _ _ _ (rp_links _ _ _ _ (hl_rep _ _ _ _ _ HL)))|].
    intros (e & Ee & Ev). destruct (in_dec (key_dec keqb Heq) k (keys l)) as [Hin|Hn]; [|rewrite (rp_only _ _ _ _ (hl_rep _ _ _ _ _ HL) k Hn) in Ee; discriminate].
    apply in_map_iff in Hin. destruct Hin as ([k' v'] & Ek & Hin). cbn in Ek. subst k'.
    destruct (linked_in keqb size _ _ _ _ _ _ (rp_links _ _ _ _ (hl_rep _ _ _ _ _ HL)) Hin) as (e' & Ee' & Ev'). rewrite Ee in Ee'. injection Ee' as <-. rewrite <- Ev, Ev'. exact Hin.
  - intros t k lo Et Hin. apply (co_apart _ _ _ _ _ _ _ _ _ _ _ HC) in Hin. pose proof (i_own _ _ _ _ _ _ _ _ HI t lo) as D. rewrite Et in D. specialize (D eq_refl). cbn [task_key] in D. congruence.
Qed.

(** If everything fits and no load fails, no key is loaded twice, ever. *)
Theorem C31_loaded_once_partial :
  forall (K V : Type) (keqb : K -> K -> bool) (size : V -> nat) (val : K -> V) (limit : nat) (ks distinct : list K) (other : K) schedule,
    decides keqb ->
    (forall t k r, In (t, r) schedule -> nth_error ks t = Some k -> r = Ok (val k)) ->
    NoDup distinct -> incl ks distinct -> fold_right (fun k n => size (val k) + n) 0 distinct <= limit ->
    NoDup (loads keqb size (start limit ks other) schedule).
Proof.
  intros K V keqb size val limit ks distinct other schedule Heq HG HN HI HB.
  apply (loads_once keqb size Heq limit ks other val schedule [] _ _ _ (start_coop keqb size Heq limit ks other _ _)).
  - intros t r Hin Hl. apply (HG t _ r Hin). apply nth_error_nth'. exact Hl.
  - transitivity (all_sizes size val distinct); [|exact HB].
    assert (HH : forall a b, NoDup a -> incl a b -> all_sizes size val a <= all_sizes size val b).
    { clear. induction a as [|x a IH]; intros b HN HI; [cbn; lia|]. apply NoDup_cons_iff in HN. destruct HN as [Hx HN].
      destruct (in_split x b (HI x (or_introl eq_refl))) as (b1 & b2 & ->). assert (HI' : incl a (b1 ++ b2)).
      { intros y Hy. pose proof (HI y (or_intror Hy)) as Hb. apply in_app_or in Hb. apply in_or_app. destruct Hb as [Hb|[<-|Hb]]; auto. contradiction. }
      specialize (IH _ HN HI'). rewrite all_sizes_app in *. cbn [all_sizes fold_right]. fold (all_sizes size val a) (all_sizes size val b2). lia. }
    apply HH; [apply NoDup_nodup|]. intros x Hx. apply HI. apply nodup_In in Hx. exact Hx.
  - constructor.
  - intros k [].
Qed.

(** Four tasks, three of them after the same object, on one thread. *)
Definition ex_turns : list (nat * res nat) := [(0, Ok 10); (1, Ok 10); (2, Ok 20); (2, Ok 20); (0, Ok 10); (3, Ok 10)].
Example C31_example : exists s,
  turns Nat.eqb (fun _ => 1) (start 2 [1; 1; 2; 1] 0) ex_turns = Ok s /\
  loads Nat.eqb (fun _ => 1) (start 2 [1; 1; 2; 1] 0) ex_turns = [1; 2] /\
  map (c_task s) [0; 1; 2; 3] = [TDone 1 (Ok 10); TDone 1 (Ok 10); TDone 2 (Ok 20); TDone 1 (Ok 10)].
Proof. eexists. split; [vm_compute; reflexivity|]. split; vm_compute; reflexivity. Qed.

(** *** On several threads it is not so

    A task that has looked for an object in vain may be overtaken by another one that
    loads it and is done. It then loads the object once more, although the cache
    has room. The object is in the cache once but is counted twice. *)
Definition get_all (t : nat) (v : nat) : list (nat * res nat) := repeat (t, Ok v) 7.
Theorem C31_loaded_twice_refuted :
  exists schedule s,
    exec Nat.eqb (fun _ => 1) (start 9 [7; 7] 0) schedule = Ok s /\ Forall (fun x => snd x = Ok 70) schedule /\
    (exists s1 s2 before between after lo lo', schedule = before ++ between ++ after /\
       exec Nat.eqb (fun _ => 1) (start 9 [7; 7] 0) before = Ok s1 /\ c_task s1 0 = TLoading 7 lo /\
       exec Nat.eqb (fun _ => 1) s1 between = Ok s2 /\ c_task s2 1 = TLoading 7 lo' /\ lo <> lo') /\
    map fst (es_map (c_entries s)) = [7] /\ es_size (c_entries s) = 2.
Proof.
  exists ((1, Ok 70) :: get_all 0 70 ++ repeat (1, Ok 70) 6). eexists. split; [vm_compute; reflexivity|]. split; [repeat constructor|]. split.
  - exists (match exec Nat.eqb (fun _ => 1) (start 9 [7; 7] 0) [(1, Ok 70); (0, Ok 70); (0, Ok 70)] with Ok s => s | _ => start 9 [7; 7] 0 end). eexists.
    exists [(1, Ok 70); (0, Ok 70); (0, Ok 70)], (repeat (0, Ok 70) 5 ++ [(1, Ok 70)]), (repeat (1, Ok 70) 5), 0, 1.
    split; [reflexivity|]. split; [vm_compute; reflexivity|]. split; [vm_compute; reflexivity|]. split; [vm_compute; reflexivity|]. split; [vm_compute; reflexivity|discriminate].
  - split; vm_compute; reflexivity.
Qed.

(** If another object was used in between, the list of entries becomes a circle, and
    a later get panics, though every load succeeds. *)
Theorem C31_panics_refuted :
  exists schedule : list (nat * res nat), Forall (fun x => answers (snd x)) schedule /\
    exec Nat.eqb (fun _ => 1) (start 2 [7; 7; 8; 9; 8] 0) schedule = Panic.
Proof.
  exists ((1, Ok 70) :: get_all 0 70 ++ get_all 2 80 ++ repeat (1, Ok 70) 6 ++ get_all 3 90 ++ get_all 4 80).
  split; [repeat constructor|vm_compute; reflexivity].
Qed.

(** ** C41: gets that are given up

    A task that is loading [k] is dropped, as when a read of another span fails
    (span.rs 171-174). Then no get of [k] that has not returned ever returns,
    whatever happens after. *)
Theorem C41_abandoned_load_refuted :
  forall (K V : Type) (keqb : K -> K -> bool) (size : V -> nat) (limit : nat) (ks : list K) (other : K) schedule s t k lo,
    decides keqb -> Forall (fun x => answers (snd x)) schedule ->
    turns keqb size (start limit ks other) schedule = Ok s -> c_task s t = TLoading k lo ->
    forall later s' u, exec keqb size (drop_task s t) later = Ok s' ->
      nth_error ks u = Some k -> (forall r, c_task s u <> TDone k r) -> forall r, c_task s' u <> TDone k r.
Proof.
  intros K V keqb size limit ks other schedule s t k lo Heq HA E Et later s' u E' Hu Hn r.
  destruct (coop_turns keqb size Heq (length ks) (fun t => nth t ks other) other (fun _ _ => True) (fun _ => True) limit schedule _ _ _ (start_coop keqb size Heq limit ks other _ _)) as (s1 & kof & l & E1 & HC); [|exact HA|].
  { intros t0 r0 _ _. destruct r0; exact I. }
  rewrite E in E1. injection E1 as <-.
  pose proof (drop_stuck keqb size Heq k lo (fun u => exists r, c_task s u = TDone k r) _ _ _ _ _ _ _ _ _ _ HC Et (fun u => iff_refl _)) as HS.
  pose proof (stuck_exec keqb size Heq k lo _ later _ _ HS E') as HS'. intros C. pose proof (st_hang _ _ _ _ _ HS' u) as HH. rewrite C in HH. destruct (HH eq_refl) as (r' & C'). exact (Hn _ C').
Qed.

(** A task that waits for [k] is dropped: the task that loads [k] panics as soon as
    the load ends, whether it succeeds or not. *)
Theorem C41_abandoned_wait_refuted :
  forall (K V : Type) (keqb : K -> K -> bool) (size : V -> nat) (limit : nat) (ks : list K) (other : K) schedule s t u k lo r,
    decides keqb -> Forall (fun x => answers (snd x)) schedule ->
    turns keqb size (start limit ks other) schedule = Ok s -> c_task s t = TLoading k lo -> c_task s u = TBlocked k lo -> answers r ->
    turn keqb size (drop_task s u) t r = Panic.
Proof.
  intros K V keqb size limit ks other schedule s t u k lo r Heq HA E Et Eu Hr.
  destruct (coop_turns keqb size Heq (length ks) (fun t => nth t ks other) other (fun _ _ => True) (fun _ => True) limit schedule _ _ _ (start_coop keqb size Heq limit ks other _ _)) as (s1 & kof & l & E1 & HC); [|exact HA|].
  { intros t0 r0 _ _. destruct r0; exact I. }
  rewrite E in E1. injection E1 as <-. exact (drop_panics keqb size Heq k lo _ _ _ _ _ _ _ _ _ _ _ _ HC Et Eu Hr).
Qed.

(** What holds nevertheless, for any interleaving and any gets given up: a get that
    returns an object returns one that was loaded for its key, no object is loaded by
    two tasks at once, and the gets of the other keys, of which none was given up, are not
    held up: as long as one has not returned, one of the same key can go on. *)
Theorem C41_others_partial :
  forall (K V : Type) (keqb : K -> K -> bool) (size : V -> nat) (limit : nat) (ks : list K) (other : K) schedule s,
    decides keqb -> exec_dropping keqb size (start limit ks other) schedule = Ok s ->
    (forall t k k' a, nth_error ks t = Some k -> c_task s t = TDone k' a ->
      k' = k /\
      match a with
      | Ok v => exists t', nth_error ks t' = Some k /\ In (Moves t' (Ok v)) schedule
      | Err _ => exists t' e, nth_error ks t' = Some k /\ In (Moves t' (Err e)) schedule
      | _ => False
      end) /\
    (forall t t' k lo lo', c_task s t = TLoading k lo -> c_task s t' = TLoading k lo' -> t = t') /\
    (forall t k, nth_error ks t = Some k -> (forall r, c_task s t <> TDone k r) ->
      (forall u, In (Dropped u) schedule -> nth_error ks u <> Some k) ->
      exists t', nth_error ks t' = Some k /\ forall r, step keqb size s t' r <> None).
Proof.
  intros K V keqb size limit ks other schedule s Heq E.
  set (P := fun k (v : V) => exists t', nth_error ks t' = Some k /\ In (Moves t' (Ok v)) schedule).
  set (F := fun k => exists t' e, nth_error ks t' = Some k /\ In (Moves t' (Err e : res V)) schedule).
  destruct (CacheCancel.exec_inv keqb size Heq (length ks) (fun t => nth t ks other) other P F schedule _ _ s (CacheCancel.start_inv keqb limit ks other P F)) as [kof HI]; [|exact E|].
  { intros t' r Hin Hl. pose proof (nth_error_nth' ks other Hl) as En. destruct r as [v|e| |]; try exact I; [exists t'|exists t', e]; split; assumption. }
  split; [|split].
  - intros t k k' a Ht Et. assert (Hl : t < length ks) by (apply nth_error_Some; congruence).
    pose proof (CacheCancel.i_key _ _ _ _ _ _ _ _ HI t Hl) as Hk. pose proof (CacheCancel.i_result _ _ _ _ _ _ _ _ HI t a Hl) as Hr. rewrite Et in Hk, Hr. cbn [task_key] in Hk, Hr.
    cbn beta in Hk. rewrite (nth_error_nth ks t other Ht) in Hk. subst k'. split; [reflexivity|]. exact (Hr eq_refl).
  - intros t t' k lo lo' E1 E2. pose proof (CacheCancel.i_own _ _ _ _ _ _ _ _ HI t lo) as O1. pose proof (CacheCancel.i_own _ _ _ _ _ _ _ _ HI t' lo') as O2.
    rewrite E1 in O1. rewrite E2 in O2. specialize (O1 eq_refl). specialize (O2 eq_refl). cbn [task_key] in O1, O2. assert (lo' = lo) by congruence. subst lo'.
    apply (CacheCancel.i_one _ _ _ _ _ _ _ _ HI t t' lo); [rewrite E1|rewrite E2]; reflexivity.
  - intros t k Ht Hd Hn. assert (Hl : t < length ks) by (apply nth_error_Some; congruence).
    assert (G : forall u k', c_task s u = TGone k' -> In (Dropped u) schedule).
    { intros u k' Eu. refine (CacheCancel.gone_dropped keqb size schedule (start limit ks other) s E u k' _ Eu).
      intros k2. cbn [start c_task]. destruct (nth_error ks u); discriminate. }
    destruct (CacheCancel.key_progress keqb size (length ks) (fun t => nth t ks other) other P F kof s t k HI Hl (nth_error_nth ks t other Ht) Hd) as (t' & L' & K' & R).
    + intros u Hu Eu. apply (Hn u (G u k Eu)). pose proof (CacheCancel.i_key _ _ _ _ _ _ _ _ HI u Hu) as Ku. rewrite Eu in Ku. cbn [task_key] in Ku. rewrite Ku. apply nth_error_nth'. exact Hu.
    + exists t'. split; [rewrite <- K'; apply nth_error_nth'; exact L'|exact R].
Qed.
(** Task [0], which loads the object [1], is dropped; task [1] waits for ever, task [2] gets the
    object [2]. *)
Example C41_others_example : exists s,
  exec_dropping Nat.eqb (fun _ => 1) (start 2 [1; 1; 2] 0) ([Moves 0 (Ok 10); Moves 0 (Ok 10); Moves 1 (Ok 10); Moves 1 (Ok 10); Moves 1 (Ok 10); Dropped 0] ++ repeat (Moves 2 (Ok 20)) 7) = Ok s /\
  c_task s 0 = TGone 1 /\ c_task s 1 = TBlocked 1 0 /\ c_task s 2 = TDone 2 (Ok 20) /\ (forall t' r, step Nat.eqb (fun _ : nat => 1) s t' r = None).
Proof.
  eexists. split; [vm_compute; reflexivity|]. split; [reflexivity|]. split; [reflexivity|]. split; [reflexivity|].
  intros t' r. destruct t' as [|[|[|[|t']]]]; reflexivity.
Qed.

(** On one thread, with gets given up at any moments between turns: the run panics if and only
    if a task has its turn that loads an object for which a get was waiting when it was given
    up. Until then the objects held fit the limit, their sizes add up to the recorded size, and
    an object that is held is not being loaded. *)
Theorem C41_one_thread_partial :
  forall (K V : Type) (keqb : K -> K -> bool) (size : V -> nat) (limit : nat) (ks : list K) (other : K) schedule,
    decides keqb -> Forall (fun x => match x with Moves _ r => answers r | Dropped _ => True end) schedule ->
    let s0 := start limit ks other in
    let told_nobody := exists before t r after s k lo u,
      schedule = before ++ Moves t r :: after /\ turns_dropping keqb size s0 before = Ok s /\ c_task s t = TLoading k lo /\ gave_up keqb size s0 before u lo in
    (turns_dropping keqb size s0 schedule = Panic /\ told_nobody) \/
    (~ told_nobody /\ exists s l,
      turns_dropping keqb size s0 schedule = Ok s /\
      (forall k v, In (k, v) l <-> exists e, eget keqb (es_map (c_entries s)) k = Some e /\ en_obj e = v) /\
      NoDup (keys l) /\ es_size (c_entries s) = sum_sizes size l /\ sum_sizes size l <= limit /\
      (forall t k lo, c_task s t = TLoading k lo -> ~ In k (keys l))).
Proof.
  intros K V keqb size limit ks other schedule Heq HA s0 told_nobody.
  assert (HQ : quiet keqb size (length ks) (fun t => nth t ks other) other limit (gave_up keqb size s0 []) (fun _ => other) s0 []).
  { apply (start_quiet keqb size Heq limit ks other). intros u lo (b & a & s & k & C & _). destruct b; discriminate. }
  destruct (quiet_turns keqb size Heq (length ks) (fun t => nth t ks other) other limit s0 schedule [] _ s0 [] eq_refl HQ HA)
    as [(s & kof & l & E & HQ' & HN)|(E & before & t & r & after & s & k & lo & u & H1 & H2 & H3 & _ & _ & H4)].
  - right. split; [intros (before & t & r & after & s1 & k & lo & u & H1 & H2 & H3 & H4); exact (HN _ _ _ _ _ _ _ _ H1 H2 H3 H4)|].
    pose proof (q_list _ _ _ _ _ _ _ _ _ _ HQ') as HL. pose proof (q_inv _ _ _ _ _ _ _ _ _ _ HQ') as HI.
    exists s, l. split; [exact E|]. split; [|split; [exact (rp_nodup _ _ _ _ (hl_rep _ _ _ _ _ HL))|split; [exact (hl_size _ _ _ _ _ HL)|split; [exact (hl_fits _ _ _ _ _ HL)|]]]].
    + intros k v. split; [apply (linked_in keqb size _ _ _ _ _ _ (rp_links _ _ _ _ (hl_rep _ _ _ _ _ HL)))|].
      intros (e & Ee & Ev). destruct (in_dec (key_dec keqb Heq) k (keys l)) as [Hin|Hn]; [|rewrite (rp_only _ _ _ _ (hl_rep _ _ _ _ _ HL) k Hn) in Ee; discriminate].
      apply in_map_iff in Hin. destruct Hin as ([k' v'] & Ek & Hin). cbn in Ek. subst k'.
      destruct (linked_in keqb size _ _ _ _ _ _ (rp_links _ _ _ _ (hl_rep _ _ _ _ _ HL)) Hin) as (e' & Ee' & Ev'). rewrite Ee in Ee'. injection Ee' as <-. rewrite <- Ev, Ev'. exact Hin.
    + intros t k lo Et Hin. apply (q_apart _ _ _ _ _ _ _ _ _ _ HQ') in Hin. pose proof (CacheCancel.i_own _ _ _ _ _ _ _ _ HI t lo) as D. rewrite Et in D. specialize (D eq_refl). cbn [task_key] in D. congruence.
  - left. split; [exact E|]. exists before, t, r, after, s, k, lo, u. auto.
Qed.
(** Task [0] loads the object [1] and task [1] waits for it. If task [0] is given up nothing panics;
    if task [1] is, task [0] panics. *)
Example C41_one_thread_example :
  (exists s, turns_dropping Nat.eqb (fun _ => 1) (start 2 [1; 1; 2] 0) [Moves 0 (Ok 10); Moves 1 (Ok 10); Dropped 0; Moves 0 (Ok 10); Moves 2 (Ok 20); Moves 2 (Ok 20)] = Ok s /\
     c_task s 0 = TGone 1 /\ c_task s 1 = TBlocked 1 0 /\ c_task s 2 = TDone 2 (Ok 20)) /\
  turns_dropping Nat.eqb (fun _ => 1) (start 2 [1; 1; 2] 0) [Moves 0 (Ok 10); Moves 1 (Ok 10); Dropped 1; Moves 2 (Ok 20); Moves 2 (Ok 20); Moves 0 (Ok 10)] = Panic.
Proof. split; [eexists; split; [vm_compute; reflexivity|repeat split]|vm_compute; reflexivity]. Qed.

(** Both happen: task [0] loads the object [1], task [1] waits for it. *)
Example C41_example : exists s, turns Nat.eqb (fun _ => 1) (start 2 [1; 1] 0) [(0, Ok 10); (1, Ok 10)] = Ok s /\
  c_task s 0 = TLoading 1 0 /\ c_task s 1 = TBlocked 1 0.
Proof. eexists. split; [vm_compute; reflexivity|]. split; vm_compute; reflexivity. Qed.

Print Assumptions C29_transparent.
Print Assumptions C29_resolver.
Print Assumptions C30_least_recently_used.
Print Assumptions C30_limit_and_recency.
Print Assumptions C30_no_needless_eviction.
Print Assumptions C31_answers_loaded.
Print Assumptions C31_one_load_at_a_time.
Print Assumptions C31_no_deadlock.
Print Assumptions C31_finite_steps.
Print Assumptions C31_one_thread_partial.
Print Assumptions C31_loaded_once_partial.
Print Assumptions C31_loaded_twice_refuted.
Print Assumptions C31_panics_refuted.
Print Assumptions C41_others_partial.
Print Assumptions C41_one_thread_partial.
Print Assumptions C41_abandoned_load_refuted.
Print Assumptions C41_abandoned_wait_refuted.
