(** * C48 and C47: where reads write, whatever is in the store, and that schedules do not matter. *)
From Coq Require Import ZArith Permutation.
From Verif Require Import Base BaseFacts GeomModel StreamModel DacModel ChunkModel NodeModel NodeProofs SuperModel ArrayModel ArrayProofs FixedModel DatasetModel DatasetProofs HistoryModel
  SessionModel PlaceProofs.
From Verif Require PropertiesNode PropertiesDataset PropertiesClosed PropertiesSession.
Import PropertiesNode PropertiesDataset PropertiesClosed PropertiesSession.
Arguments Nat.pow : simpl never.
Open Scope nat_scope.

(** ** C48 *)

(** The calls that a window read makes on its buffer, for any objects in the store and in
    memory, also damaged or forged ones: no two of them write to one place, and all the
    places are in the window. *)
Theorem C48_window_places : forall st fuel m start end_ top bottom left right bits calls,
  start <= end_ -> top <= bottom -> left <= right ->
  mm_fill_window st fuel m (cube_new start end_ top bottom left right) bits = Ok calls ->
  NoDup (map fst calls) /\
  forall t r c v, In (t, r, c, v) calls -> t < end_ - start /\ r < bottom - top /\ c < right - left.
Proof.
  intros st fuel m start end_ top bottom left right bits calls H1 H2 H3 H. rewrite (cube_new_le _ _ _ _ _ _ H1 H2 H3) in H.
  apply mm_fill_window_places in H; [|split; [exact H1|split; assumption]]. destruct H as [N P]. split; [exact N|].
  intros t r c v Hin. rewrite Forall_forall in P. exact (P _ Hin).
Qed.
(** The same for the read of one cell at consecutive instants. *)
Theorem C48_cell_places : forall st fuel m start end_ row col bits calls,
  mm_fill_cell st fuel m start end_ row col bits = Ok calls ->
  NoDup (map fst calls) /\ forall i v, In (i, v) calls -> i < end_ - start.
Proof.
  intros st fuel m start end_ row col bits calls H. apply mm_fill_cell_places in H. destruct H as [N P]. split; [exact N|].
  intros i v Hin. rewrite Forall_forall in P. exact (P _ Hin).
Qed.
(** So no write of a window read can fail, in whatever order the concurrent parts make
    them: each cell of the answer has the value that the one call for it wrote, or zero if
    there was none. *)
Theorem C48_window_answers : forall A (R : reader A) st fuel m b (order : list call -> list call) calls,
  (forall l, Permutation l (order l)) -> c_start b <= c_end b -> c_top b <= c_bottom b -> c_left b <= c_right b ->
  check_cube m b = Ok tt -> mm_fill_window st fuel m b (mm_fbits m) = Ok calls ->
  exists a, arr_window R st fuel order m b = Ok a /\
    a3_shape a = (c_end b - c_start b, c_bottom b - c_top b, c_right b - c_left b) /\
    (forall t r c v bits, In (t, r, c, (v, bits)) calls -> a3_at a t r c = rd_set R bits v) /\
    (forall t r c, (forall v, ~ In (t, r, c, v) calls) -> a3_at a t r c = rd_zero R).
Proof.
  intros A R st fuel m b order calls HO H1 H2 H3 HC H. unfold arr_window. rewrite HC. cbn [bind].
  rewrite !usub_ok by assumption. cbn [bind]. rewrite H. cbn [bind].
  apply mm_fill_window_places in H; [|split; [exact H1|split; assumption]]. destruct H as [N P]. rewrite Forall_forall in P.
  destruct (run3_spec R (order calls) (mkArray3 (c_end b - c_start b, c_bottom b - c_top b, c_right b - c_left b) (fun _ _ _ => rd_zero R)) _ _ _ eq_refl) as (a & E & S & W & K).
  - eapply Permutation_NoDup; [apply Permutation_map, HO|exact N].
  - intros t r c v Hin. apply (Permutation_in _ (Permutation_sym (HO calls))) in Hin. exact (P _ Hin).
  - exists a. split; [exact E|]. split; [exact S|]. split.
    + intros t r c v bits Hin. apply W. eapply Permutation_in; [apply HO|exact Hin].
    + intros t r c Hn. rewrite K; [reflexivity|]. intros Hin. apply in_map_iff in Hin. destruct Hin as ([k v] & Ek & Hin). cbn [fst] in Ek. subst k.
      apply (Hn v). eapply Permutation_in; [apply Permutation_sym, HO|exact Hin].
Qed.

(** ** C47 *)

(** A window read answers the same whatever the order of the writes of its concurrent
    parts, for any objects in the store. *)
Theorem C47_reads : forall A (R : reader A) st fuel m b order1 order2,
  (forall l, Permutation l (order1 l)) -> (forall l, Permutation l (order2 l)) ->
  arr_window R st fuel order1 m b = arr_window R st fuel order2 m b.
Proof.
  intros A R st fuel m b order1 order2 HO1 HO2. unfold arr_window. destruct (check_cube m b) as [[]| | |]; try reflexivity. cbn [bind].
  destruct (usub (c_end b) (c_start b)) as [n| | |] eqn:E1; try reflexivity. destruct (usub (c_bottom b) (c_top b)) as [h| | |] eqn:E2; try reflexivity.
  destruct (usub (c_right b) (c_left b)) as [w| | |] eqn:E3; try reflexivity. cbn [bind].
  apply usub_inv in E1, E2, E3. destruct E1 as [H1 ->], E2 as [H2 ->], E3 as [H3 ->].
  destruct (mm_fill_window st fuel m b (mm_fbits m)) as [calls| | |] eqn:E; try reflexivity. cbn [bind].
  apply mm_fill_window_places in E; [|split; [exact H1|split; assumption]]. destruct E as [N P]. rewrite Forall_forall in P.
  eapply run3_order; [reflexivity| | |].
  - eapply Permutation_trans; [apply Permutation_sym, HO1|apply HO2].
  - eapply Permutation_NoDup; [apply Permutation_map, HO1|exact N].
  - intros t r c v Hin. apply (Permutation_in _ (Permutation_sym (HO1 calls))) in Hin. exact (P _ Hin).
Qed.

(** A session in which each call has its own schedule. *)
Definition run_scheduled hash lc lg fuel (x : session) (l : list (action * (list call -> list call))) : session :=
  fold_left (fun x p => run_action hash lc lg (snd p) fuel x (fst p)) l x.

Section Schedules.
  Variables (hash : bytes -> cid) (lc : nat -> nat) (lg : FixedModel.f64 -> nat) (fuel : nat).

  Lemma read_tail_any {A} (D : dtype A) order1 order2 m st : (forall l, Permutation l (order1 l)) -> (forall l, Permutation l (order2 l)) ->
    read_tail D order1 fuel m st = read_tail D order2 fuel m st.
  Proof.
    intros HO1 HO2. unfold read_tail. f_equal. destruct (mm_shape m) as [[[n h] w]| | |]; try reflexivity. cbn [bind].
    destruct (mm_fill_window st fuel m (cube_new 0 n 0 h 0 w) (mm_fbits m)) as [calls| | |] eqn:E; try reflexivity. cbn [bind].
    destruct (C48_window_places st fuel m 0 n 0 h 0 w (mm_fbits m) calls (Nat.le_0_l _) (Nat.le_0_l _) (Nat.le_0_l _) E) as [N P]. rewrite !Nat.sub_0_r in P.
    eapply run3_order; [reflexivity| | |].
    - eapply Permutation_trans; [apply Permutation_sym, HO1|apply HO2].
    - eapply Permutation_NoDup; [apply Permutation_map, HO1|exact N].
    - intros t r c v Hin. apply (Permutation_in _ (Permutation_sym (HO1 calls))) in Hin. exact (P _ _ _ _ Hin).
  Qed.
  Lemma append_any {A} (D : dtype A) order1 order2 d name data st : (forall l, Permutation l (order1 l)) -> (forall l, Permutation l (order2 l)) ->
    dataset_append hash lc D order1 fuel d name data st = dataset_append hash lc D order2 fuel d name data st.
  Proof.
    intros HO1 HO2. unfold dataset_append. destruct (find_var name (ds_vars d)) as [v|]; [|reflexivity].
    unfold obind at 1. unfold obind at 4. destruct (tail_data (va_chunk_size v) (va_cid v) st) as [st1 [o| | |]]; try reflexivity.
    apply obind_ext. destruct o as [m|]; [|reflexivity]. apply obind_ext. apply read_tail_any; assumption.
  Qed.
  Lemma action_any order1 order2 x a : (forall l, Permutation l (order1 l)) -> (forall l, Permutation l (order2 l)) ->
    run_action hash lc lg order1 fuel x a = run_action hash lc lg order2 fuel x a.
  Proof.
    intros HO1 HO2. destruct a as [coords rows cols|c|i e|n]; cbn [run_action]; try reflexivity. destruct (nth_error (se_open x) i) as [d|]; [|reflexivity].
    replace (run_event hash lc lg order1 fuel d e (se_store x)) with (run_event hash lc lg order2 fuel d e (se_store x)); [reflexivity|].
    destruct e as [c|t name data| |]; try reflexivity. cbn [run_event]. apply append_any; assumption.
  Qed.
End Schedules.

(** Whatever the order in which the concurrent parts of each call make their writes, a
    session, from any state and with any calls, writes the same objects in the same order,
    has the same datasets, and fails at the same calls. *)
Theorem C47_sessions : forall hash lc lg fuel x (l : list (action * (list call -> list call))),
  Forall (fun p => forall calls, Permutation calls (snd p calls)) l ->
  run_scheduled hash lc lg fuel x l = run_session hash lc lg (fun calls => calls) fuel x (map fst l).
Proof.
  intros hash lc lg fuel x l H. revert x. induction H as [|[a o] l Ho Hl IH]; intros x; [reflexivity|].
  unfold run_scheduled, run_session in *. cbn [map fold_left fst snd] in *. rewrite IH. f_equal. apply action_any; [exact Ho|intros; apply Permutation_refl].
Qed.

(** ** Concrete cases *)

(** A forged superchunk: its four parts of 4 by 4 cells are all the same chunk, and its own
    shape says 3 by 9. *)
Definition ex_forged : res mmstruct :=
  b <- chunk_build (fun t r c => Z.of_nat (t + 2 * r + 3 * c)) 2 4 4 2 EncI64 0 ;;
  d <- dac_of [5%Z; 5%Z; 5%Z; 5%Z; 6%Z; 6%Z; 6%Z; 6%Z] ;;
  Ok (MSuper (mkSuper 3 9 9 8 1 [RLocal 0; RLocal 0; RLocal 0; RElided] d d (ex_cid 1) 0 EncI64 4 2) [MSub (cb_data b)]).
(** A window that meets the four parts: 2 instants, 3 by 5 cells. A window with one more
    instant panics: no chunk has it. *)
Example C48_example : exists m calls, ex_forged = Ok m /\
  mm_fill_window [] 3 m (cube_new 0 2 2 5 1 6) 0 = Ok calls /\ length calls = 30 /\ check_cube m (cube_new 0 2 2 5 1 6) = Ok tt /\
  (exists cells, mm_fill_cell [] 3 m 0 2 3 7 0 = Ok cells /\ length cells = 2) /\
  mm_fill_window [] 3 m (cube_new 0 3 2 5 1 6) 0 = Panic.
Proof.
  eexists. eexists. split; [vm_compute; reflexivity|]. split; [vm_compute; reflexivity|]. split; [vm_compute; reflexivity|]. split; [vm_compute; reflexivity|].
  split; [eexists; split; vm_compute; reflexivity|vm_compute; reflexivity].
Qed.

(** The session of PropertiesSession.v with a schedule for each call: first to last and last to first in turns. *)
Fixpoint ex_turns (b : bool) (l : list action) : list (action * (list call -> list call)) :=
  match l with [] => [] | a :: l' => (a, if b then @rev call else fun calls => calls) :: ex_turns (negb b) l' end.
Example C47_sessions_example : Forall (fun p => forall calls, Permutation calls (snd p calls)) (ex_turns true (ex_first ++ ex_rest)) /\
  map fst (ex_turns true (ex_first ++ ex_rest)) = ex_first ++ ex_rest.
Proof.
  split; [|generalize (ex_first ++ ex_rest) true; induction l as [|a l IH]; intros b; cbn [ex_turns map fst]; [reflexivity|rewrite IH; reflexivity]].
  generalize (ex_first ++ ex_rest) true. induction l as [|a l IH]; intros b; cbn [ex_turns]; constructor; [|apply IH].
  cbn [snd]. destruct b; intros calls; [apply Permutation_rev|apply Permutation_refl].
Qed.

Print Assumptions C48_window_places.
Print Assumptions C48_cell_places.
Print Assumptions C48_window_answers.
Print Assumptions C47_reads.
Print Assumptions C47_sessions.
