(** * C62: programs that share a store do not disturb each other. *)
From Coq Require Import ZArith Permutation.
From Verif Require Import Base BaseFacts StreamModel StreamProofs NodeModel NodeProofs SuperModel ArrayModel FixedModel DatasetModel DatasetProofs HistoryModel HistoryProofs
  SessionModel SessionSpec SessionProofs FrameProofs WorkModel WorkProofs.
From Verif Require PropertiesNode PropertiesSuper PropertiesDataset PropertiesListing PropertiesClosed PropertiesSession PropertiesCanon.
Import PropertiesNode PropertiesDataset PropertiesListing PropertiesClosed PropertiesSession PropertiesCanon.
Arguments Nat.pow : simpl never.
Open Scope nat_scope.

(** A program that starts when a session has left the store as it is: it has no dataset yet. *)
Definition started (x : session) : session := mkSession (se_store x) (se_store x) [].

(** What is asked of the calls of a program: as for sessions; it opens only what is there,
    and it does not crash: one that does gets no further turn. *)
Record program_ok hash lc lg order fuel (N C S : nat) (x : session) (l : list action) : Prop :=
  { pr_ok : Forall (action_ok C S) l;
    pr_fits : all_fit N hash lc lg order fuel (started x) l;
    pr_opens : opens_there hash lc lg order fuel (started x) l;
    pr_crash : forall n, ~ In (Crash n) l }.

(** Everything that the programs would write, each alone. *)
Definition all_written hash lc lg order fuel (x : session) (ls : list (list action)) : store :=
  se_ever x ++ flat_map (fun l => se_ever (run_session hash lc lg order fuel (started x) l)) ls.

Section Programs.
  Variables (hash : bytes -> cid) (lc : nat -> nat) (lg : FixedModel.f64 -> nat) (order : list call -> list call) (fuel N C S : nat).
  Variables (first : list action) (ls : list (list action)).
  Hypothesis HLim : limits hash lc order N C S.
  Hypothesis HA : Forall (action_ok C S) first.
  Hypothesis HB : all_fit N hash lc lg order fuel session_start first.
  Let x := run_session hash lc lg order fuel session_start first.
  Hypothesis HP : Forall (program_ok hash lc lg order fuel N C S x) ls.
  Hypothesis HF : functional (all_written hash lc lg order fuel x ls).

  Lemma good_base : good N C S x.
  Proof.
    destruct HLim as [L1 L2 L3 L4 L5]. apply good_session; auto; [|apply good_start]. eapply functional_incl; [|exact HF]. apply incl_appl, incl_refl.
  Qed.
  Lemma good_started : good N C S (started x).
  Proof. destruct good_base as [G1 G2 G3 G4]. constructor; cbn [started se_store se_ever se_open]; auto. apply incl_refl. Qed.
  Lemma good_alone l : In l ls -> good N C S (run_session hash lc lg order fuel (started x) l).
  Proof.
    intros Hl. destruct HLim as [L1 L2 L3 L4 L5]. rewrite Forall_forall in HP. destruct (HP l Hl) as [P1 P2 _ _].
    apply good_session; auto; [|exact good_started]. eapply functional_incl; [|exact HF]. unfold all_written. intros p Hp. apply in_or_app. right. apply in_flat_map. eauto.
  Qed.
  Lemma alone_run l : In l ls -> let y := run_session hash lc lg order fuel (started x) l in
    run_work hash (se_store x) (session_work lc lg order fuel [] l) = (se_store y, Ok (se_open y)).
  Proof. intros Hl. rewrite Forall_forall in HP. destruct (HP l Hl) as [_ _ _ P4]. exact (run_work_session hash lc lg order fuel l (started x) P4). Qed.
  Lemma alone_needs l : In l ls -> needs hash (se_store x) (session_work lc lg order fuel [] l) (fun _ _ => True).
  Proof.
    intros Hl. pose proof (gd_laid _ _ _ _ (good_alone l Hl)) as HL. rewrite Forall_forall in HP. destruct (HP l Hl) as [_ _ P3 P4].
    apply (needs_session hash lc lg order fuel l (started x)); [exact P4|exact HL|constructor|exact P3].
  Qed.
  Lemma programs_together schedule :
    together hash (se_store x) (all_written hash lc lg order fuel x ls) (map (session_work lc lg order fuel []) ls) schedule
      (turns hash (mkShared (se_store x) (map (session_work lc lg order fuel []) ls)) schedule).
  Proof.
    apply together_turns.
    - exact HF.
    - intros p Hp. apply in_or_app. left. apply (gd_ever _ _ _ _ good_base), Hp.
    - exact (gd_laid _ _ _ _ good_base).
    - intros p Hp. apply in_map_iff in Hp. destruct Hp as (l & <- & Hl). rewrite (alone_run l Hl). cbn [fst]. intros q Hq. apply in_or_app. right.
      apply in_flat_map. exists l. split; [exact Hl|]. apply (gd_ever _ _ _ _ (good_alone l Hl)), Hq.
    - intros p Hp. apply in_map_iff in Hp. destruct Hp as (l & <- & Hl). rewrite (alone_run l Hl). exact (gd_laid _ _ _ _ (good_alone l Hl)).
    - intros p Hp. apply in_map_iff in Hp. destruct Hp as (l & <- & Hl). exact (alone_needs l Hl).
  Qed.
End Programs.

(** Any number of programs run on one store, which a session has left. Whoever has the turn
    loads or saves one object. However the turns fall: when a program has come to its end,
    it has the datasets that it would have if it had been alone, and everything that it
    would have written is in the store; and what its datasets hold is read there as it
    would be if it had been alone. *)
Theorem C62_undisturbed : forall hash lc lg order fuel N C S first ls,
  limits hash lc order N C S -> Forall (action_ok C S) first -> all_fit N hash lc lg order fuel session_start first ->
  let x := run_session hash lc lg order fuel session_start first in
  Forall (program_ok hash lc lg order fuel N C S x) ls -> functional (all_written hash lc lg order fuel x ls) ->
  forall schedule i l r, nth_error ls i = Some l ->
  let s := turns hash (mkShared (se_store x) (map (session_work lc lg order fuel []) ls)) schedule in
  nth_error (sh_work s) i = Some (Finished r) ->
  let alone := run_session hash lc lg order fuel (started x) l in
  r = Ok (se_open alone) /\ incl (se_store alone) (sh_store s) /\
  forall d v c, In d (se_open alone) -> In v (ds_vars d) -> reached (se_store alone) (va_cid v) c -> same_answers (se_store alone) (sh_store s) c.
Proof.
  intros hash lc lg order fuel N C S first ls HLim HA HB x HP HF schedule i l r Hl s Hs alone.
  assert (Hin : In l ls) by (eapply nth_error_In, Hl).
  destruct (programs_together hash lc lg order fuel N C S first ls HLim HA HB HP HF schedule) as (_ & T2 & T3 & _ & T5). fold x s in T2, T3, T5.
  destruct (T5 i (session_work lc lg order fuel [] l) (Finished r)) as (w & H1 & _ & H3 & _); [apply map_nth_error, Hl|exact Hs|].
  unfold x in H1. rewrite (alone_run hash lc lg order fuel N C S first ls HP l Hin) in H1. cbn [run_work] in H1. fold x alone in H1. injection H1 as -> ->.
  pose proof (good_alone hash lc lg order fuel N C S first ls HLim HA HB HP HF l Hin) as [G1 G2 _ G4]. fold x alone in G1, G2, G4.
  split; [reflexivity|]. split; [exact H3|]. intros d v c Hd Hv Hc.
  assert (Hh : has (se_store alone) (va_cid v)).
  { destruct HLim as [_ _ _ L4 L5]. rewrite Forall_forall in G4. destruct (G4 d Hd) as [Sd _].
    apply (sound_anchored lc N C S L5 L4 (se_store alone) d Sd). cbn [refs]. apply in_or_app. left. apply in_map. exact Hv. }
  apply (laid_same (se_store alone) (sh_store s) (all_written hash lc lg order fuel x ls) (va_cid v) c); auto.
  - intros q Hq. apply T3, H3, Hq.
  - eapply has_incl; [exact H3|exact Hh].
Qed.

(** None of them waits for another: after as many turns of its own as it would need alone,
    a program has come to its end, however many turns the others had. *)
Theorem C62_nobody_waits : forall hash lc lg order fuel N C S first ls,
  limits hash lc order N C S -> Forall (action_ok C S) first -> all_fit N hash lc lg order fuel session_start first ->
  let x := run_session hash lc lg order fuel session_start first in
  Forall (program_ok hash lc lg order fuel N C S x) ls -> functional (all_written hash lc lg order fuel x ls) ->
  forall i l, nth_error ls i = Some l ->
  exists enough, forall schedule, enough <= count_occ Nat.eq_dec schedule i ->
    let s := turns hash (mkShared (se_store x) (map (session_work lc lg order fuel []) ls)) schedule in
    exists r, nth_error (sh_work s) i = Some (Finished r).
Proof.
  intros hash lc lg order fuel N C S first ls HLim HA HB x HP HF i l Hl.
  exists (steps hash (se_store x) (session_work lc lg order fuel [] l)). intros schedule Hn s.
  destruct (programs_together hash lc lg order fuel N C S first ls HLim HA HB HP HF schedule) as (T1 & _ & _ & _ & T5). fold x s in T1, T5.
  assert (E0 : nth_error (map (session_work lc lg order fuel []) ls) i = Some (session_work lc lg order fuel [] l)) by apply map_nth_error, Hl.
  destruct (nth_error (sh_work s) i) as [p|] eqn:Ep.
  - destruct (T5 i _ p E0 Ep) as (w & _ & _ & _ & H4). unfold turns_of in H4. assert (Hz : steps hash w p = 0) by (clear -H4 Hn; lia).
    destruct p as [r|c k|n k]; [eauto|discriminate|]. cbn [steps] in Hz. destruct (save hash w n). discriminate.
  - apply nth_error_None in Ep. assert (i < length (map (session_work lc lg order fuel []) ls)) by (apply nth_error_Some; congruence). lia.
Qed.

(** At every moment, whoever has written what: what was in the store is there, every object
    comes after the objects that it refers to, and none lacks a part. So it does no harm if
    any of the programs, or all, end there. *)
Theorem C62_every_moment : forall hash lc lg order fuel N C S first ls,
  limits hash lc order N C S -> Forall (action_ok C S) first -> all_fit N hash lc lg order fuel session_start first ->
  let x := run_session hash lc lg order fuel session_start first in
  Forall (program_ok hash lc lg order fuel N C S x) ls -> functional (all_written hash lc lg order fuel x ls) ->
  forall schedule,
  let s := turns hash (mkShared (se_store x) (map (session_work lc lg order fuel []) ls)) schedule in
  (exists writes, sh_store s = se_store x ++ writes) /\
  forall n, children_first (firstn n (sh_store s)) /\ complete (firstn n (sh_store s)).
Proof.
  intros hash lc lg order fuel N C S first ls HLim HA HB x HP HF schedule s.
  destruct (programs_together hash lc lg order fuel N C S first ls HLim HA HB HP HF schedule) as (_ & T2 & _ & T4 & _). fold x s in T2, T4.
  split; [exact T4|]. intros n. assert (HL : laid (firstn n (sh_store s))) by (apply laid_prefix; exact T2).
  split; [apply children_first_laid; exact HL|apply laid_complete; exact HL].
Qed.

(** ** A concrete case

    A session commits a dataset with three instants. Two programs load it, and each appends
    data of its own: the first five instants more in two calls, and commits; the second one
    instant, commits, loads that again and appends another. *)
Definition ex_begin : list action :=
  [New ex_coords 2 2; Do 0 (Add ex_one); Do 1 (Append I32 [97]%N (ex_slice 0 3)); Do 2 Commit].
Definition ex_base : session := run_session ex_hash ex_lc ex_lg (@rev call) 4 session_start ex_begin.
Definition ex_version : cid := fst (last (se_store ex_base) (ex_hash [], [])).
Definition ex_programs (c : cid) : list (list action) :=
  [[Open c; Do 0 (Append I32 [97]%N (ex_slice 3 2)); Do 1 (Append I32 [97]%N (ex_slice 5 3)); Do 2 Commit];
   [Open c; Do 0 (Append I32 [97]%N (ex_slice 4 1)); Do 1 Reload; Do 2 (Append I32 [97]%N (ex_slice 1 1))]].
Definition ex_shared (schedule : list nat) : shared (list dataset) :=
  turns ex_hash (mkShared (se_store ex_base) (map (session_work ex_lc ex_lg (@rev call) 4 []) (ex_programs ex_version))) schedule.
Definition ex_ends (s : shared (list dataset)) : nat * list (option nat) :=
  (length (sh_store s), map (fun p => match p with Finished (Ok l) => Some (length l) | _ => None end) (sh_work s)).
Definition every_turn (n : nat) : list nat := flat_map (fun _ => [0; 1]) (seq 0 n).

Lemma ex_slice_ok i t n : action_ok 2 7 (Do i (Append I32 [97]%N (ex_slice t n))).
Proof.
  cbn [action_ok event_ok data_ok ex_slice a3_shape value_ok a3_at]. split; [lia|]. split; [lia|]. intros j r k _ _ _. unfold ex_cells, i64_range, two63.
  pose proof (Nat.mod_upper_bound (3 + 7 * (t + j) + 3 * r * (t + j) + 5 * k) 11 ltac:(discriminate)). split; lia.
Qed.
Fixpoint opens_thereb hash lc lg order fuel (x : session) (l : list action) : bool :=
  match l with
  | [] => true
  | a :: l' => match a with Open c => match store_get (se_store x) c with Some _ => true | None => false end | _ => true end &&
      opens_thereb hash lc lg order fuel (run_action hash lc lg order fuel x a) l'
  end.
Lemma opens_thereb_ok hash lc lg order fuel : forall l x, opens_thereb hash lc lg order fuel x l = true -> opens_there hash lc lg order fuel x l.
Proof.
  induction l as [|a l IH]; intros x H; cbn [opens_there opens_thereb] in *; [exact Logic.I|]. apply andb_true_iff in H. destruct H as [H1 H2].
  split; [|apply IH, H2]. destruct a as [co r c|c|i e|n]; try exact Logic.I. destruct (store_get (se_store x) c) as [b|] eqn:E; [|discriminate]. eapply has_get, E.
Qed.

(** When the turns alternate, both are done after 34 turns each, and everything is in the
    store; when the first never has a turn, the second is done all the same. *)
Example C62_example : limits ex_hash ex_lc (@rev call) 1000 2 7 /\ Forall (action_ok 2 7) ex_begin /\
  all_fit 1000 ex_hash ex_lc ex_lg (@rev call) 4 session_start ex_begin /\
  Forall (program_ok ex_hash ex_lc ex_lg (@rev call) 4 1000 2 7 ex_base) (ex_programs ex_version) /\
  functional (all_written ex_hash ex_lc ex_lg (@rev call) 4 ex_base (ex_programs ex_version)) /\
  length (se_store ex_base) = 7 /\
  ex_ends (ex_shared (every_turn 33)) = (35, [None; Some 4]) /\
  ex_ends (ex_shared (every_turn 34)) = (36, [Some 4; Some 4]) /\
  ex_ends (ex_shared (repeat 1 26)) = (19, [None; Some 4]).
Proof.
  split; [exact ex_limits|]. split.
  { unfold ex_begin. repeat apply Forall_cons; try exact (Forall_nil _); try apply ex_slice_ok; try exact Logic.I.
    - split; [destruct ex_setting as [_ _ _ _ _ _ H]; exact H|lia].
    - cbn [action_ok event_ok ex_one cf_name cf_round cf_span cf_chunk cf_levels length].
      repeat match goal with |- _ /\ _ => split end; try exact Logic.I; try reflexivity; try lia; repeat constructor; vm_compute; reflexivity. }
  split; [apply fit_run_ok; vm_compute; reflexivity|]. split.
  { repeat apply Forall_cons; try exact (Forall_nil _); constructor.
    1,5: repeat apply Forall_cons; try exact (Forall_nil _); try apply ex_slice_ok; exact Logic.I.
    1,4: apply fit_run_ok; vm_compute; reflexivity.
    1,3: apply opens_thereb_ok; vm_compute; reflexivity.
    all: intros n [H|[H|[H|[H|[]]]]]; discriminate. }
  split; [apply functional_checked; vm_compute; reflexivity|].
  split; [vm_compute; reflexivity|]. split; [vm_compute; reflexivity|]. split; vm_compute; reflexivity.
Qed.

(** A program that opens what only another one writes does depend on the turns. Here the
    first commits an empty dataset and the second opens it: alone it would find nothing. *)
Definition ex_writer : list action := [New ex_coords 2 2; Do 0 Commit].
Definition ex_early : cid := ex_hash (node_bytes (NDataset (dataset_new ex_coords 2 2))).
Theorem C62_opening_refuted : exists schedule r,
  Forall (action_ok 2 7) (ex_writer ++ [Open ex_early]) /\
  let s := turns ex_hash (mkShared [] (map (session_work ex_lc ex_lg (@rev call) 4 []) [ex_writer; [Open ex_early]])) schedule in
  nth_error (sh_work s) 1 = Some (Finished (Ok r)) /\ length r = 1 /\
  se_open (run_session ex_hash ex_lc ex_lg (@rev call) 4 (started session_start) [Open ex_early]) = [].
Proof.
  exists [0; 1]. eexists. split.
  - unfold ex_writer. cbn [app]. repeat apply Forall_cons; try exact (Forall_nil _); try exact Logic.I. split; [destruct ex_setting as [_ _ _ _ _ _ H]; exact H|lia].
  - cbv zeta. split; [vm_compute; reflexivity|]. split; [reflexivity|]. vm_compute. reflexivity.
Qed.

Print Assumptions C62_undisturbed.
Print Assumptions C62_nobody_waits.
Print Assumptions C62_every_moment.
Print Assumptions C62_opening_refuted.
