(** * C24, C25, C26 and C45 for sessions: several datasets and versions in use at once, any
    data, calls that fail, and crashes. *)
From Coq Require Import ZArith Permutation.
From Verif Require Import Base BaseFacts Spec GeomModel GeomProofs BitmapModel DacModel StreamModel StreamProofs ChunkModel ChunkStream ChunkReads
  NodeModel NodeProofs SuperModel SuperViews SuperProofs ArrayModel ArrayProofs FixedModel FloatModel DatasetModel DatasetProofs AppendProofs HistoryModel
  KindProofs HistoryProofs SessionModel SessionSpec SessionProofs StoryProofs.
From Verif Require SnapshotModel PropertiesNode PropertiesSuper PropertiesDataset PropertiesListing PropertiesClosed.
Import PropertiesNode PropertiesDataset PropertiesListing PropertiesClosed.
Arguments Nat.pow : simpl never.
Open Scope nat_scope.

(** ** C45 *)

(** After any session, and wherever its last call stopped, children are in the store
    before what refers to them, and nothing that is in the store lacks a part. *)
Theorem C45_sessions : forall hash lc lg order fuel N C S l,
  limits hash lc order N C S -> Forall (action_ok C S) l -> all_fit N hash lc lg order fuel session_start l ->
  let x := run_session hash lc lg order fuel session_start l in functional (se_ever x) ->
  forall writes, children_first (firstn writes (se_store x)) /\ complete (firstn writes (se_store x)).
Proof.
  intros hash lc lg order fuel N C S l [L1 L2 L3 L4 L5] HA HB x HF writes.
  pose proof (good_session hash lc lg order fuel N C S L1 L2 L3 L5 L4 l session_start HF HA HB (good_start N C S)) as [G1 _ _ _].
  assert (HL : laid (firstn writes (se_store x))) by (apply laid_prefix; exact G1).
  split; [apply children_first_laid; exact HL|apply laid_complete; exact HL].
Qed.

(** ** C26 *)

(** What an identifier gives is the same in both stores: loading it, listing it, and,
    if it is an array, every read and every search. *)
Definition same_answers (st st' : store) (c : cid) : Prop :=
  get_dataset st' c = get_dataset st c /\ get_links st' c = get_links st c /\ get_mm st' c = get_mm st c /\
  resolver_ls st' c = resolver_ls st c /\
  forall m, get_mm st c = Ok m -> forall fuel,
    (forall A (R : reader A) t r k, arr_get R st' fuel m t r k = arr_get R st fuel m t r k) /\
    (forall A (R : reader A) start end_ r k, arr_cell R st' fuel m start end_ r k = arr_cell R st fuel m start end_ r k) /\
    (forall A (R : reader A) order b, arr_window R st' fuel order m b = arr_window R st fuel order m b) /\
    (forall b lower upper, arr_search st' fuel m b lower upper = arr_search st fuel m b lower upper).

Lemma laid_shared a b u c x : laid a -> laid b -> functional u -> incl a u -> incl b u -> has a c -> has b c -> reached a c x -> has a x /\ has b x.
Proof.
  intros La Lb HF Ia Ib Ha Hb H. split; [eapply laid_reached; eassumption|]. induction H as [|c' entries e H IH E He]; [exact Hb|].
  assert (Ha' : has a c') by (eapply laid_reached; eassumption).
  destruct (has_got a c' Ha') as (ba & Ea). destruct (has_got b c' IH) as (bb & Eb).
  assert (ba = bb) as <- by (apply (HF c'); [apply Ia, store_get_some, Ea|apply Ib, store_get_some, Eb]).
  destruct (laid_loads a c' La Ha') as (n & R).
  assert (Rb : retrieve b c' = Ok n) by (unfold retrieve in *; rewrite Ea in R; rewrite Eb; exact R).
  unfold resolver_ls in E. rewrite R in E. cbn [bind] in E.
  assert (Hin : exists name, In (name, le_cid e) (node_ls n)).
  { clear -E He. revert entries E He. generalize (node_ls n). induction l as [|[name y] l IH]; intros entries E He; cbn [mapM] in E; [injection E as <-; destruct He|].
    apply bind_inv in E. destruct E as (e0 & E0 & E). apply bind_inv in E. destruct E as (es & Es & E). injection E as <-.
    destruct He as [<-|He]; [|destruct (IH es Es He) as (nm & Hn); exists nm; right; exact Hn].
    apply bind_inv in E0. destruct E0 as (t & _ & E0). injection E0 as <-. exists name. left. reflexivity. }
  destruct Hin as (name & Hin). pose proof (written_retrieve b c' n (laid_written b Lb) Rb) as NL.
  apply (laid_retrieve b c' n Lb Rb). apply (refs_child n _ NL). exists name. apply in_node_ls; assumption.
Qed.
Lemma laid_same a b u c x : laid a -> laid b -> functional u -> incl a u -> incl b u -> has a c -> has b c -> reached a c x -> same_answers a b x.
Proof.
  intros La Lb HF Ia Ib Ha Hb Hx. apply (C42_listing_is_enough a b c).
  - apply written_walkable, laid_written, La.
  - intros y Hy. destruct (laid_shared a b u c y La Lb HF Ia Ib Ha Hb Hy) as [Ya Yb].
    destruct (has_got a y Ya) as (ba & Ea). destruct (has_got b y Yb) as (bb & Eb). rewrite Ea, Eb. f_equal.
    apply (HF y); [apply Ib, store_get_some, Eb|apply Ia, store_get_some, Ea].
  - exact Hx.
Qed.

Definition no_crash (l : list action) : Prop := forall n, ~ In (Crash n) l.
Lemma session_app hash lc lg order fuel x l l' : run_session hash lc lg order fuel x (l ++ l') = run_session hash lc lg order fuel (run_session hash lc lg order fuel x l) l'.
Proof. apply fold_left_app. Qed.
Lemma all_fit_app N hash lc lg order fuel : forall l x l', all_fit N hash lc lg order fuel x (l ++ l') -> all_fit N hash lc lg order fuel x l.
Proof. induction l as [|a l IH]; intros x l' H; cbn [app all_fit] in *; [exact I|]. destruct H as [H1 H2]. split; [exact H1|eapply IH, H2]. Qed.
Lemma session_grows hash lc lg order fuel : forall l x, no_crash l -> exists w, se_store (run_session hash lc lg order fuel x l) = se_store x ++ w.
Proof.
  induction l as [|a l IH]; intros x H; [exists []; symmetry; apply app_nil_r|].
  unfold run_session in *. cbn [fold_left]. destruct (IH (run_action hash lc lg order fuel x a)) as (w & Ew); [intros n Hn; apply (H n); right; exact Hn|].
  assert (HA : exists w, se_store (run_action hash lc lg order fuel x a) = se_store x ++ w).
  { destruct a as [co r c|c|i e|n]; cbn [run_action]; try (exists []; symmetry; apply app_nil_r).
    - destruct (get_dataset _ c); exists []; symmetry; apply app_nil_r.
    - destruct (nth_error _ i) as [d|]; [|exists []; symmetry; apply app_nil_r].
      destruct (mono_event hash lc lg order fuel d e (se_store x)) as (w0 & E0). destruct (run_event _ _ _ _ _ _ _ _) as [st r]. exists w0. exact E0.
    - exfalso. apply (H n). left. reflexivity. }
  destruct HA as (w0 & E0). exists (w0 ++ w). rewrite Ew, E0, app_assoc. reflexivity.
Qed.

(** At any point of a session the arrays of every dataset in use are in the store.
    Whatever is done later, whether or not it succeeds: as long as there is no crash
    nothing leaves the store; and of every identifier that is still there, which after a
    crash may be any number of the first ones, whatever can be reached from it is still
    there and gives the same answers. *)
Theorem C26_sessions : forall hash lc lg order fuel N C S l later,
  limits hash lc order N C S -> Forall (action_ok C S) (l ++ later) -> all_fit N hash lc lg order fuel session_start (l ++ later) ->
  let x := run_session hash lc lg order fuel session_start l in
  let y := run_session hash lc lg order fuel x later in functional (se_ever y) ->
  (forall d v, In d (se_open x) -> In v (ds_vars d) -> has (se_store x) (va_cid v)) /\
  (no_crash later -> exists writes, se_store y = se_store x ++ writes) /\
  forall c, has (se_store x) c -> forall writes, has (firstn writes (se_store y)) c ->
    forall c', reached (se_store x) c c' -> same_answers (se_store x) (firstn writes (se_store y)) c'.
Proof.
  intros hash lc lg order fuel N C S l later [L1 L2 L3 L4 L5] HA HB x y HF.
  assert (Ey : y = run_session hash lc lg order fuel session_start (l ++ later)) by (symmetry; apply session_app).
  assert (HI : incl (se_ever x) (se_ever y)) by apply (ever_session hash lc lg order fuel later).
  pose proof (functional_incl _ _ HI HF) as HFx.
  pose proof (proj1 (Forall_app _ _ _) HA) as [HAx _]. pose proof (all_fit_app _ _ _ _ _ _ _ _ _ HB) as HBx.
  destruct (good_session hash lc lg order fuel N C S L1 L2 L3 L5 L4 l session_start HFx HAx HBx (good_start N C S)) as [X1 X2 _ X4].
  destruct (good_session hash lc lg order fuel N C S L1 L2 L3 L5 L4 (l ++ later) session_start) as [Y1 Y2 _ _]; [rewrite <- Ey; exact HF|exact HA|exact HB|apply good_start|].
  rewrite <- Ey in Y1, Y2. fold x in X1, X2, X4. split; [|split].
  - intros d v Hd Hv. rewrite Forall_forall in X4. destruct (X4 d Hd) as [Sd _].
    apply (sound_anchored lc N C S L5 L4 (se_store x) d Sd). cbn [refs]. apply in_or_app. left. apply in_map. exact Hv.
  - apply session_grows.
  - intros c Hx writes Hy c' Hc'.
    apply (laid_same (se_store x) (firstn writes (se_store y)) (se_ever y) c c'); auto; [apply laid_prefix; exact Y1|eapply incl_tran; [exact X2|exact HI]|].
    eapply incl_tran; [|exact Y2]. intros p Hp. rewrite <- (firstn_skipn writes (se_store y)). apply in_or_app. left. exact Hp.
Qed.

(** ** C24 and C25 *)

(** Every dataset in use, in any session, has a story ([tell], SessionModel.v): what it was
    created with and the calls that led to it. If the story is valid, the dataset holds
    what was appended in it, whatever was done with other datasets and other versions of
    this one, and whatever crashes there were before it was loaded. What is missing from
    C24: data that cannot be stored, see [valid]. *)
Theorem C24_sessions_partial : forall hash lc lg order fuel l,
  let y := run_told hash lc lg order fuel told_start l in
  let x := run_session hash lc lg order fuel session_start l in functional (se_ever x) ->
  to_session y = x /\
  forall i d, nth_error (se_open x) i = Some d -> exists coords rows cols es, nth_error (to_open y) i = Some (Some (mkStory coords rows cols es)) /\
    forall N, setting hash lg order rows cols N coords -> valid lc fuel rows cols N es ->
      ds_coords d = coords /\ ds_rows d = rows /\ ds_cols d = cols /\ map va_name (ds_vars d) = map cf_name (configs es) /\
      forall c, In c (configs es) -> exists v, find_var (cf_name c) (ds_vars d) = Some v /\
        holds lc lg rows cols c (se_store x) v (appended es c) (length_appended es c).
Proof.
  intros hash lc lg order fuel l y x HF.
  destruct (telling_session hash lc lg order fuel l told_start HF (telling_start hash lc lg order fuel)) as [[T1 T2 T3 T4] E].
  change (to_session told_start) with session_start in E. fold y in T1, T2, T3, T4, E. fold x in E. rewrite E in T1, T2, T3, T4 |- *. split; [reflexivity|].
  intros i d Hd. destruct (Forall2_nth_error_l _ _ _ _ _ T2 Hd) as (o & Ho & s & -> & Hs). destruct s as [coords rows cols es].
  exists coords, rows, cols, es. split; [exact Ho|]. intros N HS HV.
  specialize (Hs N []). cbn [sy_coords sy_rows sy_cols sy_events] in Hs. rewrite app_nil_r in Hs. specialize (Hs HS HV). pose proof Hs as [I1 I2 I3 _ _ _].
  split; [exact I3|]. split; [exact I1|]. split; [exact I2|]. exact (inv_holds hash lc lg order fuel rows cols N coords es HS HV (se_store x) d Hs).
Qed.

(** A call that keeps the story valid succeeds. *)
Theorem C25_sessions_partial : forall hash lc lg order fuel l i d coords rows cols es e N,
  let x := run_session hash lc lg order fuel session_start l in functional (se_ever (run_action hash lc lg order fuel x (Do i e))) ->
  nth_error (se_open x) i = Some d -> nth_error (to_open (run_told hash lc lg order fuel told_start l)) i = Some (Some (mkStory coords rows cols es)) ->
  setting hash lg order rows cols N coords -> valid lc fuel rows cols N (es ++ [e]) ->
  exists d', snd (run_event hash lc lg order fuel d e (se_store x)) = Ok d' /\
    se_open (run_action hash lc lg order fuel x (Do i e)) = se_open x ++ [d'].
Proof.
  intros hash lc lg order fuel l i d coords rows cols es e N x HF Hd Ho HS HV.
  assert (HFx : functional (se_ever x)) by (eapply functional_incl; [apply (ever_action hash lc lg order fuel x (Do i e))|exact HF]).
  destruct (telling_session hash lc lg order fuel l told_start HFx (telling_start hash lc lg order fuel)) as [[T1 T2 T3 T4] E].
  change (to_session told_start) with session_start in E. fold x in E. rewrite E in *.
  destruct (Forall2_nth_error_l _ _ _ _ _ T2 Hd) as (o & Ho' & s & -> & Hs). rewrite Ho in Ho'. injection Ho' as <-.
  specialize (Hs N [e] HS HV). cbn [sy_coords sy_rows sy_cols sy_events] in Hs.
  assert (Fx : functional (se_store x)) by (eapply functional_incl; [exact T1|exact HFx]).
  cbn [run_action] in *. rewrite Hd in *. pose proof HS as [S1 S2 SL [S3 S3'] [S4 S4'] S5 S6].
  pose proof (ok_event hash lc lg order fuel rows cols N S1 S2 SL S3 S4 S3' S4' S5 coords _ S6 HV es e [] d (se_store x) eq_refl Fx Hs) as HO. unfold ok_in in HO.
  pose proof (mono_event hash lc lg order fuel d e (se_store x)) as (w & Ew).
  destruct (run_event hash lc lg order fuel d e (se_store x)) as [st r]. cbn [fst snd se_ever se_open] in *. subst st.
  destruct HO as (d' & Er & _).
  { eapply functional_incl; [|exact HF]. rewrite skipn_app, skipn_all, Nat.sub_diag. cbn [skipn app].
    intros p Hp. apply in_app_or in Hp. apply in_or_app. destruct Hp as [Hp|Hp]; [left; apply T1, Hp|right; exact Hp]. }
  subst r. exists d'. split; reflexivity.
Qed.

(** ** An example *)

Definition ex_odd : config := mkConfig [99]%N None 1 0 [] I32.
(** A history spread over two processes. In between:
    an append to a variable that does not exist, one with the wrong shape, a fork of an
    earlier version, with a variable to which nothing can be appended, and an append
    that a crash undoes. *)
Definition ex_first : list action :=
  [New ex_coords 5 6; Do 0 (Add ex_a); Do 1 (Append I32 [97]%N (ex_data 1 3 5 6)); Do 2 Reload; Do 3 (Add ex_b);
   Do 4 (Append I32 [122]%N (ex_data 1 1 5 6)); Do 3 (Add ex_odd); Do 5 (Append I32 [99]%N (ex_data 1 2 5 6));
   Do 4 (Append I32 [97]%N (ex_data 1 1 5 7)); Do 4 (Append I32 [97]%N (ex_data 2 4 5 6)); Do 6 Commit].
Definition ex_start (l : list action) : session := run_session ex_hash ex_lc ex_lg (@rev call) 4 session_start l.
Definition ex_begun : session := ex_start ex_first.
Definition ex_committed : nat * cid := (length (se_store ex_begun), fst (last (se_store ex_begun) (ex_hash [], []))).
Definition ex_rest : list action :=
  [Do 5 (Append I32 [97]%N (ex_data 7 1 5 6)); Crash (fst ex_committed); Open (snd ex_committed); Do 0 Reload;
   Do 1 (Append I64 [98]%N (ex_data 3 2 5 6)); Do 2 Commit; Do 3 (Append I32 [97]%N (ex_data 4 0 5 6)); Do 4 (Append I32 [97]%N (ex_data 5 2 5 6))].
Definition ex_story : list event :=
  [Add ex_a; Append I32 [97]%N (ex_data 1 3 5 6); Reload; Add ex_b; Append I32 [97]%N (ex_data 2 4 5 6); Reload; Reload;
   Append I64 [98]%N (ex_data 3 2 5 6); Commit; Append I32 [97]%N (ex_data 4 0 5 6); Append I32 [97]%N (ex_data 5 2 5 6)].
Definition ex_session : session := ex_start (ex_first ++ ex_rest).
Definition ex_told : told := run_told ex_hash ex_lc ex_lg (@rev call) 4 told_start (ex_first ++ ex_rest).

(** Whether a session fits can be computed. *)
Definition event_fitsb (N : nat) (st : store) (d : dataset) (e : event) : bool :=
  match e with
  | Add _ => length (ds_vars d) <? 255
  | Append _ name data =>
      match find_var name (ds_vars d) with
      | Some v => match bind (get_mm st (va_cid v)) mm_shape with Ok (n, r, c) => n + instants3 data <=? N | _ => true end
      | None => true
      end
  | Commit | Reload => true
  end.
Definition action_fitsb (N : nat) (x : session) (a : action) : bool :=
  match a with
  | Do i e => match nth_error (se_open x) i with Some d => event_fitsb N (se_store x) d e | None => true end
  | New _ _ _ | Open _ | Crash _ => true
  end.
Definition fit_run N hash lc lg order fuel (l : list action) (x : session) : bool * session :=
  fold_left (fun bx a => let '(b, x) := bx in (b && action_fitsb N x a, run_action hash lc lg order fuel x a)) l (true, x).
Lemma action_fitsb_ok N x a : action_fitsb N x a = true -> action_fits N x a.
Proof.
  destruct a as [co r c|c|i e|n]; cbn [action_fitsb action_fits]; auto. intros H d Hd. rewrite Hd in H.
  destruct e as [c|t name data| |]; cbn [event_fits event_fitsb] in *; auto; [apply Nat.ltb_lt, H|].
  intros v m n r c Ev Em Es. rewrite Ev, Em in H. cbn [bind] in H. rewrite Es in H. apply Nat.leb_le, H.
Qed.
Lemma fit_run_ok N hash lc lg order fuel : forall l x, fst (fit_run N hash lc lg order fuel l x) = true -> all_fit N hash lc lg order fuel x l.
Proof.
  assert (H : forall l b x, fst (fold_left (fun bx a => let '(b, x) := bx in (b && action_fitsb N x a, run_action hash lc lg order fuel x a)) l (b, x)) = true ->
    b = true /\ all_fit N hash lc lg order fuel x l).
  { induction l as [|a l IH]; intros b x H; cbn [fold_left all_fit fst] in *; [auto|]. apply IH in H. destruct H as [H1 H2].
    apply andb_true_iff in H1. destruct H1 as [-> H1]. split; [reflexivity|]. split; [apply action_fitsb_ok, H1|exact H2]. }
  intros l x Hx. exact (proj2 (H l true x Hx)).
Qed.

Lemma fit_run_session N hash lc lg order fuel : forall l x, snd (fit_run N hash lc lg order fuel l x) = run_session hash lc lg order fuel x l.
Proof.
  unfold fit_run, run_session. assert (H : forall l b x, snd (fold_left (fun bx a => let '(b, x) := bx in (b && action_fitsb N x a, run_action hash lc lg order fuel x a)) l (b, x)) =
    fold_left (run_action hash lc lg order fuel) l x) by (induction l as [|a l IH]; intros b x; cbn [fold_left snd]; [reflexivity|apply IH]).
  intros l x. apply H.
Qed.

Lemma ex_limits : limits ex_hash ex_lc (@rev call) 1000 2 7.
Proof.
  constructor.
  - intros b. unfold ex_hash. apply wf_ex_cid.
  - apply Permutation_rev.
  - reflexivity.
  - lia.
  - apply (PropertiesSuper.C19_sizes 2 2 7 (le_n 2)). reflexivity.
Qed.
Lemma ex_data_ok seed n r c : 1 <= r <= 7 -> 1 <= c <= 7 -> data_ok 7 I32 (ex_data seed n r c) /\ data_ok 7 I64 (ex_data seed n r c).
Proof.
  intros Hr Hc. assert (H : forall i j k, i64_range (a3_at (ex_data seed n r c) i j k)).
  { intros i j k. pose proof (ex_range seed n r c i j k) as H. unfold i64_range, two63. lia. }
  split; unfold data_ok; cbn [a3_shape ex_data]; (split; [exact Hr|]; split; [exact Hc|]; intros; apply H).
Qed.
Lemma ex_actions : Forall (action_ok 2 7) (ex_first ++ ex_rest).
Proof.
  assert (HC : forall c, In c [ex_a; ex_b; ex_odd] -> event_ok 2 7 (Add c)).
  { intros c [<-|[<-|[<-|[]]]]; cbn [event_ok ex_a ex_b ex_odd cf_name cf_round cf_span cf_chunk cf_levels length].
    all: repeat match goal with |- _ /\ _ => split end; try exact I; try reflexivity; try lia; repeat constructor; vm_compute; reflexivity. }
  assert (HI : forall name seed n r c, 1 <= r <= 7 -> 1 <= c <= 7 -> event_ok 2 7 (Append I32 name (ex_data seed n r c))) by (intros; apply ex_data_ok; assumption).
  assert (HL : forall name seed n r c, 1 <= r <= 7 -> 1 <= c <= 7 -> event_ok 2 7 (Append I64 name (ex_data seed n r c))) by (intros; apply ex_data_ok; assumption).
  unfold ex_first, ex_rest. cbn [app]. repeat apply Forall_cons; try exact (Forall_nil _).
  all: cbn [action_ok]; try exact I; try (apply HC; cbn [In]; now auto); try (apply HI; lia); try (apply HL; lia).
  split; [|lia]. destruct ex_setting as [_ _ _ _ _ _ H]. exact H.
Qed.
Lemma ex_story_valid : valid ex_lc 4 5 6 1000 ex_story.
Proof.
  constructor.
  - cbn [ex_story configs map cf_name ex_a ex_b]. repeat constructor; cbn; intuition discriminate.
  - reflexivity.
  - apply Forall_forall. intros c Hc. apply ex_config. cbn in Hc |- *. tauto.
  - apply (appends_to_all 5 6 ex_story []). unfold ex_story. cbn [appends_to app].
    repeat match goal with
    | |- (exists c, _) /\ _ => split
    | |- exists c, _ => first [exists ex_a; cbn; now auto 10 | exists ex_b; cbn; now auto 10]
    | |- True => exact I
    end.
  - assert (HR : forall l, Forall (fun a => exists s n, a = ex_data s n 5 6) l -> forall t r c, (-4 <= joined 0%Z l t r c <= 6)%Z).
    { intros l H. apply (joined_all (fun v => (-4 <= v <= 6)%Z)); [lia|]. eapply Forall_impl; [|exact H].
      intros a (s & n & ->) t r c. apply ex_range. }
    intros c [<-|[<-|[]]]; (split; [vm_compute; lia|]); intros before after _; generalize (length_appended before); intros T.
    + apply C24_i32_always_fits. intros t r k _ _ _.
      assert (H : Forall (fun a => exists s n, a = ex_data s n 5 6) (batches I32 (cf_name ex_a) ex_story)) by (cbn; repeat constructor; eauto).
      pose proof (HR _ H t r k) as HB. change (i32_range (joined 0%Z (batches I32 (cf_name ex_a) ex_story) t r k)).
      generalize dependent (joined 0%Z (batches I32 (cf_name ex_a) ex_story) t r k). intros v HB. unfold i32_range. lia.
    + assert (H : Forall (fun a => exists s n, a = ex_data s n 5 6) (batches I64 (cf_name ex_b) ex_story)) by (cbn; repeat constructor; eauto).
      specialize (HR _ H). intros i Hi. left. split; [reflexivity|]. split; [reflexivity|]. split.
      * intros t r k _ _ _. specialize (HR (i * cf_chunk ex_b + t) r k).
        change (i64_range (joined 0%Z (batches I64 (cf_name ex_b) ex_story) (i * cf_chunk ex_b + t) r k)).
        revert HR. generalize (joined 0%Z (batches I64 (cf_name ex_b) ex_story) (i * cf_chunk ex_b + t) r k). intros v HB. unfold i64_range, two63. lia.
      * intros s t Hst Ht r k Hr Hk. pose proof (HR (i * cf_chunk ex_b + s) r k) as A. pose proof (HR (i * cf_chunk ex_b + t) r k) as B.
        change (i64_range (joined 0%Z (batches I64 (cf_name ex_b) ex_story) (i * cf_chunk ex_b + t) r k - joined 0%Z (batches I64 (cf_name ex_b) ex_story) (i * cf_chunk ex_b + s) r k)).
        revert A B. generalize (joined 0%Z (batches I64 (cf_name ex_b) ex_story) (i * cf_chunk ex_b + t) r k), (joined 0%Z (batches I64 (cf_name ex_b) ex_story) (i * cf_chunk ex_b + s) r k).
        intros v w A B. unfold i64_range, two63. lia.
Qed.

(** The session meets the hypotheses; the crash loses objects, and the story of the last
    dataset in use is [ex_story]. *)
Example C45_sessions_example : limits ex_hash ex_lc (@rev call) 1000 2 7 /\ Forall (action_ok 2 7) (ex_first ++ ex_rest) /\
  all_fit 1000 ex_hash ex_lc ex_lg (@rev call) 4 session_start (ex_first ++ ex_rest) /\ functional (se_ever ex_session) /\
  length (se_ever ex_session) = 85 /\ length (se_store ex_session) = 78 /\ length (se_open ex_session) = 6.
Proof.
  split; [exact ex_limits|]. split; [exact ex_actions|].
  assert (H : (let '(b, x) := fit_run 1000 ex_hash ex_lc ex_lg (@rev call) 4 (ex_first ++ ex_rest) session_start in
    b && functional_check (se_ever x) && (length (se_ever x) =? 85) && (length (se_store x) =? 78) && (length (se_open x) =? 6)) = true) by (vm_compute; reflexivity).
  assert (F := fit_run_ok 1000 ex_hash ex_lc ex_lg (@rev call) 4 (ex_first ++ ex_rest) session_start).
  assert (E : snd (fit_run 1000 ex_hash ex_lc ex_lg (@rev call) 4 (ex_first ++ ex_rest) session_start) = ex_session) by apply fit_run_session.
  revert F E H. generalize (all_fit 1000 ex_hash ex_lc ex_lg (@rev call) 4 session_start (ex_first ++ ex_rest)) ex_session.
  destruct (fit_run 1000 ex_hash ex_lc ex_lg (@rev call) 4 (ex_first ++ ex_rest) session_start) as [b x]. cbn [fst snd]. intros P y F <- H.
  repeat (apply andb_true_iff in H; destruct H as [H ?]). repeat match goal with K : (_ =? _) = true |- _ => apply Nat.eqb_eq in K end.
  split; [exact (F H)|]. split; [apply functional_checked; assumption|]. auto.
Qed.
(** What the session is told, before its last call and after it. *)
Definition ex_before : told := run_told ex_hash ex_lc ex_lg (@rev call) 4 told_start (removelast (ex_first ++ ex_rest)).
Lemma pair_parts {A B} (a c : A) (b d : B) : (a, b) = (c, d) -> a = c /\ b = d.
Proof. intros H. injection H as <- <-. auto. Qed.
Lemma tell_last hash lc lg order fuel y l a : run_told hash lc lg order fuel y (l ++ [a]) = tell hash lc lg order fuel (run_told hash lc lg order fuel y l) a.
Proof. unfold run_told. rewrite fold_left_app. reflexivity. Qed.
Lemma ex_tellings :
  (nth_error (to_open ex_before) 4, nth_error (to_open (tell ex_hash ex_lc ex_lg (@rev call) 4 ex_before (Do 4 (Append I32 [97]%N (ex_data 5 2 5 6))))) 5) =
  (Some (Some (mkStory ex_coords 5 6 (removelast ex_story))), Some (Some (mkStory ex_coords 5 6 ex_story))).
Proof. vm_compute. reflexivity. Qed.
Example C24_sessions_example : functional (se_ever ex_session) /\ nth_error (to_open ex_told) 5 = Some (Some (mkStory ex_coords 5 6 ex_story)) /\
  setting ex_hash ex_lg (@rev call) 5 6 1000 ex_coords /\ valid ex_lc 4 5 6 1000 ex_story.
Proof.
  split; [apply C45_sessions_example|]. split; [|split; [exact ex_setting|exact ex_story_valid]].
  assert (E : ex_told = tell ex_hash ex_lc ex_lg (@rev call) 4 ex_before (Do 4 (Append I32 [97]%N (ex_data 5 2 5 6)))).
  { assert (L : ex_first ++ ex_rest = removelast (ex_first ++ ex_rest) ++ [Do 4 (Append I32 [97]%N (ex_data 5 2 5 6))]) by reflexivity.
    unfold ex_told, ex_before. rewrite L at 1. apply tell_last. }
  rewrite E. apply (pair_parts _ _ _ _ ex_tellings).
Qed.
(** Its last call is one that the theorem says succeeds. *)
Example C25_sessions_example : ex_first ++ ex_rest = removelast (ex_first ++ ex_rest) ++ [Do 4 (Append I32 [97]%N (ex_data 5 2 5 6))] /\
  nth_error (to_open ex_before) 4 =
    Some (Some (mkStory ex_coords 5 6 (removelast ex_story))) /\
  valid ex_lc 4 5 6 1000 (removelast ex_story ++ [Append I32 [97]%N (ex_data 5 2 5 6)]).
Proof. split; [reflexivity|]. split; [apply (pair_parts _ _ _ _ ex_tellings)|]. exact ex_story_valid. Qed.

Print Assumptions C45_sessions.
Print Assumptions C26_sessions.
Print Assumptions C24_sessions_partial.
Print Assumptions C25_sessions_partial.
