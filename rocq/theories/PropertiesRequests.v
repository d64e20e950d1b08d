(** * What reads ask of the cache and of the store (C59, C60) *)
From Coq Require Import ZArith Permutation.
From Flocq Require Import Core.Core IEEE754.BinarySingleNaN.
From Verif Require Import Base BaseFacts CacheModel CacheSpec CacheProofs.
From Verif Require Import Spec GeomModel GeomProofs BitmapModel DacModel StreamModel StreamProofs ChunkModel
  NodeModel NodeProofs SuperModel SuperViews SuperProofs ArrayModel ArrayProofs FloatModel DatasetModel DatasetProofs HistoryModel
  KindProofs HistoryProofs CanonProofs RequestModel RequestProofs RequestReach RequestOnce RequestTree.
From Verif Require PropertiesCache PropertiesFixed PropertiesFloat PropertiesNode PropertiesDataset PropertiesCanon.
Import PropertiesFixed PropertiesFloat PropertiesNode PropertiesDataset PropertiesCanon.
Arguments Nat.pow : simpl never.
Open Scope nat_scope.

(** ** Specification *)

(** What the functions of mmarray.rs answer when every object comes from the store. *)
Definition reply_of {A} (R : reader A) (st : store) (fuel : nat) (order : list call -> list call) (q : question) : res (reply A) :=
  match q with
  | QData c => m <- get_mm st c ;; a <- arr_new R m ;; Ok (AData a)
  | QGet m t r c => x <- arr_get R st fuel m t r c ;; Ok (AOne x)
  | QCell m s e r c => a <- arr_cell R st fuel m s e r c ;; Ok (ACell a)
  | QWindow m b => a <- arr_window R st fuel order m b ;; Ok (AWindow a)
  | QSearch m b lower upper => l <- arr_search st fuel m b lower upper ;; Ok (AFound l)
  end.

(** Each store has all objects of those before it. *)
Definition growing (l : list store) : Prop :=
  forall before st between st' after, l = before ++ st :: between ++ st' :: after -> incl st st'.

(** The same answers, but errors may differ: which error a read ends with, and which
    errors are among the items that a search gives. *)
Definition like_item (x y : item) : Prop := match x, y with inl _, inl _ => True | inr a, inr b => a = b | _, _ => False end.
Definition like_reply {A} (x y : res (reply A)) : Prop :=
  match x, y with
  | Ok (AFound l), Ok (AFound l') => Forall2 like_item l l'
  | Ok a, Ok b => a = b
  | Err _, Err _ | Panic, Panic | Diverge, Diverge => True
  | _, _ => False
  end.
(** What the store answers, or another error where it answers an error. *)
Definition fair (st : store) (c : cid) (r : res NodeModel.node) : Prop :=
  r = retrieve st c \/ exists e e', r = Err e /\ retrieve st c = Err e'.

(** ** Proofs *)
Section Source.
  Context {A : Type}.
  Variables (R : reader A) (fuel : nat) (order : list call -> list call).

  Lemma store_question st q : ask_store st (question_asks R fuel order q) = reply_of R st fuel order q.
  Proof.
    destruct q as [c|m t r c|m s e r c|m b|m b lower upper]; cbn [question_asks reply_of].
    - apply bind_ext; [apply store_mm|]. intros m. apply bind_ext; reflexivity.
    - rewrite store_bind. cbn [ask_store]. unfold arr_get. destruct (check_bounds m t r c) as [[]|e| |]; cbn [bind]; [|reflexivity..].
      rewrite store_bind, store_get_ok. destruct (mm_get st fuel m t r c (mm_fbits m)) as [x|e| |]; reflexivity.
    - unfold arr_cell. rewrite store_bind. cbn [ask_store]. destruct (usub e 1) as [last|x| |]; cbn [bind]; [|reflexivity..].
      rewrite store_bind. cbn [ask_store]. destruct (check_bounds m last r c) as [[]|x| |]; cbn [bind]; [|reflexivity..].
      rewrite store_bind. cbn [ask_store]. destruct (usub e s) as [n|x| |]; cbn [bind]; [|reflexivity..].
      rewrite store_bind, store_cell_ok. destruct (mm_fill_cell st fuel m s e r c (mm_fbits m)) as [l|x| |]; cbn [bind]; [|reflexivity..].
      rewrite store_bind. cbn [ask_store]. destruct (run1 R _ l) as [a|x| |]; reflexivity.
    - unfold arr_window. rewrite store_bind. cbn [ask_store]. destruct (check_cube m b) as [[]|x| |]; cbn [bind]; [|reflexivity..].
      rewrite store_bind. cbn [ask_store]. destruct (usub (c_end b) (c_start b)) as [n|x| |]; cbn [bind]; [|reflexivity..].
      rewrite store_bind. cbn [ask_store]. destruct (usub (c_bottom b) (c_top b)) as [h|x| |]; cbn [bind]; [|reflexivity..].
      rewrite store_bind. cbn [ask_store]. destruct (usub (c_right b) (c_left b)) as [w|x| |]; cbn [bind]; [|reflexivity..].
      rewrite store_bind, store_window_ok. destruct (mm_fill_window st fuel m b (mm_fbits m)) as [l|x| |]; cbn [bind]; [|reflexivity..].
      rewrite store_bind. cbn [ask_store]. destruct (run3 R _ (order l)) as [a|x| |]; reflexivity.
    - unfold arr_search. rewrite store_bind. cbn [ask_store]. destruct (check_cube m b) as [[]|x| |]; cbn [bind]; [|reflexivity..].
      rewrite store_bind, store_search_ok. destruct (mm_search st fuel m b lower upper) as [l|x| |]; reflexivity.
  Qed.

  Definition like_one (x y : reply A) : Prop := match x, y with AFound l, AFound l' => Forall2 item_like l l' | a, b => a = b end.
  Lemma like_self x : like_one x x.
  Proof. destruct x; cbn; auto. apply items_refl. Qed.
  Lemma like_one_reply x y : rel_res like_one x y -> like_reply x y.
  Proof. destruct x as [[]|e| |], y as [[]|e'| |]; cbn; auto; intros H; try discriminate H; try exact H; congruence. Qed.

  Variable Q : res NodeModel.node -> res NodeModel.node -> Prop.
  Hypothesis HQ : forall r r', Q r r' -> rel_res eq r r'.
  Ltac steps := repeat first [apply sim_answer; intros ?; apply like_self|apply (sim_pure Q); intros ?|apply (sim_eq Q); [apply (sim_mm Q HQ)|intros ?]].
  Lemma sim_question q : sim Q (rel_res like_one) (question_asks R fuel order q) (question_asks R fuel order q).
  Proof.
    destruct q as [c|m t r c|m s e r c|m b|m b lower upper]; cbn [question_asks]; steps.
    - apply (sim_eq Q); [apply (sim_get Q HQ)|]. intros x. steps.
    - apply (sim_eq Q); [apply (sim_cell Q HQ)|]. intros x. steps.
    - apply (sim_eq Q); [apply (sim_window Q HQ)|]. intros x. steps.
    - eapply sim_bind; [apply (sim_search Q HQ)|]. intros l l' H. cbn. exact H.
  Qed.
End Source.

Lemma written_answers st : written st -> forall c, answers (retrieve st c).
Proof.
  intros HW c. unfold retrieve. destruct (store_get st c) as [b|] eqn:E; [|exact Logic.I]. apply store_get_some in E. unfold written in HW. rewrite Forall_forall in HW.
  destruct (HW _ E) as (n & [W _] & Eb). cbn [snd] in Eb. subst b. destruct (node_reads c n [] W) as (r & Er). rewrite app_nil_r in Er. rewrite Er. exact Logic.I.
Qed.

(** ** C59: the cache changes no answer *)

(** A program asks one question after the other, while the store grows. Whatever the limit
    of the cache and whatever sizes it counts, the answers are those of the store, and only
    objects that a question asks for are loaded for it. *)
Theorem C59_any_cache : forall (A : Type) (R : reader A) (fuel : nat) (order : list call -> list call)
    (size : NodeModel.node -> nat) (limit : nat) (questions : list (store * question)),
  growing (map fst questions) -> Forall (fun x => functional (fst x) /\ written (fst x)) questions ->
  exists s out, ask_each size (entries_new limit) (map (fun x => (fst x, question_asks R fuel order (snd x))) questions) = Ok (s, out) /\
    map snd out = map (fun x => reply_of R (fst x) fuel order (snd x)) questions /\
    Forall2 (fun x o => incl (fst o) (asked (fst x) (question_asks R fuel order (snd x))) /\
                        length (fst o) <= length (asked (fst x) (question_asks R fuel order (snd x)))) questions out.
Proof.
  intros A R fuel order size limit questions HG HF.
  assert (G : forall l s st0, Forall (fun x => functional (fst x) /\ written (fst x)) l -> growing (st0 :: map fst l) -> cache_of size limit st0 s ->
    exists s' out, ask_each size s (map (fun x => (fst x, question_asks R fuel order (snd x))) l) = Ok (s', out) /\
      map snd out = map (fun x => reply_of R (fst x) fuel order (snd x)) l /\
      Forall2 (fun x o => incl (fst o) (asked (fst x) (question_asks R fuel order (snd x))) /\
                          length (fst o) <= length (asked (fst x) (question_asks R fuel order (snd x)))) l out).
  { clear. induction l as [|[st q] l IH]; intros s st0 HF HG HC; cbn [map ask_each fst snd].
    - exists s, []. split; [reflexivity|]. split; [reflexivity|constructor].
    - inversion HF as [|y ys [F W] HF']; subst. cbn [fst] in F, W. cbn [map fst] in HG.
      assert (I0 : incl st0 st) by (apply (HG [] st0 [] st (map fst l)); reflexivity).
      apply (cache_grows size limit _ _ _ I0 F) in HC.
      destruct (cache_ask size limit st (question_asks R fuel order q) (written_answers st W) s HC) as (s1 & loads & E & HC1 & HI & HN).
      destruct (IH s1 st HF') as (s2 & out & E2 & EO & H2).
      { intros before a between b after Eq. apply (HG (st0 :: before) a between b after). cbn [app]. f_equal. exact Eq. }
      { exact HC1. }
      exists s2, ((loads, ask_store st (question_asks R fuel order q)) :: out).
      split; [|split].
      + change (map (fun x => (fst x, question_asks R fuel order (snd x))) l) with (map (fun x : store * question => (fst x, question_asks R fuel order (snd x))) l) in *.
        rewrite E. cbn [bind]. rewrite E2. reflexivity.
      + cbn [map snd]. rewrite store_question, EO. reflexivity.
      + constructor; [split; assumption|exact H2]. }
  apply (G questions (entries_new limit) [] HF); [|apply cache_of_new].
  intros before a between b after E. destruct before as [|x before]; [injection E as <- _; intros p []|]. injection E as _ E. exact (HG before a between b after E).
Qed.

(** With room in the cache for all objects of the store, no object is loaded twice. *)
Theorem C59_loaded_once : forall (A : Type) (R : reader A) (fuel : nat) (order : list call -> list call)
    (size : NodeModel.node -> nat) (limit : nat) (st : store) (objects : list (cid * NodeModel.node)) (questions : list question),
  written st -> (forall c n, retrieve st c = Ok n -> In (c, n) objects) -> sum_sizes size objects <= limit ->
  exists s out, ask_each size (entries_new limit) (map (fun q => (st, question_asks R fuel order q)) questions) = Ok (s, out) /\
    NoDup (filter (fun c => match retrieve st c with Ok _ => true | _ => false end) (concat (map fst out))).
Proof.
  intros A R fuel order size limit st objects questions HW HO HL.
  destruct (each_once size limit st objects (written_answers st HW) HO HL (map (question_asks R fuel order) questions) (entries_new limit) []) as (s & out & E & HN & _).
  - split; [|constructor]. constructor; cbn; try lia; [apply rep_new|reflexivity..].
  - exists s, out. split; [|exact HN]. rewrite <- E, map_map. reflexivity.
Qed.

(** Whatever the source of the objects: if each time an object is asked for, the answer is
    that of the store, or an error where the store gives an error, the answers are those of
    the store, but for which error it is. *)
Theorem C59_any_source : forall (A : Type) (R : reader A) (fuel : nat) (order : list call -> list call) (st : store) (q : question) (a : res (reply A)),
  gives (fair st) (question_asks R fuel order q) a -> like_reply a (reply_of R st fuel order q).
Proof.
  intros A R fuel order st q a H. rewrite <- store_question. apply like_one_reply.
  refine (sim_gives (fun r r' => rel_res eq r r') (fair st) (rel_res like_one) st _ _ _ a (sim_question R fuel order _ _ q) H).
  - intros c r [->|(e & e' & -> & ->)]; [apply rel_refl; reflexivity|exact Logic.I].
  - intros r r' Hr. exact Hr.
Qed.

(** Concurrent gets through one cache are such a source: when tasks get the identifiers
    [ks] and each load answers what the store does, each get that returns answers as
    [C59_any_source] asks, whatever the interleaving, the limit and the sizes. *)
Theorem C59_concurrent : forall (size : NodeModel.node -> nat) (limit : nat) (st : store) (ks : list cid) (other : cid) schedule s,
  exec cid_eqb size (start limit ks other) schedule = Ok s ->
  (forall t r k, In (t, r) schedule -> nth_error ks t = Some k -> r = retrieve st k) ->
  forall t k k' a, nth_error ks t = Some k -> c_task s t = TDone k' a -> fair st k a.
Proof.
  intros size limit st ks other schedule s E HL t k k' a Hk Ha.
  destruct (PropertiesCache.C31_answers_loaded cid NodeModel.node cid_eqb size limit ks other schedule s cid_eqb_spec E t k k' a Hk Ha) as [_ H].
  destruct a as [v|e| |]; [| |destruct H|destruct H].
  - destruct H as (t' & Hk' & Hin). left. exact (HL _ _ _ Hin Hk').
  - destruct H as (_ & t' & e' & Hk' & Hin). right. exists e, e'. split; [reflexivity|]. symmetry. exact (HL _ _ _ Hin Hk').
Qed.

(** ** C60: a read asks only for what it needs *)

Lemma check_below m t r c t' r' c' : check_bounds m t r c = Ok tt -> t' <= t -> r' <= r -> c' <= c -> check_bounds m t' r' c' = Ok tt.
Proof.
  unfold check_bounds. destruct (mm_shape m) as [[[n h] w]|e| |]; cbn [bind]; try discriminate.
  destruct (Nat.leb_spec n t), (Nat.leb_spec h r), (Nat.leb_spec w c); cbn [orb]; try discriminate. intros _ H2 H3 H4.
  destruct (Nat.leb_spec n t'), (Nat.leb_spec h r'), (Nat.leb_spec w c'); cbn [orb]; try reflexivity; lia.
Qed.
Lemma check_in m b t r c : check_cube m b = Ok tt -> in_cube b t r c -> check_bounds m t r c = Ok tt.
Proof.
  unfold check_cube, in_cube. intros H (H1 & H2 & H3). rewrite !usub_ok in H by lia. cbn [bind] in H. apply (check_below m _ _ _ t r c H); lia.
Qed.

(** Whatever is stored: an object that a window, a cell or a search asks for is one that a
    get of one of its cells asks for. *)
Theorem C60_only_for_cells : forall (A : Type) (R : reader A) (fuel : nat) (order : list call -> list call) (st : store) (m : mmstruct) (c : cid),
  (forall b, c_start b < c_end b -> c_top b < c_bottom b -> c_left b < c_right b ->
    In c (asked st (question_asks R fuel order (QWindow m b))) ->
    exists t row col, c_start b <= t < c_end b /\ c_top b <= row < c_bottom b /\ c_left b <= col < c_right b /\
      In c (asked st (question_asks R fuel order (QGet m t row col)))) /\
  (forall b lower upper, c_start b < c_end b -> c_top b < c_bottom b -> c_left b < c_right b ->
    In c (asked st (question_asks R fuel order (QSearch m b lower upper))) ->
    exists t row col, c_start b <= t < c_end b /\ c_top b <= row < c_bottom b /\ c_left b <= col < c_right b /\
      In c (asked st (question_asks R fuel order (QGet m t row col)))) /\
  (forall first end_ row col, first < end_ -> In c (asked st (question_asks R fuel order (QCell m first end_ row col))) ->
    exists t, first <= t < end_ /\ In c (asked st (question_asks R fuel order (QGet m t row col)))).
Proof.
  intros A R fuel order st m c.
  assert (G : forall t r k, check_bounds m t r k = Ok tt -> In c (asked st (ask_get fuel m t r k (mm_fbits m))) -> In c (asked st (question_asks R fuel order (QGet m t r k)))).
  { intros t r k E H. cbn [question_asks]. eapply asked_right; [exact E|]. apply asked_left. exact H. }
  split; [|split].
  - intros b H1 H2 H3 H. cbn [question_asks] in H. apply asked_pure in H. destruct H as ([] & E & H). do 3 (apply asked_pure in H; destruct H as (? & _ & H)).
    apply asked_then in H. destruct H as [H|(l & _ & H)]; [|apply asked_pure in H; destruct H as (? & _ & [])].
    destruct (window_like st fuel m b _ c ltac:(unfold cells_in; auto) H) as (t & r & k & HC & Hg). exists t, r, k. pose proof HC as (C1 & C2 & C3).
    repeat (split; [assumption|]). apply G; [exact (check_in m b t r k E HC)|apply Hg].
  - intros b lower upper H1 H2 H3 H. cbn [question_asks] in H. apply asked_pure in H. destruct H as ([] & E & H).
    apply asked_then in H. destruct H as [H|(l & _ & [])].
    destruct (search_like st fuel m b lower upper c ltac:(unfold cells_in; auto) H) as (t & r & k & HC & Hg). exists t, r, k. pose proof HC as (C1 & C2 & C3).
    repeat (split; [assumption|]). apply G; [exact (check_in m b t r k E HC)|apply Hg].
  - intros s e r k Hlt H. cbn [question_asks] in H. apply asked_pure in H. destruct H as (last & El & H). rewrite usub_ok in El by lia. injection El as <-.
    apply asked_pure in H. destruct H as ([] & E & H). apply asked_pure in H. destruct H as (n & _ & H).
    apply asked_then in H. destruct H as [H|(l & _ & H)]; [|apply asked_pure in H; destruct H as (? & _ & [])].
    destruct (cell_like st fuel m s e r k _ c Hlt H) as (t & Ht & Hg). exists t. split; [exact Ht|]. apply G; [|apply Hg].
    apply (check_below m _ _ _ t r k E); lia.
Qed.

(** The array of a variable of a valid history is at hand. A get of a cell asks for one
    object for each level of spans, and for two for each level of [levels], at most. There
    are more levels of spans than one only if the instants do not fit into one less. So the
    number of objects grows with the logarithm of the number of instants. *)
Theorem C60_gets_ask_few : forall hash lc lg order fuel rows cols N coords es st0 st d c,
  setting hash lg order rows cols N coords -> valid lc fuel rows cols N es ->
  run hash lc lg order fuel (dataset_new coords rows cols) es st0 = (st, Ok d) -> functional st -> In c (configs es) ->
  exists v m spans depth, find_var (cf_name c) (ds_vars d) = Some v /\
    (spans = 0 \/ cf_chunk c * cf_span c ^ spans < length_appended es c) /\
    forall st' fuel', incl st st' -> functional st' -> depth <= fuel' ->
      var_data (dt_of lg (cf_type c)) st' v = Ok m /\
      forall t r k, t < length_appended es c -> r < rows -> k < cols ->
        length (asked st' (question_asks (reader_of (cf_type c)) fuel' order (QGet m t r k))) <= 1 + spans + 2 * length (cf_levels c).
Proof.
  intros hash lc lg order fuel rows cols N coords es st0 st d c HS HV E HF Hc.
  destruct (run_result hash lc lg order fuel rows cols N coords es HS HV st0) as (x & Ex & HI); rewrite E in *; cbn [fst snd] in *; [exact HF|]. injection Ex as <-.
  destruct (variable_of _ _ _ _ _ _ _ _ _ _ _ _ HV HI Hc) as (v & Ev & O & Tr & _).
  pose proof (tree_holds hash lc lg fuel rows cols c O _ _ _ _ Tr) as (m & depth & HH).
  destruct Tr as (e & He & W & m1 & h & G & HN & Hfine). pose proof O as [C1 C2 [C3 C3'] [C4 C4'] C5 C6 C7 C8].
  assert (m1 = m).
  { destruct (HH st depth (incl_refl _) HF (le_n _)) as (Vd & _). unfold var_data in Vd. rewrite G in Vd. cbn [bind] in Vd. unfold arr_new in Vd.
    destruct (encoding_eqb _ _); [congruence|discriminate]. }
  subst m1. exists v, m, h, (Nat.max depth (S (length (cf_levels c)) + S h)). split; [exact Ev|]. split.
  - exact (height_few rows cols (cf_chunk c) (cf_span c) _ _ C4 C3 h st _ e m HN Hfine He).
  - intros st' fuel' HI' HF' Hfu. destruct (HH st' fuel' HI' HF' ltac:(lia)) as (Vd & _). split; [exact Vd|]. intros t r k Ht Hr Hk.
    apply (node_incl _ _ _ _ _ _ _ _ HI' HF') in HN.
    cbn [question_asks]. rewrite asked_bind. cbn [asked ask_store app]. destruct (check_bounds m t r k) as [[]|x| |]; cbn [length]; try lia.
    rewrite asked_bind. cbn [asked]. rewrite app_length.
    assert (L : length (asked st' (ask_get fuel' m t r k (mm_fbits m))) <= S h + 2 * (S (length (cf_levels c)) - 1)).
    { eapply (node_few rows cols (cf_chunk c) (cf_span c) _ (S (length (cf_levels c))) _ C4 C3) with (2 := HF') (3 := HN); try assumption; [|lia].
      intros st1 off n m1 ((f & Vf & _) & _). exists f. exact Vf. }
    replace (S (length (cf_levels c)) - 1) with (length (cf_levels c)) in L by lia.
    destruct (ask_store st' (ask_get fuel' m t r k (mm_fbits m))); cbn [length]; lia.
Qed.

(** ** Examples *)

(** The dataset of [C55_identifiers_example]: seven instants in chunks of two, spans of two.
    A cache with room for three objects, then for all; each object counts as one. *)
Definition root_of (x : store * res dataset) : cid :=
  match snd x with Ok d => match ds_vars d with v :: _ => va_cid v | [] => ex_hash [] end | _ => ex_hash [] end.
Definition ex_questions (root : cid) (m : mmstruct) : list question :=
  [QData root; QGet m 6 1 0; QGet m 6 1 1; QCell m 1 5 0 1; QWindow m (mkCube 3 7 0 2 0 1); QSearch m (mkCube 0 7 0 2 0 2) 3 9; QGet m 0 1 0].
Definition ex_asked (m : mmstruct) (x : store * res dataset) (limit : nat) : list nat * list nat * list (res (reply Z)) :=
  let qs := map (fun q => (fst x, question_asks reader_i32 4 (@rev call) q)) (ex_questions (root_of x) m) in
  match ask_each (fun _ => 1) (entries_new limit) (([], question_asks reader_i32 4 (@rev call) (QData (root_of x))) :: qs) with
  | Ok (_, out) => (map (fun o => length (fst o)) out, map (fun q => length (asked (fst q) (snd q))) qs, firstn 3 (map snd out))
  | _ => ([], [], [])
  end.
Definition ex_both (x : store * res dataset) : bool * (list nat * list nat * list (res (reply Z))) * (list nat * list nat * list (res (reply Z))) :=
  match get_mm (fst x) (root_of x) with
  | Ok m => (is_ok (snd x), ex_asked m x 3, ex_asked m x 100)
  | _ => (false, ([], [], []), ([], [], []))
  end.
Definition ex_shown (x : bool * (list nat * list nat * list (res (reply Z))) * (list nat * list nat * list (res (reply Z)))) :=
  let '(ok, (l1, n1, r1), (l2, n2, r2)) := x in
  (ok, l1, l2, n1, map (fun r => match r with Err e => Some (inl e) | Ok (AOne v) => Some (inr v) | _ => None end) r1).
Lemma ex_computed : ex_shown (ex_both (run ex_hash ex_lc ex_lg (@rev call) 4 (dataset_new ex_coords 2 2) ex_once [])) =
  (true, [1; 1; 2; 0; 5; 5; 6; 2], [1; 1; 2; 0; 4; 0; 0; 0], [1; 2; 2; 5; 5; 6; 2], [Some (inl ENotFound); None; Some (inr (ex_cells 6 1 0))]).
Proof. vm_compute. reflexivity. Qed.

Notation ex_run := (run ex_hash ex_lc ex_lg (@rev call) 4 (dataset_new ex_coords 2 2) ex_once []).
Lemma ex_sets : functional (fst ex_run) /\ written (fst ex_run) /\ exists d, snd ex_run = Ok d.
Proof.
  assert (F : functional (fst ex_run)) by (apply functional_checked; vm_compute; reflexivity).
  pose proof (run_written ex_hash ex_lc ex_lg (@rev call) 4 2 2 1000 ex_coords ex_once ex_set (ex_valid ex_once (or_introl eq_refl)) [] F (Forall_nil _)) as W.
  destruct (run_result ex_hash ex_lc ex_lg (@rev call) 4 2 2 1000 ex_coords ex_once ex_set (ex_valid ex_once (or_introl eq_refl)) [] F) as (d & E & _).
  split; [exact F|]. split; [exact W|]. exists d. exact E.
Qed.
Example C59_example : exists d, snd ex_run = Ok d /\ functional (fst ex_run) /\ written (fst ex_run) /\
  growing [[]; fst ex_run; fst ex_run] /\ Forall (fun x => functional (fst x) /\ written (fst x)) [([], QData (root_of ex_run)); (fst ex_run, QData (root_of ex_run))].
Proof.
  destruct ex_sets as (F & W & d & E). exists d. split; [exact E|]. split; [exact F|]. split; [exact W|].
  assert (F0 : functional []) by (intros c b1 b2 []). generalize (fst ex_run) (root_of ex_run) F W. intros st root F' W'. split.
  - intros before a between b after Eq. destruct before as [|x before].
    + injection Eq as <- _. intros p [].
    + injection Eq as _ Eq. destruct before as [|y before].
      * injection Eq as <- Eq. destruct between as [|z between]; [injection Eq as <- _; apply incl_refl|]. injection Eq as _ Eq. destruct between; discriminate.
      * injection Eq as _ Eq. destruct before as [|z before]; [injection Eq as _ Eq; destruct between; discriminate|]. injection Eq as _ Eq. destruct before; discriminate.
  - repeat constructor; assumption.
Qed.
(** Two concurrent gets of an identifier that is not stored: the first loads, the second
    waits and is told of an error. Both answers are fair. *)
Example C59_concurrent_example : let c := ex_hash [] in
  match exec cid_eqb (fun _ => 1) (start (V := NodeModel.node) 5 [c; c] c)
    (map (fun t => (t, Err ENotFound)) [0; 0; 1; 1; 1; 0; 0; 0; 0; 1; 1]) with
  | Ok s => (c_task s 0, c_task s 1) = (TDone c (Err ENotFound), TDone c (Err ELoad)) /\ fair [] c (Err ELoad)
  | _ => False
  end.
Proof. vm_compute. split; [reflexivity|]. right. exists ELoad, ENotFound. split; reflexivity. Qed.
(** The questions of [ex_computed] ask for two objects for a get, and the tree of spans has
    two levels. *)
Example C60_example : exists d, setting ex_hash ex_lg (@rev call) 2 2 1000 ex_coords /\ valid ex_lc 4 2 2 1000 ex_once /\
  run ex_hash ex_lc ex_lg (@rev call) 4 (dataset_new ex_coords 2 2) ex_once [] = (fst ex_run, Ok d) /\ functional (fst ex_run) /\ In ex_one (configs ex_once) /\
  length_appended ex_once ex_one = 7 /\ cf_chunk ex_one * cf_span ex_one ^ 1 < 7 /\ 7 < cf_chunk ex_one * cf_span ex_one ^ 2.
Proof.
  destruct ex_sets as (F & W & d & E). exists d. split; [exact ex_set|]. split; [apply ex_valid; left; reflexivity|].
  split; [rewrite <- E; apply surjective_pairing|]. split; [exact F|]. split; [left; reflexivity|].
  split; [reflexivity|]. cbn. lia.
Qed.

Print Assumptions C59_any_cache.
Print Assumptions C59_loaded_once.
Print Assumptions C59_any_source.
Print Assumptions C59_concurrent.
Print Assumptions C60_only_for_cells.
Print Assumptions C60_gets_ask_few.
