(** * Every history of a dataset keeps what was appended. *)
From Verif Require Import Base BaseFacts Spec GeomModel GeomProofs BitmapModel DacModel StreamModel StreamProofs FixedModel ChunkModel ChunkStream ChunkReads
  NodeModel NodeProofs SuperModel SuperViews SuperProofs SuperInt ArrayModel ArrayProofs FloatModel FloatBuild DatasetModel DatasetProofs AppendProofs HistoryModel
  PropertiesLog PropertiesSuper PropertiesReads KindProofs.
Ltac Zify.zify_post_hook ::= Z.div_mod_to_equations.
Arguments Nat.pow : simpl never.

Lemma Forall2_impl_in {A B} (P Q : A -> B -> Prop) la lb : (forall a b, In a la -> P a b -> Q a b) -> Forall2 P la lb -> Forall2 Q la lb.
Proof. intros H F. induction F; constructor; [apply H; [left; reflexivity|assumption]|]. apply IHF. intros a b Ha. apply H. right. exact Ha. Qed.
Lemma NoDup_app_l {A} (l1 l2 : list A) : NoDup (l1 ++ l2) -> NoDup l1.
Proof.
  induction l1 as [|a l1 IH]; cbn [app]; intros H; [constructor|]. apply NoDup_cons_iff in H. destruct H as [Ha H].
  constructor; [|apply IH; exact H]. intros C. apply Ha. apply in_or_app. left. exact C.
Qed.

(** ** Variables *)
Section Variables.
  Variables (hash : bytes -> cid) (lc : nat -> nat) (lg : f64 -> nat) (order : list call -> list call) (fuel rows cols N : nat).
  Hypothesis Hhash : forall b, wf_cid (hash b).
  Hypothesis Horder : forall l, Permutation l (order l).
  Hypothesis Hlg : log2_accurate lg.
  Hypothesis Hr : 0 < rows.
  Hypothesis Hc : 0 < cols.
  Hypothesis Fr : fits32 rows.
  Hypothesis Fc : fits32 cols.
  Hypothesis FN : fits32 N.

  (** A configuration for which every chunk can be built and read. *)
  Record config_ok (c : config) : Prop := {
    co_name : wf_name (cf_name c);
    co_round : match cf_round c with Some b => fits8 b | None => True end;
    co_span : 2 <= cf_span c /\ fits32 (cf_span c);
    co_chunk : 1 <= cf_chunk c /\ fits32 (cf_chunk c);
    co_levels : fits8 (length (cf_levels c)) /\ Forall fits32 (cf_levels c);
    co_fit : levels_fit 2 lc (cf_levels c) rows cols;
    co_sizes : sizes_ok 2 lc (cf_chunk c) (Nat.max rows cols);
    co_fuel : S (length (cf_levels c)) <= fuel }.

  Variable c : config.
  Hypothesis HC : config_ok c.
  Notation levels := (cf_levels c).
  Notation cs := (cf_chunk c).
  Notation ss := (cf_span c).
  Notation ty := (cf_type c).
  Notation enc := (enc_of (cf_type c)).
  Notation R := (reader_of (cf_type c)).
  Notation D := (dt_of lg (cf_type c)).
  Notation same_c := (same_of (cf_type c) (cf_round c)).
  Notation V := (chunk_V hash lc lg rows cols (cf_levels c) (cf_round c) (cf_type c)).

  (** All chunks of [T] instants of [g] can be built. *)
  Definition chunks_fit (g : nat -> nat -> nat -> carrier ty) (T : nat) : Prop :=
    forall i, i * cs < T -> chunk_fits lc rows cols ty (cf_round c) levels (fun t => g (i * cs + t)) (Nat.min cs (T - i * cs)).
  Lemma chunks_fit_refl g T : 1 <= cs -> chunks_fit g T -> same same_c rows cols g g T.
  Proof.
    clear. intros H H1 t r k Ht Hr' Hk. specialize (H1 (t / cs)). pose proof (Nat.div_mod t cs ltac:(lia)) as Hd. pose proof (Nat.mod_upper_bound t cs ltac:(lia)) as Hm.
    rewrite (Nat.mul_comm cs) in Hd. apply chunk_fits_refl in H1; [|lia]. specialize (H1 (t mod cs) r k). cbn beta in H1. rewrite <- Hd in H1. apply H1; auto.
    revert Hd Hm. generalize (t / cs * cs) (t mod cs). intros x y Hd Hm. lia.
  Qed.

  (** The tree of a variable that holds [T] instants of [g]. *)
  Definition var_tree (g : nat -> nat -> nat -> carrier ty) (st : store) (root : cid) (T : nat) : Prop :=
    exists e, (e = 0 -> T = 0) /\ tree rows cols cs ss enc (leaf_ok V g) st root T e.
  Lemma var_tree_incl g st st' root T : incl st st' -> functional st' -> var_tree g st root T -> var_tree g st' root T.
  Proof. intros HI HF (e & H0 & H). exists e. split; [exact H0|]. eapply tree_incl; eassumption. Qed.

  Definition var_of (v : variable) : Prop :=
    va_name v = cf_name c /\ va_round v = cf_round c /\ va_span_size v = ss /\ va_chunk_size v = cs /\ va_levels v = levels /\ va_enc v = enc.

  Lemma reader_eq : dt_reader D = R.
  Proof. clear. destruct ty; reflexivity. Qed.

  Lemma var_append_ok d v data g n T st : functional st -> find_var (cf_name c) (ds_vars d) = Some v -> var_of v ->
    var_tree g st (va_cid v) T -> a3_shape data = (n, rows, cols) ->
    (forall t r k, t < n -> r < rows -> k < cols -> a3_at data t r k = g (T + t) r k) ->
    chunks_fit g (T + n) -> T + n <= N ->
    ok_in (dataset_append hash lc D order fuel d (cf_name c) data) st (fun d' st' => exists ci,
      d' = mkDataset (ds_coords d) (replace_var (with_var_cid v ci) (ds_vars d)) (ds_rows d) (ds_cols d) None (next_prev d) /\
      var_tree g st' ci (T + n)).
  Proof.
    intros HF Hv (V1 & V2 & V3 & V4 & V5 & V6) (e & He0 & HT) Es HS HG HN'. destruct HC as [C1 C2 [C3 C3'] [C4 C4'] C5 C6 C7 C8].
    eapply ok_post; [apply mono_append| |].
    - apply (ok_dataset_append hash lc D order fuel same_c rows cols cs ss levels enc (cf_round c) Hhash Horder C8 Hr Hc C4 C3 Fr Fc C4' C3' N FN
        (same_of_sym ty (cf_round c)) (chunk_fits lc rows cols ty (cf_round c) levels) V) with (G := g) (T := T) (e := e) (n := n) (v := v); auto.
      + intros g1 g2 k H. apply chunk_fits_same. exact H.
      + intros g1 g2 st1 k m. apply chunk_V_same. exact Hlg.
      + intros g1 st1 k m ((f & W & HP) & _). exists f. split; [exact W|]. rewrite reader_eq.
        intros t r c' Ht Hr' Hc'. apply HP; assumption.
      + intros g1 k st1 Hk HD. apply chunk_build; auto; [apply Hk|].
        intros m Hm. destruct (C7 m Hm) as [B1 B2]. split; [exact B1|]. eapply fits32_le; [|exact B2]. apply Nat.mul_le_mono_l. apply Hk.
      + intros t r k Ht Hr' Hk. rewrite HS by assumption. apply (chunks_fit_refl g (T + n) C4 HG); auto. clear -Ht; lia.
    - intros d' st' _ _ (ci & e' & E & HT2 & He2). exists ci. split; [exact E|]. exists e'. split; assumption.
  Qed.

  Lemma var_add_ok g d st : ds_rows d = rows -> ds_cols d = cols ->
    ok_in (add_variable hash d (cf_name c) (cf_round c) ss cs levels enc) st (fun d' st' => exists ci,
      d' = mkDataset (ds_coords d) (ds_vars d ++ [mkVar (cf_name c) (cf_round c) ss cs levels enc ci]) (ds_rows d) (ds_cols d) None (next_prev d) /\
      var_tree g st' ci 0).
  Proof.
    intros E1 E2. destruct HC as [C1 C2 [C3 C3'] [C4 C4'] C5 C6 C7 C8].
    eapply ok_post.
    - unfold add_variable. apply mono_bind; [apply mono_save|intros; apply mono_ret].
    - apply (ok_add hash rows cols cs ss levels enc (cf_round c) Hhash C4 Fr Fc C4' V g d (cf_name c) st E1 E2).
    - intros d' st' _ _ (ci & E & HT). exists ci. split; [exact E|]. exists 0. split; [reflexivity|exact HT].
  Qed.

  (** ** What the user sees of a variable

      The parts of the searches that need it: see C06 and C19. Searching arrays
      of floats is not written: [todo!()], mmarray.rs 407-417 and 511-521. *)
  Definition chunks_searchable (g : nat -> nat -> nat -> Z) (T : nat) : Prop :=
    forall i, i * cs < T -> leaves_searchable 2 lc levels (fun t => g (i * cs + t)) (Nat.min cs (T - i * cs)) rows cols.
  Definition finds (t : vtype) (st : store) (fuel : nat) (m : mmstruct) (T : nat) : (nat -> nat -> nat -> carrier t) -> Prop :=
    match t with
    | I32 | I64 => fun g => chunks_searchable g T -> searches_as st fuel m T rows cols g
    | F32 | F64 => fun _ => True
    end.

  (** In the store [st] and every larger one, the variable [v] is the array of [T]
      instants whose cells are given by [g]: it reads as an array in which each value
      was kept as [kept] says, and is searched as [g]. *)
  Definition holds (st : store) (v : variable) (g : nat -> nat -> nat -> carrier ty) (T : nat) : Prop :=
    exists m depth, forall st' fuel, incl st st' -> functional st' -> depth <= fuel ->
      var_data D st' v = Ok m /\
      (exists g', reads_as R st' fuel m T rows cols g' /\
         forall t r k, t < T -> r < rows -> k < cols -> kept ty (cf_round c) (g' t r k) (g t r k)) /\
      finds ty st' fuel m T g.

  Lemma tree_holds g st v T : var_tree g st (va_cid v) T -> holds st v g T.
  Proof.
    intros (e & _ & W & m & h & Gm & HN & _). destruct HC as [C1 C2 [C3 C3'] [C4 C4'] C5 C6 C7 C8].
    assert (Em : mm_encoding m = rd_enc R).
    { destruct (node_span _ _ _ _ _ _ _ _ _ _ _ _ HN) as (s & -> & [A1 A2 A3 A4 A5] & _). cbn [mm_encoding]. rewrite A4. destruct ty; reflexivity. }
    exists m, (S (length levels) + S h). intros st' fuel' HI HF Hfu.
    apply (node_incl _ _ _ _ _ _ _ _ HI HF) in HN.
    destruct (node_view rows cols cs ss enc (S (length levels)) (leaf_ok V g)
      (fun t r k x => kept ty (cf_round c) (rd_set R (snd x) (fst x)) (g t r k)) C4 C3) with (2 := HF) (3 := HN) as (f & Vf & HP).
    { intros st1 off n m1 ((f & Vf & HP) & _). exists f. split; [exact Vf|]. intros t r k Ht Hr' Hk. apply HP; assumption. }
    split; [|split].
    - unfold var_data. rewrite (get_mm_incl _ _ _ _ HI HF Gm). cbn [bind]. unfold arr_new.
      rewrite reader_eq, (proj2 (encoding_eqb_spec _ _) Em). reflexivity.
    - exists (fun t r k => rd_set R (snd (f t r k)) (fst (f t r k))). split; [|exact HP].
      apply (view_reads_as R st' (S (length levels) + S h) fuel' m T rows cols f); auto.
    - clear HP. assert (S : forall enc0 (V : (nat -> nat -> nat -> Z) -> store -> nat -> mmstruct -> Prop) (g : nat -> nat -> nat -> Z),
        (forall g st n m, V g st n m -> leaves_searchable 2 lc levels g n rows cols -> sview st (S (length levels)) m n rows cols g) ->
        node rows cols cs ss enc0 (leaf_ok V g) h st' 0 T e m -> chunks_searchable g T -> searches_as st' fuel' m T rows cols g).
      { clear g HN. intros enc0 V' g' HV HN' HQ. apply (sview_searches_as st' (S (length levels) + S h) fuel'); [exact Hfu|eapply node_shape; exact HN'|].
        apply (sview_ext _ _ _ _ _ _ (later g' 0)); [intros; reflexivity|].
        eapply (node_sview rows cols cs ss enc0 (S (length levels)) (leaf_ok V' g') g'
          (fun off n => leaves_searchable 2 lc levels (fun t => g' (off + t)) n rows cols) C4 C3) with (2 := HF) (3 := HN').
        + intros st1 off n m1 H HL. unfold later. apply (HV _ _ _ _ H). exact HL.
        + exact HQ. }
      revert g HN. destruct ty; intros g0 HN; cbn [finds]; try exact I; (eapply S; [|exact HN]); intros g1 st1 n1 m1 (_ & (H & _) & _); exact H.
  Qed.
End Variables.

(** ** Histories *)
Section History.
  Variables (hash : bytes -> cid) (lc : nat -> nat) (lg : f64 -> nat) (order : list call -> list call) (fuel rows cols N : nat).
  Hypothesis Hhash : forall b, wf_cid (hash b).
  Hypothesis Horder : forall l, Permutation l (order l).
  Hypothesis Hlg : log2_accurate lg.
  Hypothesis Hr : 0 < rows.
  Hypothesis Hc : 0 < cols.
  Hypothesis Fr : fits32 rows.
  Hypothesis Fc : fits32 cols.
  Hypothesis FN : fits32 N.

  (** What was appended to a variable, as one array. *)
  Definition appended (es : list event) (c : config) : nat -> nat -> nat -> carrier (cf_type c) :=
    joined (rd_zero (reader_of (cf_type c))) (batches (cf_type c) (cf_name c) es).
  Definition length_appended (es : list event) (c : config) : nat := total (batches (cf_type c) (cf_name c) es).

  (** Histories that use the interface as intended: variables have different names and
      usable configurations, arrays are appended to existing variables of their type and
      shape, no variable grows beyond [N] instants, and at every point of the history
      the chunks of what was appended so far can be stored. *)
  Record valid (es : list event) : Prop := {
    va_names : NoDup (map cf_name (configs es));
    va_count : fits8 (length (configs es));
    va_configs : Forall (config_ok lc fuel rows cols) (configs es);
    va_appends : forall before t name data after, es = before ++ Append t name data :: after ->
      exists c, In c (configs before) /\ cf_name c = name /\ cf_type c = t /\ a3_shape data = (instants3 data, rows, cols);
    va_fit : forall c, In c (configs es) -> length_appended es c <= N /\
      forall before after, es = before ++ after -> chunks_fit lc rows cols c (appended es c) (length_appended before c) }.

  Lemma configs_app es es' : configs (es ++ es') = configs es ++ configs es'.
  Proof. induction es as [|[c|t n a| |] es IH]; cbn [configs app]; auto. f_equal. exact IH. Qed.
  Lemma as_type_refl t a : as_type t t a = Some a.
  Proof. destruct t; reflexivity. Qed.
  Lemma batches_app t name es es' : batches t name (es ++ es') = batches t name es ++ batches t name es'.
  Proof.
    induction es as [|[c|t' n a| |] es IH]; cbn [batches app]; auto. destruct (as_type t t' a); auto.
    destruct (bytes_eqb n name); cbn [app]; auto. f_equal. exact IH.
  Qed.
  Lemma total_app {A} (l l' : list (array3 A)) : total (l ++ l') = total l + total l'.
  Proof. induction l as [|a l IH]; cbn [total app]; [reflexivity|]. rewrite IH. apply Nat.add_assoc. Qed.
  Lemma joined_app {A} z (l l' : list (array3 A)) t r c : joined z (l ++ l') (total l + t) r c = joined z l' t r c.
  Proof.
    induction l as [|a l IH]; cbn [joined total app]; [reflexivity|].
    destruct (Nat.ltb_spec (instants3 a + total l + t) (instants3 a)); [lia|].
    replace (instants3 a + total l + t - instants3 a) with (total l + t) by lia. exact IH.
  Qed.
  Lemma length_app es es' c : length_appended (es ++ es') c = length_appended es c + length_appended es' c.
  Proof. unfold length_appended. rewrite batches_app. apply total_app. Qed.
  Lemma length_append c data : length_appended [Append (cf_type c) (cf_name c) data] c = instants3 data.
  Proof.
    unfold length_appended. cbn [batches]. rewrite as_type_refl, (proj2 (bytes_eqb_spec _ _) eq_refl). cbn [total]. apply Nat.add_0_r.
  Qed.

  Lemma batches_none t name : forall es, (forall before t n data after, es = before ++ Append t n data :: after -> In n (map cf_name (configs before))) ->
    ~ In name (map cf_name (configs es)) -> batches t name es = [].
  Proof.
    intros es. induction es as [|e es IH] using rev_ind; intros H Hn; [reflexivity|].
    rewrite configs_app, map_app, in_app_iff in Hn. rewrite batches_app, IH.
    - cbn [app]. destruct e as [c|t' n a| |]; try reflexivity. cbn [batches]. destruct (as_type t t' a); [|reflexivity].
      destruct (bytes_eqb n name) eqn:E; [|reflexivity]. exfalso. apply bytes_eqb_spec in E. subst n.
      apply Hn. left. apply (H es t' name a []). reflexivity.
    - intros before t' n data after E. apply (H before t' n data (after ++ [e])). rewrite E, <- app_assoc. reflexivity.
    - tauto.
  Qed.

  (** Variables and their configurations. *)
  Lemma find_config (Q : config -> variable -> Prop) cs vs : (forall c v, Q c v -> va_name v = cf_name c) -> Forall2 Q cs vs -> NoDup (map cf_name cs) ->
    forall c, In c cs -> exists v, find_var (cf_name c) vs = Some v /\ Q c v.
  Proof.
    intros HQ. induction 1 as [|c0 v0 cs vs H0 H IH]; intros HN c Hin; [destruct Hin|]. cbn [map] in HN. inversion_clear HN as [|? ? Hni HN'].
    unfold find_var. cbn [find]. destruct (bytes_eqb (va_name v0) (cf_name c)) eqn:E.
    - apply bytes_eqb_spec in E. rewrite (HQ _ _ H0) in E. destruct Hin as [->|Hin]; [eauto|].
      exfalso. apply Hni. rewrite E. apply in_map. exact Hin.
    - destruct Hin as [->|Hin]; [|apply IH; assumption]. exfalso. rewrite (proj2 (bytes_eqb_spec _ _) (HQ _ _ H0)) in E. discriminate.
  Qed.
  Lemma replace_config (Q Q' : config -> variable -> Prop) cs vs v' c : (forall c v, Q c v -> va_name v = cf_name c) -> Forall2 Q cs vs -> NoDup (map cf_name cs) ->
    In c cs -> va_name v' = cf_name c -> Q' c v' -> (forall c0 v, cf_name c0 <> cf_name c -> Q c0 v -> Q' c0 v) ->
    Forall2 Q' cs (replace_var v' vs).
  Proof.
    intros HQ H HN Hin Hv Hv' HK. revert HN Hin. induction H as [|c0 v0 cs vs H0 H IH]; intros HN Hin; [destruct Hin|].
    cbn [map] in HN. inversion_clear HN as [|? ? Hni HN']. cbn [replace_var]. rewrite Hv. destruct (bytes_eqb (va_name v0) (cf_name c)) eqn:E.
    - apply bytes_eqb_spec in E. rewrite (HQ _ _ H0) in E.
      destruct Hin as [->|Hin]; [|exfalso; apply Hni; rewrite E; apply in_map; exact Hin].
      constructor; [exact Hv'|]. apply (Forall2_impl_in Q); [|exact H]. intros c1 v1 Hin1 H1. apply HK; [|exact H1]. intros C. apply Hni. rewrite <- C. apply in_map. exact Hin1.
    - destruct Hin as [->|Hin]; [exfalso; rewrite (proj2 (bytes_eqb_spec _ _) (HQ _ _ H0)) in E; discriminate|].
      constructor; [|apply IH; assumption]. apply HK; [|exact H0]. intros C. rewrite <- (HQ _ _ H0) in C. apply bytes_eqb_spec in C. congruence.
  Qed.

  Variables (coords : coordinate * coordinate * coordinate) (es : list event).
  Hypothesis Wcoords : let '(c1, c2, c3) := coords in wf_coord c1 /\ wf_coord c2 /\ wf_coord c3.
  Hypothesis HV : valid es.

  Definition var_ok (st : store) (before : list event) (c : config) (v : variable) : Prop :=
    var_of c v /\ var_tree hash lc lg rows cols c (appended es c) st (va_cid v) (length_appended before c).
  Record inv (st : store) (d : dataset) (before : list event) : Prop := {
    in_rows : ds_rows d = rows; in_cols : ds_cols d = cols; in_coords : ds_coords d = coords;
    in_cid : match ds_cid d with Some c => wf_cid c /\ has st c | None => True end;
    in_prev : match ds_prev d with Some c => wf_cid c /\ has st c | None => True end;
    in_vars : Forall2 (var_ok st before) (configs before) (ds_vars d) }.

  Lemma var_ok_name st before c v : var_ok st before c v -> va_name v = cf_name c.
  Proof. intros [[H _] _]. exact H. Qed.
  Lemma var_ok_incl st st' before before' c v : incl st st' -> functional st' -> length_appended before c = length_appended before' c ->
    var_ok st before c v -> var_ok st' before' c v.
  Proof. intros HI HF E [H1 H2]. split; [exact H1|]. rewrite <- E. eapply var_tree_incl; eassumption. Qed.
  Lemma next_prev_wf st d before : inv st d before -> match next_prev d with Some c => wf_cid c /\ has st c | None => True end.
  Proof. intros [_ _ _ H1 H2 _]. unfold next_prev. destruct (ds_cid d); assumption. Qed.

  Lemma inv_wf st d before after : es = before ++ after -> inv st d before -> wf_dataset d.
  Proof.
    intros E [H1 H2 H3 H4 H5 H6]. destruct HV as [V1 V2 V3 V4 V5]. rewrite E, configs_app in V2, V3.
    constructor.
    - rewrite H3. exact Wcoords.
    - rewrite <- (Forall2_length _ _ _ H6). rewrite app_length in V2. unfold fits8 in *. lia.
    - apply Forall_app in V3. destruct V3 as [V3 _]. clear V4 V5. induction H6 as [|c v cs vs Hcv H6 IH]; constructor.
      + destruct (Forall_inv V3) as [C1 C2 [C3 C3'] [C4 C4'] [C5 C5'] C6 C7 C8]. destruct Hcv as [(N1 & N2 & N3 & N4 & N5 & N6) (e & _ & W & _)].
        constructor; rewrite ?N1, ?N2, ?N3, ?N4, ?N5; auto.
      + apply IH; [|exact (Forall_inv_tail V3)]. cbn [app length] in V2. unfold fits8 in *. lia.
    - rewrite H1. exact Fr.
    - rewrite H2. exact Fc.
    - destruct (ds_prev d); [apply H5|exact I].
  Qed.
  (** What the dataset refers to is there. *)
  Lemma inv_anchored st d before after : es = before ++ after -> inv st d before -> anchored st (NDataset d).
  Proof.
    intros E HI. split; [exact (conj (inv_wf _ _ _ _ E HI) I)|]. destruct HI as [_ _ _ _ H5 H6]. cbn [refs]. intros x Hx. apply in_app_or in Hx. destruct Hx as [Hx|Hx].
    - apply in_map_iff in Hx. destruct Hx as (v & <- & Hv). apply In_nth_error in Hv. destruct Hv as (i & Hi).
      destruct (Forall2_nth_error _ _ _ _ _ H6 Hi) as (c & _ & _ & (e & _ & _ & m & h & G & _)). eapply has_get_mm, G.
    - destruct (ds_prev d) as [c|]; [|destruct Hx]. destruct Hx as [<-|[]]. apply H5.
  Qed.
  Lemma opt_incl st st' (o : option cid) : incl st st' -> match o with Some c => wf_cid c /\ has st c | None => True end ->
    match o with Some c => wf_cid c /\ has st' c | None => True end.
  Proof. intros HI. destruct o; [|trivial]. intros [H1 H2]. split; [exact H1|exact (has_incl _ _ _ HI H2)]. Qed.

  Lemma mono_event d e : mono (run_event hash lc lg order fuel d e).
  Proof.
    destruct e as [c|t n a| |]; cbn [run_event].
    - unfold add_variable. apply mono_bind; [apply mono_save|intros; apply mono_ret].
    - apply mono_append.
    - apply mono_bind; [apply mono_save|intros; apply mono_ret].
    - apply mono_bind; [apply mono_save|]. intros c st. apply extends_refl.
  Qed.
  Lemma mono_run d l : mono (run hash lc lg order fuel d l).
  Proof. apply mono_ofold. intros; apply mono_event. Qed.

  Lemma ok_event before e after d st : es = before ++ e :: after -> functional st -> inv st d before ->
    ok_in (run_event hash lc lg order fuel d e) st (fun d' st' => inv st' d' (before ++ [e])).
  Proof.
    intros E HF HI0. pose proof (next_prev_wf _ _ _ HI0) as Wn. pose proof (inv_wf _ _ _ _ E HI0) as Wd. pose proof (inv_anchored _ _ _ _ E HI0) as Ad.
    pose proof HI0 as [I1 I2 I3 I4 I5 I6]. pose proof HV as [V1 V2 V3 V4 V5].
    assert (V1b : NoDup (map cf_name (configs before))).
    { rewrite E, configs_app, map_app in V1. apply NoDup_app_l in V1. exact V1. }
    assert (Hin : forall c, In c (configs before) -> In c (configs es)) by (intros c Hc'; rewrite E, configs_app; apply in_or_app; left; exact Hc').
    destruct e as [c|t name data| |]; cbn [run_event].
    - assert (Hc' : In c (configs es)) by (rewrite E, configs_app; apply in_or_app; right; left; reflexivity).
      assert (Cok : config_ok lc fuel rows cols c) by (rewrite Forall_forall in V3; auto).
      assert (Eb : length_appended before c = 0).
      { unfold length_appended. rewrite batches_none; [reflexivity| |].
        - intros b t n a af Eq. destruct (V4 b t n a (af ++ Add c :: after)) as (c' & K1 & K2 & _).
          { rewrite E, Eq, <- app_assoc. reflexivity. }
          rewrite <- K2. apply in_map. exact K1.
        - rewrite E, configs_app, map_app in V1. cbn [configs map] in V1. intros C. 
          apply NoDup_app_split in V1. destruct V1 as (_ & V1). apply (V1 (cf_name c) C). left. reflexivity. }
      eapply ok_post; [unfold add_variable; apply mono_bind; [apply mono_save|intros; apply mono_ret]| |].
      + apply (var_add_ok hash lc lg fuel rows cols Hhash Fr Fc c Cok (appended es c) d st I1 I2).
      + intros d' st' HI HF' (ci & -> & HT). constructor; cbn [ds_rows ds_cols ds_coords ds_cid ds_prev ds_vars]; auto; [eapply opt_incl; eassumption|].
        rewrite configs_app. cbn [configs app]. apply Forall2_app.
        * eapply Forall2_impl; [|exact I6]. intros c0 v0 Hv0. eapply var_ok_incl; [exact HI|exact HF'| |exact Hv0].
          rewrite length_app. symmetry. apply Nat.add_0_r.
        * constructor; [|constructor]. split; [unfold var_of; cbn; auto 10|]. cbn [va_cid]. rewrite length_app, Eb. exact HT.
    - destruct (V4 before t name data after E) as (c & K1 & K2 & K3 & K4). subst t name.
      destruct (find_config _ _ _ (var_ok_name st before) I6 V1b c K1) as (v & Ev & Hvar & HT).
      assert (Cok : config_ok lc fuel rows cols c) by (rewrite Forall_forall in V3; auto).
      destruct (V5 c (Hin c K1)) as (V5a & V5b).
      assert (E' : es = (before ++ [Append (cf_type c) (cf_name c) data]) ++ after) by (rewrite E, <- app_assoc; reflexivity).
      specialize (V5b _ _ E'). rewrite length_app, length_append in V5b.
      eapply ok_post; [apply mono_append| |].
      + eapply (var_append_ok hash lc lg order fuel rows cols N Hhash Horder Hlg Hr Hc Fr Fc FN c Cok d v data (appended es c) (instants3 data)
          (length_appended before c) st HF Ev Hvar HT K4); auto.
        * intros t r k Ht _ _. unfold appended, length_appended. rewrite E, batches_app. cbn [batches].
          rewrite as_type_refl, (proj2 (bytes_eqb_spec _ _) eq_refl), joined_app.
          cbn [joined]. destruct (Nat.ltb_spec t (instants3 data)); [reflexivity|lia].
        * rewrite E', !length_app, length_append in V5a. lia.
      + intros d' st' HI HF' (ci & -> & HT'). constructor; cbn [ds_rows ds_cols ds_coords ds_cid ds_prev ds_vars]; auto; [eapply opt_incl; eassumption|].
        rewrite configs_app. cbn [configs]. rewrite app_nil_r.
        apply (replace_config (var_ok st before)) with (c := c); auto.
        * apply var_ok_name.
        * destruct Hvar as (N1 & _). exact N1.
        * destruct Hvar as (N1 & N2 & N3 & N4 & N5 & N6). split; [unfold var_of, with_var_cid; cbn; auto 10|].
          cbn [with_var_cid va_cid]. rewrite length_app, length_append. exact HT'.
        * intros c0 v0 Hne Hv0. eapply var_ok_incl; [exact HI|exact HF'| |exact Hv0].
          rewrite length_app. unfold length_appended at 3. cbn [batches]. destruct (as_type _ _ data); [|symmetry; apply Nat.add_0_r].
          destruct (bytes_eqb (cf_name c) (cf_name c0)) eqn:Eq.
          -- apply bytes_eqb_spec in Eq. congruence.
          -- symmetry. apply Nat.add_0_r.
    - apply (ok_bind _ _ _ (fun _ _ => True)); [apply mono_save|intros; apply mono_ret| |].
      + unfold dataset_commit, osave. intros HF'. eexists. split; [reflexivity|]. split; [exact I|].
        exact (grown_save hash st (NDataset d) Ad).
      + intros ci st' HI HF' _. apply ok_ret. constructor; auto; try (eapply opt_incl; eassumption). rewrite configs_app. cbn [configs]. rewrite app_nil_r.
        eapply Forall2_impl; [|exact I6]. intros c0 v0 Hv0. eapply var_ok_incl; [exact HI|exact HF'| |exact Hv0].
        rewrite length_app. symmetry. apply Nat.add_0_r.
    - eapply (ok_bind _ _ _ (fun ci st' => get_dataset st' ci = Ok (with_cid d (Some ci)) /\ wf_cid ci /\ has st' ci)); [apply mono_save|intros ci st'; apply extends_refl| |].
      + unfold dataset_commit, osave. intros HF'. eexists. split; [reflexivity|]. split; [|exact (grown_save hash st (NDataset d) Ad)].
        cbn [fst] in *. split; [|split; [apply Hhash|eexists; apply save_in]].
        unfold get_dataset. rewrite (retrieve_saved _ hash (NDataset d) Wd HF' (save_in hash st (NDataset d))). reflexivity.
      + intros ci st' HI HF' (Eg & Wc & Hci) _. cbn [fst snd]. exists (with_cid d (Some ci)). split; [exact Eg|]. split; [|apply grown_refl].
        constructor; cbn [with_cid ds_rows ds_cols ds_coords ds_cid ds_prev ds_vars]; auto; try (eapply opt_incl; eassumption). rewrite configs_app. cbn [configs]. rewrite app_nil_r.
        eapply Forall2_impl; [|exact I6]. intros c0 v0 Hv0. eapply var_ok_incl; [exact HI|exact HF'| |exact Hv0].
        rewrite length_app. symmetry. apply Nat.add_0_r.
  Qed.

  Lemma ok_run : forall after before d st, es = before ++ after -> functional st -> inv st d before ->
    ok_in (run hash lc lg order fuel d after) st (fun d' st' => inv st' d' es).
  Proof.
    induction after as [|e after IH]; intros before d st E HF HI; unfold run; cbn [ofold].
    - apply ok_ret. rewrite app_nil_r in E. rewrite E. exact HI.
    - eapply ok_bind; [apply mono_event|intros; apply mono_run|apply (ok_event before e after d st E HF HI)|].
      intros d' st' HI' HF' HI2. apply (IH (before ++ [e])); auto. rewrite E, <- app_assoc. reflexivity.
  Qed.
End History.

(** ** Chains of versions *)
Definition chain (st : store) (l : list cid) : Prop :=
  forall l1 c l2, l = l1 ++ c :: l2 -> exists d, get_dataset st c = Ok d /\ ds_prev d = hd_error l2.
Lemma chain_incl st st' l : incl st st' -> functional st' -> chain st l -> chain st' l.
Proof. intros HI HF H l1 c l2 E. destruct (H l1 c l2 E) as (d & G & P). exists d. split; [eapply get_dataset_incl; eassumption|exact P]. Qed.
Lemma chain_tail st c l : chain st (c :: l) -> chain st l.
Proof. intros H l1 c' l2 ->. apply (H (c :: l1) c' l2). reflexivity. Qed.
Lemma chain_cons st c l d : get_dataset st c = Ok d -> ds_prev d = hd_error l -> chain st l -> chain st (c :: l).
Proof.
  intros G P H l1 c' l2 E. destruct l1 as [|x l1]; cbn [app] in E; injection E as <- E; subst; [eauto|]. apply (H l1 c' l2). reflexivity.
Qed.
Lemma walk_chain st l : forall n c, S (length l) <= n -> chain st (c :: l) -> walk st n c = c :: l.
Proof.
  induction l as [|c' l IH]; intros n c Hn H; destruct n as [|n]; cbn [length] in Hn; try lia; cbn [walk];
    destruct (H [] c _ eq_refl) as (d & -> & ->); cbn [hd_error]; [reflexivity|]. f_equal. apply IH; [lia|]. eapply chain_tail. exact H.
Qed.

Section Versions.
  Variables (hash : bytes -> cid) (lc : nat -> nat) (lg : f64 -> nat) (order : list call -> list call) (fuel rows cols N : nat).
  Hypothesis Hhash : forall b, wf_cid (hash b).
  Hypothesis Horder : forall l, Permutation l (order l).
  Hypothesis Hlg : log2_accurate lg.
  Hypothesis Hr : 0 < rows.
  Hypothesis Hc : 0 < cols.
  Hypothesis Fr : fits32 rows.
  Hypothesis Fc : fits32 cols.
  Hypothesis FN : fits32 N.
  Variables (coords : coordinate * coordinate * coordinate) (es : list event).
  Hypothesis Wcoords : let '(c1, c2, c3) := coords in wf_coord c1 /\ wf_coord c2 /\ wf_coord c3.
  Hypothesis HV : valid lc fuel rows cols N es.
  Notation inv := (inv hash lc lg rows cols coords es).

  Definition lin (st : store) (d : dataset) (l : list cid) : Prop :=
    chain st l /\
    match ds_cid d with
    | Some c => hash (node_bytes (NDataset d)) = c /\ hd_error l = Some c /\ get_dataset st c = Ok d
    | None => ds_prev d = hd_error l
    end.
  Lemma lin_incl st st' d l : incl st st' -> functional st' -> lin st d l -> lin st' d l.
  Proof.
    intros HI HF [H1 H2]. split; [eapply chain_incl; eassumption|]. destruct (ds_cid d); [|exact H2].
    destruct H2 as (A & B & C). split; [exact A|]. split; [exact B|]. eapply get_dataset_incl; eassumption.
  Qed.
  Lemma lin_prev st d l : lin st d l -> next_prev d = hd_error l.
  Proof. intros [_ H]. unfold next_prev. destruct (ds_cid d); [symmetry; apply H|exact H]. Qed.
  Lemma cid_bytes d x : node_bytes (NDataset (with_cid d x)) = node_bytes (NDataset d).
  Proof. reflexivity. Qed.

  (** The version that committing adds. *)
  Lemma lin_commit st st' d l : lin st d l -> wf_dataset d -> functional st' -> incl (snd (save hash st (NDataset d))) st' ->
    let c := hash (node_bytes (NDataset d)) in
    get_dataset st' c = Ok (with_cid d (Some c)) /\ chain st' (add_version c l) /\ hd_error (add_version c l) = Some c /\ lin st' (with_cid d (Some c)) (add_version c l).
  Proof.
    intros HL Wd HF HI c. 
    assert (G : get_dataset st' c = Ok (with_cid d (Some c))).
    { unfold c, get_dataset. rewrite (retrieve_saved _ hash (NDataset d) Wd HF); [reflexivity|]. apply HI. apply (save_in hash st (NDataset d)). }
    assert (HI0 : incl st st') by (eapply incl_tran; [apply (save_incl hash st (NDataset d))|exact HI]).
    split; [exact G|].
    assert (Ch : chain st' (add_version c l) /\ hd_error (add_version c l) = Some c).
    { pose proof (lin_incl _ _ _ _ HI0 HF HL) as [H1 H2]. unfold lin in HL. destruct (ds_cid d) as [x|] eqn:Ec.
      - destruct H2 as (A & B & C). fold c in A. subst x. destruct l as [|y l]; [discriminate|]. cbn [hd_error] in B. injection B as ->.
        cbn [add_version]. rewrite cid_eqb_refl. split; [exact H1|reflexivity].
      - assert (X : chain st' (c :: l)) by (eapply chain_cons; [exact G|exact H2|exact H1]).
        destruct l as [|y l]; cbn [add_version]; [split; [exact X|reflexivity]|].
        destruct (cid_eqb c y) eqn:E; [|split; [exact X|reflexivity]].
        apply cid_eqb_spec in E. rewrite <- E in *. split; [exact H1|reflexivity]. }
    destruct Ch as [Ch Hh]. split; [exact Ch|]. split; [exact Hh|]. split; [exact Ch|].
    cbn [with_cid ds_cid]. rewrite cid_bytes. split; [reflexivity|]. split; [exact Hh|exact G].
  Qed.

  Lemma mono_get st0 c : mono (fun st => (st, get_dataset (st0 ++ st) c)).
  Proof. intros st. apply extends_refl. Qed.
  Lemma mono_versions_event x e : mono (run_versions_event hash lc lg order fuel x e).
  Proof.
    destruct x as [d l]. destruct e as [c|t n a| |]; unfold run_versions_event; (apply mono_bind; [|intros; try apply mono_ret]).
    1-3: apply mono_event.
    - apply mono_save.
    - apply mono_bind; [|intros; apply mono_ret]. intros st. apply extends_refl.
  Qed.

  (** A step without [Reload] keeps the previous version or sets it. *)
  Lemma step_next d e st st' d' : run_event hash lc lg order fuel d e st = (st', Ok d') ->
    match e with Reload => True | Commit => d' = d | _ => ds_cid d' = None /\ ds_prev d' = next_prev d end.
  Proof.
    destruct e as [c|t n a| |]; cbn [run_event]; trivial.
    - unfold add_variable, obind, osave, save, oret. intros H. injection H as _ <-. auto.
    - unfold dataset_append. destruct (find_var n (ds_vars d)) as [v|]; [|discriminate].
      unfold obind at 1. destruct (tail_data _ _ st) as [st1 [tail| | |]]; try discriminate.
      unfold obind at 1.
      match goal with |- context [let '(_, _) := ?m in _] => destruct m as [st2 [ci| | |]] end; try discriminate.
      unfold oret. intros H. injection H as _ <-. auto.
    - unfold dataset_commit, obind, osave, save, oret. intros H. injection H as _ <-. reflexivity.
  Qed.

  Lemma ok_versions_event before e after d l st : es = before ++ e :: after -> functional st -> inv st d before -> lin st d l ->
    ok_in (run_versions_event hash lc lg order fuel (d, l) e) st (fun x st' => inv st' (fst x) (before ++ [e]) /\ lin st' (fst x) (snd x)).
  Proof.
    intros E HF HI HL.
    pose proof (ok_event hash lc lg order fuel rows cols N Hhash Horder Hlg Hr Hc Fr Fc FN coords es Wcoords HV before e after d st E HF HI) as HE.
    assert (Wd : wf_dataset d) by (eapply (inv_wf hash lc lg fuel rows cols N Hr Hc Fr Fc coords es Wcoords HV); eassumption).
    assert (Case : e = Reload \/ e <> Reload) by (destruct e; [right|right|right|left]; try discriminate; reflexivity).
    destruct Case as [->|Ne].
    - intros HF'. unfold ok_in in HE. unfold run_versions_event, run_event in *.
      unfold dataset_commit, obind, osave, save, oret in *. cbn [fst snd] in *.
      set (c := hash (node_bytes (NDataset d))) in *. set (st1 := st ++ [(c, node_bytes (NDataset d))]) in *.
      assert (F1 : functional st1) by (destruct (get_dataset st1 c); exact HF').
      destruct (lin_commit st st1 d l HL Wd F1 (incl_refl _)) as (G & _ & _ & L'). fold c in G, L'.
      rewrite G in HF', HE |- *. cbn [fst snd] in *. exists (with_cid d (Some c), add_version c l). split; [reflexivity|]. cbn [fst snd].
      destruct (HE HF') as (x & Ex & Hx & HW). injection Ex as <-. split; [|exact HW]. split; [exact Hx|exact L'].
    - assert (Er : run_versions_event hash lc lg order fuel (d, l) e = obind (run_event hash lc lg order fuel d e) (fun d' => oret (d', l))).
      { destruct e; try reflexivity. exfalso. apply Ne. reflexivity. }
      rewrite Er. clear Er. intros HF'. unfold ok_in in HE. pose proof (mono_incl _ st (mono_event hash lc lg order fuel d e)) as HM.
      unfold obind, oret in *. destruct (run_event hash lc lg order fuel d e st) as [st1 r] eqn:Ev. cbn [fst snd] in *.
      assert (HF1 : functional st1) by (destruct r; exact HF').
      destruct (HE HF1) as (d' & -> & HI' & HW). cbn [fst snd]. exists (d', l). split; [reflexivity|]. cbn [fst snd]. split; [|exact HW]. split; [exact HI'|].
      pose proof (step_next _ _ _ _ _ Ev) as HS. pose proof (lin_incl _ _ _ _ HM HF1 HL) as HL1.
      destruct e as [c|t n a| |]; [| | |exfalso; apply Ne; reflexivity].
      + destruct HS as [S1 S2]. split; [apply HL1|]. rewrite S1, S2. apply (lin_prev _ _ _ HL).
      + destruct HS as [S1 S2]. split; [apply HL1|]. rewrite S1, S2. apply (lin_prev _ _ _ HL).
      + rewrite HS. exact HL1.
  Qed.

  Lemma ok_versions : forall after before d l st, es = before ++ after -> functional st -> inv st d before -> lin st d l ->
    ok_in (ofold (run_versions_event hash lc lg order fuel) (d, l) after) st (fun x st' => inv st' (fst x) es /\ lin st' (fst x) (snd x)).
  Proof.
    induction after as [|e after IH]; intros before d l st E HF HI HL; cbn [ofold].
    - apply ok_ret. rewrite app_nil_r in E. split; [rewrite <- E in HI; exact HI|exact HL].
    - eapply ok_bind; [apply mono_versions_event|intros; apply mono_ofold; intros; apply mono_versions_event|apply (ok_versions_event before e after d l st E HF HI HL)|].
      intros [d' l'] st' HI' HF' [HI2 HL2]. apply (IH (before ++ [e])); auto. rewrite E, <- app_assoc. reflexivity.
  Qed.
End Versions.
