(** * C20 for whole datasets: what programs see when part of the store is lost. *)
From Verif Require Import Base BaseFacts Spec GeomModel GeomProofs BitmapModel DacModel StreamModel StreamProofs FixedModel ChunkModel ChunkStream ChunkReads
  NodeModel NodeProofs SuperModel SuperViews SuperProofs SuperInt ArrayModel ArrayProofs MissingProofs FloatModel FloatBuild DatasetModel DatasetProofs AppendProofs HistoryModel
  PropertiesNode PropertiesLog PropertiesSuper PropertiesReads KindProofs HistoryProofs PropertiesDataset PropertiesCanon.
Ltac Zify.zify_post_hook ::= Z.div_mod_to_equations.
Arguments Nat.pow : simpl never.
Open Scope nat_scope.

(** [finds_if_there]: searches of integers, as [searches_if_there] says
    (MissingProofs.v). *)
Definition finds_if_there (lc : nat -> nat) (rows cols : nat) (c : config) (t : vtype) (st : store) (fuel : nat) (m : mmstruct) (T : nat) :
  (nat -> nat -> nat -> carrier t) -> Prop :=
  match t with
  | I32 | I64 => fun g => chunks_searchable lc rows cols c g T -> searches_if_there st fuel m T rows cols g
  | F32 | F64 => fun _ => True
  end.

(** Of the objects of [st], and of any that were added later, only those in
    [part] can still be loaded. Then opening the variable [v] gives its array or an
    object is not found, and reads of that array (which may have been opened earlier)
    are those of [reads_if_there] and [searches_if_there]. *)
Definition holds_if_there (lc : nat -> nat) (lg : f64 -> nat) (rows cols : nat) (c : config) (st : store) (v : variable)
  (g : nat -> nat -> nat -> carrier (cf_type c)) (T : nat) : Prop :=
  exists m depth, forall st' part fuel, incl st st' -> functional st' -> incl part st' -> depth <= fuel ->
    (var_data (dt_of lg (cf_type c)) part v = Ok m \/ var_data (dt_of lg (cf_type c)) part v = Err ENotFound) /\
    (exists g', reads_if_there (reader_of (cf_type c)) part fuel m T rows cols g' /\
       forall t r k, t < T -> r < rows -> k < cols -> kept (cf_type c) (cf_round c) (g' t r k) (g t r k)) /\
    finds_if_there lc rows cols c (cf_type c) part fuel m T g.

Section Tree.
  Variables (hash : bytes -> cid) (lc : nat -> nat) (lg : f64 -> nat) (fuel rows cols : nat).
  Variable c : config.
  Hypothesis HC : config_ok lc fuel rows cols c.
  Notation levels := (cf_levels c).
  Notation cs := (cf_chunk c).
  Notation ss := (cf_span c).
  Notation ty := (cf_type c).
  Notation enc := (enc_of (cf_type c)).
  Notation R := (reader_of (cf_type c)).
  Notation D := (dt_of lg (cf_type c)).
  Notation V := (chunk_V hash lc lg rows cols (cf_levels c) (cf_round c) (cf_type c)).

  Lemma tree_holds_if_there g st v T : var_tree hash lc lg rows cols c g st (va_cid v) T -> holds_if_there lc lg rows cols c st v g T.
  Proof.
    intros (e & _ & W & m & h & Gm & HN & _). destruct HC as [C1 C2 [C3 C3'] [C4 C4'] C5 C6 C7 C8].
    assert (Em : mm_encoding m = rd_enc R).
    { destruct (node_span _ _ _ _ _ _ _ _ _ _ _ _ HN) as (s & -> & [A1 A2 A3 A4 A5] & _). cbn [mm_encoding]. rewrite A4. destruct ty; reflexivity. }
    exists m, (S (length levels) + S h). intros st' part fuel' HI HF HP' Hfu.
    apply (node_incl _ _ _ _ _ _ _ _ HI HF) in HN.
    destruct (node_view rows cols cs ss enc (S (length levels)) (leaf_ok V g)
      (fun t r k x => kept ty (cf_round c) (rd_set R (snd x) (fst x)) (g t r k)) C4 C3) with (2 := HF) (3 := HN) as (f & Vf & HP).
    { intros st1 off n m1 ((f & Vf & HP) & _). exists f. split; [exact Vf|]. intros t r k Ht Hr' Hk. apply HP; assumption. }
    split; [|split].
    - unfold var_data. destruct (get_mm_part part st' _ _ HP' HF (get_mm_incl _ _ _ _ HI HF Gm)) as [-> | ->]; cbn [bind]; [left|right; reflexivity].
      unfold arr_new. rewrite reader_eq, (proj2 (encoding_eqb_spec _ _) Em). reflexivity.
    - exists (fun t r k => rd_set R (snd (f t r k)) (fst (f t r k))). split; [|exact HP].
      apply (view_reads_if_there R part st' (S (length levels) + S h) fuel' m T rows cols f); auto.
    - clear HP. assert (S : forall enc0 (V : (nat -> nat -> nat -> Z) -> store -> nat -> mmstruct -> Prop) (g : nat -> nat -> nat -> Z),
        (forall g st n m, V g st n m -> leaves_searchable 2 lc levels g n rows cols -> sview st (S (length levels)) m n rows cols g) ->
        DatasetProofs.node rows cols cs ss enc0 (leaf_ok V g) h st' 0 T e m -> chunks_searchable lc rows cols c g T -> searches_if_there part fuel' m T rows cols g).
      { clear g HN. intros enc0 V' g' HV HN' HQ.
        apply (sview_searches_if_there part st' (S (length levels) + S h) fuel'); [exact HP'|exact HF|exact Hfu|eapply node_shape; exact HN'|].
        apply (sview_ext _ _ _ _ _ _ (later g' 0)); [intros; reflexivity|].
        eapply (node_sview rows cols cs ss enc0 (S (length levels)) (leaf_ok V' g') g'
          (fun off n => leaves_searchable 2 lc levels (fun t => g' (off + t)) n rows cols) C4 C3) with (2 := HF) (3 := HN').
        + intros st1 off n m1 H HL. unfold later. apply (HV _ _ _ _ H). exact HL.
        + exact HQ. }
      revert g HN. destruct ty; intros g0 HN; cbn [finds_if_there]; try exact Logic.I; (eapply S; [|exact HN]); intros g1 st1 n1 m1 (_ & (H & _) & _); exact H.
  Qed.
End Tree.

(** After any valid history, with any part of the store lost. What is missing
    from C20: an error for the cells of a window that are not found
    ([C20_window_hides_failure_refuted], PropertiesReads.v). *)
Theorem C20_datasets_partial : forall hash lc lg order fuel rows cols N coords es st0 st r,
  setting hash lg order rows cols N coords -> valid lc fuel rows cols N es ->
  run hash lc lg order fuel (dataset_new coords rows cols) es st0 = (st, r) -> functional st ->
  exists d, r = Ok d /\
  forall c, In c (configs es) -> exists v, find_var (cf_name c) (ds_vars d) = Some v /\
    holds_if_there lc lg rows cols c st v (appended es c) (length_appended es c).
Proof.
  intros hash lc lg order fuel rows cols N coords es st0 st r HS HV E HF.
  destruct (run_result hash lc lg order fuel rows cols N coords es HS HV st0) as (d & E1 & HI); rewrite E in *; cbn [fst snd] in *; [exact HF|].
  exists d. split; [exact E1|]. pose proof (in_vars _ _ _ _ _ _ _ _ _ _ HI) as H6. intros c Hc. destruct HV as [V1 V2 V3 V4 V5].
  destruct (find_config _ _ _ (var_ok_name hash lc lg rows cols es st es) H6 V1 c Hc) as (v & Ev & Hvar & HT).
  exists v. split; [exact Ev|]. rewrite Forall_forall in V3.
  eapply (tree_holds_if_there hash lc lg fuel rows cols); eauto.
Qed.

(** Opening a dataset itself. *)
Theorem C20_opening_reports : forall st part c d, incl part st -> functional st ->
  get_dataset st c = Ok d -> get_dataset part c = Ok d \/ get_dataset part c = Err ENotFound.
Proof.
  intros st part c d HI HF H. unfold get_dataset in *. apply bind_inv in H. destruct H as (n & E & H).
  destruct (retrieve_part part st c n HI HF E) as [-> | ->]; cbn [bind]; auto.
Qed.

(** The history of [C55_identifiers_example] (PropertiesCanon.v), and then the
    third of its 15 objects is lost. The cells of the first two instants are not
    found, the others are read. *)
Definition lose (n : nat) (st : store) : store := firstn n st ++ skipn (S n) st.
Lemma lose_incl n st : incl (lose n st) st.
Proof.
  unfold lose. intros x Hx. apply in_app_iff in Hx. rewrite <- (firstn_skipn n st). apply in_or_app. destruct Hx as [Hx|Hx]; [left; exact Hx|right].
  rewrite <- (firstn_skipn 1 (skipn n st)). apply in_or_app. right.
  replace (skipn 1 (skipn n st)) with (skipn (S n) st); [exact Hx|]. clear Hx. revert st. induction n as [|n IH]; intros st; [reflexivity|].
  destruct st as [|y st]; [reflexivity|]. cbn [skipn]. apply IH.
Qed.
Definition after_loss (n : nat) (r : store * res dataset) : list (res Z) :=
  match r with
  | (st, Ok d) =>
      match find_var [97]%N (ds_vars d) with
      | Some v =>
          match get_mm (lose n st) (va_cid v) with
          | Ok m => map (fun t => arr_get (reader_of I32) (lose n st) 9 m t 1 0) (seq 0 7)
          | _ => []
          end
      | None => []
      end
  | _ => []
  end.
Definition search_after_loss (n : nat) (r : store * res dataset) : res (list item) :=
  match r with
  | (st, Ok d) =>
      match find_var [97]%N (ds_vars d) with
      | Some v => m <- get_mm (lose n st) (va_cid v) ;; arr_search (lose n st) 9 m (cube_new 0 7 1 2 0 1) 4 (-4)
      | None => Panic
      end
  | _ => Panic
  end.
Example C20_datasets_example : setting ex_hash ex_lg (@rev call) 2 2 1000 ex_coords /\ valid ex_lc 4 2 2 1000 ex_once /\
  functional (fst stored_once) /\ incl (lose 2 (fst stored_once)) (fst stored_once) /\ In ex_one (configs ex_once) /\
  after_loss 2 stored_once = [Err ENotFound; Err ENotFound; Ok (-3)%Z; Ok (-4)%Z; Ok 6%Z; Ok 5%Z; Ok 4%Z] /\
  search_after_loss 2 stored_once = Ok [inl ENotFound; inr (2, 1, 0); inr (3, 1, 0); inr (6, 1, 0)].
Proof.
  split; [exact ex_set|]. split; [apply PropertiesCanon.ex_valid; cbn; auto|]. split; [apply functional_checked; vm_compute; reflexivity|].
  split; [apply lose_incl|]. split; [cbn; auto|]. split; vm_compute; reflexivity.
Qed.

Print Assumptions C20_datasets_partial.
Print Assumptions C20_opening_reports.
