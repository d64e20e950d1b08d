(** * Property C25, the other way round: configurations that can be added and never used

    C25_accepted_configurations_refuted (PropertiesDataset.v) shows six variables that
    [add_variable] accepts and whose first append panics. Here: this is so for every dataset,
    every type and whatever data. *)
From Verif Require Import Base BaseFacts FixedModel GeomModel BitmapModel DacModel StreamModel StreamProofs ChunkModel ChunkStream NodeModel NodeProofs SuperModel
  ArrayModel FloatModel DatasetModel HistoryModel DatasetProofs AppendProofs HistoryProofs PropertiesNode PropertiesDataset.
Open Scope nat_scope.

Lemma step_inv {A B} (m : op A) (f : A -> op B) st st' y : obind m f st = (st', Ok y) ->
  exists x st1, m st = (st1, Ok x) /\ f x st1 = (st', Ok y).
Proof. unfold obind. destruct (m st) as [st1 [x|e| |]]; intros H; try discriminate. exists x, st1. auto. Qed.
Lemma lift_inv {A} (r : res A) st st' y : olift r st = (st', Ok y) -> r = Ok y /\ st' = st.
Proof. unfold olift. intros H. injection H as <- <-. auto. Qed.
Lemma ret_inv {A} (x y : A) st st' : oret x st = (st', Ok y) -> x = y /\ st' = st.
Proof. unfold oret. intros H. injection H as <- <-. auto. Qed.
Lemma load_inv c st st' m : oload c st = (st', Ok m) -> get_mm st c = Ok m /\ st' = st.
Proof. unfold oload. intros H. injection H as <- <-. auto. Qed.
Lemma after {A} (m : op A) st st' r : mono m -> m st = (st', r) -> incl st st'.
Proof. intros M E. pose proof (mono_incl m st M) as I. rewrite E in I. exact I. Qed.

Ltac fits_small := unfold fits32; reflexivity.

Section Unusable.
  Variable hash : bytes -> cid.
  Hypothesis Hh : forall b, wf_cid (hash b).

  (** What is saved is loaded again. *)
  Lemma save_inv m st st' c : wf_mm m -> osave hash (NMM m) st = (st', Ok c) -> wf_cid c /\ incl st st' /\ (functional st' -> get_mm st' c = Ok m).
  Proof using Hh.
    intros W H. pose proof (save_in hash st (NMM m)) as HI. pose proof (save_incl hash st (NMM m)) as HN.
    unfold osave in H. destruct (save hash st (NMM m)) as [c0 s0] eqn:E. injection H as <- <-.
    assert (c0 = hash (node_bytes (NMM m))) as -> by (unfold save in E; congruence).
    split; [apply Hh|]. split; [exact HN|]. intros HF. unfold get_mm. rewrite (retrieve_saved _ hash (NMM m) W HF HI). reflexivity.
  Qed.

  (** Appending one object to a span. *)
  Lemma append_inv s m st st' s' n h w : mm_shape m = Ok (n, h, w) -> span_append hash s m st = (st', Ok s') ->
    exists c, s' = mkSpan (sp_instants s + n) (sp_rows s) (sp_cols s) (sp_stride s) (sp_spans s ++ [c]) (sp_enc s) /\ wf_cid c /\ n <= sp_stride s /\ h = sp_rows s /\ w = sp_cols s.
  Proof using Hh.
    intros Hm H. unfold span_append in H. apply step_inv in H. destruct H as (u & st1 & _ & H).
    apply step_inv in H. destruct H as (sh & st2 & E & H). apply lift_inv in E. destruct E as (E & ->). rewrite Hm in E. injection E as <-.
    destruct (Nat.eqb_spec h (sp_rows s)) as [->|]; cbn [negb orb] in H; [|apply lift_inv in H; destruct H; discriminate].
    destruct (Nat.eqb_spec w (sp_cols s)) as [->|]; cbn [negb orb] in H; [|apply lift_inv in H; destruct H; discriminate].
    destruct (Nat.ltb_spec (sp_stride s) n) as [|L]; [apply lift_inv in H; destruct H; discriminate|].
    apply step_inv in H. destruct H as (c & st3 & E & H). apply ret_inv in H. destruct H as (<- & ->).
    exists c. split; [reflexivity|]. split; [|auto]. unfold osave, save in E. injection E as _ <-. apply Hh.
  Qed.

  (** The way down from a root with the stride of a chunk: the root. *)
  Lemma tail_root chunk c s st st' l : get_mm st c = Ok (MSpan s) -> sp_stride s <= chunk ->
    tail_spans chunk c st = (st', Ok l) -> l = [MSpan s] /\ st' = st.
  Proof using.
    intros G L H. unfold tail_spans in H. apply step_inv in H. destruct H as (m & st1 & E & H). apply load_inv in E. destruct E as (E & ->).
    rewrite G in E. injection E as <-. apply step_inv in H. destruct H as (s1 & st2 & E & H). apply lift_inv in E. destruct E as (E & ->). cbn [as_span] in E. injection E as <-.
    cbn [tail_loop] in H. apply step_inv in H. destruct H as (s1 & st2 & E & H). apply lift_inv in E. destruct E as (E & ->). cbn [as_span] in E. injection E as <-.
    rewrite (proj2 (Nat.ltb_ge _ _) L) in H. apply ret_inv in H. destruct H as (<- & ->). auto.
  Qed.

  (** A full span of a variable whose spans are to have at most one part: going on is not possible. *)
  Lemma no_more ss chunk rows cols enc s st st' x : ss <= 1 -> sp_stride s = chunk -> wf_span s ->
    (root' <! save_spans hash [MSpan s] ;;
     root'' <! create_open_span hash ss chunk rows cols enc root' ;;
     spans' <! tail_spans chunk root'' ;;
     match spans' with
     | [] => olift Panic
     | m' :: rest' =>
         s' <! olift (as_span m') ;;
         if length (sp_spans s') =? 0 then oret (root'', s', rest') else olift Panic
     end)%op st = (st', Ok x) -> functional st' -> False.
  Proof using Hh.
    intros HS Es W H HF.
    apply step_inv in H. destruct H as (root' & st1 & E1 & H). unfold save_spans in E1. apply step_inv in E1. destruct E1 as (r0 & st0 & E0 & E1).
    cbn [update_up] in E0. apply ret_inv in E0. destruct E0 as (<- & ->).
    destruct (save_inv (MSpan s) _ _ _ W E1) as (_ & _ & G1).
    apply step_inv in H. destruct H as (root'' & st2 & E2 & H).
    assert (I2 : incl st1 st2) by (eapply after; [apply mono_create_open_span|exact E2]).
    apply step_inv in H. destruct H as (spans' & st3 & E3 & H).
    assert (I3 : incl st2 st3) by (eapply after; [apply mono_tail_spans|exact E3]).
    assert (I4 : st' = st3).
    { destruct spans' as [|m' rest']; [apply lift_inv in H; tauto|]. apply step_inv in H. destruct H as (s' & st4 & E4 & H). apply lift_inv in E4. destruct E4 as (_ & ->).
      destruct (length (sp_spans s') =? 0); [apply ret_inv in H|apply lift_inv in H]; tauto. }
    subst st'. assert (F3 : functional st2) by (eapply functional_incl; eassumption). assert (F1 : functional st1) by (eapply functional_incl; eassumption).
    specialize (G1 F1). unfold create_open_span in E2. apply step_inv in E2. destruct E2 as (l & st5 & E5 & E2).
    destruct (tail_root chunk root' s _ _ _ G1 ltac:(lia) E5) as (-> & ->).
    apply step_inv in E2. destruct E2 as (y & st6 & E6 & E2). cbn [open_loop] in E6.
    apply step_inv in E6. destruct E6 as (r & st7 & E7 & E6). apply step_inv in E6. destruct E6 as (r' & st8 & E8 & E6). apply ret_inv in E6. destruct E6 as (<- & ->).
    destruct (append_inv _ (MSpan s) _ _ _ (sp_instants s) (sp_rows s) (sp_cols s) eq_refl E7) as (c1 & -> & W1 & L1 & Er & Ec).
    destruct (append_inv _ (MSpan (span_new rows cols chunk enc)) _ _ _ 0 rows cols eq_refl E8) as (c2 & -> & W2 & _).
    cbn [span_new sp_instants sp_rows sp_cols sp_stride sp_spans sp_enc app] in *.
    apply step_inv in E2. destruct E2 as (m & st9 & E9 & E2). cbn [update_up] in E9. apply ret_inv in E9. destruct E9 as (<- & ->).
    assert (W3 : wf_mm (MSpan (mkSpan (0 + sp_instants s + 0) rows cols (ss * chunk) [c1; c2] enc))).
    { destruct W as [A1 A2 A3 A4 A5 A6]. cbn [wf_mm]. split; cbn [sp_instants sp_rows sp_cols sp_stride sp_spans length].
      - rewrite Nat.add_0_r. exact A1.
      - rewrite <- Er. exact A2.
      - rewrite <- Ec. exact A3.
      - unfold fits32 in *. rewrite Es in A4. clear -A4 HS. nia.
      - fits_small.
      - repeat constructor; assumption. }
    destruct (save_inv _ _ _ _ W3 E2) as (_ & _ & G2). specialize (G2 F3).
    destruct (tail_root chunk root'' _ _ _ _ G2 ltac:(cbn [sp_stride]; nia) E3) as (-> & ->).
    apply step_inv in H. destruct H as (s' & st9 & E9 & H). apply lift_inv in E9. destruct E9 as (E9 & ->). cbn [as_span] in E9. injection E9 as <-.
    cbn [sp_spans length Nat.eqb] in H. apply lift_inv in H. destruct H. discriminate.
  Qed.

  Variable lc : nat -> nat.

  (** What a chunk that was built looks like. *)
  Lemma super_shape {A} (E : elem A) levels g n h w bits st st' b : super_op hash E 2 lc levels g n h w bits st = (st', Ok b) ->
    levels <> [] /\ sum_nat levels = lc (Nat.max h w) /\ mm_shape (mb_data b) = Ok (n, h, w).
  Proof using.
    intros H. destruct levels as [|level sub]; cbn [super_op] in H.
    { destruct (negb _); apply lift_inv in H; destruct H; discriminate. }
    destruct (Nat.eqb_spec (sum_nat (level :: sub)) (lc (Nat.max h w))) as [S|]; cbn [negb] in H; [|apply lift_inv in H; destruct H; discriminate].
    split; [discriminate|]. split; [exact S|].
    do 4 (apply step_inv in H; destruct H as (? & ? & _ & H)). unfold finish_op in H. destruct (save hash _ _) as [ext st2].
    do 2 (apply step_inv in H; destruct H as (? & ? & _ & H)). apply ret_inv in H. destruct H as (<- & _). reflexivity.
  Qed.

  Section Any.
    Context {A : Type}.
    Variables (D : dtype A) (order : list call -> list call) (fuel : nat).

    Theorem unusable d st v data n h w rows cols enc st' d' :
      find_var (va_name v) (ds_vars d) = Some v -> get_mm st (va_cid v) = Ok (MSpan (span_new rows cols (va_chunk_size v) enc)) ->
      fits32 rows -> fits32 cols -> fits32 (va_chunk_size v) ->
      a3_shape data = (n, h, w) -> 0 < n ->
      (va_chunk_size v = 0 \/ va_span_size v = 0 \/ (va_span_size v = 1 /\ va_chunk_size v < n) \/
       va_levels v = [] \/ sum_nat (va_levels v) <> lc (Nat.max h w)) ->
      dataset_append hash lc D order fuel d (va_name v) data st = (st', Ok d') -> functional st' -> False.
    Proof using Hh.
      intros Fv G R1 R2 R3 Sh Hn Bad H HF. unfold dataset_append in H. rewrite Fv in H.
      set (s0 := span_new rows cols (va_chunk_size v) enc) in *.
      assert (W0 : wf_span s0).
      { split; cbn [s0 span_new sp_instants sp_rows sp_cols sp_stride sp_spans length]; try assumption; try fits_small. constructor. }
      apply step_inv in H. destruct H as (tail & st1 & E1 & H).
      assert (T : tail = None /\ st1 = st).
      { unfold tail_data in E1. apply step_inv in E1. destruct E1 as (l & st2 & E2 & E1).
        destruct (tail_root _ _ s0 _ _ _ G (le_n _) E2) as (-> & ->). apply step_inv in E1. destruct E1 as (s & st2 & E3 & E1). apply lift_inv in E3. destruct E3 as (E3 & ->).
        cbn [as_span] in E3. injection E3 as <-. cbn in E1. apply ret_inv in E1. destruct E1 as (<- & ->). auto. }
      destruct T as (-> & ->). rewrite Sh in H. apply step_inv in H. destruct H as (c & st2 & E2 & H). apply ret_inv in H. destruct H as (_ & ->).
      unfold var_append in E2. apply step_inv in E2. destruct E2 as (l & st3 & E3 & E2). destruct (tail_root _ _ s0 _ _ _ G (le_n _) E3) as (-> & ->).
      apply step_inv in E2. destruct E2 as (starts & st4 & E4 & E2). apply lift_inv in E4. destruct E4 as (E4 & ->).
      unfold step_starts in E4. destruct (Nat.eqb_spec (va_chunk_size v) 0) as [|C0]; [discriminate|]. injection E4 as E4.
      set (cs := va_chunk_size v) in *. set (ss := va_span_size v) in *.
      apply step_inv in E2. destruct E2 as (y & st4 & E5 & E2).
      assert (I5 : incl st4 st2). { destruct y as [[? ?] ?]. eapply after; [apply mono_save_spans|exact E2]. }
      assert (F4 : functional st4) by (eapply functional_incl; eassumption). clear E2 I5 HF.
      assert (Q1 : 1 <= (n + cs - 1) / cs) by (apply Nat.div_le_lower_bound; lia).
      destruct ((n + cs - 1) / cs) as [|q] eqn:Eq; [lia|]. cbn [seq map] in E4. rewrite Nat.mul_0_l in E4.
      rewrite <- E4 in E5. cbn [ofold] in E5. apply step_inv in E5. destruct E5 as (y1 & st5 & E6 & E5).
      assert (MS : forall z a, mono (append_step hash (build_chunk hash lc D v data) v n h w z a)) by (intros; apply mono_append_step; intros; apply mono_build).
      assert (I6 : incl st5 st4) by (exact (after _ _ _ _ (DatasetProofs.mono_ofold _ MS _ _) E5)).
      assert (F5 : functional st5) by (eapply functional_incl; eassumption).
      (* the first chunk *)
      unfold append_step in E6. apply step_inv in E6. destruct E6 as (m & st6 & E7 & E6). fold cs in E6, E7. rewrite Nat.add_0_l, Nat.sub_0_r in E7.
      assert (B : va_levels v <> [] /\ sum_nat (va_levels v) = lc (Nat.max h w) /\ mm_shape m = Ok (Nat.min cs n, h, w)).
      { unfold build_chunk in E7. rewrite Sh in E7. apply step_inv in E7. destruct E7 as (bits & st7 & _ & E7). apply step_inv in E7. destruct E7 as (b & st8 & E8 & E7).
        apply ret_inv in E7. destruct E7 as (<- & _). exact (super_shape _ _ _ _ _ _ _ _ _ _ E8). }
      destruct B as (B1 & B2 & B3). destruct Bad as [Bad|[Bad|[(Bad & Bn)|[Bad|Bad]]]]; try (exact (C0 Bad)); try (exact (B1 Bad)); try (exact (Bad B2)).
      - (* no part may be in a span *)
        apply step_inv in E6. destruct E6 as (s & st7 & E8 & E6). apply lift_inv in E8. destruct E8 as (E8 & ->). cbn [as_span] in E8. injection E8 as <-.
        apply step_inv in E6. destruct E6 as (z & st8 & E8 & E6). fold ss in E8. rewrite Bad in E8. cbn [Nat.mul] in E8. change (sp_instants s0) with 0 in E8. cbn [Nat.eqb] in E8.
        assert (I7 : incl st8 st5).
        { destruct z as [[r1 s1] l1]. apply step_inv in E6. destruct E6 as (s2 & st9 & E9 & E6). apply ret_inv in E6. destruct E6 as (_ & ->).
          eapply after; [apply mono_span_append|exact E9]. }
        eapply (no_more _ cs h w (va_enc v) s0 st6 st8 z (Nat.le_0_l _)); [reflexivity| |exact E8|eapply functional_incl; eassumption]. exact W0.
      - (* one part, and it is full *)
        apply step_inv in E6. destruct E6 as (s & st7 & E8 & E6). apply lift_inv in E8. destruct E8 as (E8 & ->). cbn [as_span] in E8. injection E8 as <-.
        apply step_inv in E6. destruct E6 as (z & st8 & E8 & E6). fold ss in E8. rewrite Bad, Nat.mul_1_l in E8. change (sp_instants s0) with 0 in E8. change (sp_stride s0) with cs in E8.
        destruct (Nat.eqb_spec 0 cs) as [X|_]; [exfalso; apply C0; symmetry; exact X|]. apply ret_inv in E8. destruct E8 as (<- & ->).
        apply step_inv in E6. destruct E6 as (s1 & st8 & E8 & E6). apply ret_inv in E6. destruct E6 as (<- & ->).
        destruct (append_inv _ _ _ _ _ _ _ _ B3 E8) as (c1 & -> & W1 & _ & _ & _).
        change (sp_instants s0) with 0 in E5. rewrite (Nat.min_l cs n), Nat.add_0_l in E5 by lia.
        assert (Q2 : 2 <= (n + cs - 1) / cs) by (apply Nat.div_le_lower_bound; lia).
        destruct q as [|q]; [lia|]. cbn [seq map ofold] in E5. rewrite Nat.mul_1_l in E5.
        apply step_inv in E5. destruct E5 as (y2 & st9 & E9 & E5).
        assert (I9 : incl st9 st4) by (exact (after _ _ _ _ (DatasetProofs.mono_ofold _ MS _ _) E5)).
        assert (F9 : functional st9) by (eapply functional_incl; eassumption).
        unfold append_step in E9. apply step_inv in E9. destruct E9 as (m2 & st10 & _ & E9).
        apply step_inv in E9. destruct E9 as (s & st11 & E10 & E9). apply lift_inv in E10. destruct E10 as (E10 & ->). cbn [as_span] in E10. injection E10 as <-.
        apply step_inv in E9. destruct E9 as (z & st11 & E10 & E9). fold ss cs in E10. rewrite Bad, Nat.mul_1_l in E10. cbn [sp_instants sp_stride s0 span_new] in E10.
        rewrite Nat.eqb_refl in E10.
        assert (I7 : incl st11 st9).
        { destruct z as [[r1 s1] l1]. apply step_inv in E9. destruct E9 as (s2 & st12 & E11 & E9). apply ret_inv in E9. destruct E9 as (_ & ->).
          eapply after; [apply mono_span_append|exact E11]. }
        eapply (no_more 1 cs h w (va_enc v) _ st10 st11 z (le_n _)); [| |exact E10|eapply functional_incl; eassumption]; [reflexivity|].
        destruct W0 as [A1 A2 A3 A4 A5 A6]. split; cbn [sp_instants sp_rows sp_cols sp_stride sp_spans s0 span_new length app]; try assumption.
        repeat constructor. exact W1.
    Qed.
  End Any.
End Unusable.

(** For every dataset, every kind of variable and whatever data of at least one instant:
    adding the variable is accepted, and appending to it does not work, if the chunks
    are to have no instants, or the spans no parts, or one part and the data do not fit
    in one chunk, or the levels do not add up to the depth of the tree of the raster
    (in particular if there are none). *)
Theorem C25_unusable_refuted : forall hash lc lg order fuel d st c t data n h w,
  (forall b, wf_cid (hash b)) -> fits32 (ds_rows d) -> fits32 (ds_cols d) -> fits32 (cf_chunk c) ->
  ~ In (cf_name c) (map va_name (ds_vars d)) ->
  a3_shape data = (n, h, w) -> 0 < n ->
  (cf_chunk c = 0 \/ cf_span c = 0 \/ (cf_span c = 1 /\ cf_chunk c < n) \/
   cf_levels c = [] \/ sum_nat (cf_levels c) <> lc (Nat.max h w)) ->
  exists st1 d1, run_event hash lc lg order fuel d (Add c) st = (st1, Ok d1) /\
    forall st2 r, run_event hash lc lg order fuel d1 (Append t (cf_name c) data) st1 = (st2, r) -> functional st2 ->
    forall d2, r <> Ok d2.
Proof.
  intros hash lc lg order fuel d st c t data n h w Hh R C K Nn Sh Hn Bad. cbn [run_event]. unfold add_variable.
  set (s0 := span_new (ds_rows d) (ds_cols d) (cf_chunk c) (enc_of (cf_type c))).
  assert (W0 : wf_mm (MSpan s0)).
  { cbn [wf_mm]. split; cbn [s0 span_new sp_instants sp_rows sp_cols sp_stride sp_spans length]; try assumption; try fits_small. constructor. }
  destruct (osave hash (NMM (MSpan s0)) st) as [st1 r1] eqn:Es.
  assert (exists c1, r1 = Ok c1) as (c1 & ->) by (unfold osave, save in Es; injection Es as _ <-; eexists; reflexivity).
  destruct (save_inv hash Hh (MSpan s0) _ _ _ W0 Es) as (_ & _ & G).
  set (v := mkVar (cf_name c) (cf_round c) (cf_span c) (cf_chunk c) (cf_levels c) (enc_of (cf_type c)) c1).
  exists st1, (mkDataset (ds_coords d) (ds_vars d ++ [v]) (ds_rows d) (ds_cols d) None (next_prev d)).
  split; [unfold obind; rewrite Es; reflexivity|]. intros st2 r H HF d2 ->.
  assert (F1 : functional st1). { eapply functional_incl; [|exact HF]. exact (after _ _ _ _ (mono_append hash lc (dt_of lg t) order fuel _ _ _) H). }
  refine (unusable hash Hh lc (dt_of lg t) order fuel _ st1 v data n h w (ds_rows d) (ds_cols d) (enc_of (cf_type c)) st2 d2 _ (G F1) R C K Sh Hn Bad H HF).
  cbn [ds_vars]. unfold v at 1. cbn [va_name]. clear -Nn. unfold find_var. induction (ds_vars d) as [|x l IH]; cbn [app find].
  - cbn [v va_name]. rewrite (proj2 (bytes_eqb_spec _ _) eq_refl). reflexivity.
  - destruct (bytes_eqb (va_name x) (cf_name c)) eqn:E.
    + apply bytes_eqb_spec in E. exfalso. apply Nn. left. exact E.
    + apply IH. intros Hin. apply Nn. right. exact Hin.
Qed.

(** Spans of one part and chunks of two instants, three instants to append: all
    the premises are met, and what happens is a panic. *)
Example C25_unusable_holds : exists st1 d1 st2,
  fits32 (cf_chunk (ex_config_of 1 2 [3])) /\ a3_shape (ex_data 1 3 5 6) = (3, 5, 6) /\ cf_chunk (ex_config_of 1 2 [3]) < 3 /\
  run_event ex_hash ex_lc ex_lg (@rev call) 4 (dataset_new ex_coords 5 6) (Add (ex_config_of 1 2 [3])) [] = (st1, Ok d1) /\
  run_event ex_hash ex_lc ex_lg (@rev call) 4 d1 (Append I32 [97]%N (ex_data 1 3 5 6)) st1 = (st2, Panic) /\ functional st2.
Proof.
  eexists; eexists; eexists. split; [reflexivity|]. split; [reflexivity|]. split; [cbn; lia|]. split; [reflexivity|].
  split; [vm_compute; reflexivity|]. apply functional_checked. vm_compute. reflexivity.
Qed.

(** The same variable takes what fits in one chunk: the bound on the instants in the
    third case is exact. *)
Example C25_one_chunk_fits : exists st1 d1 st2 d2,
  run_event ex_hash ex_lc ex_lg (@rev call) 4 (dataset_new ex_coords 5 6) (Add (ex_config_of 1 2 [3])) [] = (st1, Ok d1) /\
  run_event ex_hash ex_lc ex_lg (@rev call) 4 d1 (Append I32 [97]%N (ex_data 1 2 5 6)) st1 = (st2, Ok d2).
Proof. eexists; eexists; eexists; eexists. split; [reflexivity|vm_compute; reflexivity]. Qed.

Print Assumptions C25_unusable_refuted.
