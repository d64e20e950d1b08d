(** * When searching a delta-encoded raster is right

    C06_log_search_partial (PropertiesLog.v) has four premises on rasters with a uniform
    root. Here: for rasters whose values are below 2^61 in size they are exactly what is
    needed. Outside of them some search of the whole raster gives a wrong answer. *)
From Verif Require Import Base BaseFacts Spec BitmapModel BitmapProofs DacModel DacProofs GeomModel GeomProofs SnapshotModel Bfs SnapshotProofs
  LogModel LogTree LogProofs PropertiesLog.
Ltac Zify.zify_post_hook ::= Z.div_mod_to_equations.
Arguments Nat.pow : simpl never.

Lemma flat_mapM_same {A B} (f g : A -> res (list B)) l : (forall x, f x = g x) -> flat_mapM f l = flat_mapM g l.
Proof. intros H. induction l as [|x l IH]; cbn [flat_mapM]; [reflexivity|]. rewrite H, IH. reflexivity. Qed.

(** ** Without a node of the log, its tables are not read *)
Lemma rec_none_log l l' s : l_k l = l_k l' -> forall fuel sidelen top bottom left right lower upper is_ mint mins mt ms to lo,
  log_search_rec fuel l s sidelen top bottom left right lower upper None is_ mint mins mt ms to lo =
  log_search_rec fuel l' s sidelen top bottom left right lower upper None is_ mint mins mt ms to lo.
Proof.
  intros K. induction fuel as [|fuel IH]; intros; cbn [log_search_rec]; [reflexivity|]. rewrite K. cbn [bind option_map opt_leaf].
  destruct (((lower <=? i64_add mins mint) && (i64_add ms mt <=? upper))%Z); [reflexivity|].
  destruct (((upper <? i64_add mins mint) || (i64_add ms mt <? lower))%Z); [reflexivity|].
  destruct (udiv sidelen (l_k l')) as [sl| | |]; cbn [bind]; try reflexivity.
  destruct (match is_ with Some _ => _ | None => _ end) as [is2| | |]; cbn [bind]; try reflexivity.
  destruct (udiv top sl) as [i0| | |]; cbn [bind]; try reflexivity.
  destruct (udiv bottom sl) as [i1| | |]; cbn [bind]; try reflexivity.
  destruct (udiv left sl) as [j0| | |]; cbn [bind]; try reflexivity.
  destruct (udiv right sl) as [j1| | |]; cbn [bind]; try reflexivity.
  destruct (usub sl 1) as [sl1| | |]; cbn [bind]; try reflexivity.
  apply flat_mapM_same. intros i. destruct (usub bottom (i * sl)) as [bi| | |]; cbn [bind]; try reflexivity.
  apply flat_mapM_same. intros j. destruct (usub right (j * sl)) as [rj| | |]; cbn [bind]; try reflexivity.
  destruct (match option_map _ is2 with Some _ => _ | None => Ok ms end) as [m1| | |]; cbn [bind]; try reflexivity.
  destruct (opt_leaf leaf_ge (s_nodemap s) _) as [leaf| | |]; cbn [bind]; try reflexivity.
  destruct (match option_map _ is2 with Some _ => _ | None => Ok mins end) as [m2| | |]; cbn [bind]; try reflexivity.
  destruct leaf; apply IH.
Qed.
(** ... and its minimum matters only for the two tests at the start. *)
Lemma rec_none_min l s : forall fuel sidelen top bottom left right lower upper is_ mint mint' mins mt ms to lo,
  ((lower <=? i64_add mins mint) && (i64_add ms mt <=? upper))%Z = false ->
  ((upper <? i64_add mins mint) || (i64_add ms mt <? lower))%Z = false ->
  ((lower <=? i64_add mins mint') && (i64_add ms mt <=? upper))%Z = false ->
  ((upper <? i64_add mins mint') || (i64_add ms mt <? lower))%Z = false ->
  log_search_rec fuel l s sidelen top bottom left right lower upper None is_ mint mins mt ms to lo =
  log_search_rec fuel l s sidelen top bottom left right lower upper None is_ mint' mins mt ms to lo.
Proof.
  intros [|fuel]; intros ? ? ? ? ? ? ? ? ? ? ? ? ? ? ? E1 E2 E3 E4; cbn [log_search_rec]; rewrite E1, E2, E3, E4; [reflexivity|].
  cbn [bind option_map opt_leaf]. reflexivity.
Qed.

(** ** The two tests at the start *)
Lemma rec_all l s fuel sidelen top bottom left right lower upper it is_ mint mins mt ms to lo :
  (lower <= i64_add mins mint)%Z -> (i64_add ms mt <= upper)%Z ->
  log_search_rec fuel l s sidelen top bottom left right lower upper it is_ mint mins mt ms to lo = Ok (push_block top bottom left right to lo).
Proof.
  intros A B. destruct fuel; cbn [log_search_rec]; replace ((lower <=? i64_add mins mint) && (i64_add ms mt <=? upper))%Z with true by lia; reflexivity.
Qed.
Lemma rec_none l s fuel sidelen top bottom left right lower upper it is_ mint mins mt ms to lo :
  (upper < i64_add ms mt)%Z -> (upper < i64_add mins mint)%Z ->
  log_search_rec fuel l s sidelen top bottom left right lower upper it is_ mint mins mt ms to lo = Ok [].
Proof.
  intros A B. destruct fuel; cbn [log_search_rec];
    replace ((lower <=? i64_add mins mint) && (i64_add ms mt <=? upper))%Z with false by lia;
    replace ((upper <? i64_add mins mint) || (i64_add ms mt <? lower))%Z with true by lia; reflexivity.
Qed.

Lemma in_cells_of rows cols r c : r < rows -> c < cols -> In (r, c) (cells 0 rows 0 cols).
Proof.
  intros R C. unfold cells. apply in_flat_map. exists r. unfold range. rewrite !Nat.sub_0_r. split; [apply in_seq; lia|].
  apply in_map_iff. exists c. split; [reflexivity|apply in_seq; lia].
Qed.
Lemma cells_in rows cols r c : In (r, c) (cells 0 rows 0 cols) -> r < rows /\ c < cols.
Proof.
  unfold cells. intros H. apply in_flat_map in H. destruct H as (x & Hx & H). unfold range in *. rewrite !Nat.sub_0_r in *. apply in_seq in Hx.
  apply in_map_iff in H. destruct H as (y & E & Hy). apply in_seq in Hy. injection E as <- <-. lia.
Qed.
Lemma in_search g rows cols r c lower upper : r < rows -> c < cols ->
  In (r, c) (search_spec g 0 rows 0 cols lower upper) <-> (lower <= g r c <= upper)%Z.
Proof.
  intros R C. unfold search_spec. rewrite filter_In. cbn [fst snd]. unfold in_bounds. pose proof (in_cells_of rows cols r c R C). split; [intros [_ H0]; lia|intros; split; [assumption|lia]].
Qed.
Lemma in_push r c bottom right : r <= bottom -> c <= right -> In (r, c) (push_block 0 bottom 0 right 0 0).
Proof.
  intros R C. unfold push_block. apply in_flat_map. exists r. split; [unfold range_incl; apply in_seq; lia|].
  apply in_map_iff. exists c. split; [cbn [Nat.add]; reflexivity|unfold range_incl; apply in_seq; lia].
Qed.

Definition small (g : nat -> nat -> Z) (rows cols : nat) : Prop :=
  forall r c, r < rows -> c < cols -> (- 2305843009213693952 < g r c < 2305843009213693952)%Z.

Section Exact.
  Variables (gs gt : nat -> nat -> Z) (rows cols k e : nat).
  Hypothesis Hk : 2 <= k.
  Hypothesis He : 0 < e.
  Hypothesis Hrows : rows <= k ^ e.
  Hypothesis Hcols : cols <= k ^ e.
  Hypothesis Hr0 : 0 < rows.
  Hypothesis Hc0 : 0 < cols.
  Hypothesis Ss : small gs rows cols.
  Hypothesis St : small gt rows cols.
  Variables (s : snapshot) (sroot : snap_entry) (SV SV1 SV2 : list snap_entry).
  Hypothesis SOK : snap_ok gs rows cols k s e sroot SV SV1 SV2.
  Variables (l : log) (root : pnode) (V V1 V2 : list pnode).
  Hypothesis OK : log_ok gs gt rows cols k l e root V V1 V2.

  (** Searching all of the raster is enough. *)
  Definition right_search : Prop := forall lower upper, (lower <= upper)%Z ->
    exists out, log_search_window l s (rect_new 0 rows 0 cols) lower upper = Ok out /\
      Permutation out (search_spec gt 0 rows 0 cols lower upper).

  Lemma small_range g : small g rows cols -> i64_raster g rows cols.
  Proof. intros H r c R C. specialize (H r c R C). unfold i64_range, two63. lia. Qed.
  Lemma small_diff : forall r c, r < rows -> c < cols -> i64_range (gt r c - gs r c).
  Proof. intros r c R C. pose proof (Ss r c R C). pose proof (St r c R C). unfold i64_range, two63. lia. Qed.

  Lemma whole lower upper : right_search -> (lower <= upper)%Z ->
    exists Mt mt Ms ms out, is_max gt rows cols k e 0 0 Mt /\ is_min gt rows cols k e 0 0 mt /\
      is_max gs rows cols k e 0 0 Ms /\ is_min gs rows cols k e 0 0 ms /\
      (k_branch (e_node sroot) = true -> sst gs rows cols k SV e 0 0 (Some 0) Ms /\ smin gs rows cols k SV e 0 0 (Some 0) ms) /\
      log_search_rec (k ^ e) l s (k ^ e) 0 (rows - 1) 0 (cols - 1) lower upper
        (if p_branch root then Some 0 else None) (if k_branch (e_node sroot) then Some 0 else None)
        (if p_branch root then mt - ms else 0)%Z (if k_branch (e_node sroot) then ms else 0)%Z (Mt - Ms) Ms 0 0 = Ok out /\
      Permutation out (search_spec gt 0 rows 0 cols lower upper).
  Proof.
    intros HR LU. assert (W : window_in 0 rows 0 cols rows cols) by (unfold window_in; lia).
    destruct (search_starts gs gt rows cols k Hk small_diff s e sroot SV SV1 SV2 SOK l root V V1 V2 OK He Hrows Hcols lower upper 0 rows 0 cols W)
      as (Mt & mt & Ms & ms & H1 & H2 & H3 & H4 & H5 & H6).
    destruct (HR lower upper LU) as (out & E & P).
    assert (ER : rect_new 0 rows 0 cols = mkRect 0 rows 0 cols) by (rewrite rect_new_spec; f_equal; lia).
    rewrite ER, H6 in E. exists Mt, mt, Ms, ms, out. auto 10.
  Qed.

  Lemma small_max g m : small g rows cols -> is_max g rows cols k e 0 0 m -> (- 2305843009213693952 < m < 2305843009213693952)%Z.
  Proof. intros H (_ & r & c & (_ & _ & R & C) & <-). apply H; assumption. Qed.
  Lemma small_min g m : small g rows cols -> is_min g rows cols k e 0 0 m -> (- 2305843009213693952 < m < 2305843009213693952)%Z.
  Proof. intros H (_ & r & c & (_ & _ & R & C) & <-). apply H; assumption. Qed.
  Lemma add_small a b : (- 4611686018427387904 <= a <= 4611686018427387904)%Z -> (- 4611686018427387904 < b < 4611686018427387904)%Z -> i64_add a b = (a + b)%Z.
  Proof. intros A B. unfold i64_add. apply wrap64_id. unfold i64_range, two63. lia. Qed.
  Lemma is_box r c : r < rows -> c < cols -> inbox rows cols k e 0 0 r c.
  Proof. intros R C. unfold inbox. lia. Qed.

  (** A uniform raster below zero, stored after a uniform one. *)
  Lemma need2 v v' : right_search -> all_equal gt rows cols v -> all_equal gs rows cols v' -> (0 <= v)%Z.
  Proof.
    intros HR Ht Hs. destruct (Z_le_gt_dec 0 v) as [|N]; [assumption|exfalso].
    destruct (whole 0 0 HR ltac:(lia)) as (Mt & mt & Ms & ms & out & A1 & A2 & A3 & A4 & _ & E & P).
    assert (KB : k_branch (e_node sroot) = false) by (exact (sroot_constant gs gt rows cols k Hk small_diff s e sroot SV SV1 SV2 SOK He Hrows Hcols v' Hr0 Hc0 Hs)).
    assert (PU : p_uniform root = true) by (apply (uniform_root gs gt rows cols k Hk small_diff e l root V V1 V2 OK He Hrows Hcols Hr0 Hc0); exists v; exact Ht).
    assert (PB : p_branch root = false) by (unfold p_branch, p_stop; rewrite PU; cbn [orb negb]; rewrite Bool.andb_false_r; reflexivity).
    rewrite KB, PB in E. pose proof (small_max _ _ St A1). pose proof (small_max _ _ Ss A3).
    assert (EM : Mt = v) by (destruct A1 as (_ & r & c & (_ & _ & R & C) & <-); apply Ht; assumption).
    rewrite rec_all in E; [|rewrite add_small by lia; lia|rewrite add_small by lia; lia]. injection E as <-.
    pose proof (Permutation_in _ P (in_push 0 0 (rows - 1) (cols - 1) ltac:(lia) ltac:(lia))) as I0.
    apply in_search in I0; [|assumption|assumption]. rewrite (Ht 0 0 Hr0 Hc0) in I0. lia.
  Qed.

  Lemma not_uniform g (M m : Z) : ~ uniform_raster g rows cols -> is_max g rows cols k e 0 0 M -> is_min g rows cols k e 0 0 m -> (m < M)%Z.
  Proof.
    intros N (A & _) (B & _). destruct (Z_lt_ge_dec m M) as [|G]; [assumption|]. destruct N. exists m. intros r c R C.
    pose proof (A r c (is_box r c R C)). pose proof (B r c (is_box r c R C)). lia.
  Qed.

  (** A varying raster after a negative uniform one. *)
  Lemma need3 v : right_search -> all_equal gs rows cols v -> ~ uniform_raster gt rows cols -> (0 <= v)%Z.
  Proof.
    intros HR Hs Hn. destruct (Z_le_gt_dec 0 v) as [|N]; [assumption|exfalso].
    assert (W : exists m, is_min gt rows cols k e 0 0 m).
    { destruct (whole 0 0 HR ltac:(lia)) as (Mt & mt & Ms & ms & out & A1 & A2 & _). exists mt. exact A2. }
    destruct W as (m & Hm).
    destruct (whole m m HR ltac:(lia)) as (Mt & mt & Ms & ms & out & A1 & A2 & A3 & A4 & _ & E & P).
    pose proof (is_min_uniq _ _ _ _ _ _ _ _ _ Hm A2) as <-.
    assert (KB : k_branch (e_node sroot) = false) by (exact (sroot_constant gs gt rows cols k Hk small_diff s e sroot SV SV1 SV2 SOK He Hrows Hcols v Hr0 Hc0 Hs)).
    assert (PB : p_branch root = true).
    { destruct (p_branch root) eqn:PB; [reflexivity|exfalso]. destruct (root_states gs gt rows cols k Hk small_diff s e sroot SV SV1 SV2 SOK l root V V1 V2 OK He Hrows Hcols) as [T|[_ U]].
      - rewrite PB in T. cbn [tst] in T. apply Hn. exists (v + p_dmax root)%Z. intros r c R C. rewrite (T r c (is_box r c R C)), (Hs r c R C). reflexivity.
      - apply Hn. apply (uniform_root gs gt rows cols k Hk small_diff e l root V V1 V2 OK He Hrows Hcols Hr0 Hc0). exact U. }
    rewrite KB, PB in E. pose proof (small_max _ _ St A1). pose proof (small_max _ _ Ss A3). pose proof (small_min _ _ St A2). pose proof (small_min _ _ Ss A4).
    pose proof (not_uniform gt Mt m Hn A1 A2).
    assert (EM : ms = v) by (destruct A4 as (_ & r & c & (_ & _ & R & C) & <-); apply Hs; assumption).
    rewrite rec_none in E; [|rewrite add_small by lia; lia|rewrite add_small by lia; lia]. injection E as <-.
    destruct A2 as (_ & r & c & (_ & _ & R & C) & Em). apply Permutation_nil in P.
    assert (I0 : In (r, c) (search_spec gt 0 rows 0 cols m m)) by (apply in_search; [assumption|assumption|lia]). rewrite P in I0. destruct I0.
  Qed.

  (** Every value lower by the same amount. *)
  Lemma need4 d : right_search -> all_equal (fun r c => gt r c - gs r c)%Z rows cols d -> ~ uniform_raster gt rows cols ->
    rows = k ^ e -> cols = k ^ e -> (0 <= d)%Z.
  Proof.
    intros HR Hd Hn F1 F2. destruct (Z_le_gt_dec 0 d) as [|N]; [assumption|exfalso].
    assert (W : exists m, is_min gt rows cols k e 0 0 m).
    { destruct (whole 0 0 HR ltac:(lia)) as (Mt & mt & Ms & ms & out & A1 & A2 & _). exists mt. exact A2. }
    destruct W as (m & Hm).
    destruct (whole m m HR ltac:(lia)) as (Mt & mt & Ms & ms & out & A1 & A2 & A3 & A4 & _ & E & P).
    pose proof (is_min_uniq _ _ _ _ _ _ _ _ _ Hm A2) as <-.
    assert (Hd' : forall r c, r < rows -> c < cols -> gt r c = (gs r c + d)%Z) by (intros r c R C; pose proof (Hd r c R C) as Q; cbv beta in Q; lia).
    assert (PB : p_branch root = false) by exact (full_equal gs gt rows cols k Hk small_diff e l root V V1 V2 OK He Hrows Hcols d F1 F2 Hd').
    assert (KB : k_branch (e_node sroot) = true).
    { destruct (k_branch (e_node sroot)) eqn:KB; [reflexivity|exfalso]. apply Hn.
      pose proof (constant_sroot gs gt rows cols k Hk small_diff s e sroot SV SV1 SV2 SOK He Hrows Hcols Hr0 Hc0 KB) as HC.
      exists (mx (e_node sroot) + d)%Z. intros r c R C. rewrite (Hd' r c R C), (HC r c R C). reflexivity. }
    rewrite KB, PB in E. pose proof (small_max _ _ St A1). pose proof (small_max _ _ Ss A3). pose proof (small_min _ _ St A2). pose proof (small_min _ _ Ss A4).
    pose proof (not_uniform gt Mt m Hn A1 A2).
    assert (EM : (m < ms)%Z).
    { destruct A4 as (_ & r & c & (_ & _ & R & C) & <-). pose proof (proj1 A2 r c (is_box r c R C)). rewrite (Hd' r c R C) in *. lia. }
    rewrite rec_none in E; [|rewrite add_small by lia; lia|rewrite add_small by lia; lia]. injection E as <-.
    destruct A2 as (_ & r & c & (_ & _ & R & C) & Em). apply Permutation_nil in P.
    assert (I0 : In (r, c) (search_spec gt 0 rows 0 cols m m)) by (apply in_search; [assumption|assumption|lia]). rewrite P in I0. destruct I0.
  Qed.

  (** A uniform raster after a varying one. *)
  Lemma need1 v : right_search -> all_equal gt rows cols v -> uniform_raster gs rows cols \/ least_value gs rows cols v.
  Proof.
    intros HR Ht. destruct (k_branch (e_node sroot)) eqn:KB.
    2:{ left. exists (mx (e_node sroot)). exact (constant_sroot gs gt rows cols k Hk small_diff s e sroot SV SV1 SV2 SOK He Hrows Hcols Hr0 Hc0 KB). }
    right. assert (PU : p_uniform root = true) by (apply (uniform_root gs gt rows cols k Hk small_diff e l root V V1 V2 OK He Hrows Hcols Hr0 Hc0); exists v; exact Ht).
    assert (PB : p_branch root = false) by (unfold p_branch, p_stop; rewrite PU; cbn [orb negb]; rewrite Bool.andb_false_r; reflexivity).
    assert (W : exists m, is_min gs rows cols k e 0 0 m).
    { destruct (whole 0 0 HR ltac:(lia)) as (Mt & mt & Ms & ms & out & _ & _ & _ & A4 & _). exists ms. exact A4. }
    destruct W as (m & Hm).
    assert (CS : ~ uniform_raster gs rows cols).
    { intros (w & Hw). rewrite (sroot_constant gs gt rows cols k Hk small_diff s e sroot SV SV1 SV2 SOK He Hrows Hcols w Hr0 Hc0 Hw) in KB. discriminate. }
    destruct (Z.lt_trichotomy v m) as [LT|[EQ|GT]].
    - exfalso. destruct (whole m m HR ltac:(lia)) as (Mt & mt & Ms & ms & out & A1 & A2 & A3 & A4 & _ & E & P).
      pose proof (is_min_uniq _ _ _ _ _ _ _ _ _ Hm A4) as <-. rewrite KB, PB in E.
      pose proof (small_max _ _ St A1). pose proof (small_max _ _ Ss A3). pose proof (small_min _ _ Ss A4).
      assert (EM : Mt = v) by (destruct A1 as (_ & r & c & (_ & _ & R & C) & <-); apply Ht; assumption).
      rewrite rec_all in E; [|rewrite add_small by lia; lia|rewrite add_small by lia; lia]. injection E as <-.
      pose proof (Permutation_in _ P (in_push 0 0 (rows - 1) (cols - 1) ltac:(lia) ltac:(lia))) as I0.
      apply in_search in I0; [|assumption|assumption]. rewrite (Ht 0 0 Hr0 Hc0) in I0. lia.
    - subst m. destruct Hm as (A & r & c & (_ & _ & R & C) & E). split; [|exists r, c; auto].
      intros a b Ra Cb. apply A. apply is_box; assumption.
    - exfalso. destruct (whole v v HR ltac:(lia)) as (Mt & mt & Ms & ms & out & A1 & A2 & A3 & A4 & A5 & E & P).
      pose proof (is_min_uniq _ _ _ _ _ _ _ _ _ Hm A4) as <-. rewrite KB, PB in E.
      pose proof (small_max _ _ St A1) as B1. pose proof (small_max _ _ Ss A3) as B3. pose proof (small_min _ _ Ss A4) as B4.
      pose proof (not_uniform gs Ms m CS A3 A4) as LM.
      assert (EM : Mt = v) by (destruct A1 as (_ & r & c & (_ & _ & R & C) & <-); apply Ht; assumption). subst Mt.
      destruct (A5 KB) as [S1 S2]. set (D := (v - Ms)%Z) in *. set (g' := fun r c => (gs r c + D)%Z).
      assert (G1 : i64_raster gs rows cols) by (apply small_range; exact Ss).
      assert (G2 : i64_raster g' rows cols) by (intros r c R C; pose proof (Ss r c R C); unfold g', D, i64_range, two63; lia).
      assert (G3 : forall r c, r < rows -> c < cols -> i64_range (g' r c - gs r c)) by (intros r c R C; unfold g', D, i64_range, two63; lia).
      destruct (log_build_ok gs g' rows cols k Hk e G1 G2) as (l' & root' & V' & V1' & V2' & El' & OK').
      assert (KK : l_k l = l_k l') by (rewrite (lo_k _ _ _ _ _ _ _ _ _ _ _ OK), (lo_k _ _ _ _ _ _ _ _ _ _ _ OK'); reflexivity).
      assert (T1 : i64_add m 0 = m) by (rewrite add_small by lia; lia).
      assert (T2 : i64_add Ms D = v) by (rewrite add_small by (unfold D; lia); unfold D; lia).
      assert (T3 : i64_add m D = (m + D)%Z) by (apply add_small; unfold D; lia).
      rewrite (rec_none_log l l' s KK) in E.
      rewrite (rec_none_min l' s _ _ _ _ _ _ _ _ _ 0 D) in E; [|rewrite T1, T2; unfold D; lia|rewrite T1, T2; unfold D; lia|rewrite T3, T2; unfold D; lia|rewrite T3, T2; unfold D; lia].
      assert (KN : known gs g' rows cols k SV V' e 0 0 None (Some 0) D Ms D m).
      { split.
        - rewrite T3, T2. intros r c Hin. pose proof (proj1 A4 r c Hin). pose proof (proj1 A3 r c Hin). unfold g', D. lia.
        - right. split; [exact He|]. split; [intros r c _; reflexivity|]. split; [exact S1|exact S2]. }
      destruct (log_search_rec_ok gs g' rows cols k Hk G2 G3 s e sroot SV SV1 SV2 SOK l' root' V' V1' V2' OK' He Hrows Hcols v v e (k ^ e) 0 0 _ _ _ _ _ _
        0 (rows - 1) 0 (cols - 1) KN) as (out' & E' & P'); try (clear -Hrows Hcols Hr0 Hc0; lia).
      { pose proof (Nat.pow_gt_lin_r k e ltac:(lia)). lia. }
      rewrite E in E'. injection E' as <-.
      rewrite <- (search_spec_flat g' v v 0 rows 0 cols Hr0 Hc0) in P'.
      destruct Hm as (_ & r & c & (_ & _ & R & C) & Em).
      assert (I0 : In (r, c) (search_spec gt 0 rows 0 cols v v)) by (apply in_search; [assumption|assumption|rewrite (Ht r c R C); lia]).
      apply (Permutation_in _ (Permutation_sym P)) in I0. apply (Permutation_in _ P') in I0.
      apply in_search in I0; [|assumption|assumption]. unfold g', D in I0. rewrite Em in I0. lia.
  Qed.
End Exact.

(** ** C06: exactly when searches are right *)
Theorem C06_exactly_when : forall (gs gt : nat -> nat -> Z) rows cols k e,
  2 <= k -> 1 <= e -> Nat.max rows cols <= k ^ e -> 0 < rows -> 0 < cols -> small gs rows cols -> small gt rows cols ->
  exists s l, snapshot_build_e gs rows cols k e = Ok s /\ log_build_e gs gt rows cols k e = Ok l /\
    ((forall top bottom left right lower upper, window_in top bottom left right rows cols ->
        exists out, log_search_window l s (rect_new top bottom left right) lower upper = Ok out /\
          Permutation out (search_spec gt top bottom left right lower upper))
     <->
     (forall v, all_equal gt rows cols v -> uniform_raster gs rows cols \/ least_value gs rows cols v) /\
     (forall v, uniform_raster gs rows cols -> all_equal gt rows cols v -> 0 <= v)%Z /\
     (forall v, all_equal gs rows cols v -> ~ uniform_raster gt rows cols -> 0 <= v)%Z /\
     (forall d, all_equal (fun r c => gt r c - gs r c)%Z rows cols d -> ~ uniform_raster gt rows cols ->
        (rows = k ^ e)%nat -> (cols = k ^ e)%nat -> 0 <= d)%Z).
Proof.
  intros gs gt rows cols k e Hk He Hmax Hr Hc Ss St.
  assert (Hgs : i64_raster gs rows cols) by (intros r c R C; pose proof (Ss r c R C); unfold i64_range, two63; lia).
  assert (Hgt : i64_raster gt rows cols) by (intros r c R C; pose proof (St r c R C); unfold i64_range, two63; lia).
  assert (Hd : diff_fits gs gt rows cols) by (intros r c R C; pose proof (Ss r c R C); pose proof (St r c R C); unfold i64_range, two63; lia).
  destruct (snapshot_build_ok gs rows cols k Hk e Hgs) as (s & sroot & SV & SV1 & SV2 & Es & SOK).
  destruct (log_build_ok gs gt rows cols k Hk e Hgs Hgt) as (l & root & V & V1 & V2 & El & OK).
  exists s, l. split; [exact Es|]. split; [exact El|].
  assert (R1 : rows <= k ^ e) by lia. assert (C1 : cols <= k ^ e) by lia. split.
  - intros HR0. assert (HR : right_search gt rows cols s l) by (intros lower upper _; apply HR0; unfold window_in; lia).
    split; [|split; [|split]].
    + intros v Hv. exact (need1 gs gt rows cols k e Hk He R1 C1 Hr Hc Ss St s sroot SV SV1 SV2 SOK l root V V1 V2 OK v HR Hv).
    + intros v (w & Hw) Hv. exact (need2 gs gt rows cols k e Hk He R1 C1 Hr Hc Ss St s sroot SV SV1 SV2 SOK l root V V1 V2 OK v w HR Hv Hw).
    + intros v Hv Hn. exact (need3 gs gt rows cols k e Hk He R1 C1 Hr Hc Ss St s sroot SV SV1 SV2 SOK l root V V1 V2 OK v HR Hv Hn).
    + intros d Hdd Hn F1 F2. exact (need4 gs gt rows cols k e Hk He R1 C1 Hr Hc Ss St s sroot SV SV1 SV2 SOK l root V V1 V2 OK d HR Hdd Hn F1 F2).
  - intros (P1 & P2 & P3 & P4) top bottom left right lower upper Hw.
    destruct (C06_log_search_partial gs gt rows cols k e top bottom left right lower upper Hk He Hmax Hgs Hgt Hd P1 P2 P3 P4 Hw) as (s' & l' & out & Es' & El' & E & P).
    rewrite Es in Es'. injection Es' as <-. rewrite El in El'. injection El' as <-. exists out. auto.
Qed.

(** A uniform raster that has the least value of the one before it, which varies: every
    search is right. With any other value some search is wrong. *)
Example C06_exactly_example :
  (exists s l, snapshot_build (two_by_two 1 2 3 4) 2 2 2 = Ok s /\ log_build (two_by_two 1 2 3 4) (two_by_two 1 1 1 1) 2 2 2 = Ok l /\
     forall top bottom left right lower upper, window_in top bottom left right 2 2 ->
       exists out, log_search_window l s (rect_new top bottom left right) lower upper = Ok out /\
         Permutation out (search_spec (two_by_two 1 1 1 1) top bottom left right lower upper)) /\
  search2 (two_by_two 1 2 3 4) (two_by_two 2 2 2 2) 2 2 <> Ok (search_spec (two_by_two 2 2 2 2) 0 2 0 2 2 2).
Proof.
  split; [|vm_compute; discriminate].
  assert (Sm : forall a b c d, (0 <= a < 10 -> 0 <= b < 10 -> 0 <= c < 10 -> 0 <= d < 10 -> small (two_by_two a b c d) 2 2)%Z).
  { intros a b c d A B C D r q R Q. unfold two_by_two. destruct r as [|r], q as [|q]; lia. }
  destruct (C06_exactly_when (two_by_two 1 2 3 4) (two_by_two 1 1 1 1) 2 2 2 1 ltac:(lia) ltac:(lia) ltac:(cbn; lia) ltac:(lia) ltac:(lia)
    ltac:(apply Sm; lia) ltac:(apply Sm; lia)) as (s & l & Es & El & H).
  assert (U : all_equal (two_by_two 1 1 1 1) 2 2 1%Z) by (intros [|r] [|q] _ _; reflexivity).
  exists s, l. split; [exact Es|]. split; [exact El|]. apply (proj2 H). split; [|split; [|split]].
  - intros v Hv. right. pose proof (Hv 0 0 ltac:(lia) ltac:(lia)) as E. cbn in E. subst v. split.
    + intros [|r] [|q] _ _; cbn; lia.
    + exists 0, 0. repeat split; lia.
  - intros v _ Hv. pose proof (Hv 0 0 ltac:(lia) ltac:(lia)) as E. cbn in E. lia.
  - intros v _ N. destruct N. exists 1%Z. exact U.
  - intros d _ N. destruct N. exists 1%Z. exact U.
Qed.

Print Assumptions C06_exactly_when.
