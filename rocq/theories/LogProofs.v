(** * Proofs about reading and searching the log model. *)
From Verif Require Import Base BaseFacts BitmapModel BitmapProofs DacModel DacProofs
  Spec GeomModel GeomProofs SnapshotModel Bfs SnapshotProofs LogModel LogTree.
Ltac Zify.zify_post_hook ::= Z.div_mod_to_equations.

Arguments Nat.pow : simpl never.

Lemma leaf_gt_ge m bits idx : bitmap_rel m bits -> length bits mod 32 <> 0 ->
  idx <= length bits -> leaf_gt m idx = leaf_ge m idx.
Proof.
  intros HR Hm Hi. unfold leaf_gt, leaf_ge. rewrite (proj1 HR).
  destruct (Nat.ltb_spec (length bits) idx); [lia|].
  destruct (Nat.leb_spec (length bits) idx); [|reflexivity].
  replace idx with (length bits) by lia. rewrite (bm_get_past _ _ _ HR) by lia.
  destruct (Nat.ltb_spec (length bits / 32) ((length bits + 31) / 32)); [reflexivity|].
  exfalso. clear - Hm H1. lia.
Qed.

Lemma leaf_gt_far m bits idx : bitmap_rel m bits -> length bits < idx -> leaf_gt m idx = leaf_ge m idx.
Proof.
  intros HR Hi. unfold leaf_gt, leaf_ge. rewrite (proj1 HR).
  destruct (Nat.ltb_spec (length bits) idx); [|lia].
  destruct (Nat.leb_spec (length bits) idx); [reflexivity|lia].
Qed.

Lemma leaf_gt_eq m bits idx : bitmap_rel m bits -> length bits mod 32 <> 0 ->
  leaf_gt m idx = leaf_ge m idx.
Proof.
  intros HR Hm. destruct (Nat.le_gt_cases idx (length bits)).
  - eapply leaf_gt_ge; eassumption.
  - eapply leaf_gt_far; eassumption.
Qed.

Lemma count_false_map {A} (p : A -> bool) l :
  count_occ Bool.bool_dec (map p l) false = count_occ Bool.bool_dec (map (fun x => negb (p x)) l) true.
Proof.
  induction l as [|x l IH]; cbn [map count_occ]; [reflexivity|].
  destruct (p x); cbn [negb]; destruct Bool.bool_dec; try congruence;
    destruct Bool.bool_dec; try congruence; rewrite IH; reflexivity.
Qed.

Lemma window_spec_const g top bottom left right v :
  (forall r c, top <= r < bottom -> left <= c < right -> g r c = v) ->
  window_spec g top bottom left right =
  flat_map (fun row => map (fun col => (row, col, v)) (range 0 (right - left))) (range 0 (bottom - top)).
Proof.
  intros Hv. unfold window_spec, cells. rewrite map_flat_map. unfold range. rewrite !Nat.sub_0_r.
  assert (Hg : forall n, n <= bottom - top ->
    flat_map (fun x => map (fun rc => (fst rc - top, snd rc - left, g (fst rc) (snd rc)))
        (map (fun c => (x, c)) (seq left (right - left)))) (seq top n) =
    flat_map (fun row => map (fun col => (row, col, v)) (seq 0 (right - left))) (seq 0 n)).
  { induction n as [|n IHn]; intros Hn; [reflexivity|].
    rewrite !seq_S, !flat_map_app, IHn by lia. f_equal. cbn [flat_map Nat.add]. rewrite !app_nil_r.
    rewrite map_map. cbn [fst snd].
    assert (Hin : forall m, m <= right - left ->
      map (fun c => (top + n - top, c - left, g (top + n) c)) (seq left m) =
      map (fun col => (n, col, v)) (seq 0 m)).
    { induction m as [|m IHm]; intros Hm; [reflexivity|].
      rewrite !seq_S, !map_app, IHm by lia. f_equal. cbn [map Nat.add]. f_equal.
      f_equal; [f_equal; lia|]. apply Hv; lia. }
    apply Hin. lia. }
  apply Hg. lia.
Qed.

Section LogWalk.
  Variables (gs gt : nat -> nat -> Z) (rows cols k : nat).
  Hypothesis Hk : 2 <= k.
  Hypothesis Hgs : i64_raster gs rows cols.
  Hypothesis Hgt : i64_raster gt rows cols.
  (** No difference of two corresponding cells overflows. *)
  Hypothesis Hdiff : forall r c, r < rows -> c < cols -> i64_range (gt r c - gs r c).
  Variables (s : snapshot) (e : nat) (sroot : snap_entry) (SV SV1 SV2 : list snap_entry).
  Hypothesis SOK : snap_ok gs rows cols k s e sroot SV SV1 SV2.
  Variables (l : log) (root : pnode) (V V1 V2 : list pnode).
  Hypothesis OK : log_ok gs gt rows cols k l e root V V1 V2.

  Notation inb := (inbox rows cols k).
  Notation prep := (prep gs gt rows cols k).
  Notation cur := (cur gs rows cols k SV).

  Definition curt (h row col idx : nat) (x : pnode) : Prop :=
    nth_error V idx = Some x /\ prep h row col x.

  Lemma curt_root : curt e 0 0 0 root.
  Proof. split; [rewrite (lo_V _ _ _ _ _ _ _ _ _ _ _ OK); reflexivity|apply (lo_root _ _ _ _ _ _ _ _ _ _ _ OK)]. Qed.

  (** Differences of extremes are exact. *)
  Lemma dmax_exact h row col x : prep h row col x -> row < rows -> col < cols ->
    exists Mt Ms, is_max gt rows cols k h row col Mt /\ is_max gs rows cols k h row col Ms /\
      p_dmax x = (Mt - Ms)%Z.
  Proof.
    intros Hp Hr Hc. destruct (prep_holds _ _ _ _ _ _ _ _ _ Hp) as (H1 & _ & H3 & _).
    unfold p_dmax. destruct (p_max_t x) as [Mt|]; cbn [holds] in H1; [|tauto].
    destruct (p_max_s x) as [Ms|]; cbn [holds] in H3; [|tauto].
    exists Mt, Ms. destruct H1 as (_ & _ & H1), H3 as (_ & _ & H3). split; [exact H1|]. split; [exact H3|].
    cbn [or0]. unfold i64_sub. apply wrap64_id.
    destruct H1 as (A & r & c & B1 & B2), H3 as (A' & r' & c' & B1' & B2').
    pose proof (A _ _ B1'). pose proof (A' _ _ B1).
    destruct B1 as (_ & _ & X1 & X2), B1' as (_ & _ & Y1 & Y2).
    pose proof (Hdiff _ _ X1 X2) as D1. pose proof (Hdiff _ _ Y1 Y2) as D2. unfold i64_range in *. lia.
  Qed.

  Lemma dmin_exact h row col x : prep h row col x -> row < rows -> col < cols ->
    exists Mt Ms, is_min gt rows cols k h row col Mt /\ is_min gs rows cols k h row col Ms /\
      p_dmin x = (Mt - Ms)%Z.
  Proof.
    intros Hp Hr Hc. destruct (prep_holds _ _ _ _ _ _ _ _ _ Hp) as (_ & H1 & _ & H3).
    unfold p_dmin. destruct (p_min_t x) as [Mt|]; cbn [holds] in H1; [|tauto].
    destruct (p_min_s x) as [Ms|]; cbn [holds] in H3; [|tauto].
    exists Mt, Ms. destruct H1 as (_ & _ & H1), H3 as (_ & _ & H3). split; [exact H1|]. split; [exact H3|].
    cbn [or0]. unfold i64_sub. apply wrap64_id.
    destruct H1 as (A & r & c & B1 & B2), H3 as (A' & r' & c' & B1' & B2').
    pose proof (A _ _ B1'). pose proof (A' _ _ B1).
    destruct B1 as (_ & _ & X1 & X2), B1' as (_ & _ & Y1 & Y2).
    pose proof (Hdiff _ _ X1 X2) as D1. pose proof (Hdiff _ _ Y1 Y2) as D2. unfold i64_range in *. lia.
  Qed.

  (** A node whose extremes coincide. *)
  Lemma uniform_prep h row col x Mt : prep h row col x -> p_uniform x = true ->
    is_max gt rows cols k h row col Mt -> forall r c, inb h row col r c -> gt r c = Mt.
  Proof.
    intros Hp Hu HM r c Hin. destruct (prep_holds _ _ _ _ _ _ _ _ _ Hp) as (H1 & H2 & _ & _).
    destruct HM as (A & r' & c' & B1 & B2).
    assert (row < rows /\ col < cols) as [Hr Hc] by (unfold inbox in Hin; lia).
    unfold p_uniform in Hu. destruct (p_max_t x) as [a|]; cbn [holds] in H1; [|tauto].
    destruct (p_min_t x) as [b|]; cbn [holds] in H2; [|tauto]. cbn [opt_eqb] in Hu.
    destruct H1 as (_ & _ & H1 & _), H2 as (_ & _ & H2 & _).
    pose proof (H1 _ _ Hin). pose proof (H2 _ _ Hin). pose proof (H1 _ _ B1). pose proof (H2 _ _ B1). lia.
  Qed.

  (** A node all of whose differences agree. *)
  Lemma equal_prep h row col x : prep h row col x -> p_equal x = true ->
    forall r c, inb h row col r c -> (gt r c = gs r c + p_dmax x)%Z.
  Proof.
    intros Hp He r c Hin.
    assert (row < rows /\ col < cols) as [Hr Hc] by (unfold inbox in Hin; lia).
    assert (HD : forall r c, inb h row col r c -> (gt r c - gs r c)%Z = p_diff x).
    { intros r0 c0 H0. assert (H : i64_sub (gt r0 c0) (gs r0 c0) = p_diff x).
      { destruct h; cbn [LogTree.prep] in Hp; apply (proj1 (proj2 Hp)); assumption. }
      rewrite <- H. unfold i64_sub. symmetry. apply wrap64_id. destruct H0 as (_ & _ & X1 & X2). auto. }
    destruct (dmax_exact _ _ _ _ Hp Hr Hc) as (Mt & Ms & (A1 & r1 & c1 & B1 & C1) & (A2 & r2 & c2 & B2 & C2) & ->).
    pose proof (HD _ _ Hin). pose proof (HD _ _ B1). pose proof (HD _ _ B2).
    pose proof (A1 _ _ B2). pose proof (A2 _ _ B1). lia.
  Qed.

  Lemma leaf_prep row col x : prep 0 row col x ->
    forall r c, inb 0 row col r c -> (gt r c = gs r c + p_dmax x)%Z.
  Proof.
    intros Hp r c Hin.
    assert (Hone : forall r c, inb 0 row col r c -> r = row /\ c = col).
    { intros r0 c0 (A1 & A2 & _). change (k ^ 0) with 1 in *. lia. }
    destruct (Hone _ _ Hin) as [-> ->].
    assert (row < rows /\ col < cols) as [Hr Hc] by (unfold inbox in Hin; lia).
    destruct (dmax_exact _ _ _ _ Hp Hr Hc) as (Mt & Ms & (A1 & r1 & c1 & B1 & C1) & (A2 & r2 & c2 & B2 & C2) & ->).
    destruct (Hone _ _ B1) as [-> ->]. destruct (Hone _ _ B2) as [-> ->]. lia.
  Qed.

  Lemma not_branch h row col x : prep (S h) row col x -> p_branch x = false ->
    row < rows -> col < cols -> p_uniform x = true \/ p_equal x = true.
  Proof.
    intros Hp Hb Hr Hc. pose proof (prep_not_bad _ _ _ _ _ _ _ _ _ Hp) as Hbad.
    unfold p_branch, p_bad, p_stop in *. rewrite (prep_inner _ _ _ _ _ Hk _ _ _ _ Hp) in *. cbn [andb] in *.
    destruct (p_uniform x), (p_equal x), (p_some x); cbn in *; auto; discriminate.
  Qed.

  (** Reading the log's columns. *)
  Lemma tmax_at idx x : nth_error V idx = Some x -> dac_get (l_max l) idx = Ok (p_dmax x).
  Proof.
    intros H. apply dac_get_ok with (data := map p_dmax V).
    - apply (lo_max _ _ _ _ _ _ _ _ _ _ _ OK).
    - apply Forall_forall. intros z Hz. apply in_map_iff in Hz. destruct Hz as (y & <- & _).
      apply i64_sub_range.
    - apply map_nth_error. exact H.
  Qed.

  Lemma tleaf_at idx x : nth_error V idx = Some x ->
    leaf_ge (l_nodemap l) idx = Ok (negb (p_branch x)).
  Proof.
    intros H. unfold leaf_ge.
    pose proof (lo_nodemap _ _ _ _ _ _ _ _ _ _ _ OK) as HB. assert (HL := proj1 HB). rewrite HL.
    destruct (Nat.leb_spec (length (map p_branch V1)) idx) as [Hi|Hi].
    - rewrite (bits_past _ p_branch V V1 V2 (lo_V12 _ _ _ _ _ _ _ _ _ _ _ OK)
        (lo_V2 _ _ _ _ _ _ _ _ _ _ _ OK) idx x H Hi). reflexivity.
    - rewrite (bm_get_ok _ _ _ HB) by exact Hi. cbn [bind].
      pose proof (bits_nth _ p_branch V V1 V2 (lo_V12 _ _ _ _ _ _ _ _ _ _ _ OK) idx x H Hi) as E.
      unfold bits in E. rewrite E. reflexivity.
  Qed.

  Definition trnk (idx : nat) : nat :=
    count_occ Bool.bool_dec (firstn idx (map p_branch V1)) true.

  Lemma trank_ok idx x : nth_error V idx = Some x -> p_branch x = true ->
    bm_rank (l_nodemap l) idx = Ok (trnk idx).
  Proof.
    intros H Hb. apply bm_rank_ok; [apply (lo_nodemap _ _ _ _ _ _ _ _ _ _ _ OK)|].
    apply Nat.lt_le_incl.
    apply (branch_inner _ p_branch V V1 V2
      (lo_V12 _ _ _ _ _ _ _ _ _ _ _ OK) (lo_V2 _ _ _ _ _ _ _ _ _ _ _ OK) idx x H Hb).
  Qed.

  Lemma tmin_at idx x : nth_error V idx = Some x -> p_branch x = true ->
    dac_get (l_min l) (trnk idx) = Ok (p_dmin x).
  Proof.
    intros H Hb. apply dac_get_ok with (data := map p_dmin (filter p_branch V)).
    - apply (lo_min _ _ _ _ _ _ _ _ _ _ _ OK).
    - apply Forall_forall. intros z Hz. apply in_map_iff in Hz. destruct Hz as (y & <- & _).
      apply i64_sub_range.
    - apply map_nth_error.
      apply (filter_nth _ p_branch V V1 V2
        (lo_V12 _ _ _ _ _ _ _ _ _ _ _ OK) (lo_V2 _ _ _ _ _ _ _ _ _ _ _ OK) idx x H Hb).
  Qed.

  Lemma tlen : bm_length (l_nodemap l) = length V1.
  Proof. rewrite (proj1 (lo_nodemap _ _ _ _ _ _ _ _ _ _ _ OK)). apply map_length. Qed.

  (** The position of an entry tells whether it has sub-squares. *)
  Lemma pos_inner h row col idx x : curt (S h) row col idx x -> idx < length V1.
  Proof.
    intros [H Hp]. destruct (Nat.lt_ge_cases idx (length V1)) as [Hl|Hl]; [exact Hl|exfalso].
    rewrite (lo_V12 _ _ _ _ _ _ _ _ _ _ _ OK), nth_error_app2 in H by exact Hl.
    apply nth_error_In in H. pose proof (lo_V2i _ _ _ _ _ _ _ _ _ _ _ OK) as HF.
    rewrite Forall_forall in HF. apply HF in H. rewrite (prep_inner _ _ _ _ _ Hk _ _ _ _ Hp) in H. discriminate.
  Qed.

  Lemma pos_leaf row col idx x : curt 0 row col idx x -> length V1 <= idx.
  Proof.
    intros [H Hp]. destruct (Nat.lt_ge_cases idx (length V1)) as [Hl|Hl]; [exfalso|exact Hl].
    rewrite (lo_V12 _ _ _ _ _ _ _ _ _ _ _ OK), nth_error_app1 in H by exact Hl.
    apply nth_error_In in H. pose proof (lo_V1 _ _ _ _ _ _ _ _ _ _ _ OK) as HF.
    rewrite Forall_forall in HF. apply HF in H. rewrite (prep_inner _ _ _ _ _ Hk _ _ _ _ Hp) in H. discriminate.
  Qed.

  Lemma nth_firstn_succ {A} (L : list A) i x : nth_error L i = Some x -> firstn (i + 1) L = firstn i L ++ [x].
  Proof.
    revert i; induction L as [|y L IH]; intros [|i] H; try discriminate.
    - injection H as ->. reflexivity.
    - cbn [nth_error Nat.add firstn app] in *. rewrite IH by exact H. reflexivity.
  Qed.

  Lemma tequal_at h row col idx x : curt (S h) row col idx x -> p_branch x = false ->
    log_equal_at l idx = Ok (negb (p_uniform x)).
  Proof.
    intros Hcur Hb. pose proof (pos_inner _ _ _ _ _ Hcur) as Hl. destruct Hcur as [H _].
    rewrite (lo_V12 _ _ _ _ _ _ _ _ _ _ _ OK), nth_error_app1 in H by exact Hl.
    unfold log_equal_at.
    rewrite (bm_rank0_ok _ _ _ (lo_nodemap _ _ _ _ _ _ _ _ _ _ _ OK)) by (rewrite map_length; lia).
    cbn [bind].
    rewrite (nth_firstn_succ _ idx (p_branch x)) by (apply map_nth_error; exact H).
    rewrite count_occ_app, Hb. cbn [count_occ]. destruct Bool.bool_dec as [_|]; [|congruence].
    rewrite usub_ok by lia. cbn [bind]. rewrite Nat.add_sub.
    rewrite firstn_map, count_false_map, <- firstn_map.
    pose proof (nth_error_filter_rank (fun x => negb (p_branch x)) V1 idx x H
      ltac:(cbv beta; rewrite Hb; reflexivity)) as HN.
    set (p := count_occ _ _ _) in *.
    pose proof (lo_equal _ _ _ _ _ _ _ _ _ _ _ OK) as HE.
    pose proof (map_nth_error (fun x => negb (p_uniform x)) p _ HN) as HM.
    rewrite (bm_get_ok _ _ _ HE) by (apply nth_error_Some; rewrite HM; discriminate).
    f_equal. apply nth_error_nth. exact HM.
  Qed.

  (** *** States of the walk *)
  Definition tst (h row col : nat) (it : option nat) (mt : Z) : Prop :=
    match it with
    | Some i => exists x, curt h row col i x /\ p_branch x = true
    | None => forall r c, inb h row col r c -> (gt r c = gs r c + mt)%Z
    end.
  Definition sst (h row col : nat) (is_ : option nat) (ms : Z) : Prop :=
    match is_ with
    | Some i => exists y, cur h row col i y /\ k_branch y = true /\ ms = mx y
    | None => forall r c, inb h row col r c -> gs r c = ms
    end.
  (** The smallest value below an inner snapshot node. *)
  Definition smin (h row col : nat) (is_ : option nat) (m : Z) : Prop :=
    match is_ with
    | Some i => exists y, cur h row col i y /\ m = mn y
    | None => True
    end.

  Definition base (m : bitmap) (is_ : option nat) : res (option nat) :=
    match is_ with
    | Some index => r <- bm_rank m index ;; Ok (Some (1 + r * k * k))
    | None => Ok None
    end.
  Definition smax_of (is_ : option nat) (ms : Z) : res Z :=
    match is_ with Some index => d <- dac_get (s_max s) index ;; Ok (i64_sub ms d) | None => Ok ms end.
  Definition tmax_of (it : option nat) (mt : Z) : res Z :=
    match it with Some index => dac_get (l_max l) index | None => Ok mt end.

  Lemma s_step h row col is_ ms : sst (S h) row col is_ ms ->
    exists b, base (s_nodemap s) is_ = Ok b /\
    forall i j, i < k -> j < k -> row + i * k ^ h < rows -> col + j * k ^ h < cols ->
    exists ms' leaf,
      let is' := option_map (fun index => index + i * k + j) b in
      smax_of is' ms = Ok ms' /\
      opt_leaf leaf_ge (s_nodemap s) is' = Ok leaf /\
      is_max gs rows cols k h (row + i * k ^ h) (col + j * k ^ h) ms' /\
      (leaf = true -> forall r c, inb h (row + i * k ^ h) (col + j * k ^ h) r c -> gs r c = ms') /\
      (leaf = false -> 0 < h /\ sst h (row + i * k ^ h) (col + j * k ^ h) is' ms') /\
      (leaf = false -> forall m, smin (S h) row col is_ m ->
         exists idx r d m', is' = Some idx /\ bm_rank (s_nodemap s) idx = Ok r /\ dac_get (s_min s) r = Ok d /\
           i64_add m d = m' /\ is_min gs rows cols k h (row + i * k ^ h) (col + j * k ^ h) m' /\
           smin h (row + i * k ^ h) (col + j * k ^ h) is' m').
  Proof.
    intros Hst. destruct is_ as [idx|]; cbn [sst base] in *.
    - destruct Hst as (y & Hy & Hb & ->).
      destruct (cur_child _ _ _ _ Hk _ _ _ _ _ _ SOK _ _ _ _ _ Hy Hb) as (r & Er & Hch).
      rewrite Er. cbn [bind]. eexists. split; [reflexivity|].
      intros i j Hi Hj Hr Hc. destruct (Hch i j Hi Hj) as (z & Hz & Ed & El & Em). cbn zeta in *.
      exists (mx z), (negb (k_branch z)). cbn [option_map smax_of opt_leaf].
      rewrite Ed. cbn [bind].
      destruct (cur_range _ _ _ _ _ _ _ _ _ _ Hz) as [Rz1 Rz2].
      rewrite i64_sub_sub by exact Rz1. split; [reflexivity|].
      split; [exact El|].
      assert (Hp : 0 < k ^ h) by (apply pow_pos; exact Hk).
      destruct (krep_attained _ _ _ _ _ _ _ _ (proj2 Hz) Hr Hc Hp) as ((r1 & c1 & A1 & A2 & A3 & A4 & A5) & (r2 & c2 & B1 & B2 & B3 & B4 & B5)).
      split; [|split; [|split]].
      + split.
        * intros r0 c0 (X1 & X2 & X3 & X4). apply (cur_bounds _ _ _ _ _ _ _ _ _ _ _ _ Hz); assumption.
        * exists r1, c1. split; [repeat split; lia|exact A5].
      + intros Hl r0 c0 (X1 & X2 & X3 & X4). apply Bool.negb_true_iff in Hl.
        apply (cur_uniform _ _ _ _ Hk _ _ _ _ _ _ _ _ Hz Hl); assumption.
      + intros Hl. apply Bool.negb_false_iff in Hl. split.
        * destruct (cur_branch_S _ _ _ _ Hk _ _ _ _ _ _ Hz Hl) as (h' & ->). lia.
        * cbn [sst]. exists z. auto.
      + intros Hl m (y' & Hy' & ->). apply Bool.negb_false_iff in Hl.
        assert (y' = y) as ->.
        { destruct Hy as [(en & E1 & <-) _], Hy' as [(en' & E1' & <-) _]. congruence. }
        destruct (Em Hl) as (r' & Er' & Ed').
        do 4 eexists. split; [reflexivity|]. split; [exact Er'|]. split; [exact Ed'|]. split; [reflexivity|].
        rewrite i64_add_sub by exact Rz2. split; [split|].
        * intros r0 c0 (X1 & X2 & X3 & X4). apply (cur_bounds _ _ _ _ _ _ _ _ _ _ _ _ Hz); assumption.
        * exists r2, c2. split; [repeat split; lia|exact B5].
        * exists z. auto.
    - eexists. split; [reflexivity|]. intros i j Hi Hj Hr Hc. exists ms, true.
      cbn [option_map smax_of opt_leaf].
      assert (HU : forall r c, inb h (row + i * k ^ h) (col + j * k ^ h) r c -> gs r c = ms).
      { intros r c Hin. apply Hst. exact (inb_child _ _ _ _ _ _ _ _ _ _ Hi Hj Hin). }
      split; [reflexivity|]. split; [reflexivity|]. split; [|split; [|split]].
      + split; [intros r c Hin; rewrite (HU _ _ Hin); lia|].
        assert (Hp : 0 < k ^ h) by (apply pow_pos; exact Hk).
        assert (Hin : inb h (row + i * k ^ h) (col + j * k ^ h) (row + i * k ^ h) (col + j * k ^ h))
          by (repeat split; lia).
        do 2 eexists. split; [exact Hin|]. apply HU. exact Hin.
      + intros _. exact HU.
      + discriminate.
      + discriminate.
  Qed.

  (** What a leaf of the log means: the flag says whether the box is uniform. *)
  Definition tflag (it : option nat) : res bool :=
    match it with
    | Some index => if index <? bm_length (l_nodemap l)
                    then eq <- log_equal_at l index ;; Ok (negb eq) else Ok false
    | None => Ok false
    end.

  Lemma t_step h row col it mt : tst (S h) row col it mt ->
    exists b, base (l_nodemap l) it = Ok b /\
    forall i j, i < k -> j < k -> row + i * k ^ h < rows -> col + j * k ^ h < cols ->
    exists mt' leaf,
      let it' := option_map (fun index => index + i * k + j) b in
      tmax_of it' mt = Ok mt' /\
      opt_leaf leaf_ge (l_nodemap l) it' = Ok leaf /\
      (forall Ms, is_max gs rows cols k h (row + i * k ^ h) (col + j * k ^ h) Ms ->
         is_max gt rows cols k h (row + i * k ^ h) (col + j * k ^ h) (Ms + mt')%Z) /\
      (leaf = true -> exists flag, tflag it' = Ok flag /\
         (0 < h -> forall idx, it' = Some idx -> bm_get (l_nodemap l) idx = Ok false /\
            idx < bm_length (l_nodemap l)) /\
         (flag = true -> forall Ms, is_max gs rows cols k h (row + i * k ^ h) (col + j * k ^ h) Ms ->
            forall r c, inb h (row + i * k ^ h) (col + j * k ^ h) r c -> gt r c = (Ms + mt')%Z) /\
         (flag = false -> forall r c, inb h (row + i * k ^ h) (col + j * k ^ h) r c ->
            gt r c = (gs r c + mt')%Z)) /\
      (leaf = false -> 0 < h /\ tst h (row + i * k ^ h) (col + j * k ^ h) it' mt' /\
         exists idx r d, it' = Some idx /\ bm_rank (l_nodemap l) idx = Ok r /\ dac_get (l_min l) r = Ok d /\
           forall Ms, is_min gs rows cols k h (row + i * k ^ h) (col + j * k ^ h) Ms ->
             is_min gt rows cols k h (row + i * k ^ h) (col + j * k ^ h) (Ms + d)%Z).
  Proof.
    intros Hst. destruct it as [idx|]; cbn [tst base] in *.
    - destruct Hst as (x & (Hx & Hp) & Hb).
      rewrite (trank_ok _ _ Hx Hb). cbn [bind]. eexists. split; [reflexivity|].
      intros i j Hi Hj Hr Hc. cbn [option_map].
      cbn [LogTree.prep] in Hp. destruct Hp as (_ & _ & HL & HC).
      assert (Hlt : i * k + j < k * k) by (clear - Hi Hj; nia).
      destruct (nth_error (p_children x) (i * k + j)) as [y|] eqn:Ey.
      2:{ apply nth_error_None in Ey. lia. }
      set (idx' := 1 + trnk idx * k * k + i * k + j).
      assert (Hpos : nth_error V idx' = Some y).
      { assert (Hkid : nth_error (p_kids x) (i * k + j) = Some y) by (unfold p_kids; rewrite Hb; exact Ey).
        pose proof (child_pos _ p_kids p_branch (k * k) root V V1 V2
          (lo_V _ _ _ _ _ _ _ _ _ _ _ OK) (lo_len _ _ _ _ _ _ _ _ _ _ _ OK)
          (lo_V12 _ _ _ _ _ _ _ _ _ _ _ OK)
          (lo_V2 _ _ _ _ _ _ _ _ _ _ _ OK) idx x (i * k + j) y Hx Hb Hlt Hkid) as Hq.
        rewrite <- Hq. f_equal. unfold idx', trnk, rank_at, bits. lia. }
      specialize (HC i j y Hi Hj Ey).
      exists (p_dmax y), (negb (p_branch y)). cbn zeta.
      change (1 + trnk idx * k * k + i * k + j) with idx'. cbn [tmax_of opt_leaf].
      split; [apply tmax_at; exact Hpos|]. split; [apply tleaf_at; exact Hpos|].
      destruct (dmax_exact _ _ _ _ HC Hr Hc) as (Mt & Ms & HMt & HMs & EM).
      assert (Hmax : forall Ms, is_max gs rows cols k h (row + i * k ^ h) (col + j * k ^ h) Ms ->
         is_max gt rows cols k h (row + i * k ^ h) (col + j * k ^ h) (Ms + p_dmax y)%Z).
      { intros Ms' HMs'. rewrite (is_max_uniq _ _ _ _ _ _ _ _ _ HMs' HMs), EM.
        replace (Ms + (Mt - Ms))%Z with Mt by lia. exact HMt. }
      split; [exact Hmax|]. split.
      + intros Hl. apply Bool.negb_true_iff in Hl. cbn [tflag]. rewrite tlen.
        destruct h as [|h'].
        * exists false. pose proof (pos_leaf _ _ _ _ (conj Hpos HC)) as Hge.
          destruct (Nat.ltb_spec idx' (length V1)) as [Hlt'|_]; [lia|].
          split; [reflexivity|]. split; [lia|]. split; [discriminate|].
          intros _ r c Hin. apply (leaf_prep _ _ _ HC _ _ Hin).
        * pose proof (pos_inner _ _ _ _ _ (conj Hpos HC)) as Hge.
          destruct (Nat.ltb_spec idx' (length V1)) as [_|Hlt']; [|lia].
          rewrite (tequal_at _ _ _ _ _ (conj Hpos HC) Hl). cbn [bind].
          rewrite Bool.negb_involutive. exists (p_uniform y). split; [reflexivity|]. split; [|split].
          -- intros _ idx0 E0. injection E0 as <-. split; [|exact Hge].
             pose proof (tleaf_at _ _ Hpos) as HT. unfold leaf_ge in HT. rewrite tlen in HT.
             destruct (Nat.leb_spec (length V1) idx'); [lia|].
             destruct (bm_get (l_nodemap l) idx') as [b| | |]; cbn [bind] in HT; try discriminate.
             rewrite Hl in HT. destruct b; [discriminate|reflexivity].
          -- intros Hu Ms' HMs' r c Hin. rewrite (is_max_uniq _ _ _ _ _ _ _ _ _ HMs' HMs), EM.
             rewrite (uniform_prep _ _ _ _ _ HC Hu HMt _ _ Hin). lia.
          -- intros Hu r c Hin. destruct (not_branch _ _ _ _ HC Hl Hr Hc) as [Hu'|He]; [congruence|].
             apply (equal_prep _ _ _ _ HC He _ _ Hin).
      + intros Hl. apply Bool.negb_false_iff in Hl. split.
        { destruct h; [|lia]. unfold p_branch in Hl.
          rewrite (prep_inner _ _ _ _ _ Hk _ _ _ _ HC) in Hl. discriminate. }
        split; [exists y; split; [split; assumption|exact Hl]|].
        exists idx', (trnk idx'), (p_dmin y). split; [reflexivity|].
        split; [apply (trank_ok _ _ Hpos Hl)|]. split; [apply (tmin_at _ _ Hpos Hl)|].
        destruct (dmin_exact _ _ _ _ HC Hr Hc) as (mt' & ms' & Hmt & Hms & Em).
        intros m Hm. rewrite (is_min_uniq _ _ _ _ _ _ _ _ _ Hm Hms), Em.
        replace (ms' + (mt' - ms'))%Z with mt' by lia. exact Hmt.
    - eexists. split; [reflexivity|]. intros i j Hi Hj Hr Hc. exists mt, true.
      cbn [option_map tmax_of opt_leaf tflag].
      assert (HU : forall r c, inb h (row + i * k ^ h) (col + j * k ^ h) r c -> (gt r c = gs r c + mt)%Z).
      { intros r c Hin. apply Hst. exact (inb_child _ _ _ _ _ _ _ _ _ _ Hi Hj Hin). }
      split; [reflexivity|]. split; [reflexivity|]. split; [|split].
      + intros Ms (A & r & c & B & C). split.
        * intros r0 c0 Hin. rewrite (HU _ _ Hin). specialize (A _ _ Hin). lia.
        * exists r, c. split; [exact B|]. rewrite (HU _ _ B). lia.
      + intros _. exists false. split; [reflexivity|]. split; [discriminate|]. split; [discriminate|].
        intros _. exact HU.
      + discriminate.
  Qed.

  Lemma add_gt (r c : nat) (a b : Z) : r < rows -> c < cols -> gt r c = (a + b)%Z -> i64_add a b = gt r c.
  Proof. intros Hr Hc E. unfold i64_add. rewrite <- E. apply wrap64_id. apply Hgt; assumption. Qed.

  Hypothesis He : 0 < e.
  Hypothesis Hrows : rows <= k ^ e.
  Hypothesis Hcols : cols <= k ^ e.

  Lemma troot_bit : bm_get (l_nodemap l) 0 = Ok (p_branch root).
  Proof.
    destruct (lo_inner _ _ _ _ _ _ _ _ _ _ _ OK He) as (V1' & EV1).
    rewrite (bm_get_ok _ _ _ (lo_nodemap _ _ _ _ _ _ _ _ _ _ _ OK)); rewrite EV1; [reflexivity|cbn; lia].
  Qed.

  Lemma troot_max : dac_get (l_max l) 0 = Ok (p_dmax root).
  Proof. apply tmax_at. rewrite (lo_V _ _ _ _ _ _ _ _ _ _ _ OK). reflexivity. Qed.

  Lemma troot_equal : p_branch root = false -> bm_get (l_equal l) 0 = Ok (negb (p_uniform root)).
  Proof.
    intros Hb. destruct (lo_inner _ _ _ _ _ _ _ _ _ _ _ OK He) as (V1' & EV1).
    pose proof (lo_equal _ _ _ _ _ _ _ _ _ _ _ OK) as HE. rewrite EV1 in HE. cbn [filter] in HE.
    rewrite Hb in HE. cbn [negb map] in HE.
    rewrite (bm_get_ok _ _ _ HE); [reflexivity|cbn; lia].
  Qed.

  Lemma root_states :
    tst e 0 0 (if p_branch root then Some 0 else None) (p_dmax root) \/
    (p_branch root = false /\ p_uniform root = true).
  Proof.
    destruct (p_branch root) eqn:Hb.
    - left. exists root. split; [apply curt_root|exact Hb].
    - destruct (p_uniform root) eqn:Hu; [right; auto|left]. cbn [tst].
      intros r c Hin. pose proof (proj2 curt_root) as Hp.
      assert (0 < rows /\ 0 < cols) as [Hr Hc] by (unfold inbox in Hin; lia).
      destruct e as [|e']; [lia|].
      destruct (not_branch _ _ _ _ Hp Hb Hr Hc) as [|Heq]; [congruence|].
      apply (equal_prep _ _ _ _ Hp Heq _ _ Hin).
  Qed.

  Lemma sroot_state :
    sst e 0 0 (if k_branch (e_node sroot) then Some 0 else None) (mx (e_node sroot)).
  Proof.
    destruct (k_branch (e_node sroot)) eqn:Hb; cbn [sst].
    - exists (e_node sroot). split; [eapply cur_root; exact SOK|]. auto.
    - intros r c (H1 & H2 & H3 & H4).
      apply (cur_uniform _ _ _ _ Hk _ _ _ _ _ _ r c (cur_root _ _ _ _ _ _ _ _ _ _ SOK) Hb); assumption.
  Qed.

  Lemma sroot_is_max : 0 < rows -> 0 < cols -> is_max gs rows cols k e 0 0 (mx (e_node sroot)).
  Proof.
    intros Hr Hc. assert (Hp : 0 < k ^ e) by (apply pow_pos; exact Hk).
    pose proof (cur_root _ _ _ _ _ _ _ _ _ _ SOK) as Hcur.
    destruct (krep_attained _ _ _ _ _ _ _ _ (proj2 Hcur) Hr Hc Hp) as ((r1 & c1 & A1 & A2 & A3 & A4 & A5) & _).
    split.
    - intros r c (H1 & H2 & H3 & H4). apply (cur_bounds _ _ _ _ _ _ _ _ _ _ _ _ Hcur); assumption.
    - exists r1, c1. split; [repeat split; lia|exact A5].
  Qed.

  (** The value of every cell when both roots are single, or the log's root
      is a single value. *)
  Lemma root_value : p_branch root = false ->
    k_branch (e_node sroot) = false \/ p_uniform root = true ->
    forall r c, r < rows -> c < cols -> i64_add (p_dmax root) (mx (e_node sroot)) = gt r c.
  Proof.
    intros Hb Hor r c Hr Hc. apply add_gt; try assumption.
    assert (Hin : inb e 0 0 r c) by (repeat split; lia).
    assert (Hr0 : 0 < rows) by lia. assert (Hc0 : 0 < cols) by lia.
    destruct root_states as [Ht|[_ Hu]].
    - rewrite Hb in Ht. cbn [tst] in Ht. destruct Hor as [Hs|Hu].
      + pose proof sroot_state as HS. rewrite Hs in HS. cbn [sst] in HS.
        rewrite (Ht _ _ Hin), (HS _ _ Hin). lia.
      + destruct (dmax_exact _ _ _ _ (proj2 curt_root) Hr0 Hc0) as (Mt & Ms & HMt & HMs & EM).
        rewrite (uniform_prep _ _ _ _ _ (proj2 curt_root) Hu HMt _ _ Hin), EM.
        rewrite (is_max_uniq _ _ _ _ _ _ _ _ _ HMs (sroot_is_max Hr0 Hc0)). lia.
    - destruct (dmax_exact _ _ _ _ (proj2 curt_root) Hr0 Hc0) as (Mt & Ms & HMt & HMs & EM).
      rewrite (uniform_prep _ _ _ _ _ (proj2 curt_root) Hu HMt _ _ Hin), EM.
      rewrite (is_max_uniq _ _ _ _ _ _ _ _ _ HMs (sroot_is_max Hr0 Hc0)). lia.
  Qed.

  Lemma if_negb_idx (b : bool) : (if negb b then None else Some 0) = (if b then Some 0 else None).
  Proof. destruct b; reflexivity. Qed.

  (** *** search_window *)
  Section Search.
  Variables (lower upper : Z).

  Definition bounded (h row col : nat) (lo hi : Z) : Prop :=
    forall r c, inb h row col r c -> (lo <= gt r c <= hi)%Z.

  (** What the walk knows about a box. *)
  Definition known (h row col : nat) (it is_ : option nat) (mt ms mint mins : Z) : Prop :=
    bounded h row col (i64_add mins mint) (i64_add ms mt) /\
    (i64_add mins mint = i64_add ms mt \/
     0 < h /\ tst h row col it mt /\ sst h row col is_ ms /\ smin h row col is_ mins).

  Lemma search_cut h row0 col0 top bottom left right lo hi :
    bounded h row0 col0 lo hi -> top <= bottom -> bottom < k ^ h -> left <= right -> right < k ^ h ->
    row0 + bottom < rows -> col0 + right < cols ->
    (((lower <=? lo) && (hi <=? upper))%Z = true ->
       push_block top bottom left right row0 col0 = search_out gt lower upper top bottom left right row0 col0) /\
    (((upper <? lo) || (hi <? lower))%Z = true ->
       [] = search_out gt lower upper top bottom left right row0 col0).
  Proof.
    intros HB H1 H2 H3 H4 H5 H6.
    assert (HB' : forall r c, top <= r <= bottom -> left <= c <= right -> (lo <= gt (row0 + r) (col0 + c) <= hi)%Z).
    { intros r c R C. apply HB. unfold inbox. clear - R C H2 H4 H5 H6. lia. }
    split; intros E.
    - eapply push_block_ok; [exact Hk|exact He|exact Hrows|exact Hcols|].
      intros r c R C. specialize (HB' r c R C). unfold in_bounds. clear - HB' E. lia.
    - symmetry. eapply search_out_nil; [exact Hk|exact He|exact Hrows|exact Hcols|].
      intros r c R C. specialize (HB' r c R C). unfold in_bounds. clear - HB' E. lia.
  Qed.

  Lemma log_search_rec_ok h : forall fuel row0 col0 it is_ mt ms mint mins top bottom left right,
    known h row0 col0 it is_ mt ms mint mins -> h <= fuel ->
    top <= bottom -> bottom < k ^ h -> left <= right -> right < k ^ h ->
    row0 + bottom < rows -> col0 + right < cols ->
    exists out, log_search_rec fuel l s (k ^ h) top bottom left right lower upper it is_ mint mins mt ms
        row0 col0 = Ok out
      /\ Permutation out (search_out gt lower upper top bottom left right row0 col0).
  Proof.
    induction h as [|h IH]; intros fuel row0 col0 it is_ mt ms mint mins top bottom left right
      Hkn Hf Htb Hbot Hlr Hright Hr Hc;
    destruct Hkn as (HB & Hor);
    destruct (search_cut _ _ _ top bottom left right _ _ HB Htb Hbot Hlr Hright Hr Hc) as (C1 & C2).
    - destruct Hor as [Heq|[H0 _]]; [|lia].
      destruct fuel; cbn [log_search_rec];
        (destruct ((lower <=? i64_add mins mint) && (i64_add ms mt <=? upper))%Z eqn:E1;
         [eexists; split; [reflexivity|rewrite C1 by reflexivity; reflexivity]|]);
        (destruct ((upper <? i64_add mins mint) || (i64_add ms mt <? lower))%Z eqn:E2;
         [eexists; split; [reflexivity|rewrite <- C2 by reflexivity; constructor]|]);
        exfalso; rewrite Heq in *; clear - E1 E2; lia.
    - destruct fuel as [|fuel]; [lia|]. cbn [log_search_rec].
      destruct ((lower <=? i64_add mins mint) && (i64_add ms mt <=? upper))%Z eqn:E1;
         [eexists; split; [reflexivity|rewrite C1 by reflexivity; reflexivity]|].
      destruct ((upper <? i64_add mins mint) || (i64_add ms mt <? lower))%Z eqn:E2;
         [eexists; split; [reflexivity|rewrite <- C2 by reflexivity; constructor]|].
      destruct Hor as [Heq|(_ & Ht & Hs & Hmin)].
      { exfalso. rewrite Heq in *. clear - E1 E2. lia. }
      clear C1 C2 E1 E2 HB.
      rewrite (lo_k _ _ _ _ _ _ _ _ _ _ _ OK). rewrite udiv_ok by lia. cbn [bind]. rewrite div_pow by exact Hk.
      destruct (s_step _ _ _ _ _ Hs) as (bs & Ebs & Hsch).
      destruct (t_step _ _ _ _ _ Ht) as (bt & Ebt & Htch).
      unfold base in Ebs, Ebt. rewrite Ebs, Ebt. cbn [bind].
      rewrite Nat.pow_succ_r' in Hbot, Hright.
      set (sl := k ^ h) in *.
      assert (Hp : 0 < sl) by (apply pow_pos; exact Hk).
      rewrite !udiv_ok by lia; cbn [bind]; rewrite usub_ok by lia; cbn [bind].
      unfold search_out.
      eapply ex_perm_trans; [|apply tiles_2d with (s := sl)
          (f := fun r c => if in_bounds lower upper (gt r c) then [(r, c)] else []); assumption].
      apply flat_mapM_perm; intros i Hi; rewrite in_range_incl in Hi.
      destruct (tile_facts _ _ k Hk e He Hrows Hcols sl top bottom i Hp Htb Hbot Hi) as (I1 & I2 & I3 & I4 & I5 & I6); clear Hi.
      rewrite usub_ok by lia; cbn [bind].
      apply flat_mapM_perm; intros j Hj; rewrite in_range_incl in Hj.
      destruct (tile_facts _ _ k Hk e He Hrows Hcols sl left right j Hp Hlr Hright Hj) as (J1 & J2 & J3 & J4 & J5 & J6); clear Hj.
      rewrite usub_ok by lia; cbn [bind].
      set (t_ := top - i * sl) in *. set (b_ := Nat.min (sl - 1) (bottom - i * sl)) in *.
      set (l_ := left - j * sl) in *. set (r_ := Nat.min (sl - 1) (right - j * sl)) in *.
      assert (Hr1 : row0 + i * sl < rows) by lia. assert (Hc1 : col0 + j * sl < cols) by lia.
      destruct (Hsch i j I1 J1 Hr1 Hc1) as (ms' & leafs & Ems & Els & HMs & Sleaf & Sbr & Smin).
      destruct (Htch i j I1 J1 Hr1 Hc1) as (mt' & leaft & Emt & Elt & HMt & Tleaf & Tbr).
      clear Hsch Htch. cbn zeta in *. fold sl in HMs, Sleaf, Sbr, Smin, HMt, Tleaf, Tbr.
      set (is' := option_map (fun index : nat => index + i * k + j) bs) in *.
      set (it' := option_map (fun index : nat => index + i * k + j) bt) in *.
      unfold tmax_of in Emt. unfold smax_of in Ems.
      rewrite Emt. cbn [bind]. rewrite Ems. cbn [bind]. rewrite Elt. cbn [bind].
      rewrite Els. cbn [bind].
      set (R0 := row0 + i * sl) in *. set (C0 := col0 + j * sl) in *.
      assert (Hrec : forall it is_ mt ms mint mins, known h R0 C0 it is_ mt ms mint mins ->
        exists out, log_search_rec fuel l s sl t_ b_ l_ r_ lower upper it is_ mint mins mt ms R0 C0 = Ok out
          /\ Permutation out (search_out gt lower upper t_ b_ l_ r_ R0 C0)).
      { intros it0 is0 mt0 ms0 mint0 mins0 Hkn.
        apply (IH fuel R0 C0 _ _ _ _ _ _ t_ b_ l_ r_ Hkn); fold sl; clearbody t_ b_ l_ r_; unfold R0, C0;
          clear - Hf I3 I4 I5 J3 J4 J5 Hr Hc; lia. }
      specialize (HMt _ HMs).
      assert (EMt : i64_add ms' mt' = (ms' + mt')%Z).
      { destruct HMt as (_ & r & c & (_ & _ & X1 & X2) & E). rewrite <- E. apply add_gt; auto; lia. }
      (* the smallest value of the snapshot on this box *)
      assert (HS : exists min1 mins' is1,
         (match is' with
          | Some index => if leafs then Ok mins
              else r <- bm_rank (s_nodemap s) index ;; d <- dac_get (s_min s) r ;; Ok (i64_add mins d)
          | None => Ok mins end) = Ok min1 /\
         (if leafs then (ms', None) else (min1, is')) = (mins', is1) /\
         is_min gs rows cols k h R0 C0 mins' /\
         (leafs = true -> mins' = ms' /\ forall r c, inb h R0 C0 r c -> gs r c = ms') /\
         (leafs = false -> 0 < h /\ sst h R0 C0 is1 ms' /\ smin h R0 C0 is1 mins')).
      { destruct leafs.
        - exists mins, ms', None. split; [destruct is'; reflexivity|]. split; [reflexivity|].
          specialize (Sleaf eq_refl). split; [|split; [intros _; split; [reflexivity|exact Sleaf]|discriminate]].
          destruct HMs as (_ & r & c & X & E). split; [|exists r, c; auto].
          intros r0 c0 X0. rewrite (Sleaf _ _ X0). lia.
        - destruct (Smin eq_refl mins Hmin) as (idx & r & d & m' & Eidx & Er & Ed & Em & Hm & Hsm).
          exists m', m', is'. rewrite Eidx at 1. rewrite Er. cbn [bind]. rewrite Ed. cbn [bind]. rewrite Em.
          split; [reflexivity|]. split; [reflexivity|]. split; [exact Hm|]. split; [discriminate|].
          intros _. destruct (Sbr eq_refl) as (Hh & Hs'). auto. }
      destruct HS as (min1 & mins' & is1 & Emin1 & Epair & Hmins & SL & SB).
      (* the log side *)
      destruct leaft.
      + assert (Ex0 : match it' with Some _ => Ok mint | None => Ok mint end = Ok mint) by (destruct it'; reflexivity).
        rewrite Ex0. cbn [bind]. rewrite Emin1. cbn [bind]. rewrite Epair.
        destruct (Tleaf eq_refl) as (flag & Ef & _ & T1 & T2).
        assert (Em : (match it' with
           | Some index => if index <? bm_length (l_nodemap l)
               then eq <- log_equal_at l index ;;
                    (if negb eq then Ok (i64_sub (i64_add ms' mt') mins') else Ok mt')
               else Ok mt'
           | None => Ok mt' end) = Ok (if flag then i64_sub (i64_add ms' mt') mins' else mt')).
        { destruct it' as [idx|]; cbn [tflag] in Ef; [|injection Ef as <-; reflexivity].
          destruct (idx <? bm_length (l_nodemap l)); [|injection Ef as <-; reflexivity].
          destruct (log_equal_at l idx) as [b| | |]; cbn [bind] in *; try discriminate.
          injection Ef as <-. destruct b; reflexivity. }
        rewrite Em. cbn [bind]. apply Hrec. destruct flag.
        * assert (Eeq : i64_add mins' (i64_sub (i64_add ms' mt') mins') = i64_add ms' mt')
            by (apply i64_add_sub; apply i64_add_range).
          split; [|left; exact Eeq]. rewrite Eeq, EMt.
          intros r c Hin. rewrite (T1 eq_refl _ HMs _ _ Hin). lia.
        * specialize (T2 eq_refl).
          assert (Emn : i64_add mins' mt' = (mins' + mt')%Z).
          { destruct Hmins as (_ & r & c & X & E). pose proof X as (_ & _ & X1 & X2).
            pose proof (T2 _ _ X) as E2. rewrite E in E2. rewrite <- E2. apply add_gt; auto; lia. }
          split.
          -- rewrite Emn, EMt. intros r c Hin. rewrite (T2 _ _ Hin).
             pose proof (proj1 Hmins _ _ Hin). pose proof (proj1 HMs _ _ Hin). lia.
          -- destruct leafs.
             ++ left. destruct (SL eq_refl) as [-> _]. reflexivity.
             ++ right. destruct (SB eq_refl) as (Hh & Hs' & Hsm). split; [exact Hh|].
                split; [exact T2|]. split; assumption.
      + destruct (Tbr eq_refl) as (Hh & Ht' & idx & r & d & Eidx & Er & Ed & Hd).
        assert (Ex0 : match it' with
          | Some index => r <- bm_rank (l_nodemap l) index ;; dac_get (l_min l) r
          | None => Ok mint end = Ok d).
        { rewrite Eidx. rewrite Er. cbn [bind]. exact Ed. }
        rewrite Ex0. cbn [bind]. rewrite Emin1. cbn [bind]. rewrite Epair. cbn [bind]. apply Hrec.
        specialize (Hd _ Hmins).
        assert (Emn : i64_add mins' d = (mins' + d)%Z).
        { destruct Hd as (_ & r0 & c0 & (_ & _ & X1 & X2) & E). rewrite <- E. apply add_gt; auto; lia. }
        split.
        * rewrite Emn, EMt. intros r0 c0 Hin. pose proof (proj1 Hd _ _ Hin). pose proof (proj1 HMt _ _ Hin). lia.
        * right. split; [exact Hh|]. split; [exact Ht'|]. destruct leafs.
          -- destruct (SL eq_refl) as [-> HU]. injection Epair as <-. split; [exact HU|exact I].
          -- destruct (SB eq_refl) as (_ & Hs' & Hsm). auto.
  Qed.
  End Search.

  Lemma troot_min : p_branch root = true -> dac_get (l_min l) 0 = Ok (p_dmin root).
  Proof.
    intros Hb. pose proof (tmin_at 0 root) as H. unfold trnk in H. cbn [firstn count_occ] in H.
    apply H; [apply curt_root|exact Hb].
  Qed.

  Lemma troot_min_single : p_branch root = false -> dac_get (l_min l) 0 = Ok 0%Z.
  Proof.
    intros Hb. pose proof (lo_min _ _ _ _ _ _ _ _ _ _ _ OK) as HR.
    rewrite (lo_single _ _ _ _ _ _ _ _ _ _ _ OK Hb) in HR. cbn [filter] in HR. rewrite Hb in HR.
    apply (dac_get_past _ [] 0 HR). cbn [length]. lia.
  Qed.

  Lemma sroot_is_min : 0 < rows -> 0 < cols -> is_min gs rows cols k e 0 0 (mn (e_node sroot)).
  Proof.
    intros Hr Hc. assert (Hp : 0 < k ^ e) by (apply pow_pos; exact Hk).
    pose proof (cur_root _ _ _ _ _ _ _ _ _ _ SOK) as Hcur.
    destruct (krep_attained _ _ _ _ _ _ _ _ (proj2 Hcur) Hr Hc Hp) as (_ & (r1 & c1 & A1 & A2 & A3 & A4 & A5)).
    split.
    - intros r c (H1 & H2 & H3 & H4). apply (cur_bounds _ _ _ _ _ _ _ _ _ _ _ _ Hcur); assumption.
    - exists r1, c1. split; [repeat split; lia|exact A5].
  Qed.

  Definition constant (g : nat -> nat -> Z) (v : Z) : Prop :=
    forall r c, r < rows -> c < cols -> g r c = v.

  Lemma uniform_root : 0 < rows -> 0 < cols -> p_uniform root = true <-> exists v, constant gt v.
  Proof.
    intros Hr Hc. split.
    - intros Hu. destruct (dmax_exact _ _ _ _ (proj2 curt_root) Hr Hc) as (Mt & Ms & HMt & _).
      exists Mt. intros r c R C. apply (uniform_prep _ _ _ _ _ (proj2 curt_root) Hu HMt). repeat split; lia.
    - intros (v & Hv). destruct (prep_holds _ _ _ _ _ _ _ _ _ (proj2 curt_root)) as (H1 & H2 & _ & _).
      unfold p_uniform. destruct (p_max_t root) as [a|]; cbn [holds] in H1; [|tauto].
      destruct (p_min_t root) as [b|]; cbn [holds] in H2; [|tauto]. cbn [opt_eqb].
      destruct H1 as (_ & _ & _ & r1 & c1 & (_ & _ & X1 & X2) & <-).
      destruct H2 as (_ & _ & _ & r2 & c2 & (_ & _ & Y1 & Y2) & <-). rewrite !Hv by assumption. lia.
  Qed.

  Lemma constant_sroot : 0 < rows -> 0 < cols -> k_branch (e_node sroot) = false ->
    constant gs (mx (e_node sroot)).
  Proof.
    intros Hr Hc Hb r c R C. pose proof sroot_state as HS. rewrite Hb in HS. apply HS. repeat split; lia.
  Qed.

  Lemma sroot_constant v : 0 < rows -> 0 < cols -> constant gs v -> k_branch (e_node sroot) = false.
  Proof.
    intros Hr Hc Hv. destruct (sroot_is_max Hr Hc) as (_ & r1 & c1 & (_ & _ & X1 & X2) & E1).
    destruct (sroot_is_min Hr Hc) as (_ & r2 & c2 & (_ & _ & Y1 & Y2) & E2).
    rewrite Hv in E1, E2 by assumption. unfold k_branch. rewrite <- E1, <- E2, Z.eqb_refl.
    apply Bool.andb_false_r.
  Qed.

  Lemma built_equal : p_equal root = true <->
    forall r c, r < k ^ e -> c < k ^ e -> diff_at gs gt rows cols r c = diff_at gs gt rows cols 0 0.
  Proof.
    destruct (p_build_equal gs gt rows cols k Hk e e 0 0 (le_n e)) as (x & Ex & Dx & Qx).
    rewrite (lo_built _ _ _ _ _ _ _ _ _ _ _ OK) in Ex. injection Ex as <-. rewrite Dx in Qx. rewrite Qx. cbn [Nat.add].
    split; intros H r c R C; apply H; lia.
  Qed.

  (** Only a raster that fills its square is stored as one difference that is not 0. *)
  Lemma equal_full : 0 < rows -> 0 < cols -> p_branch root = false -> p_uniform root = false ->
    forall d, (forall r c, r < rows -> c < cols -> gt r c = (gs r c + d)%Z) -> (rows = k ^ e /\ cols = k ^ e) \/ d = 0%Z.
  Proof.
    intros Hr Hc Hb Hu d Hd. pose proof (proj2 curt_root) as Hp.
    assert (Heq : p_equal root = true).
    { destruct e as [|e']; [lia|]. destruct (not_branch _ _ _ _ Hp Hb Hr Hc) as [U|E]; [congruence|exact E]. }
    pose proof (proj1 built_equal Heq) as HA.
    assert (D0 : diff_at gs gt rows cols 0 0 = d).
    { unfold diff_at. destruct (Nat.ltb_spec 0 rows); [|lia]. destruct (Nat.ltb_spec 0 cols); [|lia]. cbn [andb].
      unfold i64_sub. replace (gt 0 0 - gs 0 0)%Z with d by (pose proof (Hd 0 0 Hr Hc); lia). apply wrap64_id.
      replace d with (gt 0 0 - gs 0 0)%Z by (pose proof (Hd 0 0 Hr Hc); lia). apply Hdiff; assumption. }
    destruct (Nat.eq_dec rows (k ^ e)) as [R|R]; [destruct (Nat.eq_dec cols (k ^ e)) as [C|C]; [left; auto|]|]; right; rewrite <- D0.
    - rewrite <- (HA 0 cols) by (clear -C Hcols Hrows Hr; lia). unfold diff_at. rewrite Nat.ltb_irrefl, Bool.andb_false_r. reflexivity.
    - rewrite <- (HA rows 0) by (clear -R Hcols Hrows Hc; lia). unfold diff_at. rewrite Nat.ltb_irrefl. reflexivity.
  Qed.

  Lemma full_equal d : rows = k ^ e -> cols = k ^ e ->
    (forall r c, r < rows -> c < cols -> gt r c = (gs r c + d)%Z) -> p_branch root = false.
  Proof.
    intros R C Hd. assert (Heq : p_equal root = true).
    { apply built_equal. intros r c Hr Hc. rewrite <- R in Hr. rewrite <- C in Hc. unfold diff_at.
      destruct (Nat.ltb_spec r rows); [|lia]. destruct (Nat.ltb_spec c cols); [|lia].
      destruct (Nat.ltb_spec 0 rows); [|lia]. destruct (Nat.ltb_spec 0 cols); [|lia]. cbn [andb]. unfold i64_sub.
      rewrite (Hd r c), (Hd 0 0) by assumption. f_equal. lia. }
    unfold p_branch, p_stop. rewrite Heq, Bool.orb_true_r. cbn [negb]. rewrite Bool.andb_false_r. reflexivity.
  Qed.

  (** The least value. *)
  Definition least (g : nat -> nat -> Z) (v : Z) : Prop :=
    (forall r c, r < rows -> c < cols -> (v <= g r c)%Z) /\ exists r c, r < rows /\ c < cols /\ g r c = v.

  Lemma log_search_window_ok lower upper top bottom left right :
    (forall v, constant gt v -> (exists v', constant gs v') \/ least gs v) ->
    (forall v v', constant gt v -> constant gs v' -> (0 <= v)%Z) ->
    (forall v, constant gs v -> (forall w, ~ constant gt w) -> (0 <= v)%Z) ->
    (forall d, (forall r c, r < rows -> c < cols -> gt r c = (gs r c + d)%Z) ->
       (forall w, ~ constant gt w) -> rows = k ^ e -> cols = k ^ e -> (0 <= d)%Z) ->
    window_in top bottom left right rows cols ->
    exists out, log_search_window l s (mkRect top bottom left right) lower upper = Ok out /\
      Permutation out (search_spec gt top bottom left right lower upper).
  Proof.
    intros P1 P2 P3 P4 (Ht & Hb & Hl & Hr). unfold log_search_window.
    cbn [r_top r_bottom r_left r_right]. rewrite !usub_ok by lia. cbn [bind].
    rewrite troot_bit, (root_bit _ _ _ _ Hk _ _ _ _ _ _ SOK He). cbn [bind].
    assert (Hr0 : 0 < rows) by lia. assert (Hc0 : 0 < cols) by lia.
    assert (Hp : 0 < k ^ e) by (apply pow_pos; exact Hk).
    pose proof (proj2 curt_root) as Hprep.
    destruct (dmax_exact _ _ _ _ Hprep Hr0 Hc0) as (Mt & Ms & HMt & HMs & EM).
    destruct (dmin_exact _ _ _ _ Hprep Hr0 Hc0) as (mt & ms & Hmt & Hms & Em).
    pose proof (is_max_uniq _ _ _ _ _ _ _ _ _ HMs (sroot_is_max Hr0 Hc0)) as EMs.
    pose proof (is_min_uniq _ _ _ _ _ _ _ _ _ Hms (sroot_is_min Hr0 Hc0)) as Ems.
    assert (Hin : forall r c, r < rows -> c < cols -> inb e 0 0 r c) by (intros; repeat split; lia).
    assert (Emax : i64_add (mx (e_node sroot)) (p_dmax root) = Mt).
    { destruct HMt as (_ & r & c & (_ & _ & X1 & X2) & E). rewrite <- E. apply add_gt; auto.
      rewrite EM, <- EMs, E. lia. }
    assert (Emin : i64_add (mn (e_node sroot)) (p_dmin root) = mt).
    { destruct Hmt as (_ & r & c & (_ & _ & X1 & X2) & E). rewrite <- E. apply add_gt; auto.
      rewrite Em, <- Ems, E. lia. }
    assert (Hrec : forall mint mins,
      bounded e 0 0 (i64_add mins mint) Mt ->
      tst e 0 0 (if p_branch root then Some 0 else None) (p_dmax root) ->
      smin e 0 0 (if k_branch (e_node sroot) then Some 0 else None) mins ->
      exists out, log_search_rec (l_sidelen l) l s (l_sidelen l) top (bottom - 1) left (right - 1) lower upper
        (if negb (p_branch root) then None else Some 0)
        (if negb (k_branch (e_node sroot)) then None else Some 0) mint mins
        (p_dmax root) (mx (e_node sroot)) 0 0 = Ok out /\
      Permutation out (search_spec gt top bottom left right lower upper)).
    { intros mint mins HB Hst Hsm. rewrite !if_negb_idx. rewrite (lo_sidelen _ _ _ _ _ _ _ _ _ _ _ OK).
      rewrite search_spec_flat by assumption.
      pose proof (Nat.pow_gt_lin_r k e ltac:(lia)) as Hlin.
      apply log_search_rec_ok; try (clear - Hlin Hrows Hcols Ht Hb Hl Hr; lia).
      split; [rewrite Emax; exact HB|]. right. split; [exact He|]. split; [exact Hst|].
      split; [apply sroot_state|exact Hsm]. }
    rewrite troot_max, (root_max _ _ _ _ _ _ _ _ _ _ SOK).
    destruct root_states as [Hst|[Hbr Hu]].
    2:{ (* a constant log: the snapshot is constant, too, or has this value as its minimum *)
      pose proof (proj1 (uniform_root Hr0 Hc0) Hu) as (v & Hv).
      destruct (k_branch (e_node sroot)) eqn:Hkb.
      { destruct (P1 _ Hv) as [(v' & Hv')|(Lv & r3 & c3 & R3 & C3 & E3)];
          [rewrite (sroot_constant _ Hr0 Hc0 Hv') in Hkb; discriminate|].
        rewrite (troot_min_single Hbr), (root_min _ _ _ _ _ _ _ _ _ _ SOK Hkb). cbn [bind].
        rewrite !if_negb_idx. rewrite (lo_sidelen _ _ _ _ _ _ _ _ _ _ _ OK). rewrite search_spec_flat by assumption.
        pose proof (Nat.pow_gt_lin_r k e ltac:(lia)) as Hlin.
        assert (EV : mn (e_node sroot) = v).
        { rewrite <- Ems. pose proof (proj1 Hms r3 c3 (Hin _ _ R3 C3)) as U. destruct Hms as (_ & r1 & c1 & (_ & _ & Y1 & Y2) & E1).
          pose proof (Lv r1 c1 Y1 Y2). lia. }
        assert (EMt2 : Mt = v).
        { destruct HMt as (_ & r1 & c1 & (_ & _ & Y1 & Y2) & <-). apply Hv; assumption. }
        assert (E0 : i64_add (mn (e_node sroot)) 0 = v).
        { unfold i64_add. rewrite Z.add_0_r, EV. apply wrap64_id. rewrite <- E3. apply Hgs; assumption. }
        apply log_search_rec_ok; try (clear - Hlin Hrows Hcols Ht Hb Hl Hr; lia).
        split; [|left; rewrite E0, Emax; symmetry; exact EMt2].
        rewrite E0, Emax, EMt2. intros r c (_ & _ & X1 & X2). rewrite Hv by assumption. lia. }
      pose proof (constant_sroot Hr0 Hc0 Hkb) as Hv'. set (v' := mx (e_node sroot)) in Hv'.
      pose proof (sroot_constant _ Hr0 Hc0 Hv') as Hks.
      assert (Hst : tst e 0 0 (if p_branch root then Some 0 else None) (p_dmax root)).
      { rewrite Hbr. cbn [tst]. intros r c (_ & _ & X1 & X2).
        rewrite Hv, Hv' by assumption. rewrite EM.
        destruct HMt as (_ & r1 & c1 & (_ & _ & Y1 & Y2) & <-), HMs as (_ & r2 & c2 & (_ & _ & Z1 & Z2) & <-).
        rewrite Hv, Hv' by assumption. lia. }
      rewrite (troot_min_single Hbr), (root_min_single _ _ _ _ Hk _ _ _ _ _ _ SOK Hks). cbn [bind].
      apply Hrec; [|exact Hst|exact I].
      intros r c (_ & _ & X1 & X2). change (i64_add 0 0) with 0%Z. pose proof (P2 _ _ Hv Hv').
      pose proof (proj1 HMt r c (Hin _ _ X1 X2)). rewrite Hv in * by assumption. lia. }
    assert (HH : forall r c, inb e 0 0 r c -> (mt <= gt r c <= Mt)%Z).
    { intros r c X. split; [apply Hmt; exact X|apply HMt; exact X]. }
    destruct (p_branch root) eqn:Hbr; destruct (k_branch (e_node sroot)) eqn:Hks.
    - rewrite (troot_min Hbr), (root_min _ _ _ _ _ _ _ _ _ _ SOK Hks). cbn [bind].
      apply Hrec; [|exact Hst|].
      + rewrite Emin. exact HH.
      + exists (e_node sroot). split; [eapply cur_root; exact SOK|reflexivity].
    - rewrite (troot_min Hbr), (root_min_single _ _ _ _ Hk _ _ _ _ _ _ SOK Hks). cbn [bind].
      apply Hrec; [|exact Hst|exact I].
      pose proof (constant_sroot Hr0 Hc0 Hks) as HC.
      assert (Hnu : forall w, ~ constant gt w).
      { intros w Hw. assert (Hu : p_uniform root = true) by (apply uniform_root; eauto).
        unfold p_branch, p_stop in Hbr. rewrite Hu in Hbr. cbn [orb negb] in Hbr.
        rewrite Bool.andb_false_r in Hbr. discriminate. }
      pose proof (P3 _ HC Hnu) as Hpos.
      assert (E0 : i64_add 0 (p_dmin root) = p_dmin root).
      { unfold i64_add. rewrite Z.add_0_l. apply wrap64_id. unfold p_dmin. apply i64_sub_range. }
      rewrite E0, Em. intros r c X. specialize (HH r c X).
      destruct Hms as (_ & r1 & c1 & (_ & _ & Y1 & Y2) & E1). rewrite (HC r1 c1 Y1 Y2) in E1. lia.
    - rewrite (troot_min_single Hbr), (root_min _ _ _ _ _ _ _ _ _ _ SOK Hks). cbn [bind].
      apply Hrec; [|exact Hst|].
      + assert (Hd : forall r c, r < rows -> c < cols -> (gt r c = gs r c + p_dmax root)%Z).
        { intros r c R C. apply Hst. auto. }
        assert (Hnu : forall w, ~ constant gt w).
        { intros w Hw. assert (Hv : constant gs (w - p_dmax root)%Z).
          { intros r c R C. pose proof (Hd r c R C) as D. rewrite Hw in D by assumption. lia. }
          rewrite (sroot_constant _ Hr0 Hc0 Hv) in Hks. discriminate. }
        assert (Hpos : (0 <= p_dmax root)%Z).
        { assert (Hu : p_uniform root = false).
          { destruct (p_uniform root) eqn:Hu; [|reflexivity]. destruct (proj1 (uniform_root Hr0 Hc0) Hu) as (w & Hw). destruct (Hnu w Hw). }
          destruct (equal_full Hr0 Hc0 Hbr Hu _ Hd) as [[F1 F2]|D0]; [exact (P4 _ Hd Hnu F1 F2)|]. rewrite D0. apply Z.le_refl. }
        assert (E0 : i64_add (mn (e_node sroot)) 0 = mn (e_node sroot)).
        { unfold i64_add. rewrite Z.add_0_r. apply wrap64_id. rewrite <- Ems.
          destruct Hms as (_ & r1 & c1 & (_ & _ & Y1 & Y2) & <-). apply Hgs; assumption. }
        rewrite E0, <- Ems. intros r c X. split; [|apply HMt; exact X].
        pose proof (proj1 Hms r c X). destruct X as (_ & _ & X1 & X2). rewrite (Hd r c X1 X2). lia.
      + exists (e_node sroot). split; [eapply cur_root; exact SOK|reflexivity].
    - rewrite (troot_min_single Hbr), (root_min_single _ _ _ _ Hk _ _ _ _ _ _ SOK Hks). cbn [bind].
      apply Hrec; [|exact Hst|exact I].
      pose proof (constant_sroot Hr0 Hc0 Hks) as HC.
      assert (HT : constant gt (mx (e_node sroot) + p_dmax root)%Z).
      { intros r c R C. rewrite (Hst r c (Hin r c R C)), (HC r c R C). reflexivity. }
      pose proof (P2 _ _ HT HC) as Hpos. change (i64_add 0 0) with 0%Z.
      intros r c X. split; [|apply HMt; exact X]. destruct X as (_ & _ & X1 & X2). rewrite (HT r c X1 X2). exact Hpos.
  Qed.

  (** What the search starts with. *)
  Lemma search_starts lower upper top bottom left right : window_in top bottom left right rows cols ->
    exists Mt mt Ms ms, is_max gt rows cols k e 0 0 Mt /\ is_min gt rows cols k e 0 0 mt /\
      is_max gs rows cols k e 0 0 Ms /\ is_min gs rows cols k e 0 0 ms /\
      (k_branch (e_node sroot) = true -> sst e 0 0 (Some 0) Ms /\ smin e 0 0 (Some 0) ms) /\
      log_search_window l s (mkRect top bottom left right) lower upper =
      log_search_rec (k ^ e) l s (k ^ e) top (bottom - 1) left (right - 1) lower upper
        (if p_branch root then Some 0 else None) (if k_branch (e_node sroot) then Some 0 else None)
        (if p_branch root then mt - ms else 0)%Z (if k_branch (e_node sroot) then ms else 0)%Z (Mt - Ms) Ms 0 0.
  Proof.
    intros (Ht & Hb & Hl & Hr). unfold log_search_window.
    cbn [r_top r_bottom r_left r_right]. rewrite !usub_ok by lia. cbn [bind].
    rewrite troot_bit, (root_bit _ _ _ _ Hk _ _ _ _ _ _ SOK He). cbn [bind].
    assert (Hr0 : 0 < rows) by lia. assert (Hc0 : 0 < cols) by lia.
    pose proof (proj2 curt_root) as Hprep.
    destruct (dmax_exact _ _ _ _ Hprep Hr0 Hc0) as (Mt & Ms & HMt & HMs & EM).
    destruct (dmin_exact _ _ _ _ Hprep Hr0 Hc0) as (mt & ms & Hmt & Hms & Em).
    pose proof (is_max_uniq _ _ _ _ _ _ _ _ _ HMs (sroot_is_max Hr0 Hc0)) as EMs.
    pose proof (is_min_uniq _ _ _ _ _ _ _ _ _ Hms (sroot_is_min Hr0 Hc0)) as Ems.
    exists Mt, mt, Ms, ms. split; [exact HMt|]. split; [exact Hmt|]. split; [exact HMs|]. split; [exact Hms|].
    split.
    { intros Hks. pose proof sroot_state as HS. rewrite Hks, <- EMs in HS. split; [exact HS|].
      exists (e_node sroot). split; [eapply cur_root; exact SOK|exact Ems]. }
    rewrite !if_negb_idx, (lo_sidelen _ _ _ _ _ _ _ _ _ _ _ OK), troot_max, (root_max _ _ _ _ _ _ _ _ _ _ SOK).
    destruct (p_branch root) eqn:Hbr; destruct (k_branch (e_node sroot)) eqn:Hks.
    - rewrite (troot_min Hbr), (root_min _ _ _ _ _ _ _ _ _ _ SOK Hks). cbn [bind]. rewrite EM, Em, <- EMs, <- Ems. reflexivity.
    - rewrite (troot_min Hbr), (root_min_single _ _ _ _ Hk _ _ _ _ _ _ SOK Hks). cbn [bind]. rewrite EM, Em, <- EMs. reflexivity.
    - rewrite (troot_min_single Hbr), (root_min _ _ _ _ _ _ _ _ _ _ SOK Hks). cbn [bind]. rewrite EM, <- EMs, <- Ems. reflexivity.
    - rewrite (troot_min_single Hbr), (root_min_single _ _ _ _ Hk _ _ _ _ _ _ SOK Hks). cbn [bind]. rewrite EM, <- EMs. reflexivity.
  Qed.

  (** *** get *)
  Lemma get_s_part is_ ms b row col sl : base (s_nodemap s) is_ = Ok b -> sl <> 0 ->
    match is_ with
    | Some index =>
        r <- bm_rank (s_nodemap s) index ;;
        qr <- udiv row sl ;;
        qc <- udiv col sl ;;
        let index := 1 + r * k * k + qr * k + qc in
        d <- dac_get (s_max s) index ;;
        Ok (Some index, i64_sub ms d)
    | None => Ok (None, ms)
    end = (m <- smax_of (option_map (fun index => index + row / sl * k + col / sl) b) ms ;;
           Ok (option_map (fun index => index + row / sl * k + col / sl) b, m)).
  Proof.
    intros Hb Hsl. destruct is_ as [idx|]; cbn [base] in Hb.
    - destruct (bm_rank (s_nodemap s) idx) as [r| | |]; cbn [bind] in Hb; try discriminate.
      injection Hb as <-. cbn [bind]. rewrite !udiv_ok by exact Hsl. cbn [bind option_map smax_of].
      destruct (dac_get (s_max s) _); reflexivity.
    - injection Hb as <-. reflexivity.
  Qed.

  Lemma get_t_part it mt b row col sl : base (l_nodemap l) it = Ok b -> sl <> 0 ->
    match it with
    | Some index =>
        r <- bm_rank (l_nodemap l) index ;;
        qr <- udiv row sl ;;
        qc <- udiv col sl ;;
        let index := 1 + r * k * k + qr * k + qc in
        d <- dac_get (l_max l) index ;;
        Ok (Some index, d)
    | None => Ok (None, mt)
    end = (m <- tmax_of (option_map (fun index => index + row / sl * k + col / sl) b) mt ;;
           Ok (option_map (fun index => index + row / sl * k + col / sl) b, m)).
  Proof.
    intros Hb Hsl. destruct it as [idx|]; cbn [base] in Hb.
    - destruct (bm_rank (l_nodemap l) idx) as [r| | |]; cbn [bind] in Hb; try discriminate.
      injection Hb as <-. cbn [bind]. rewrite !udiv_ok by exact Hsl. cbn [bind option_map tmax_of].
      destruct (dac_get (l_max l) _); reflexivity.
    - injection Hb as <-. reflexivity.
  Qed.

  (** The off-by-one tests of [get] and [fill_window] are harmless when the
      lengths of the node maps are not multiples of 32. *)
  Hypothesis Hs32 : length SV1 mod 32 <> 0.
  Hypothesis Hl32 : length V1 mod 32 <> 0.

  Lemma opt_leaf_s is_ : opt_leaf leaf_gt (s_nodemap s) is_ = opt_leaf leaf_ge (s_nodemap s) is_.
  Proof.
    destruct is_ as [i|]; [|reflexivity]. cbn [opt_leaf].
    apply (leaf_gt_eq _ _ _ (so_nodemap _ _ _ _ _ _ _ _ _ _ SOK)). rewrite map_length. exact Hs32.
  Qed.
  Lemma opt_leaf_t it : opt_leaf leaf_gt (l_nodemap l) it = opt_leaf leaf_ge (l_nodemap l) it.
  Proof.
    destruct it as [i|]; [|reflexivity]. cbn [opt_leaf].
    apply (leaf_gt_eq _ _ _ (lo_nodemap _ _ _ _ _ _ _ _ _ _ _ OK)). rewrite map_length. exact Hl32.
  Qed.

  Lemma log_get_rec_ok h : forall fuel row0 col0 it is_ mt ms row col,
    tst (S h) row0 col0 it mt -> sst (S h) row0 col0 is_ ms -> h < fuel ->
    row < k ^ S h -> col < k ^ S h -> row0 + row < rows -> col0 + col < cols ->
    log_get_rec fuel l s (k ^ S h) row col it is_ mt ms = Ok (gt (row0 + row) (col0 + col)).
  Proof.
    induction h as [h IH] using (well_founded_induction lt_wf);
    intros fuel row0 col0 it is_ mt ms row col Ht Hs Hf Hrow Hcol Hr Hc.
    destruct fuel as [|fuel]; [lia|]. cbn [log_get_rec].
    rewrite (lo_k _ _ _ _ _ _ _ _ _ _ _ OK). rewrite udiv_ok by lia. cbn [bind]. rewrite div_pow by exact Hk.
    assert (Hp : 0 < k ^ h) by (apply pow_pos; exact Hk).
    destruct (s_step _ _ _ _ _ Hs) as (bs & Ebs & Hsch).
    destruct (t_step _ _ _ _ _ Ht) as (bt & Ebt & Htch).
    rewrite (get_s_part _ _ _ _ _ _ Ebs) by lia. rewrite (get_t_part _ _ _ _ _ _ Ebt) by lia.
    rewrite Nat.pow_succ_r' in Hrow, Hcol.
    assert (Hi : row / k ^ h < k) by (apply Nat.div_lt_upper_bound; lia).
    assert (Hj : col / k ^ h < k) by (apply Nat.div_lt_upper_bound; lia).
    pose proof (Nat.div_mod row (k ^ h) ltac:(lia)) as Dr.
    pose proof (Nat.div_mod col (k ^ h) ltac:(lia)) as Dc.
    pose proof (Nat.mod_upper_bound row (k ^ h) ltac:(lia)) as Mr.
    pose proof (Nat.mod_upper_bound col (k ^ h) ltac:(lia)) as Mc.
    rewrite Nat.mul_comm in Dr, Dc.
    set (i := row / k ^ h) in *. set (j := col / k ^ h) in *.
    set (mr := row mod k ^ h) in *. set (mc := col mod k ^ h) in *.
    assert (Hr1 : row0 + i * k ^ h < rows) by lia. assert (Hc1 : col0 + j * k ^ h < cols) by lia.
    destruct (Hsch i j Hi Hj Hr1 Hc1) as (ms' & leafs & Ems & Els & HMs & Sleaf & Sbr & _).
    destruct (Htch i j Hi Hj Hr1 Hc1) as (mt' & leaft & Emt & Elt & HMt & Tleaf & Tbr).
    clear Hsch Htch. cbn zeta in *.
    rewrite Ems. cbn [bind]. rewrite Emt. cbn [bind].
    rewrite opt_leaf_t, opt_leaf_s, Elt, Els. cbn [bind].
    set (is' := option_map (fun index : nat => index + i * k + j) bs) in *.
    set (it' := option_map (fun index : nat => index + i * k + j) bt) in *.
    assert (Hin : inb h (row0 + i * k ^ h) (col0 + j * k ^ h) (row0 + row) (col0 + col)).
    { unfold inbox. clear - Dr Dc Mr Mc Hr Hc. lia. }
    rewrite !umod_ok by lia. cbn [bind]. fold mr mc.
    assert (Hrec : forall it is_ mt ms, 0 < h -> tst h (row0 + i * k ^ h) (col0 + j * k ^ h) it mt ->
       sst h (row0 + i * k ^ h) (col0 + j * k ^ h) is_ ms ->
       log_get_rec fuel l s (k ^ h) mr mc it is_ mt ms = Ok (gt (row0 + row) (col0 + col))).
    { intros it0 is0 mt0 ms0 Hh Ht0 Hs0. destruct h as [|h']; [lia|].
      rewrite (IH h' ltac:(clear; lia) fuel _ _ _ _ _ _ mr mc Ht0 Hs0);
        try (clear - Hf Dr Dc Mr Mc Hr Hc; lia). f_equal. clear - Dr Dc. f_equal; lia. }
    destruct leafs.
    - specialize (Sleaf eq_refl). destruct leaft; cbn [andb].
      + destruct (Tleaf eq_refl) as (flag & _ & _ & T1 & T2). f_equal.
        apply add_gt; try assumption. destruct flag.
        * rewrite (T1 eq_refl _ HMs _ _ Hin). lia.
        * rewrite (T2 eq_refl _ _ Hin), (Sleaf _ _ Hin). lia.
      + destruct (Tbr eq_refl) as (Hh & Ht' & _). apply Hrec; [exact Hh|exact Ht'|exact Sleaf].
    - destruct (Sbr eq_refl) as (Hh & Hs'). rewrite Bool.andb_false_r. destruct leaft.
      + destruct (Tleaf eq_refl) as (flag & Ef & _ & T1 & T2).
        change (match it' with
          | Some index => if index <? bm_length (l_nodemap l)
              then eq <- log_equal_at l index;; Ok (negb eq) else Ok false
          | None => Ok false end) with (tflag it'). rewrite Ef. cbn [bind]. destruct flag.
        * f_equal. apply add_gt; try assumption. rewrite (T1 eq_refl _ HMs _ _ Hin). lia.
        * apply Hrec; [exact Hh|exact (T2 eq_refl)|exact Hs'].
      + destruct (Tbr eq_refl) as (_ & Ht' & _). apply Hrec; assumption.
  Qed.

  Lemma log_get_ok row col : row < rows -> col < cols -> log_get l s row col = Ok (gt row col).
  Proof.
    intros Hr Hc. unfold log_get. rewrite troot_max, (root_max _ _ _ _ _ _ _ _ _ _ SOK).
    rewrite troot_bit, (root_bit _ _ _ _ Hk _ _ _ _ _ _ SOK He). cbn [bind].
    destruct (negb (p_branch root) && negb (k_branch (e_node sroot))) eqn:Eb.
    - apply andb_prop in Eb. destruct Eb as [E1 E2]. apply Bool.negb_true_iff in E1, E2.
      f_equal. apply root_value; auto.
    - assert (Hrec : tst e 0 0 (if p_branch root then Some 0 else None) (p_dmax root) ->
        log_get_rec (l_sidelen l) l s (l_sidelen l) row col
          (if negb (p_branch root) then None else Some 0)
          (if negb (k_branch (e_node sroot)) then None else Some 0) (p_dmax root) (mx (e_node sroot))
        = Ok (gt row col)).
      { intros Ht. pose proof sroot_state as Hs. rewrite !if_negb_idx.
        rewrite (lo_sidelen _ _ _ _ _ _ _ _ _ _ _ OK). assert (Ee : e = S (e - 1)) by lia.
        pose proof (Nat.pow_gt_lin_r k e ltac:(lia)) as Hlin.
        rewrite Ee in Ht, Hs. rewrite Ee at 2.
        apply (log_get_rec_ok (e - 1) _ 0 0 _ _ _ _ row col Ht Hs); try rewrite <- Ee; cbn [Nat.add]; lia. }
      destruct (p_branch root) eqn:Hb; cbn [negb bind] in *.
      + apply Hrec. destruct root_states as [Ht|[E _]]; [|congruence]. rewrite Hb in Ht. exact Ht.
      + rewrite (troot_equal Hb). cbn [bind]. rewrite Bool.negb_involutive.
        destruct (p_uniform root) eqn:Hu.
        * f_equal. apply root_value; auto.
        * apply Hrec. destruct root_states as [Ht|[_ E]]; [|congruence]. rewrite Hb in Ht. exact Ht.
  Qed.

  (** *** fill_window *)
  Lemma log_fill_rec_ok h : forall fuel row0 col0 it is_ mt ms top bottom left right wt wl,
    tst (S h) row0 col0 it mt -> sst (S h) row0 col0 is_ ms -> h < fuel ->
    top <= bottom -> bottom < k ^ S h -> left <= right -> right < k ^ S h ->
    row0 + bottom < rows -> col0 + right < cols -> wt <= row0 + top -> wl <= col0 + left ->
    exists out, log_fill_rec fuel l s (k ^ S h) top bottom left right it is_ mt ms wt wl row0 col0 = Ok out
      /\ Permutation out (fill_out gt top bottom left right row0 col0 wt wl).
  Proof.
    induction h as [h IH] using (well_founded_induction lt_wf);
    intros fuel row0 col0 it is_ mt ms top bottom left right wt wl
      Ht Hs Hf Htb Hbot Hlr Hright Hr Hc Hwt Hwl.
    destruct fuel as [|fuel]; [lia|]. cbn [log_fill_rec].
    rewrite (lo_k _ _ _ _ _ _ _ _ _ _ _ OK). rewrite udiv_ok by lia. cbn [bind]. rewrite div_pow by exact Hk.
    destruct (s_step _ _ _ _ _ Hs) as (bs & Ebs & Hsch).
    destruct (t_step _ _ _ _ _ Ht) as (bt & Ebt & Htch).
    unfold base in Ebs, Ebt. rewrite Ebs, Ebt. cbn [bind].
    rewrite Nat.pow_succ_r' in Hbot, Hright.
    set (sl := k ^ h) in *.
    assert (Hp : 0 < sl) by (apply pow_pos; exact Hk).
    rewrite !udiv_ok by lia; cbn [bind]; rewrite usub_ok by lia; cbn [bind].
    unfold fill_out.
    eapply ex_perm_trans; [|apply tiles_2d with (s := sl)
        (f := fun r c => [(r - wt, c - wl, gt r c)]); assumption].
    apply flat_mapM_perm; intros i Hi; rewrite in_range_incl in Hi.
    destruct (tile_facts _ _ k Hk e He Hrows Hcols sl top bottom i Hp Htb Hbot Hi) as (I1 & I2 & I3 & I4 & I5 & I6); clear Hi.
    rewrite usub_ok by lia; cbn [bind].
    apply flat_mapM_perm; intros j Hj; rewrite in_range_incl in Hj.
    destruct (tile_facts _ _ k Hk e He Hrows Hcols sl left right j Hp Hlr Hright Hj) as (J1 & J2 & J3 & J4 & J5 & J6); clear Hj.
    rewrite usub_ok by lia; cbn [bind].
    set (t_ := top - i * sl) in *. set (b_ := Nat.min (sl - 1) (bottom - i * sl)) in *.
    set (l_ := left - j * sl) in *. set (r_ := Nat.min (sl - 1) (right - j * sl)) in *.
    assert (Hr1 : row0 + i * sl < rows) by lia. assert (Hc1 : col0 + j * sl < cols) by lia.
    destruct (Hsch i j I1 J1 Hr1 Hc1) as (ms' & leafs & Ems & Els & HMs & Sleaf & Sbr & _).
    destruct (Htch i j I1 J1 Hr1 Hc1) as (mt' & leaft & Emt & Elt & HMt & Tleaf & Tbr).
    clear Hsch Htch. cbn zeta in *. fold sl in HMs, Sleaf, Sbr, HMt, Tleaf, Tbr.
    set (is' := option_map (fun index : nat => index + i * k + j) bs) in *.
    set (it' := option_map (fun index : nat => index + i * k + j) bt) in *.
    unfold tmax_of in Emt. unfold smax_of in Ems.
    rewrite opt_leaf_t, opt_leaf_s, Emt. cbn [bind]. rewrite Elt. cbn [bind]. rewrite Ems. cbn [bind].
    rewrite Els. cbn [bind].
    assert (Hbox : forall r c, t_ <= r <= b_ -> l_ <= c <= r_ ->
      inb h (row0 + i * sl) (col0 + j * sl) (row0 + i * sl + r) (col0 + j * sl + c)).
    { intros r c R C. unfold inbox. fold sl. clearbody t_ b_ l_ r_.
      clear - R C I4 I5 J4 J5 Hr Hc. lia. }
    assert (Hrec : forall it is_ mt ms, 0 < h -> tst h (row0 + i * sl) (col0 + j * sl) it mt ->
       sst h (row0 + i * sl) (col0 + j * sl) is_ ms ->
       exists out, log_fill_rec fuel l s sl t_ b_ l_ r_ it is_ mt ms wt wl (row0 + i * sl) (col0 + j * sl) = Ok out
         /\ Permutation out (fill_out gt t_ b_ l_ r_ (row0 + i * sl) (col0 + j * sl) wt wl)).
    { intros it0 is0 mt0 ms0 Hh Ht0 Hs0. destruct h as [|h']; [lia|].
      apply (IH h' ltac:(clear; lia) fuel _ _ _ _ _ _ t_ b_ l_ r_ wt wl Ht0 Hs0); fold sl; clearbody t_ b_ l_ r_;
        clear - Hf I3 I4 I5 I6 J3 J4 J5 J6 Hr Hc Hwt Hwl; lia. }
    assert (Hblock : (forall r c, inb h (row0 + i * sl) (col0 + j * sl) r c -> gt r c = (mt' + ms')%Z) ->
       exists out, fill_block t_ b_ l_ r_ (row0 + i * sl) (col0 + j * sl) wt wl (i64_add mt' ms') = Ok out
         /\ Permutation out (fill_out gt t_ b_ l_ r_ (row0 + i * sl) (col0 + j * sl) wt wl)).
    { intros HU. eexists. split; [|reflexivity].
      eapply fill_block_ok; [exact Hk|exact He|exact Hrows|exact Hcols| | |];
        [clear - I6 Hwt; lia|clear - J6 Hwl; lia|].
      intros r c R C. specialize (Hbox r c R C). symmetry.
      destruct Hbox as (X1 & X2 & X3 & X4) eqn:EX. apply add_gt; try assumption. apply HU. apply (Hbox). }
    destruct leafs.
    - specialize (Sleaf eq_refl). destruct leaft; cbn [andb].
      + destruct (Tleaf eq_refl) as (flag & _ & _ & T1 & T2). apply Hblock. intros r c Hin. destruct flag.
        * rewrite (T1 eq_refl _ HMs _ _ Hin). lia.
        * rewrite (T2 eq_refl _ _ Hin), (Sleaf _ _ Hin). lia.
      + destruct (Tbr eq_refl) as (Hh & Ht' & _). apply Hrec; [exact Hh|exact Ht'|exact Sleaf].
    - destruct (Sbr eq_refl) as (Hh & Hs'). rewrite Bool.andb_false_r. destruct leaft.
      + destruct (Tleaf eq_refl) as (flag & Ef & Hg & T1 & T2). specialize (Hg Hh).
        assert (Estop : match it' with
          | Some index => b <- bm_get (l_nodemap l) index ;;
              (if negb b then eq <- log_equal_at l index;; Ok (negb eq) else Ok false)
          | None => Ok false end = Ok flag).
        { destruct it' as [idx|]; [|exact Ef]. destruct (Hg idx eq_refl) as [Eb Hlt]. rewrite Eb. cbn [bind negb].
          cbn [tflag] in Ef. destruct (Nat.ltb_spec idx (bm_length (l_nodemap l))); [exact Ef|lia]. }
        rewrite Estop. cbn [bind]. destruct flag.
        * apply Hblock. intros r c Hin. rewrite (T1 eq_refl _ HMs _ _ Hin). lia.
        * apply Hrec; [exact Hh|exact (T2 eq_refl)|exact Hs'].
      + destruct (Tbr eq_refl) as (_ & Ht' & _). apply Hrec; assumption.
  Qed.

  Lemma log_fill_window_ok top bottom left right :
    window_in top bottom left right rows cols ->
    exists out, log_fill_window l s (mkRect top bottom left right) = Ok out /\
      Permutation out (window_spec gt top bottom left right).
  Proof.
    intros (Ht & Hb & Hl & Hr). unfold log_fill_window, rect_rows, rect_cols.
    cbn [r_top r_bottom r_left r_right]. rewrite !usub_ok by lia. cbn [bind].
    rewrite troot_bit, (root_bit _ _ _ _ Hk _ _ _ _ _ _ SOK He). cbn [bind].
    rewrite troot_max, (root_max _ _ _ _ _ _ _ _ _ _ SOK). cbn [bind].
    assert (Hblock : p_branch root = false -> k_branch (e_node sroot) = false \/ p_uniform root = true ->
      exists out, Ok (flat_map (fun row => map (fun col => (row, col, i64_add (p_dmax root) (mx (e_node sroot))))
         (range 0 (right - left))) (range 0 (bottom - top))) = Ok out /\
        Permutation out (window_spec gt top bottom left right)).
    { intros H1 H2. eexists. split; [reflexivity|]. rewrite (window_spec_const _ _ _ _ _ (i64_add (p_dmax root) (mx (e_node sroot)))); [reflexivity|].
      intros r c R C. symmetry. apply root_value; try assumption; lia. }
    assert (Hrec : tst e 0 0 (if p_branch root then Some 0 else None) (p_dmax root) ->
      exists out, log_fill_rec (l_sidelen l) l s (l_sidelen l) top (bottom - 1) left (right - 1)
          (if negb (p_branch root) then None else Some 0)
          (if negb (k_branch (e_node sroot)) then None else Some 0) (p_dmax root) (mx (e_node sroot))
          top left 0 0 = Ok out /\
        Permutation out (window_spec gt top bottom left right)).
    { intros Hst. pose proof sroot_state as Hs. rewrite !if_negb_idx.
      rewrite (lo_sidelen _ _ _ _ _ _ _ _ _ _ _ OK). assert (Ee : e = S (e - 1)) by lia.
      pose proof (Nat.pow_gt_lin_r k e ltac:(lia)) as Hlin.
      rewrite Ee in Hst, Hs. rewrite window_spec_flat by assumption.
      replace (log_fill_rec (k ^ e) l s (k ^ e)) with (log_fill_rec (k ^ e) l s (k ^ S (e - 1)))
        by (rewrite <- Ee; reflexivity).
      apply (log_fill_rec_ok (e - 1) _ 0 0 _ _ _ _ _ _ _ _ _ _ Hst Hs); try rewrite <- Ee; cbn [Nat.add]; lia. }
    destruct (p_branch root) eqn:Hbr; cbn [negb bind] in *.
    - apply Hrec. destruct root_states as [Hst|[E _]]; [|congruence]. rewrite Hbr in Hst. exact Hst.
    - destruct (k_branch (e_node sroot)) eqn:Hks; cbn [negb bind] in *.
      + rewrite (troot_equal Hbr). cbn [bind]. rewrite Bool.negb_involutive.
        destruct (p_uniform root) eqn:Hu.
        * apply Hblock; auto.
        * apply Hrec. destruct root_states as [Hst|[_ E]]; [|congruence]. rewrite Hbr in Hst. exact Hst.
      + apply Hblock; auto.
  Qed.
End LogWalk.
