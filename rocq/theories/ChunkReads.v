(** * Reads of a chunk that [Chunk::build] made. *)
From Verif Require Import Base BaseFacts Spec BitmapModel BitmapProofs DacModel DacProofs
  GeomModel GeomProofs SnapshotModel SnapshotProofs LogModel LogTree LogProofs StreamModel StreamProofs
  PropertiesSnapshot PropertiesLog ChunkModel ChunkProofs.
Ltac Zify.zify_post_hook ::= Z.div_mod_to_equations.
Arguments Nat.pow : simpl never.

(** No cell differs between two instants by more than fits a 64-bit integer. *)
Definition diffs_fit (g : nat -> nat -> nat -> Z) (instants rows cols : nat) : Prop :=
  forall s t, s < t -> t < instants -> diff_fits (g s) (g t) rows cols.

(** The premises of [C06_log_search_partial] on two rasters. *)
Definition searchable (gs gt : nat -> nat -> Z) (rows cols : nat) : Prop :=
  (forall v, all_equal gt rows cols v -> uniform_raster gs rows cols \/ least_value gs rows cols v) /\
  (forall v, uniform_raster gs rows cols -> all_equal gt rows cols v -> 0 <= v)%Z /\
  (forall v, all_equal gs rows cols v -> ~ uniform_raster gt rows cols -> 0 <= v)%Z /\
  (forall d, all_equal (fun r c => gt r c - gs r c)%Z rows cols d -> ~ uniform_raster gt rows cols -> 0 <= d)%Z.
Definition searchable_series (g : nat -> nat -> nat -> Z) (instants rows cols : nat) : Prop :=
  forall s t, s < t -> t < instants -> searchable (g s) (g t) rows cols.

Lemma filter_length_le' {A} (p : A -> bool) l : length (filter p l) <= length l.
Proof. induction l as [|x l IH]; cbn [filter length]; [lia|]. destruct (p x); cbn [length]; lia. Qed.

Section Reads.
  Variables (g : nat -> nat -> nat -> Z) (instants rows cols k e : nat).
  Hypothesis Hk : 2 <= k.
  Hypothesis He : 1 <= e.
  Hypothesis Hmax : Nat.max rows cols <= k ^ e.
  Hypothesis Hg : i64_series g instants rows cols.
  Hypothesis Hd : diffs_fit g instants rows cols.

  Lemma raster_at t : t < instants -> i64_raster (g t) rows cols.
  Proof using Hg. intros Ht r c Hr Hc. apply Hg; assumption. Qed.

  Lemma block_get_ok t0 b i r c : Nat.Even k -> built_block g rows cols k e t0 b -> i <= length (bl_logs b) -> t0 + i < instants ->
    r < rows -> c < cols -> block_get b i r c = Ok (g (t0 + i) r c).
  Proof using Hk He Hmax Hg Hd.
    intros Hev (Es & _ & Hl) Hi Ht Hr Hc. destruct i as [|i]; cbn [block_get].
    - destruct (C01_snapshot_get_any_depth (g t0) rows cols k e Hk He Hmax (raster_at t0 ltac:(lia))) as (s & Es' & H).
      rewrite Es in Es'. injection Es' as <-. replace (t0 + 0) with t0 by lia. auto.
    - destruct (nth_error (bl_logs b) i) as [l|] eqn:En; [|apply nth_error_None in En; lia].
      rewrite (nth_res_ok _ _ _ En). cbn [bind]. specialize (Hl i l En).
      destruct (C04_log_get_partial (g t0) (g (t0 + 1 + i)) rows cols k e Hev Hk He Hmax
        (raster_at t0 ltac:(lia)) (raster_at (t0 + 1 + i) ltac:(lia)) (Hd t0 (t0 + 1 + i) ltac:(lia) ltac:(lia)))
        as (s & l' & Es' & El' & H).
      rewrite Es in Es'. injection Es' as <-. rewrite Hl in El'. injection El' as <-.
      replace (t0 + S i) with (t0 + 1 + i) by lia. auto.
  Qed.

  Lemma block_fill_ok t0 b i top bottom left right : Nat.Even k ->
    built_block g rows cols k e t0 b -> i <= length (bl_logs b) -> t0 + i < instants ->
    window_in top bottom left right rows cols ->
    exists out, block_fill_window b i (rect_new top bottom left right) = Ok out /\
      Permutation out (window_spec (g (t0 + i)) top bottom left right).
  Proof using Hk He Hmax Hg Hd.
    intros Hev (Es & _ & Hl) Hi Ht Hw. destruct i as [|i]; cbn [block_fill_window].
    - destruct (C02_snapshot_fill_window (g t0) rows cols k e top bottom left right Hk He Hmax
        (raster_at t0 ltac:(lia)) Hw) as (s & out & Es' & H & P).
      rewrite Es in Es'. injection Es' as <-. replace (t0 + 0) with t0 by lia. eauto.
    - destruct (nth_error (bl_logs b) i) as [l|] eqn:En; [|apply nth_error_None in En; lia].
      rewrite (nth_res_ok _ _ _ En). cbn [bind]. specialize (Hl i l En).
      destruct (C05_log_fill_window_partial (g t0) (g (t0 + 1 + i)) rows cols k e top bottom left right Hev Hk He Hmax
        (raster_at t0 ltac:(lia)) (raster_at (t0 + 1 + i) ltac:(lia)) (Hd t0 (t0 + 1 + i) ltac:(lia) ltac:(lia)) Hw)
        as (s & l' & out & Es' & El' & H & P).
      rewrite Es in Es'. injection Es' as <-. rewrite Hl in El'. injection El' as <-.
      replace (t0 + S i) with (t0 + 1 + i) by lia. eauto.
  Qed.

  Lemma block_search_ok t0 b i top bottom left right lower upper :
    searchable_series g instants rows cols ->
    built_block g rows cols k e t0 b -> i <= length (bl_logs b) -> t0 + i < instants ->
    window_in top bottom left right rows cols ->
    exists out, block_search_window b i (rect_new top bottom left right) lower upper = Ok out /\
      Permutation out (search_spec (g (t0 + i)) top bottom left right lower upper).
  Proof using Hk He Hmax Hg Hd.
    intros HS (Es & _ & Hl) Hi Ht Hw. destruct i as [|i]; cbn [block_search_window].
    - destruct (C03_snapshot_search (g t0) rows cols k e top bottom left right lower upper Hk He Hmax
        (raster_at t0 ltac:(lia)) Hw) as (s & out & Es' & H & P & _).
      rewrite Es in Es'. injection Es' as <-. replace (t0 + 0) with t0 by lia. eauto.
    - destruct (nth_error (bl_logs b) i) as [l|] eqn:En; [|apply nth_error_None in En; lia].
      rewrite (nth_res_ok _ _ _ En). cbn [bind]. specialize (Hl i l En).
      destruct (HS t0 (t0 + 1 + i) ltac:(lia) ltac:(lia)) as (P1 & P2 & P3 & P4).
      destruct (C06_log_search_partial (g t0) (g (t0 + 1 + i)) rows cols k e top bottom left right lower upper Hk He Hmax
        (raster_at t0 ltac:(lia)) (raster_at (t0 + 1 + i) ltac:(lia)) (Hd t0 (t0 + 1 + i) ltac:(lia) ltac:(lia)) P1 P2 P3 (fun d A B _ _ => P4 d A B) Hw)
        as (s & l' & out & Es' & El' & H & P).
      rewrite Es in Es'. injection Es' as <-. rewrite Hl in El'. injection El' as <-.
      replace (t0 + S i) with (t0 + 1 + i) by lia. eauto.
  Qed.

  Variable blocks : list block.
  Hypothesis HB : built_blocks g rows cols k e 0 blocks.
  Hypothesis HT : total blocks = instants.
  Variables (enc : encoding) (fb : nat).
  Notation c := (chunk_new blocks enc fb).

  Lemma blocks_ne : 0 < instants -> blocks <> [].
  Proof using HT. clear -HT. intros H ->. cbn in HT. lia. Qed.

  Lemma at_ok t : t < instants -> exists b i t0, at_instant blocks t = Ok (b, i) /\
    built_block g rows cols k e t0 b /\ t0 + i = t /\ i <= length (bl_logs b).
  Proof using HB HT.
    clear Hk He Hmax Hg Hd. intros Ht. destruct (built_at g rows cols k e blocks 0 t HB ltac:(lia)) as (b & i & t0 & A & B & C & D & _).
    exists b, i, t0. auto.
  Qed.

  Lemma read_get t r col : Nat.Even k -> t < instants -> r < rows -> col < cols -> chunk_get c t r col = Ok (g t r col).
  Proof using Hk He Hmax Hg Hd HB HT.
    intros Hev Ht Hr Hc. rewrite chunk_get_at by lia. destruct (at_ok t Ht) as (b & i & t0 & E & Hb & Et & Hi).
    rewrite E. cbn [bind fst snd]. rewrite (block_get_ok t0 b i r col Hev Hb Hi ltac:(lia) Hr Hc). congruence.
  Qed.

  Lemma read_cell start end_ r col : Nat.Even k -> start <= end_ -> end_ <= instants -> 0 < instants ->
    r < rows -> col < cols ->
    chunk_fill_cell c start end_ r col = Ok (map (fun t => (t - start, g t r col)) (range start end_)).
  Proof using Hk He Hmax Hg Hd HB HT.
    intros Hev H1 H2 H0 Hr Hc. rewrite chunk_fill_cell_at by (try apply blocks_ne; lia).
    rewrite (flat_mapM_ok _ (fun j => [(j, g (start + j) r col)])).
    - f_equal. unfold range. generalize (end_ - start) as n. intros n.
      assert (G : forall n a, flat_map (fun j => [(j, g (start + j) r col)]) (seq a n) =
        map (fun t => (t - start, g t r col)) (seq (start + a) n)).
      { clear. induction n as [|n IH]; intros a; cbn [seq flat_map map app]; [reflexivity|].
        rewrite IH. replace (S (start + a)) with (start + S a) by lia.
        replace (start + a - start) with a by lia. reflexivity. }
      rewrite G. replace (start + 0) with start by lia. reflexivity.
    - intros j Hj. apply in_seq in Hj. destruct (at_ok (start + j) ltac:(lia)) as (b & i & t0 & E & Hb & Et & Hi).
      rewrite E. cbn [bind fst snd]. rewrite (block_get_ok t0 b i r col Hev Hb Hi ltac:(lia) Hr Hc). cbn [bind]. congruence.
  Qed.

  Lemma read_window start end_ top bottom left right : Nat.Even k -> start <= end_ -> end_ <= instants -> 0 < instants ->
    window_in top bottom left right rows cols ->
    exists out, chunk_fill_window c (cube_new start end_ top bottom left right) = Ok out /\
      Permutation out (window3_spec g start end_ top bottom left right).
  Proof using Hk He Hmax Hg Hd HB HT.
    intros Hev H1 H2 H0 Hw.
    assert (EC : cube_new start end_ top bottom left right = mkCube start end_ top bottom left right).
    { clear -H1 Hw. destruct Hw. unfold cube_new, rearrange. destruct (Nat.ltb_spec end_ start); [lia|].
      destruct (Nat.ltb_spec bottom top); [lia|]. destruct (Nat.ltb_spec right left); [lia|]. reflexivity. }
    rewrite EC, chunk_fill_window_at by (cbn [c_start c_end]; try apply blocks_ne; lia).
    cbn [c_start c_end]. unfold cube_rect. cbn [c_top c_bottom c_left c_right].
    destruct (flat_mapM_perm (fun j => x <- at_instant blocks (start + j) ;;
       out <- block_fill_window (fst x) (snd x) (rect_new top bottom left right) ;;
       Ok (map (fun '(r, c, v) => (j, r, c, v)) out))
       (fun j => map (fun '(r, c, v) => (j, r, c, v)) (window_spec (g (start + j)) top bottom left right))
       (seq 0 (end_ - start))) as (out & Eo & P).
    - intros j Hj. apply in_seq in Hj. destruct (at_ok (start + j) ltac:(lia)) as (b & i & t0 & E & Hb & Et & Hi).
      rewrite E. cbn [bind fst snd].
      destruct (block_fill_ok t0 b i top bottom left right Hev Hb Hi ltac:(lia) Hw) as (o & Eo & P).
      rewrite Eo. cbn [bind]. eexists. split; [reflexivity|]. rewrite Et in P. apply Permutation_map. exact P.
    - exists out. split; [exact Eo|]. eapply perm_trans; [exact P|]. apply Permutation_refl'.
      clear. unfold window3_spec, cells3, range. generalize (end_ - start) as n. intros n.
      assert (G : forall n a,
        flat_map (fun j => map (fun '(r, c, v) => (j, r, c, v)) (window_spec (g (start + j)) top bottom left right)) (seq a n) =
        map (fun '(t, r, c) => (t - start, r - top, c - left, g t r c))
          (flat_map (fun t => map (fun rc => (t, fst rc, snd rc)) (cells top bottom left right)) (seq (start + a) n))).
      { clear n. intros n. induction n as [|m IH]; intros a; cbn [seq flat_map map]; [reflexivity|].
        rewrite map_app, IH. replace (S (start + a)) with (start + S a) by lia. f_equal.
        unfold window_spec. rewrite !map_map. apply map_ext. intros [r c]. cbn [fst snd].
        replace (start + a - start) with a by lia. reflexivity. }
      rewrite G. replace (start + 0) with start by lia. reflexivity.
  Qed.

  Lemma length_cells top bottom left right : length (cells top bottom left right) = (bottom - top) * (right - left).
  Proof.
    clear. unfold cells, range. generalize (bottom - top) as n. intros n. generalize top. induction n as [|n IH]; intros a; [reflexivity|].
    cbn [seq flat_map]. rewrite app_length, IH, map_length, seq_length. lia.
  Qed.

  Lemma read_search start end_ top bottom left right lower upper :
    searchable_series g instants rows cols -> start <= end_ -> end_ <= instants -> 0 < instants ->
    window_in top bottom left right rows cols ->
    exists out, chunk_search c (cube_new start end_ top bottom left right) lower upper = Ok out /\
      Permutation out (search3_spec g start end_ top bottom left right (Z.min lower upper) (Z.max lower upper)).
  Proof using Hk He Hmax Hg Hd HB HT.
    intros HS H1 H2 H0 Hw.
    assert (EC : cube_new start end_ top bottom left right = mkCube start end_ top bottom left right).
    { clear -H1 Hw. destruct Hw. unfold cube_new, rearrange. destruct (Nat.ltb_spec end_ start); [lia|].
      destruct (Nat.ltb_spec bottom top); [lia|]. destruct (Nat.ltb_spec right left); [lia|]. reflexivity. }
    assert (ER : rearrangeZ lower upper = (Z.min lower upper, Z.max lower upper)).
    { clear. unfold rearrangeZ. destruct (Z.ltb_spec upper lower); f_equal; lia. }
    rewrite EC. set (lo := Z.min lower upper) in *. set (up := Z.max lower upper) in *.
    pose (Q := fun t => match (x <- at_instant blocks t ;;
             block_search_window (fst x) (snd x) (rect_new top bottom left right) lo up) with Ok l => l | _ => [] end).
    assert (HQ : forall t, t < instants ->
      answers blocks (rect_new top bottom left right) lo up Q t /\
      Permutation (Q t) (search_spec (g t) top bottom left right lo up)).
    { intros t Ht. destruct (at_ok t Ht) as (b & i & t0 & E & Hb & Et & Hi).
      destruct (block_search_ok t0 b i top bottom left right lo up HS Hb Hi ltac:(lia) Hw) as (o & Eo & P).
      unfold answers, Q. rewrite E. cbn [bind fst snd]. rewrite Eo. split; [reflexivity|]. rewrite Et in P. exact P. }
    rewrite (chunk_search_at blocks enc fb _ lower upper Q); cbn [c_start c_end c_top c_bottom c_left c_right].
    - eexists. split; [reflexivity|].
      unfold search3_spec, cells3. rewrite filter_flat_map. apply flat_map_perm_in.
      intros t Ht. apply in_range in Ht. unfold tag.
      eapply perm_trans; [apply Permutation_map; apply (HQ t); lia|].
      apply Permutation_refl'. clear. unfold search_spec.
      induction (cells top bottom left right) as [|[r c] l IH]; [reflexivity|].
      cbn [filter map fst snd]. destruct (in_bounds lo up (g t r c)); cbn [map fst snd]; rewrite IH; reflexivity.
    - apply blocks_ne. exact H0.
    - exact H1.
    - lia.
    - intros t Ht. unfold cube_rect. cbn [c_top c_bottom c_left c_right]. rewrite ER. cbn [fst snd]. apply HQ. lia.
    - intros t Ht. destruct (HQ t ltac:(lia)) as [_ P]. apply Permutation_length in P. rewrite P.
      unfold search_spec. etransitivity; [apply filter_length_le'|]. rewrite length_cells. apply le_n.
  Qed.
End Reads.

(** ** Shape, end of the series, duplicates *)
Lemma list_sum_total blocks : list_sum (map (fun b => 1 + length (bl_logs b)) blocks) = total blocks.
Proof.
  induction blocks as [|b blocks IH]; [reflexivity|]. rewrite total_cons, <- IH. unfold blen.
  cbn [map]. change (list_sum ((1 + length (bl_logs b)) :: map (fun b0 => 1 + length (bl_logs b0)) blocks))
    with (1 + length (bl_logs b) + list_sum (map (fun b0 => 1 + length (bl_logs b0)) blocks)). lia.
Qed.

Lemma built_shape g instants rows cols k e blocks enc fb : 2 <= k -> 0 < instants -> i64_series g instants rows cols ->
  built_blocks g rows cols k e 0 blocks -> total blocks = instants ->
  chunk_shape (chunk_new blocks enc fb) = Ok (instants, rows, cols).
Proof.
  intros Hk H0 Hg HB HT. unfold chunk_shape. change (ch_blocks (chunk_new blocks enc fb)) with blocks.
  destruct blocks as [|b blocks]; [cbn in HT; lia|]. destruct HB as [(Es & _) _].
  change (nth_res (b :: blocks) 0) with (@Ok block b). cbn [bind].
  assert (H1 : i64_raster (g 0) rows cols) by (intros r c Hr Hc; apply Hg; assumption).
  destruct (snapshot_build_ok (g 0) rows cols k Hk e H1) as (s & ? & ? & ? & ? & Es' & OK).
  rewrite Es in Es'. injection Es' as <-.
  rewrite (so_rows _ _ _ _ _ _ _ _ _ _ OK), (so_cols _ _ _ _ _ _ _ _ _ _ OK).
  change (sum_nat (map (fun b0 => 1 + length (bl_logs b0)) (b :: blocks)))
    with (list_sum (map (fun b0 => 1 + length (bl_logs b0)) (b :: blocks))).
  rewrite list_sum_total, HT. reflexivity.
Qed.

Lemma chunk_get_end blocks enc fb t row col : blocks <> [] -> t = total blocks ->
  chunk_get (chunk_new blocks enc fb) t row col = Panic.
Proof.
  intros Hne Ht. destruct (located_find blocks enc fb t Hne ltac:(lia)) as (bi & off & E & (H1 & H2 & H3 & H4)).
  unfold chunk_get. rewrite E. cbn [bind fst snd]. change (ch_blocks (chunk_new blocks enc fb)) with blocks.
  destruct (nth_error blocks bi) as [b|] eqn:Eb.
  - exfalso. specialize (H3 b eq_refl). pose proof (start_of_S _ _ _ Eb) as HS.
    assert (bi < length blocks) by (apply nth_error_Some; congruence).
    pose proof (start_of_le blocks (S bi) (length blocks) ltac:(lia) (le_n _)) as HL.
    rewrite (start_of_all blocks (length blocks) (le_n _)) in HL. lia.
  - unfold nth_res. rewrite Eb. reflexivity.
Qed.

Lemma NoDup_app' {A} (l1 l2 : list A) : NoDup l1 -> NoDup l2 -> (forall x, In x l1 -> ~ In x l2) -> NoDup (l1 ++ l2).
Proof.
  induction l1 as [|a l1 IH]; intros H1 H2 H; cbn [app]; [exact H2|].
  apply NoDup_cons_iff in H1. destruct H1 as [Ha H1]. constructor.
  - rewrite in_app_iff. intros [X|X]; [auto|]. apply (H a); [left; reflexivity|exact X].
  - apply IH; auto. intros x Hx. apply H. right. exact Hx.
Qed.

Lemma nodup_flat_map {A B} (f : A -> list B) l : NoDup l -> (forall x, In x l -> NoDup (f x)) ->
  (forall x y z, In x l -> In y l -> In z (f x) -> In z (f y) -> x = y) -> NoDup (flat_map f l).
Proof.
  induction l as [|a l IH]; intros Hn Hf Hd; cbn [flat_map]; [constructor|].
  apply NoDup_cons_iff in Hn. destruct Hn as [Ha Hn].
  apply NoDup_app'.
  - apply Hf. left. reflexivity.
  - apply IH; auto.
    + intros x Hx. apply Hf. right. exact Hx.
    + intros x y z Hx Hy. apply Hd; right; assumption.
  - intros z Hz Hz'. apply in_flat_map in Hz'. destruct Hz' as (y & Hy & Hzy).
    apply Ha. rewrite (Hd a y z); auto; [left; reflexivity|right; exact Hy].
Qed.

Lemma cells3_nodup start end_ top bottom left right : NoDup (cells3 start end_ top bottom left right).
Proof.
  unfold cells3. apply nodup_flat_map.
  - unfold range. apply seq_NoDup.
  - intros x _. apply FinFun.Injective_map_NoDup; [intros [a b] [c d] H; cbn in H; congruence|]. apply NoDup_cells.
  - intros x y z _ _ Hx Hy. apply in_map_iff in Hx, Hy. destruct Hx as (? & <- & _), Hy as (? & E & _). congruence.
Qed.

Lemma search3_spec_nodup g start end_ top bottom left right lower upper :
  NoDup (search3_spec g start end_ top bottom left right lower upper).
Proof. unfold search3_spec. apply NoDup_filter. apply cells3_nodup. Qed.
