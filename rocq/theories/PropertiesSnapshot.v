(** * Properties C01-C03, C11, C12, C33: rasters, bitmaps, compressed arrays, rectangles. *)
From Verif Require Import Base BaseFacts Spec BitmapModel BitmapProofs DacModel DacProofs
  GeomModel GeomProofs SnapshotModel SnapshotProofs.

(** ** C11: bitmaps *)
Theorem C11_bitmap_get_rank : forall bits : list bool,
  exists m, bitmap_of bits = Ok m /\
    (forall i b, nth_error bits i = Some b -> bm_get m i = Ok b) /\
    (forall i, i <= length bits -> bm_rank m i = Ok (count_occ Bool.bool_dec (firstn i bits) true)) /\
    (forall i, i <= length bits -> bm_rank0 m i = Ok (count_occ Bool.bool_dec (firstn i bits) false)) /\
    (forall i, length bits < i -> bm_rank m i = Panic).
Proof.
  intros bits. destruct (bitmap_of_ok bits) as (m & E & R). exists m. split; [exact E|].
  split; [|split; [|split]].
  - intros i b Hb. assert (Hi : i < length bits) by (apply nth_error_Some; congruence).
    rewrite (bm_get_ok _ _ _ R Hi). f_equal. apply nth_error_nth. exact Hb.
  - intros i Hi. apply bm_rank_ok; assumption.
  - intros i Hi. apply bm_rank0_ok; assumption.
  - intros i Hi. eapply bm_rank_past; eassumption.
Qed.

(** 140 bits: four and a half words, so the index block is used. *)
Example C11_example :
  exists m, bitmap_of (map Nat.even (seq 0 140)) = Ok m /\ bm_rank m 139 = Ok 70 /\ bm_get m 138 = Ok true.
Proof. eexists. split; [vm_compute; reflexivity|]. split; vm_compute; reflexivity. Qed.

(** What is refuted: reads past the end are not refused inside the last word. *)
Theorem C11_get_past_end_refuted :
  exists bits m i, bitmap_of bits = Ok m /\ length bits <= i /\ bm_get m i = Ok false.
Proof. exists [true]. eexists. exists 1. split; [vm_compute; reflexivity|]. split; vm_compute; [auto|reflexivity]. Qed.

(** ** C12: compressed arrays *)
Theorem C12_dac_random_access : forall data : list Z, Forall i64_range data ->
  exists d, dac_of data = Ok d /\
    (forall i x, nth_error data i = Some x -> dac_get d i = Ok x) /\
    (forall n, 1 <= n <= 8 ->
       (length d <= n <->
        Forall (fun x => - 2 ^ (8 * Z.of_nat n - 1) <= x < 2 ^ (8 * Z.of_nat n - 1))%Z data)) /\
    (forall i, data <> [] -> length data <= i -> dac_get d i = Panic).
Proof.
  intros data HF. destruct (dac_of_ok data) as (d & E & R). exists d. split; [exact E|].
  split; [|split].
  - intros i x Hx. eapply dac_get_ok; eassumption.
  - intros n Hn. apply dac_levels; assumption.
  - intros i Hne Hi. rewrite (dac_get_past _ _ _ R Hi). destruct data; [congruence|reflexivity].
Qed.

Example C12_example : Forall i64_range [0; -1; 300; -9223372036854775808; 9223372036854775807]%Z /\
  exists d, dac_of [0; -1; 300; -9223372036854775808; 9223372036854775807]%Z = Ok d /\
    dac_get d 3 = Ok (-9223372036854775808)%Z /\ length d = 8.
Proof.
  split; [repeat constructor; vm_compute; congruence|].
  eexists. split; [vm_compute; reflexivity|]. split; vm_compute; reflexivity.
Qed.

(** An empty array answers 0 for every index instead of refusing. *)
Theorem C12_empty_array_refuted : exists d, dac_of [] = Ok d /\ forall i, dac_get d i = Ok 0%Z.
Proof. exists []. split; [reflexivity|]. intros i. reflexivity. Qed.

(** ** C01: reading a cell *)

(** For every side length [k^e] that covers the raster. *)
Theorem C01_snapshot_get_any_depth : forall (g : nat -> nat -> Z) rows cols k e,
  2 <= k -> 1 <= e -> Nat.max rows cols <= k ^ e -> i64_raster g rows cols ->
  exists s, snapshot_build_e g rows cols k e = Ok s /\
    forall r c, r < rows -> c < cols -> snap_get s r c = Ok (g r c).
Proof.
  intros g rows cols k e Hk He Hmax Hg.
  destruct (snapshot_build_ok g rows cols k Hk e Hg) as (s & root & V & V1 & V2 & E & OK).
  exists s. split; [exact E|]. intros r c Hr Hc. eapply snap_get_ok; eauto; lia.
Qed.

(** With the depth the code computes (exact logarithm). *)
Theorem C01_snapshot_get : forall (g : nat -> nat -> Z) rows cols k,
  2 <= k -> 2 <= Nat.max rows cols -> i64_raster g rows cols ->
  exists s, snapshot_build g rows cols k = Ok s /\
    forall r c, r < rows -> c < cols -> snap_get s r c = Ok (g r c).
Proof.
  intros g rows cols k Hk Hn Hg. apply C01_snapshot_get_any_depth; auto.
  - apply log_ceil_pos; assumption.
  - apply log_ceil_ok; exact Hk.
Qed.

(** A raster of one cell is encoded but cannot be read. *)
Theorem C01_one_cell_refuted : forall v : Z, i64_range v ->
  exists s, snapshot_build (fun _ _ => v) 1 1 2 = Ok s /\ snap_get s 0 0 = Panic.
Proof.
  intros v Hv. assert (Hr : i64_raster (fun _ _ => v) 1 1) by (intros r c _ _; exact Hv).
  unfold snapshot_build. change (log_ceil 2 (Nat.max 1 1)) with 0.
  destruct (snapshot_build_ok _ 1 1 2 (le_n 2) 0 Hr) as (s & root & V & V1 & V2 & E & OK).
  exists s. split; [exact E|].
  destruct (bm_get (s_nodemap s) 0) eqn:Eb; unfold snap_get; rewrite Eb; try reflexivity;
  pose proof (so_nodemap _ _ _ _ _ _ _ _ _ _ OK) as HB.
  all: assert (HV1 : V1 = []) by (apply (so_leaf _ _ _ _ _ _ _ _ _ _ OK); reflexivity).
  all: rewrite HV1 in HB; rewrite (bm_get_past _ _ 0 HB) in Eb by (cbn; auto);
       change (0 / 32 <? (length (@nil bool) + 31) / 32) with false in Eb; cbv iota in Eb; discriminate.
Qed.

Example C01_example : i64_raster (fun r c => Z.of_nat (r * c) - 5)%Z 5 3 /\
  exists s, snapshot_build (fun r c => Z.of_nat (r * c) - 5)%Z 5 3 2 = Ok s /\
    snap_get s 4 2 = Ok 3%Z /\ snap_get s 0 0 = Ok (-5)%Z.
Proof.
  split.
  - intros r c Hr Hc. unfold i64_range, two63. nia.
  - eexists. split; [vm_compute; reflexivity|]. split; vm_compute; reflexivity.
Qed.

(** ** C02: reading a window *)
Theorem C02_snapshot_fill_window : forall (g : nat -> nat -> Z) rows cols k e top bottom left right,
  2 <= k -> 1 <= e -> Nat.max rows cols <= k ^ e -> i64_raster g rows cols ->
  window_in top bottom left right rows cols ->
  exists s out, snapshot_build_e g rows cols k e = Ok s /\
    snap_fill_window s (rect_new top bottom left right) = Ok out /\
    Permutation out (window_spec g top bottom left right).
Proof.
  intros g rows cols k e top bottom left right Hk He Hmax Hg Hw.
  destruct (snapshot_build_ok g rows cols k Hk e Hg) as (s & root & V & V1 & V2 & E & OK).
  assert (ER : rect_new top bottom left right = mkRect top bottom left right).
  { rewrite rect_new_spec. destruct Hw. f_equal; lia. }
  rewrite ER.
  destruct (snap_fill_window_ok g rows cols k Hk s e root V V1 V2 OK ltac:(lia) ltac:(lia) ltac:(lia)
    top bottom left right Hw) as (out & Eo & P).
  exists s, out. auto.
Qed.

(** No position is written twice. *)
Theorem C02_no_double_write : forall (g : nat -> nat -> Z) top bottom left right,
  NoDup (map fst (window_spec g top bottom left right)).
Proof. exact window_spec_nodup. Qed.

Example C02_example : exists s out, snapshot_build (fun r c => Z.of_nat (r * c))%Z 5 3 2 = Ok s /\
  window_in 1 4 1 3 5 3 /\ snap_fill_window s (rect_new 1 4 1 3) = Ok out /\ length out = 6.
Proof.
  eexists. eexists. split; [vm_compute; reflexivity|]. split; [unfold window_in; lia|].
  split; vm_compute; reflexivity.
Qed.

(** ** C03: searching a window *)
Theorem C03_snapshot_search : forall (g : nat -> nat -> Z) rows cols k e top bottom left right lower upper,
  2 <= k -> 1 <= e -> Nat.max rows cols <= k ^ e -> i64_raster g rows cols ->
  window_in top bottom left right rows cols ->
  exists s out, snapshot_build_e g rows cols k e = Ok s /\
    snap_search_window s (rect_new top bottom left right) lower upper = Ok out /\
    Permutation out (search_spec g top bottom left right lower upper) /\ NoDup out.
Proof.
  intros g rows cols k e top bottom left right lower upper Hk He Hmax Hg Hw.
  destruct (snapshot_build_ok g rows cols k Hk e Hg) as (s & root & V & V1 & V2 & E & OK).
  assert (ER : rect_new top bottom left right = mkRect top bottom left right).
  { rewrite rect_new_spec. destruct Hw. f_equal; lia. }
  rewrite ER.
  destruct (snap_search_window_ok g rows cols k Hk s e root V V1 V2 OK ltac:(lia) ltac:(lia) ltac:(lia)
    top bottom left right lower upper Hw) as (out & Eo & P).
  exists s, out. split; [exact E|]. split; [exact Eo|]. split; [exact P|].
  eapply Permutation_NoDup; [symmetry; exact P|]. apply NoDup_filter, NoDup_cells.
Qed.

Example C03_example : exists s out, snapshot_build (fun r c => Z.of_nat (r * c))%Z 5 3 2 = Ok s /\
  window_in 1 4 1 3 5 3 /\ snap_search_window s (rect_new 1 4 1 3) 3 4 = Ok out /\ length out = 2.
Proof.
  eexists. eexists. split; [vm_compute; reflexivity|]. split; [unfold window_in; lia|].
  split; vm_compute; reflexivity.
Qed.

(** ** C33: rectangles and cubes *)
Theorem C33_rect_corner_order : forall t b l r,
  rect_new t b l r = rect_new b t l r /\ rect_new t b l r = rect_new t b r l.
Proof. intros t b l r. rewrite !rect_new_spec. split; f_equal; lia. Qed.

Theorem C33_cube_corner_order : forall s e t b l r,
  cube_new s e t b l r = cube_new e s t b l r /\ cube_new s e t b l r = cube_new s e b t l r /\
  cube_new s e t b l r = cube_new s e t b r l /\
  cube_rect (cube_new s e t b l r) = rect_new t b l r.
Proof.
  intros s e t b l r. unfold cube_rect. rewrite !cube_new_spec, !rect_new_spec.
  cbn [c_top c_bottom c_left c_right]. repeat split; f_equal; lia.
Qed.

(** The sizes of a cube, whatever the order of its corners. *)
Theorem C33_cube_sizes : forall s e t b l r, let c := cube_new s e t b l r in
  cube_instants c = Ok (Nat.max s e - Nat.min s e) /\ cube_rows c = Ok (Nat.max t b - Nat.min t b) /\
  cube_cols c = Ok (Nat.max l r - Nat.min l r) /\
  rect_rows (cube_rect c) = cube_rows c /\ rect_cols (cube_rect c) = cube_cols c.
Proof.
  intros s e t b l r c. unfold c, cube_instants, cube_rows, cube_cols, rect_rows, rect_cols, cube_rect. rewrite !cube_new_spec, !rect_new_spec.
  cbn [c_start c_end c_top c_bottom c_left c_right r_top r_bottom r_left r_right]. unfold usub.
  repeat split; repeat match goal with |- context [?x <=? ?y] => destruct (Nat.leb_spec x y) end; try lia; f_equal; lia.
Qed.

(** Iterating a rectangle with at least one column. Missing for the full claim:
    rectangles without columns, for which the claim is false (below). *)
Theorem C33_rect_iteration_partial : forall t b l r, l <> r ->
  rect_cells (rect_new t b l r) = Ok (cells (Nat.min t b) (Nat.max t b) (Nat.min l r) (Nat.max l r)) /\
  NoDup (cells (Nat.min t b) (Nat.max t b) (Nat.min l r) (Nat.max l r)) /\
  forall x y, In (x, y) (cells (Nat.min t b) (Nat.max t b) (Nat.min l r) (Nat.max l r)) <->
     Nat.min t b <= x < Nat.max t b /\ Nat.min l r <= y < Nat.max l r.
Proof.
  intros t b l r H. rewrite rect_new_spec. split; [|split].
  - rewrite rect_cells_ok; cbn [r_left r_right r_top r_bottom]; [reflexivity|lia].
  - apply NoDup_cells.
  - intros x y. apply in_cells.
Qed.

(** A rectangle with rows but no column is never exhausted. *)
Theorem C33_empty_columns_refuted : forall t b l, t <> b ->
  forall fuel, rect_iter_run fuel (rect_iter_new (rect_new t b l l)) = Diverge.
Proof.
  intros t b l H fuel. rewrite rect_new_spec. unfold rect_iter_new. cbn [r_top r_bottom r_left r_right].
  apply rect_iter_run_diverges; lia.
Qed.

Example C33_example : rect_cells (rect_new 4 2 7 9) = Ok [(2, 7); (2, 8); (3, 7); (3, 8)].
Proof. reflexivity. Qed.

Print Assumptions C11_bitmap_get_rank.
Print Assumptions C11_get_past_end_refuted.
Print Assumptions C12_dac_random_access.
Print Assumptions C12_empty_array_refuted.
Print Assumptions C01_snapshot_get_any_depth.
Print Assumptions C01_snapshot_get.
Print Assumptions C01_one_cell_refuted.
Print Assumptions C02_snapshot_fill_window.
Print Assumptions C02_no_double_write.
Print Assumptions C03_snapshot_search.
Print Assumptions C33_rect_corner_order.
Print Assumptions C33_cube_corner_order.
Print Assumptions C33_cube_sizes.
Print Assumptions C33_rect_iteration_partial.
Print Assumptions C33_empty_columns_refuted.
