(** * Properties C07-C10: chunks (time series of rasters). *)
From Verif Require Import Base BaseFacts Spec GeomModel GeomProofs SnapshotModel SnapshotProofs LogModel
  PropertiesLog ChunkModel ChunkProofs ChunkReads.
Ltac Zify.zify_post_hook ::= Z.div_mod_to_equations.
Arguments Nat.pow : simpl never.

(** ** C07: every cell of every instant reads back

    What is missing is false of the code for the reasons shown at C04: odd
    arities and differences between instants that overflow 64 bits. *)
Theorem C07_chunk_get_partial : forall (g : nat -> nat -> nat -> Z) instants rows cols k e enc fb,
  Nat.Even k -> 2 <= k -> 1 <= e -> Nat.max rows cols <= k ^ e -> 0 < instants ->
  i64_series g instants rows cols -> diffs_fit g instants rows cols ->
  exists c, chunk_build_e g instants rows cols k e enc fb = Ok c /\
    chunk_shape (cb_data c) = Ok (instants, rows, cols) /\
    cb_snapshots c + cb_logs c = instants /\
    forall t row col, t < instants -> row < rows -> col < cols ->
      chunk_get (cb_data c) t row col = Ok (g t row col).
Proof.
  intros g instants rows cols k e enc fb Hev Hk He Hmax H0 Hg Hd.
  destruct (chunk_build_ok g rows cols k e Hk instants enc fb H0 Hg) as (blocks & ns & nl & E & HB & HT & Hns & Hsum).
  eexists. split; [exact E|]. cbn [cb_data cb_snapshots cb_logs]. split; [|split; [exact Hsum|]].
  - eapply built_shape; eassumption.
  - intros t row col Ht Hr Hc. eapply (read_get g instants rows cols k e); eassumption.
Qed.

(** With the depth the code computes. *)
Theorem C07_chunk_get_code_depth_partial : forall (g : nat -> nat -> nat -> Z) instants rows cols k enc fb,
  Nat.Even k -> 2 <= k -> 2 <= Nat.max rows cols -> 0 < instants ->
  i64_series g instants rows cols -> diffs_fit g instants rows cols ->
  exists c, chunk_build g instants rows cols k enc fb = Ok c /\
    forall t row col, t < instants -> row < rows -> col < cols ->
      chunk_get (cb_data c) t row col = Ok (g t row col).
Proof.
  intros g instants rows cols k enc fb Hev Hk Hn H0 Hg Hd.
  destruct (C07_chunk_get_partial g instants rows cols k (log_ceil k (Nat.max rows cols)) enc fb) as (c & E & _ & _ & H); auto.
  - apply log_ceil_pos; assumption.
  - apply log_ceil_ok; exact Hk.
  - exists c. auto.
Qed.

(** A series that alternates between slow change and jumps. *)
Definition ex_g (t r c : nat) : Z :=
  Z.of_nat (100 * (r * 4 + c) + (if t mod 7 =? 6 then 31 * t * ((r * 5 + c * 3) mod 7)
    else if (r <? 2) && (c <? 2) then t else 0)).

Lemma ex_g_bound t r c : t < 400 -> r < 4 -> c < 4 -> (0 <= ex_g t r c <= 2000000)%Z.
Proof.
  intros Ht Hr Hc. unfold ex_g. assert ((r * 5 + c * 3) mod 7 < 7) by (apply Nat.mod_upper_bound; lia).
  assert (t * ((r * 5 + c * 3) mod 7) <= 400 * 7) by (apply Nat.mul_le_mono; lia).
  rewrite <- Nat.mul_assoc. destruct (t mod 7 =? 6), ((r <? 2) && (c <? 2)); lia.
Qed.
Lemma ex_g_series n : n <= 400 -> i64_series ex_g n 4 4 /\ diffs_fit ex_g n 4 4.
Proof.
  intros Hn. split.
  - intros t r c Ht Hr Hc. pose proof (ex_g_bound t r c ltac:(lia) Hr Hc). unfold i64_range, two63. lia.
  - intros s t Hst Ht r c Hr Hc. pose proof (ex_g_bound t r c ltac:(lia) Hr Hc). pose proof (ex_g_bound s r c ltac:(lia) Hr Hc).
    unfold i64_range, two63. lia.
Qed.

Example C07_example : i64_series ex_g 12 4 4 /\ diffs_fit ex_g 12 4 4 /\
  exists c, chunk_build ex_g 12 4 4 2 EncI64 0 = Ok c /\ cb_snapshots c = 3 /\ cb_logs c = 9 /\
    chunk_get (cb_data c) 6 3 3 = Ok 2058%Z.
Proof.
  destruct (ex_g_series 12 ltac:(lia)) as [A B]. split; [exact A|]. split; [exact B|].
  eexists. split; [vm_compute; reflexivity|]. split; [vm_compute; reflexivity|]. split; vm_compute; reflexivity.
Qed.

(** More instants than one block can hold. *)
Example C07_long_example : exists c, chunk_build (fun t r c => Z.of_nat (t + r * c)) 300 2 2 2 EncI64 0 = Ok c /\
  chunk_get (cb_data c) 299 1 1 = Ok 300%Z.
Proof. eexists. split; [vm_compute; reflexivity|]. vm_compute; reflexivity. Qed.

(** Without the premise on the differences, another value is read. *)
Definition ov_series (t r c : nat) : Z :=
  if (r <? 4) && (c <? 4) then
    if t =? 0 then (if r =? 0 then 9223372036854775807%Z else 0%Z)
    else (if r =? 0 then (-9223372036854775808)%Z else 1%Z)
  else Z.of_nat (1000 * r * c).
Theorem C07_overflow_refuted :
  i64_series ov_series 2 8 8 /\
  exists t r c b v, t < 2 /\ r < 8 /\ c < 8 /\ chunk_build ov_series 2 8 8 2 EncI64 0 = Ok b /\
    chunk_get (cb_data b) t r c = Ok v /\ v <> ov_series t r c.
Proof.
  split.
  - intros t r c Ht Hr Hc. unfold ov_series. assert (r * c <= 49) by nia.
    destruct ((r <? 4) && (c <? 4)), (t =? 0), (r =? 0); unfold i64_range, two63; lia.
  - exists 1, 0, 0. do 2 eexists. split; [lia|]. split; [lia|]. split; [lia|].
    split; [vm_compute; reflexivity|]. split; [vm_compute; reflexivity|]. vm_compute; discriminate.
Qed.

(** ** C08: a cell's history, and windows *)
Theorem C08_chunk_fill_cell_partial : forall (g : nat -> nat -> nat -> Z) instants rows cols k e enc fb,
  Nat.Even k -> 2 <= k -> 1 <= e -> Nat.max rows cols <= k ^ e -> 0 < instants ->
  i64_series g instants rows cols -> diffs_fit g instants rows cols ->
  exists c, chunk_build_e g instants rows cols k e enc fb = Ok c /\
    forall start end_ row col, start <= end_ -> end_ <= instants -> row < rows -> col < cols ->
      chunk_fill_cell (cb_data c) start end_ row col =
      Ok (map (fun t => (t - start, g t row col)) (range start end_)).
Proof.
  intros g instants rows cols k e enc fb Hev Hk He Hmax H0 Hg Hd.
  destruct (chunk_build_ok g rows cols k e Hk instants enc fb H0 Hg) as (blocks & ns & nl & E & HB & HT & _).
  eexists. split; [exact E|]. cbn [cb_data]. intros. eapply (read_cell g instants rows cols k e); eassumption.
Qed.

Theorem C08_chunk_fill_window_partial : forall (g : nat -> nat -> nat -> Z) instants rows cols k e enc fb,
  Nat.Even k -> 2 <= k -> 1 <= e -> Nat.max rows cols <= k ^ e -> 0 < instants ->
  i64_series g instants rows cols -> diffs_fit g instants rows cols ->
  exists c, chunk_build_e g instants rows cols k e enc fb = Ok c /\
    forall start end_ top bottom left right, start <= end_ -> end_ <= instants ->
      window_in top bottom left right rows cols ->
      exists out, chunk_fill_window (cb_data c) (cube_new start end_ top bottom left right) = Ok out /\
        Permutation out (window3_spec g start end_ top bottom left right).
Proof.
  intros g instants rows cols k e enc fb Hev Hk He Hmax H0 Hg Hd.
  destruct (chunk_build_ok g rows cols k e Hk instants enc fb H0 Hg) as (blocks & ns & nl & E & HB & HT & _).
  eexists. split; [exact E|]. cbn [cb_data]. intros. eapply (read_window g instants rows cols k e); eassumption.
Qed.

Example C08_example : exists c out, chunk_build ex_g 12 4 4 2 EncI64 0 = Ok c /\
  chunk_fill_cell (cb_data c) 4 8 1 1 = Ok [(0, 504%Z); (1, 505%Z); (2, 686%Z); (3, 507%Z)] /\
  window_in 1 3 0 4 4 4 /\ chunk_fill_window (cb_data c) (cube_new 2 9 1 3 0 4) = Ok out /\
  length out = 56 /\ In (4, 1, 2, 1372%Z) out.
Proof.
  do 2 eexists. split; [vm_compute; reflexivity|]. split; [vm_compute; reflexivity|]. split; [unfold window_in; lia|].
  split; [vm_compute; reflexivity|]. split; [reflexivity|]. cbn [In]. tauto.
Qed.

(** ** C09: searching a cube, the bounds given in either order *)
Theorem C09_chunk_search_partial : forall (g : nat -> nat -> nat -> Z) instants rows cols k e enc fb,
  2 <= k -> 1 <= e -> Nat.max rows cols <= k ^ e -> 0 < instants ->
  i64_series g instants rows cols -> diffs_fit g instants rows cols -> searchable_series g instants rows cols ->
  exists c, chunk_build_e g instants rows cols k e enc fb = Ok c /\
    forall start end_ top bottom left right lower upper, start <= end_ -> end_ <= instants ->
      window_in top bottom left right rows cols ->
      exists out, chunk_search (cb_data c) (cube_new start end_ top bottom left right) lower upper = Ok out /\
        Permutation out (search3_spec g start end_ top bottom left right (Z.min lower upper) (Z.max lower upper)) /\
        NoDup out.
Proof.
  intros g instants rows cols k e enc fb Hk He Hmax H0 Hg Hd HS.
  destruct (chunk_build_ok g rows cols k e Hk instants enc fb H0 Hg) as (blocks & ns & nl & E & HB & HT & _).
  eexists. split; [exact E|]. cbn [cb_data]. intros start end_ top bottom left right lower upper H1 H2 Hw.
  destruct (read_search g instants rows cols k e Hk He Hmax Hg Hd blocks HB HT enc fb start end_ top bottom left right
    lower upper HS H1 H2 H0 Hw) as (out & Eo & P).
  exists out. split; [exact Eo|]. split; [exact P|]. eapply Permutation_NoDup; [apply Permutation_sym; exact P|].
  apply search3_spec_nodup.
Qed.

Lemma ex_g_searchable n : n <= 400 -> searchable_series ex_g n 4 4.
Proof.
  intros Hn s t Hst Ht.
  assert (HU : forall t v, ~ all_equal (ex_g t) 4 4 v).
  { intros u v H. pose proof (H 0 0 ltac:(lia) ltac:(lia)) as A. pose proof (H 1 3 ltac:(lia) ltac:(lia)) as B.
    unfold ex_g in A, B. destruct (u mod 7 =? 6); change ((0 * 5 + 0 * 3) mod 7) with 0 in A;
      change ((1 * 5 + 3 * 3) mod 7) with 0 in B;
      change ((0 <? 2) && (0 <? 2)) with true in A; change ((1 <? 2) && (3 <? 2)) with false in B; cbv iota in A, B; [lia|].
    pose proof (H 0 2 ltac:(lia) ltac:(lia)) as C. unfold ex_g in C. destruct (u mod 7 =? 6);
      change ((0 <? 2) && (2 <? 2)) with false in C; change ((0 * 5 + 2 * 3) mod 7) with 6 in C; cbv iota in C; lia. }
  split; [intros v H; destruct (HU t v H)|].
  split; [intros v _ H; destruct (HU t v H)|].
  split; [intros v H; destruct (HU s v H)|].
  intros d Hd _. pose proof (Hd 1 3 ltac:(lia) ltac:(lia)) as A. cbv beta in A. unfold ex_g in A.
  change ((1 * 5 + 3 * 3) mod 7) with 0 in A. change ((1 <? 2) && (3 <? 2)) with false in A. cbv iota in A.
  destruct (t mod 7 =? 6), (s mod 7 =? 6); lia.
Qed.

Example C09_example : searchable_series ex_g 12 4 4 /\
  exists c out, chunk_build ex_g 12 4 4 2 EncI64 0 = Ok c /\
    chunk_search (cb_data c) (cube_new 3 9 0 4 1 4) 1300 500 = Ok out /\ In (6, 0, 3) out /\ length out = 39.
Proof.
  split; [apply ex_g_searchable; lia|]. do 2 eexists. split; [vm_compute; reflexivity|].
  split; [vm_compute; reflexivity|]. split; [cbn [In]; tauto|reflexivity].
Qed.

(** Without the premises on uniform rasters cells are missed, through the
    encoder's own choices. *)
Definition flat_series (t r c : nat) : Z :=
  if t =? 0 then two_by_two 201 202 203 204 r c else 204%Z.
Theorem C09_uniform_refuted :
  exists b, chunk_build flat_series 2 2 2 2 EncI64 0 = Ok b /\
    chunk_search (cb_data b) (cube_new 1 2 0 2 0 2) 204 204 = Ok [(1, 1, 1)] /\
    search3_spec flat_series 1 2 0 2 0 2 204 204 = [(1, 0, 0); (1, 0, 1); (1, 1, 0); (1, 1, 1)].
Proof. eexists. split; [vm_compute; reflexivity|]. split; vm_compute; reflexivity. Qed.

(** ** C10: locating an instant *)

(** Whatever the lengths of the blocks. *)
Theorem C10_find_block : forall (blocks : list block) enc fb t,
  t < list_sum (map (fun b => 1 + length (bl_logs b)) blocks) ->
  exists i off b, find_block (chunk_new blocks enc fb) t = Ok (i, off) /\
    nth_error blocks i = Some b /\ off < 1 + length (bl_logs b) /\
    t = list_sum (map (fun b => 1 + length (bl_logs b)) (firstn i blocks)) + off.
Proof.
  intros blocks enc fb t Ht. rewrite list_sum_total in Ht.
  assert (Hne : blocks <> []) by (intros ->; cbn in Ht; lia).
  destruct (located_find blocks enc fb t Hne ltac:(lia)) as (i & off & E & HL).
  destruct (located_block _ _ _ _ HL Ht) as (b & Hb & Ho & _). destruct HL as (HE & _).
  exists i, off, b. split; [exact E|]. split; [exact Hb|]. split; [unfold blen in Ho; lia|].
  rewrite list_sum_total. exact HE.
Qed.

(** An instant past the end never yields data: the instant just past the end
    panics, later ones keep the search running for ever. *)
Theorem C10_past_end_no_data : forall (blocks : list block) enc fb t row col,
  blocks <> [] -> list_sum (map (fun b => 1 + length (bl_logs b)) blocks) <= t ->
  forall v, chunk_get (chunk_new blocks enc fb) t row col <> Ok v.
Proof.
  intros blocks enc fb t row col Hne Ht v. rewrite list_sum_total in Ht.
  destruct (Nat.eq_dec t (total blocks)) as [E|E].
  - rewrite (chunk_get_end blocks enc fb t row col Hne E). discriminate.
  - unfold chunk_get, find_block. rewrite (find_block_past blocks enc fb t _ Hne) by lia. cbn [bind]. discriminate.
Qed.

(** Termination fails past the end: no number of steps is enough. *)
Theorem C10_past_end_diverges_refuted : forall (blocks : list block) enc fb t,
  blocks <> [] -> list_sum (map (fun b => 1 + length (bl_logs b)) blocks) < t ->
  forall steps, find_block_fuel steps (chunk_new blocks enc fb) t = Diverge.
Proof. intros blocks enc fb t Hne Ht steps. rewrite list_sum_total in Ht. apply find_block_past; assumption. Qed.

Example C10_example : exists c, chunk_build ex_g 12 4 4 2 EncI64 0 = Ok c /\
  map (fun b => 1 + length (bl_logs b)) (ch_blocks (cb_data c)) = [6; 1; 5] /\
  find_block (cb_data c) 9 = Ok (2, 2) /\ find_block (cb_data c) 6 = Ok (1, 0) /\ find_block (cb_data c) 13 = Diverge.
Proof.
  eexists. split; [vm_compute; reflexivity|]. split; [vm_compute; reflexivity|]. split; [vm_compute; reflexivity|].
  split; vm_compute; reflexivity.
Qed.

Print Assumptions C07_chunk_get_partial.
Print Assumptions C07_chunk_get_code_depth_partial.
Print Assumptions C08_chunk_fill_cell_partial.
Print Assumptions C08_chunk_fill_window_partial.
Print Assumptions C09_chunk_search_partial.
Print Assumptions C10_find_block.
Print Assumptions C10_past_end_no_data.
Print Assumptions C07_overflow_refuted.
Print Assumptions C09_uniform_refuted.
Print Assumptions C10_past_end_diverges_refuted.
