(** * Property C19: arrays stored as trees of chunks. *)
From Verif Require Import Base BaseFacts Spec GeomModel GeomProofs BitmapModel DacModel DacProofs StreamModel StreamProofs
  SnapshotModel SnapshotProofs ChunkModel ChunkProofs ChunkReads ChunkStream NodeModel NodeProofs SuperModel SuperViews SuperProofs
  SuperInt SuperLinks ArrayModel ArrayProofs PropertiesNode PropertiesChunk.
Ltac Zify.zify_post_hook ::= Z.div_mod_to_equations.
Arguments Nat.pow : simpl never.

(** In the statements below [lc] gives the depth that the code computes for a
    side length (a ceiling of a floating point logarithm); [sizes_ok] (SuperProofs.v)
    says that it is large enough and that the counts it leads to fit 32 bits;
    [log_ceil_sizes] (SuperInt.v) shows it for the exact logarithm.
    [levels_fit] (SuperInt.v) says that the levels add up to the depth, for the
    array and for every sub-array that is split further. [reads_as] and
    [searches_as] are in ArrayProofs.v. [st'] is the store at any later time. *)

(** ** C19: reads of large rasters *)

(** What is missing is false of the code: odd arities and differences that
    overflow 64 bits (as for chunks, C07), and levels that do not fit the
    sub-arrays at the edge (see [C19_ragged_levels_refuted]). *)
Theorem C19_i64_reads_partial : forall hash k lc levels g instants rows cols st,
  (forall b, wf_cid (hash b)) -> 2 <= k -> Nat.Even k -> fits8 k ->
  0 < instants -> 0 < rows -> 0 < cols -> sizes_ok k lc instants (Nat.max rows cols) ->
  levels_fit k lc levels rows cols ->
  i64_series g instants rows cols -> diffs_fit g instants rows cols ->
  exists st2 b, super_build hash elem_i64 k lc levels g instants rows cols 0 st = Ok (st2, b) /\
    incl st st2 /\ wf_mm (mb_data b) /\
    forall st' fuel, incl st2 st' -> functional st' -> S (length levels) <= fuel ->
      reads_as reader_i64 st' fuel (mb_data b) instants rows cols g.
Proof.
  intros hash k lc levels g instants rows cols st Hh Hk Hev Hk8 H0 Hr Hc HS HL Hi Hd.
  destruct (super_builds hash EncI64 k lc Hk levels g instants rows cols 0 st H0 HL Hi) as (st2 & b & E).
  exists st2, b. split; [exact E|]. split; [eapply super_build_incl; eassumption|].
  destruct (super_build_view hash elem_i64 k lc Hh Hk Hk8 (int_single EncI64) int_good int_good_ok levels Hev g instants rows cols 0 st st2 b
    H0 Hr Hc HS (int_all_good 0 _ _ _ _ eq_refl) (int_tiles_ok EncI64 k lc _ g instants rows cols Hi Hd) E) as (HW & _ & He & f & Hf & HV).
  split; [exact HW|]. intros st' fuel HI HF Hfuel.
  apply (view_reads_as reader_i64 st' (S (length levels)) fuel _ _ _ _ f); [exact Hfuel|apply HV; assumption|exact He|].
  intros t r c Ht Hr' Hc'. specialize (Hf t r c Ht Hr' Hc'). destruct Hf as [Hf _]. cbn in Hf. injection Hf as Hf. cbn. symmetry. exact Hf.
Qed.

(** For 32 bit integers the differences always fit. *)
Definition i32_series (g : nat -> nat -> nat -> Z) (instants rows cols : nat) : Prop :=
  forall t r c, t < instants -> r < rows -> c < cols -> i32_range (g t r c).

Theorem C19_i32_reads_partial : forall hash k lc levels g instants rows cols st,
  (forall b, wf_cid (hash b)) -> 2 <= k -> Nat.Even k -> fits8 k ->
  0 < instants -> 0 < rows -> 0 < cols -> sizes_ok k lc instants (Nat.max rows cols) ->
  levels_fit k lc levels rows cols -> i32_series g instants rows cols ->
  exists st2 b, super_build hash elem_i32 k lc levels g instants rows cols 0 st = Ok (st2, b) /\
    incl st st2 /\ wf_mm (mb_data b) /\
    forall st' fuel, incl st2 st' -> functional st' -> S (length levels) <= fuel ->
      reads_as reader_i32 st' fuel (mb_data b) instants rows cols g.
Proof.
  intros hash k lc levels g instants rows cols st Hh Hk Hev Hk8 H0 Hr Hc HS HL H32.
  assert (Hi : i64_series g instants rows cols).
  { intros t r c Ht Hr' Hc'. specialize (H32 t r c Ht Hr' Hc'). unfold i32_range, i64_range, two63 in *. lia. }
  assert (Hd : diffs_fit g instants rows cols).
  { intros s t Hst Ht r c Hr' Hc'. pose proof (H32 s r c ltac:(lia) Hr' Hc'). pose proof (H32 t r c Ht Hr' Hc').
    unfold i32_range, i64_range, two63 in *. lia. }
  destruct (super_builds hash EncI32 k lc Hk levels g instants rows cols 0 st H0 HL Hi) as (st2 & b & E).
  exists st2, b. split; [exact E|]. split; [eapply super_build_incl; eassumption|].
  destruct (super_build_view hash elem_i32 k lc Hh Hk Hk8 (int_single EncI32) int_good int_good_ok levels Hev g instants rows cols 0 st st2 b
    H0 Hr Hc HS (int_all_good 0 _ _ _ _ eq_refl) (int_tiles_ok EncI32 k lc _ g instants rows cols Hi Hd) E) as (HW & _ & He & f & Hf & HV).
  split; [exact HW|]. intros st' fuel HI HF Hfuel.
  apply (view_reads_as reader_i32 st' (S (length levels)) fuel _ _ _ _ f); [exact Hfuel|apply HV; assumption|exact He|].
  intros t r c Ht Hr' Hc'. specialize (Hf t r c Ht Hr' Hc'). destruct Hf as [Hf _]. cbn in Hf. injection Hf as Hf. cbn. rewrite <- Hf.
  apply as_i32_id. auto.
Qed.

(** Levels that always fit: one level or two levels that add up to the depth;
    any levels when the sides are the same power of the arity. *)
Theorem C19_levels : forall k lc, 2 <= k ->
  (forall a rows cols, a = lc (Nat.max rows cols) -> levels_fit k lc [a] rows cols) /\
  (forall a b rows cols, a + b = lc (Nat.max rows cols) -> levels_fit k lc [a; b] rows cols) /\
  (forall levels, (forall n, lc (k ^ n) = n) -> levels <> [] ->
     levels_fit k lc levels (k ^ sum_nat levels) (k ^ sum_nat levels)).
Proof.
  intros k lc Hk. split; [|split].
  - intros a rows cols ->. apply one_level_fits. reflexivity.
  - intros a b rows cols H. apply two_levels_fit. exact H.
  - intros levels H Hne. apply square_levels_fit; assumption.
Qed.

(** With the exact logarithm the premise on the sizes is one inequality. *)
Theorem C19_sizes : forall k instants n, 2 <= k -> fits32 (2 * ((n * k) * (n * k)) * instants) ->
  sizes_ok k (log_ceil k) instants n /\ forall m, log_ceil k (k ^ m) = m.
Proof. intros k instants n Hk H. split; [apply log_ceil_sizes; assumption|intros m; apply log_ceil_pow; exact Hk]. Qed.

(** An array with uniform, repeated and ragged sub-arrays. *)
Definition ex_super (t r c : nat) : Z :=
  if (r <? 4) && (c <? 4) then Z.of_nat t
  else if 8 <=? r then Z.of_nat (r * c + 7 + t) else Z.of_nat (3 * (r mod 4) + c mod 4 + t).
Example C19_example : exists st2 b,
  super_build ex_hash elem_i32 2 (log_ceil 2) [2; 2] ex_super 3 9 10 0 [] = Ok (st2, b) /\
  functional st2 /\ mb_elided b = 8 /\ mb_external b = 5 /\ length st2 = 9 /\
  fits32 (2 * ((10 * 2) * (10 * 2)) * 3) /\ 2 + 2 = log_ceil 2 (Nat.max 9 10) /\ i32_series ex_super 3 9 10 /\
  arr_get reader_i32 st2 3 (mb_data b) 2 5 6 = Ok (3 * 1 + 2 + 2)%Z /\
  arr_get reader_i32 st2 3 (mb_data b) 2 8 9 = Ok 81%Z /\ arr_get reader_i32 st2 3 (mb_data b) 1 3 3 = Ok 1%Z.
Proof.
  do 2 eexists. split; [vm_compute; reflexivity|].
  split; [apply functional_checked; vm_compute; reflexivity|].
  split; [vm_compute; reflexivity|]. split; [vm_compute; reflexivity|]. split; [vm_compute; reflexivity|].
  split; [reflexivity|]. split; [vm_compute; reflexivity|]. split.
  - intros t r c Ht Hr Hc. unfold ex_super, i32_range. assert (r * c <= 81) by nia.
    assert (r mod 4 < 4) by (apply Nat.mod_upper_bound; lia). assert (c mod 4 < 4) by (apply Nat.mod_upper_bound; lia).
    destruct ((r <? 4) && (c <? 4)); [lia|]. destruct (8 <=? r); lia.
  - split; [vm_compute; reflexivity|]. split; vm_compute; reflexivity.
Qed.

(** Levels whose sum is the depth of the array do not fit when a sub-array at
    the edge is less deep than the others: the build panics. *)
Theorem C19_ragged_levels_refuted :
  let g := fun _ r c : nat => Z.of_nat (r * c) in
  sum_nat [1; 1; 3] = log_ceil 2 (Nat.max 19 19) /\ i32_series g 1 19 19 /\
  super_build ex_hash elem_i32 2 (log_ceil 2) [1; 1; 3] g 1 19 19 0 [] = Panic.
Proof.
  cbv zeta. split; [vm_compute; reflexivity|]. split; [|vm_compute; reflexivity].
  intros t r c _ Hr Hc. unfold i32_range. assert (r * c <= 324) by nia. lia.
Qed.

(** Searches. What is missing is false of the code for chunks already (C06, C09):
    [leaves_searchable] (SuperInt.v) asks for each chunk in the tree what C09 asks. *)
Theorem C19_search_partial : forall hash enc k lc levels g instants rows cols st,
  (forall b, wf_cid (hash b)) -> 2 <= k -> Nat.Even k -> fits8 k ->
  0 < instants -> 0 < rows -> 0 < cols -> sizes_ok k lc instants (Nat.max rows cols) ->
  levels_fit k lc levels rows cols ->
  i64_series g instants rows cols -> diffs_fit g instants rows cols ->
  leaves_searchable k lc levels g instants rows cols ->
  exists st2 b, super_build hash (int_elem enc) k lc levels g instants rows cols 0 st = Ok (st2, b) /\
    forall st' fuel, incl st2 st' -> functional st' -> S (length levels) <= fuel ->
      searches_as st' fuel (mb_data b) instants rows cols g.
Proof.
  intros hash enc k lc levels g instants rows cols st Hh Hk Hev Hk8 H0 Hr Hc HS HL Hi Hd Hs.
  destruct (super_builds hash enc k lc Hk levels g instants rows cols 0 st H0 HL Hi) as (st2 & b & E).
  exists st2, b. split; [exact E|]. intros st' fuel HI HF Hfuel.
  destruct (super_build_view hash (int_elem enc) k lc Hh Hk Hk8 (int_single enc) int_good int_good_ok levels Hev g instants rows cols 0 st st2 b
    H0 Hr Hc HS (int_all_good 0 _ _ _ _ eq_refl) (int_tiles_ok enc k lc _ g instants rows cols Hi Hd) E) as (HW & _ & He & f & Hf & HV).
  apply (sview_searches_as st' (S (length levels))); [exact Hfuel|apply (v_shape _ _ _ _ _ _ _ (HV st' HI HF))|].
  exact (super_build_sview hash enc k lc Hh Hk Hk8 levels Hev g instants rows cols 0 st st2 b H0 Hr Hc HS ltac:(reflexivity) Hi Hd Hs E st' HI HF).
Qed.

(** Series of one instant can always be searched. *)
Lemma single_instant_searchable k lc levels : forall g rows cols, leaves_searchable k lc levels g 1 rows cols.
Proof.
  induction levels as [|level sub IH]; intros g rows cols; cbn [leaves_searchable]; [trivial|].
  intros i j _ _. right. destruct (is_leaf _ _ _ _); [|apply IH]. intros s t Hst Ht. lia.
Qed.
Theorem C19_search_single_instant : forall hash enc k lc levels g rows cols st,
  (forall b, wf_cid (hash b)) -> 2 <= k -> Nat.Even k -> fits8 k ->
  0 < rows -> 0 < cols -> sizes_ok k lc 1 (Nat.max rows cols) -> levels_fit k lc levels rows cols ->
  i64_series g 1 rows cols ->
  exists st2 b, super_build hash (int_elem enc) k lc levels g 1 rows cols 0 st = Ok (st2, b) /\
    forall st' fuel, incl st2 st' -> functional st' -> S (length levels) <= fuel ->
      searches_as st' fuel (mb_data b) 1 rows cols g.
Proof.
  intros. apply C19_search_partial; auto.
  - intros s t Hst Ht. lia.
  - apply single_instant_searchable.
Qed.

(** Another case: values that are not negative, and that grow by the same amount everywhere. *)
Lemma growing_searchable k lc levels : forall g instants rows cols,
  (forall t r c, t < instants -> r < rows -> c < cols -> (0 <= g t r c)%Z) ->
  (forall s t, s < t < instants -> exists d, (0 <= d)%Z /\ forall r c, r < rows -> c < cols -> (g t r c = g s r c + d)%Z) ->
  leaves_searchable k lc levels g instants rows cols.
Proof.
  induction levels as [|level sub IH]; intros g instants rows cols Hp Hm; cbn [leaves_searchable]; [trivial|].
  set (side := k ^ (lc (Nat.max rows cols) - level)). intros i j Hi Hj.
  pose proof (tile_h_in rows side i Hi) as Bi. pose proof (tile_h_in cols side j Hj) as Bj. unfold tile_h in Bi, Bj.
  set (h := Nat.min side (rows - i * side)) in *. set (w := Nat.min side (cols - j * side)) in *.
  destruct (Nat.eq_dec (h * w) 0) as [Hz|Hz].
  { left. intros t Ht. exists 0%Z. intros r c Hr Hc. clear -Hz Hr Hc. nia. }
  right. destruct (is_leaf _ _ _ _).
  - intros s t Hst Ht. destruct (Hm s t (conj Hst Ht)) as (d & Hd & Heq).
    assert (Q : forall r c, r < h -> c < w -> (g t (i * side + r)%nat (j * side + c)%nat = g s (i * side + r)%nat (j * side + c)%nat + d)%Z).
    { intros r c Hr Hc. apply Heq; clear -Hr Hc Bi Bj; lia. }
    assert (P : forall t r c, t < instants -> r < h -> c < w -> (0 <= g t (i * side + r)%nat (j * side + c)%nat)%Z).
    { intros t' r c Ht' Hr Hc. apply Hp; clear -Ht' Hr Hc Bi Bj; lia. }
    assert (H1 : 0 < h) by (clear -Hz; nia). assert (W1 : 0 < w) by (clear -Hz; nia).
    split; [|split; [|split]].
    + intros v Hv. left. exists (v - d)%Z. intros r c Hr Hc. specialize (Hv r c Hr Hc). specialize (Q r c Hr Hc). cbn beta in Hv. clear -Hv Q. lia.
    + intros v _ Hv. rewrite <- (Hv 0 0 H1 W1). apply P; assumption.
    + intros v Hv _. rewrite <- (Hv 0 0 H1 W1). apply P; [clear -Hst Ht; lia|assumption|assumption].
    + intros v Hv _. rewrite <- (Hv 0 0 H1 W1). rewrite (Q 0 0 H1 W1). clear -Hd. lia.
  - apply IH.
    + intros t r c Ht Hr Hc. apply Hp; clear -Ht Hr Hc Bi Bj; lia.
    + intros s t Ht. destruct (Hm s t Ht) as (d & Hd & Heq). exists d. split; [exact Hd|].
      intros r c Hr Hc. apply Heq; clear -Hr Hc Bi Bj; lia.
Qed.

Example C19_search_example : leaves_searchable 2 (log_ceil 2) [2; 2] ex_super 3 9 10 /\ exists st2 b,
  super_build ex_hash elem_i32 2 (log_ceil 2) [2; 2] ex_super 3 9 10 0 [] = Ok (st2, b) /\
  arr_search st2 3 (mb_data b) (cube_new 1 3 2 6 3 9) 2%Z 3%Z =
    Ok (map inr [(2, 2, 3); (2, 3, 3); (1, 4, 5); (1, 4, 6); (2, 4, 4); (2, 4, 5); (2, 4, 8)]).
Proof.
  split.
  - apply growing_searchable; unfold ex_super.
    + intros t r c _ _ _. destruct ((r <? 4) && (c <? 4)); [lia|]. destruct (8 <=? r); lia.
    + intros s t H. exists (Z.of_nat (t - s)). split; [lia|]. intros r c _ _. destruct ((r <? 4) && (c <? 4)); [lia|]. destruct (8 <=? r); lia.
  - do 2 eexists. split; [vm_compute; reflexivity|]. vm_compute. reflexivity.
Qed.

Print Assumptions C19_i64_reads_partial.
Print Assumptions C19_i32_reads_partial.
Print Assumptions C19_levels.
Print Assumptions C19_sizes.
Print Assumptions C19_ragged_levels_refuted.
Print Assumptions C19_search_partial.
Print Assumptions C19_search_single_instant.
