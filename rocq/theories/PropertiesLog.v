(** * Properties C04-C06: differential logs. *)
From Verif Require Import Base BaseFacts Spec BitmapModel BitmapProofs DacModel DacProofs
  GeomModel GeomProofs SnapshotModel SnapshotProofs LogModel LogTree LogProofs.
Ltac Zify.zify_post_hook ::= Z.div_mod_to_equations.

(** No cell of the second raster differs from the first by more than fits a
    64-bit integer. *)
Definition diff_fits (gs gt : nat -> nat -> Z) (rows cols : nat) : Prop :=
  forall r c, r < rows -> c < cols -> i64_range (gt r c - gs r c).

Lemma odd_mod32 k n : Nat.Even k -> (exists m, n = 1 + m * (k * k)) -> n mod 32 <> 0.
Proof.
  intros (a & ->) (m & ->) H. apply Nat.mod_divide in H; [|lia]. destruct H as (q & Hq).
  assert (E : 1 + 2 * (m * (a * (2 * a))) = 2 * (16 * q)) by lia. lia.
Qed.

(** ** C04: reading a cell of a log

    What is missing from the full statement (every pair of rasters, every
    arity) is false of the code: see [C04_odd_arity_refuted] and
    [C04_overflow_refuted]. *)
Theorem C04_log_get_partial : forall (gs gt : nat -> nat -> Z) rows cols k e,
  Nat.Even k -> 2 <= k -> 1 <= e -> Nat.max rows cols <= k ^ e ->
  i64_raster gs rows cols -> i64_raster gt rows cols -> diff_fits gs gt rows cols ->
  exists s l, snapshot_build_e gs rows cols k e = Ok s /\ log_build_e gs gt rows cols k e = Ok l /\
    forall r c, r < rows -> c < cols -> log_get l s r c = Ok (gt r c).
Proof.
  intros gs gt rows cols k e Hev Hk He Hmax Hgs Hgt Hd.
  destruct (snapshot_build_ok gs rows cols k Hk e Hgs) as (s & sroot & SV & SV1 & SV2 & Es & SOK).
  destruct (log_build_ok gs gt rows cols k Hk e Hgs Hgt) as (l & root & V & V1 & V2 & El & OK).
  exists s, l. split; [exact Es|]. split; [exact El|]. intros r c Hr Hc.
  assert (H1 : length SV1 mod 32 <> 0) by (eapply odd_mod32; [exact Hev|apply (so_len1 _ _ _ _ _ _ _ _ _ _ SOK He)]).
  assert (H2 : length V1 mod 32 <> 0) by (eapply odd_mod32; [exact Hev|apply (lo_len1 _ _ _ _ _ _ _ _ _ _ _ OK He)]).
  eapply log_get_ok; try eassumption; lia.
Qed.

(** With the depth the code computes. *)
Theorem C04_log_get_code_depth_partial : forall (gs gt : nat -> nat -> Z) rows cols k,
  Nat.Even k -> 2 <= k -> 2 <= Nat.max rows cols ->
  i64_raster gs rows cols -> i64_raster gt rows cols -> diff_fits gs gt rows cols ->
  exists s l, snapshot_build gs rows cols k = Ok s /\ log_build gs gt rows cols k = Ok l /\
    forall r c, r < rows -> c < cols -> log_get l s r c = Ok (gt r c).
Proof.
  intros gs gt rows cols k Hev Hk Hn Hgs Hgt Hd. apply C04_log_get_partial; auto.
  - apply log_ceil_pos; assumption.
  - apply log_ceil_ok; exact Hk.
Qed.

(** For every arity, provided neither node map's length is a multiple of 32. *)
Theorem C04_log_get_any_arity_partial : forall (gs gt : nat -> nat -> Z) rows cols k e s l,
  2 <= k -> 1 <= e -> Nat.max rows cols <= k ^ e ->
  i64_raster gs rows cols -> i64_raster gt rows cols -> diff_fits gs gt rows cols ->
  snapshot_build_e gs rows cols k e = Ok s -> log_build_e gs gt rows cols k e = Ok l ->
  bm_length (s_nodemap s) mod 32 <> 0 -> bm_length (l_nodemap l) mod 32 <> 0 ->
  forall r c, r < rows -> c < cols -> log_get l s r c = Ok (gt r c).
Proof.
  intros gs gt rows cols k e s l Hk He Hmax Hgs Hgt Hd Es El H1 H2 r c Hr Hc.
  destruct (snapshot_build_ok gs rows cols k Hk e Hgs) as (s' & sroot & SV & SV1 & SV2 & Es' & SOK).
  destruct (log_build_ok gs gt rows cols k Hk e Hgs Hgt) as (l' & root & V & V1 & V2 & El' & OK).
  rewrite Es in Es'. injection Es' as <-. rewrite El in El'. injection El' as <-.
  rewrite (proj1 (so_nodemap _ _ _ _ _ _ _ _ _ _ SOK)), map_length in H1.
  rewrite (proj1 (lo_nodemap _ _ _ _ _ _ _ _ _ _ _ OK)), map_length in H2.
  eapply log_get_ok; try eassumption; lia.
Qed.

Definition ex_s (r c : nat) : Z := (Z.of_nat (r * c) - 5)%Z.
Definition ex_t (r c : nat) : Z := if r <? 2 then (Z.of_nat (r * c) - 4)%Z else if c <? 2 then 9%Z else Z.of_nat (r + c).

Lemma ex_raster : i64_raster ex_s 5 6 /\ i64_raster ex_t 5 6 /\ diff_fits ex_s ex_t 5 6.
Proof.
  assert (H : forall r c, r < 5 -> c < 6 -> r * c <= 20) by (intros; nia).
  repeat split; intros; unfold diff_fits, ex_s, ex_t, two63;
    pose proof (H r c ltac:(assumption) ltac:(assumption));
    destruct (r <? 2), (c <? 2); lia.
Qed.

Example C04_example : Nat.Even 2 /\ i64_raster ex_s 5 6 /\ i64_raster ex_t 5 6 /\ diff_fits ex_s ex_t 5 6 /\
  exists s l, snapshot_build ex_s 5 6 2 = Ok s /\ log_build ex_s ex_t 5 6 2 = Ok l /\
    log_get l s 1 1 = Ok (-3)%Z /\ log_get l s 4 5 = Ok 9%Z.
Proof.
  split; [exists 1; reflexivity|]. split; [apply ex_raster|]. split; [apply ex_raster|]. split; [apply ex_raster|].
  do 2 eexists. split; [vm_compute; reflexivity|]. split; [vm_compute; reflexivity|]. split; vm_compute; reflexivity.
Qed.

(** An odd arity: the read of a valid cell panics. *)
Definition g27 (r c : nat) : Z := if (r / 9) * 3 + c / 9 <? 6 then Z.of_nat (r + c) else 7%Z.
Definition h27 (r c : nat) : Z := if (r / 9) * 3 + c / 9 <? 6 then Z.of_nat (r * c) else 7%Z.
Theorem C04_odd_arity_refuted :
  exists s l, snapshot_build g27 27 27 3 = Ok s /\ log_build g27 h27 27 27 3 = Ok l /\
    bm_length (l_nodemap l) = 64 /\ log_get l s 0 0 = Panic.
Proof. do 2 eexists. split; [vm_compute; reflexivity|]. split; [vm_compute; reflexivity|]. split; vm_compute; reflexivity. Qed.

(** Differences that overflow: another value is read. *)
Definition ov_s (r c : nat) : Z := if c =? 0 then 9223372036854775807%Z else 0%Z.
Definition ov_t (r c : nat) : Z := if c =? 0 then (-9223372036854775808)%Z else 1%Z.
Theorem C04_overflow_refuted :
  exists s l v, i64_raster ov_s 2 2 /\ i64_raster ov_t 2 2 /\
    snapshot_build ov_s 2 2 2 = Ok s /\ log_build ov_s ov_t 2 2 2 = Ok l /\
    log_get l s 0 0 = Ok v /\ v <> ov_t 0 0.
Proof.
  do 3 eexists. split; [|split; [|split; [vm_compute; reflexivity|split; [vm_compute; reflexivity|split; [vm_compute; reflexivity|vm_compute; discriminate]]]]].
  - intros r c _ _. unfold ov_s, i64_range, two63. destruct (c =? 0); lia.
  - intros r c _ _. unfold ov_t, i64_range, two63. destruct (c =? 0); lia.
Qed.

(** ** C05: reading a window of a log (same premises, same refutations) *)
Theorem C05_log_fill_window_partial : forall (gs gt : nat -> nat -> Z) rows cols k e top bottom left right,
  Nat.Even k -> 2 <= k -> 1 <= e -> Nat.max rows cols <= k ^ e ->
  i64_raster gs rows cols -> i64_raster gt rows cols -> diff_fits gs gt rows cols ->
  window_in top bottom left right rows cols ->
  exists s l out, snapshot_build_e gs rows cols k e = Ok s /\ log_build_e gs gt rows cols k e = Ok l /\
    log_fill_window l s (rect_new top bottom left right) = Ok out /\
    Permutation out (window_spec gt top bottom left right).
Proof.
  intros gs gt rows cols k e top bottom left right Hev Hk He Hmax Hgs Hgt Hd Hw.
  destruct (snapshot_build_ok gs rows cols k Hk e Hgs) as (s & sroot & SV & SV1 & SV2 & Es & SOK).
  destruct (log_build_ok gs gt rows cols k Hk e Hgs Hgt) as (l & root & V & V1 & V2 & El & OK).
  assert (H1 : length SV1 mod 32 <> 0) by (eapply odd_mod32; [exact Hev|apply (so_len1 _ _ _ _ _ _ _ _ _ _ SOK He)]).
  assert (H2 : length V1 mod 32 <> 0) by (eapply odd_mod32; [exact Hev|apply (lo_len1 _ _ _ _ _ _ _ _ _ _ _ OK He)]).
  assert (ER : rect_new top bottom left right = mkRect top bottom left right).
  { rewrite rect_new_spec. destruct Hw. f_equal; lia. }
  rewrite ER.
  assert (HH : exists out, log_fill_window l s (mkRect top bottom left right) = Ok out /\
     Permutation out (window_spec gt top bottom left right)).
  { eapply log_fill_window_ok; try eassumption; lia. }
  destruct HH as (out & Eo & P). exists s, l, out. auto.
Qed.

Example C05_example : window_in 1 5 2 6 5 6 /\
  exists s l out, snapshot_build ex_s 5 6 2 = Ok s /\ log_build ex_s ex_t 5 6 2 = Ok l /\
    log_fill_window l s (rect_new 1 5 2 6) = Ok out /\ length out = 16 /\ In (3, 3, 9%Z) out.
Proof.
  split; [unfold window_in; lia|]. do 3 eexists. split; [vm_compute; reflexivity|]. split; [vm_compute; reflexivity|].
  split; [vm_compute; reflexivity|]. split; [reflexivity|]. cbn [In]. tauto.
Qed.

(** The same off-by-one: a window of a valid raster panics. *)
Theorem C05_odd_arity_refuted :
  exists s l, snapshot_build g27 27 27 3 = Ok s /\ log_build g27 h27 27 27 3 = Ok l /\
    log_fill_window l s (rect_new 0 1 0 1) = Panic.
Proof. do 2 eexists. split; [vm_compute; reflexivity|]. split; [vm_compute; reflexivity|]. vm_compute; reflexivity. Qed.

(** ** C06: searching a window of a log *)
Definition all_equal (g : nat -> nat -> Z) (rows cols : nat) (v : Z) : Prop :=
  forall r c, r < rows -> c < cols -> g r c = v.
Definition uniform_raster (g : nat -> nat -> Z) (rows cols : nat) : Prop :=
  exists v, all_equal g rows cols v.
(** [v] is the least value of the raster. *)
Definition least_value (g : nat -> nat -> Z) (rows cols : nat) (v : Z) : Prop :=
  (forall r c, r < rows -> c < cols -> (v <= g r c)%Z) /\ exists r c, r < rows /\ c < cols /\ g r c = v.

(** What is missing: the four premises on uniform rasters, each of which is
    shown to be needed below; C06_exactly_when (PropertiesExact.v) shows that they are
    exactly what is needed. *)
Theorem C06_log_search_partial : forall (gs gt : nat -> nat -> Z) rows cols k e top bottom left right lower upper,
  2 <= k -> 1 <= e -> Nat.max rows cols <= k ^ e ->
  i64_raster gs rows cols -> i64_raster gt rows cols -> diff_fits gs gt rows cols ->
  (forall v, all_equal gt rows cols v -> uniform_raster gs rows cols \/ least_value gs rows cols v) ->
  (forall v, uniform_raster gs rows cols -> all_equal gt rows cols v -> 0 <= v)%Z ->
  (forall v, all_equal gs rows cols v -> ~ uniform_raster gt rows cols -> 0 <= v)%Z ->
  (forall d, all_equal (fun r c => gt r c - gs r c)%Z rows cols d -> ~ uniform_raster gt rows cols ->
     (rows = k ^ e)%nat -> (cols = k ^ e)%nat -> 0 <= d)%Z ->
  window_in top bottom left right rows cols ->
  exists s l out, snapshot_build_e gs rows cols k e = Ok s /\ log_build_e gs gt rows cols k e = Ok l /\
    log_search_window l s (rect_new top bottom left right) lower upper = Ok out /\
    Permutation out (search_spec gt top bottom left right lower upper).
Proof.
  intros gs gt rows cols k e top bottom left right lower upper Hk He Hmax Hgs Hgt Hd P1 P2 P3 P4 Hw.
  destruct (snapshot_build_ok gs rows cols k Hk e Hgs) as (s & sroot & SV & SV1 & SV2 & Es & SOK).
  destruct (log_build_ok gs gt rows cols k Hk e Hgs Hgt) as (l & root & V & V1 & V2 & El & OK).
  assert (ER : rect_new top bottom left right = mkRect top bottom left right).
  { rewrite rect_new_spec. destruct Hw. f_equal; lia. }
  rewrite ER.
  assert (HH : exists out, log_search_window l s (mkRect top bottom left right) lower upper = Ok out /\
     Permutation out (search_spec gt top bottom left right lower upper)).
  { eapply (log_search_window_ok gs gt rows cols k Hk Hgs Hgt Hd s e); try eassumption; try lia.
    - intros v v' Hv Hv'. apply (P2 v); [exists v'; exact Hv'|exact Hv].
    - intros v Hv Hn. apply (P3 v Hv). intros (w & Hw'). exact (Hn w Hw').
    - intros d Hdd Hn F1 F2. apply (P4 d); [| |exact F1|exact F2].
      + intros r c R C. cbv beta. rewrite (Hdd r c R C). lia.
      + intros (w & Hw'). exact (Hn w Hw'). }
  destruct HH as (out & Eo & P). exists s, l, out. auto.
Qed.

Example C06_example :
  (forall v, all_equal ex_t 5 6 v -> uniform_raster ex_s 5 6 \/ least_value ex_s 5 6 v) /\
  (forall v, uniform_raster ex_s 5 6 -> all_equal ex_t 5 6 v -> 0 <= v)%Z /\
  (forall v, all_equal ex_s 5 6 v -> ~ uniform_raster ex_t 5 6 -> 0 <= v)%Z /\
  (forall d, all_equal (fun r c => ex_t r c - ex_s r c)%Z 5 6 d -> ~ uniform_raster ex_t 5 6 -> 0 <= d)%Z /\
  exists s l out, snapshot_build ex_s 5 6 2 = Ok s /\ log_build ex_s ex_t 5 6 2 = Ok l /\
    log_search_window l s (rect_new 1 5 2 6) 5 7 = Ok out /\ In (2, 3) out /\ length out = 8.
Proof.
  assert (Hs : forall v, ~ all_equal ex_s 5 6 v).
  { intros v H. pose proof (H 0 0 ltac:(lia) ltac:(lia)) as A. pose proof (H 1 1 ltac:(lia) ltac:(lia)) as B.
    vm_compute in A, B. congruence. }
  assert (Ht : forall v, ~ all_equal ex_t 5 6 v).
  { intros v H. pose proof (H 0 0 ltac:(lia) ltac:(lia)) as A. pose proof (H 1 1 ltac:(lia) ltac:(lia)) as B.
    vm_compute in A, B. congruence. }
  assert (Hd : forall v, ~ all_equal (fun r c => ex_t r c - ex_s r c)%Z 5 6 v).
  { intros v H. pose proof (H 0 0 ltac:(lia) ltac:(lia)) as A. pose proof (H 3 3 ltac:(lia) ltac:(lia)) as B.
    vm_compute in A, B. congruence. }
  split; [intros v H; destruct (Ht v H)|]. split; [intros v (w & H); destruct (Hs w H)|].
  split; [intros v H; destruct (Hs v H)|]. split; [intros v H; destruct (Hd v H)|].
  do 3 eexists. split; [vm_compute; reflexivity|]. split; [vm_compute; reflexivity|].
  split; [vm_compute; reflexivity|]. split; [cbn [In]; tauto|reflexivity].
Qed.

(** Each premise is needed. A 2x2 raster from its four values: *)
Definition two_by_two (a b c d : Z) (row col : nat) : Z :=
  match row, col with 0, 0 => a | 0, _ => b | _, 0 => c | _, _ => d end.
Definition search2 (s t : nat -> nat -> Z) (lower upper : Z) : res (list (nat * nat)) :=
  sn <- snapshot_build s 2 2 2 ;;
  l <- log_build s t 2 2 2 ;;
  log_search_window l sn (rect_new 0 2 0 2) lower upper.

(** A uniform raster stored relative to a varying one: cells are missed. *)
Theorem C06_uniform_log_refuted :
  search2 (two_by_two 1 2 3 4) (two_by_two 4 4 4 4) 4 4 = Ok [(1, 1)] /\
  search_spec (two_by_two 4 4 4 4) 0 2 0 2 4 4 = [(0, 0); (0, 1); (1, 0); (1, 1)].
Proof. split; vm_compute; reflexivity. Qed.

(** Two uniform rasters with a negative value: cells that do not match are returned. *)
Theorem C06_both_uniform_negative_refuted :
  search2 (two_by_two (-1) (-1) (-1) (-1)) (two_by_two (-1) (-1) (-1) (-1)) 0 0
    = Ok [(0, 0); (0, 1); (1, 0); (1, 1)] /\
  search_spec (two_by_two (-1) (-1) (-1) (-1)) 0 2 0 2 0 0 = [].
Proof. split; vm_compute; reflexivity. Qed.

(** A varying raster relative to a negative uniform one: cells are missed. *)
Theorem C06_uniform_negative_snapshot_refuted :
  search2 (two_by_two (-1) (-1) (-1) (-1)) (two_by_two 0 1 2 (-3)) (-3) (-3) = Ok [] /\
  search_spec (two_by_two 0 1 2 (-3)) 0 2 0 2 (-3) (-3) = [(1, 1)].
Proof. split; vm_compute; reflexivity. Qed.

(** Every value dropped by the same amount: cells are missed. *)
Theorem C06_constant_decrease_refuted :
  search2 (two_by_two 1 2 3 4) (two_by_two 0 1 2 3) 0 0 = Ok [] /\
  search_spec (two_by_two 0 1 2 3) 0 2 0 2 0 0 = [(0, 0)].
Proof. split; vm_compute; reflexivity. Qed.

Print Assumptions C04_log_get_partial.
Print Assumptions C04_log_get_code_depth_partial.
Print Assumptions C04_log_get_any_arity_partial.
Print Assumptions C05_log_fill_window_partial.
Print Assumptions C06_log_search_partial.
Print Assumptions C04_odd_arity_refuted.
Print Assumptions C04_overflow_refuted.
Print Assumptions C05_odd_arity_refuted.
Print Assumptions C06_uniform_log_refuted.
Print Assumptions C06_both_uniform_negative_refuted.
Print Assumptions C06_uniform_negative_snapshot_refuted.
Print Assumptions C06_constant_decrease_refuted.
