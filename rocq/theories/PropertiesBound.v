(** * C64: how large an encoded array can be

    [chunk_write] (ChunkModel.v) are the bytes that are stored for an array of integers
    (floats are stored as integers). [k ^ e] is the side of the square that covers the
    rasters. *)
From Verif Require Import Base BaseFacts SnapshotModel SnapshotProofs LogModel StreamModel StreamProofs ChunkModel ChunkStream DetProofs PropertiesSize BoundProofs.
Arguments Nat.pow : simpl never.
Open Scope nat_scope.

(** Whatever the values: at most 16 bytes for every cell of the square, twice what the
    numbers take in memory, and 218 bytes more for each instant. *)
Lemma sum_le {A} (f : A -> nat) b l : Forall (fun x => f x <= b) l -> sum_nat (map f l) <= length l * b.
Proof. induction 1 as [|x l H F IH]; cbn [map length]; [change (sum_nat []) with 0; lia|]. rewrite sum_cons. lia. Qed.
Lemma each_bound get instants rows cols k e enc fb c b : (forall i s, i < instants -> snapshot_build_e (get i) rows cols k e = Ok s -> snapshot_size s <= b) ->
  chunk_build_e get instants rows cols k e enc fb = Ok c -> length (chunk_write (cb_data c)) <= 6 + instants * (1 + b).
Proof.
  intros HB H. destruct (C52_together_never_larger _ _ _ _ _ _ _ _ _ H) as (alone & EA & L).
  assert (HI : 0 < instants) by (unfold chunk_build_e in H; destruct (Nat.eqb_spec instants 0); [discriminate|lia]).
  assert (F : Forall (fun a => length (chunk_write (cb_data a)) <= 7 + b) alone).
  { assert (R : forall i, In i (range 0 instants) -> i < instants) by (intros i Hi; unfold range in Hi; apply in_seq in Hi; lia).
    revert R EA. generalize (range 0 instants). intros l. clear L. revert alone. induction l as [|i l IH]; intros alone R EA; cbn [mapM] in EA; [injection EA as <-; constructor|].
    apply bind_inv in EA. destruct EA as (a & E1 & EA). apply bind_inv in EA. destruct EA as (as' & E2 & EA). injection EA as <-. constructor; [|apply IH; [intros j Hj; apply R; right; exact Hj|exact E2]].
    assert (X : exists s, snapshot_build_e (get i) rows cols k e = Ok s) by (unfold chunk_build_e in E1; cbn [Nat.eqb] in E1; apply bind_inv in E1; destruct E1 as (s & E & _); eauto). destruct X as (s & ES).
    destruct (single_size get rows cols k e enc fb i s ES) as (a' & E1' & SZ). rewrite E1 in E1'. injection E1' as <-. rewrite chunk_write_length, SZ. specialize (HB i s (R i (or_introl eq_refl)) ES). lia. }
  apply sum_le in F. pose proof (mapM_len _ _ _ EA) as LA. unfold range in LA. rewrite seq_length in LA. rewrite LA in F. replace (instants - 0) with instants in F by lia.
  destruct instants as [|n]; [lia|]. cbn [Nat.mul] in *. replace (S n - 1) with n in L by lia. assert (n * (7 + b) = 6 * n + n * (1 + b)) by ring. lia.
Qed.
Theorem C64_bounded : forall get instants rows cols k e enc fb c, 2 <= k -> chunk_build_e get instants rows cols k e enc fb = Ok c ->
  length (chunk_write (cb_data c)) <= 6 + instants * (218 + 16 * (k ^ e * k ^ e)).
Proof.
  intros get instants rows cols k e enc fb c Hk H. change (218 + 16 * (k ^ e * k ^ e)) with (1 + (217 + 16 * (k ^ e * k ^ e))). apply (each_bound get instants rows cols k e enc fb c); [|exact H].
  intros i s _ ES. exact (snapshot_bound _ _ _ _ _ _ Hk ES).
Qed.
(** With the least square: its side is less than [k] times the longer side of the raster. *)
Theorem C64_bounded_by_raster : forall get instants rows cols k enc fb c, 2 <= k -> 0 < rows -> 0 < cols -> chunk_build get instants rows cols k enc fb = Ok c ->
  length (chunk_write (cb_data c)) <= 6 + instants * (218 + 16 * ((k * Nat.max rows cols) * (k * Nat.max rows cols))).
Proof.
  intros get instants rows cols k enc fb c Hk Hr Hc H. pose proof (C64_bounded _ _ _ _ _ _ _ _ _ Hk H) as B. set (n := Nat.max rows cols) in *. assert (Hn : 1 <= n) by (unfold n; lia). clearbody n.
  assert (S : k ^ log_ceil k n <= k * n).
  { destruct (log_ceil k n) as [|e] eqn:L; [change (k ^ 0) with 1; nia|]. rewrite Nat.pow_succ_r'. apply Nat.mul_le_mono_l. pose proof (log_ceil_least k n e Hk). lia. }
  eapply Nat.le_trans; [exact B|]. apply Nat.add_le_mono_l, Nat.mul_le_mono_l, Nat.add_le_mono_l, Nat.mul_le_mono_l, Nat.mul_le_mono; exact S.
Qed.

(** Rasters of one value each: the same few bytes whatever their size. *)
Theorem C64_one_value : forall get instants rows cols k e enc fb c, 2 <= k ->
  (forall t, t < instants -> exists v, forall row col, row < rows -> col < cols -> get t row col = v) ->
  chunk_build_e get instants rows cols k e enc fb = Ok c -> length (chunk_write (cb_data c)) <= 6 + instants * 132.
Proof.
  intros get instants rows cols k e enc fb c Hk HV H. change 132 with (1 + 131). apply (each_bound get instants rows cols k e enc fb c); [|exact H].
  intros i s Hi ES. destruct (HV i Hi) as (v & Hg). exact (snapshot_one _ _ _ _ _ _ _ Hk Hg ES).
Qed.

(** Data that do not change: whatever the raster, 53 bytes for an instant that repeats the
    first, and the first once more after every 255 instants. *)
Theorem C64_unchanged : forall get instants rows cols k e enc fb c first, 2 <= k ->
  (forall t row col, t < instants -> row < rows -> col < cols -> get t row col = get 0 row col) ->
  chunk_build_e get instants rows cols k e enc fb = Ok c -> chunk_build_e get 1 rows cols k e enc fb = Ok first ->
  length (chunk_write (cb_data c)) <= (1 + (instants - 1) / 255) * length (chunk_write (cb_data first)) + 53 * (instants - 1).
Proof.
  intros get instants rows cols k e enc fb c first Hk HS H H1.
  assert (HI : 0 < instants) by (unfold chunk_build_e in H; destruct (Nat.eqb_spec instants 0); [discriminate|lia]).
  rewrite (chunk_build_ext get (fun _ => get 0)) in H by (intros t Ht row col Hr Hc; apply HS; assumption).
  rewrite (chunk_build_ext get (fun _ => get 0)) in H1 by (intros t Ht row col Hr Hc; replace t with 0 by lia; reflexivity).
  assert (X : exists s, snapshot_build_e (get 0) rows cols k e = Ok s) by (unfold chunk_build_e in H1; cbn [Nat.eqb] in H1; apply bind_inv in H1; destruct H1 as (s & E & _); eauto). destruct X as (s & ES).
  destruct (single_size get rows cols k e enc fb 0 s ES) as (a' & E1' & SZ). rewrite H1 in E1'. injection E1' as <-. rewrite !chunk_write_length, SZ.
  unfold chunk_build_e in H. destruct (Nat.eqb_spec instants 0) as [|_]; [lia|]. rewrite ES in H. cbn [bind] in H. apply bind_inv in H. destruct H as (st & EF & H).
  assert (B : exists f, 255 * f <= instants - 1 /\ state_size st <= (1 + snapshot_size s) * (1 + f) + 53 * (instants - 1)).
  { destruct (range 1 instants) as [|i is] eqn:ER.
    - cbn [foldM] in EF. injection EF as <-. exists 0. split; [lia|]. cbn [state_size map]. change (sum_nat []) with 0. lia.
    - assert (L : exists l, log_build_e (get 0) (get 0) rows cols k e = Ok l).
      { cbn [foldM] in EF. apply bind_inv in EF. destruct EF as (st1 & E1 & _). unfold chunk_build_step in E1. rewrite ES in E1. cbn [bind] in E1. apply bind_inv in E1. destruct E1 as (l & EL & _). eauto. }
      destruct L as (l & EL). assert (LR : length (i :: is) = instants - 1) by (rewrite <- ER; unfold range; apply seq_length). rewrite <- LR.
      apply (steps_still _ _ _ _ _ _ _ Hk ES EL _ _ _ 0 0 EF); [cbn [length]; lia|]. cbn [state_size map]. change (sum_nat []) with 0. lia. }
  destruct B as (f & Hf & B). destruct st as [[[[[blocks snap] si] logs] cs] cl]. apply bind_inv in H. destruct H as (b & EB & H). unfold block_new in EB. destruct (254 <? length logs); [discriminate|]. injection EB as <-. injection H as <-.
  unfold chunk_size. cbn [cb_data chunk_new ch_blocks]. rewrite map_app, sum_nat_app. cbn [map]. rewrite sum_one. unfold block_size at 2. cbn [bl_snapshot bl_logs state_size] in *.
  assert (F : f <= (instants - 1) / 255) by (apply Nat.div_le_lower_bound; lia). set (q := (instants - 1) / 255) in *. clearbody q.
  assert ((1 + snapshot_size s) * (1 + f) <= (1 + snapshot_size s) * (1 + q)) by (apply Nat.mul_le_mono_l; lia).
  replace ((1 + q) * (6 + (1 + snapshot_size s))) with (6 * (1 + q) + (1 + snapshot_size s) * (1 + q)) by ring. lia.
Qed.

(** ** Concrete cases *)
Definition ex_still (t r c : nat) : Z := Z.of_nat ((r * 7 + c * 3) mod 11).
Example C64_example : exists c first, chunk_build ex_still 5 8 8 2 EncI64 0 = Ok c /\ chunk_build ex_still 1 8 8 2 EncI64 0 = Ok first /\
  length (chunk_write (cb_data first)) = 172 /\ length (chunk_write (cb_data c)) = 380.
Proof. do 2 eexists. split; [vm_compute; reflexivity|]. split; [vm_compute; reflexivity|]. split; vm_compute; reflexivity. Qed.
Example C64_one_value_example : exists c, chunk_build (fun t _ _ => Z.of_nat (1000 * t)) 3 8 8 2 EncI64 0 = Ok c /\ length (chunk_write (cb_data c)) <= 200.
Proof. eexists. split; [vm_compute; reflexivity|]. apply Nat.leb_le. vm_compute. reflexivity. Qed.

Print Assumptions C64_bounded.
Print Assumptions C64_bounded_by_raster.
Print Assumptions C64_one_value.
Print Assumptions C64_unchanged.
