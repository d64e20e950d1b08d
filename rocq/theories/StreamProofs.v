(** * Proofs about serialization: round trips, sizes, truncation. *)
From Verif Require Import Base BaseFacts BitmapModel BitmapProofs DacModel DacProofs
  Spec SnapshotModel SnapshotProofs LogModel LogTree StreamModel.
Ltac Zify.zify_post_hook ::= Z.div_mod_to_equations.
Arguments Nat.pow : simpl never.

(** ** Big endian integers *)
Lemma length_le_bytes n : forall v, length (le_bytes n v) = n.
Proof. induction n as [|n IH]; intros v; cbn [le_bytes length]; [reflexivity|]. rewrite IH. reflexivity. Qed.
Lemma length_be_bytes n v : length (be_bytes n v) = n.
Proof. unfold be_bytes. rewrite rev_length. apply length_le_bytes. Qed.

Lemma be_value_snoc b x : be_value (b ++ [x]) = (be_value b * 256 + x)%N.
Proof. unfold be_value. rewrite fold_left_app. reflexivity. Qed.

Lemma be_value_bytes n : forall v, be_value (be_bytes n v) = (v mod 256 ^ N.of_nat n)%N.
Proof.
  induction n as [|n IH]; intros v.
  - cbn. rewrite N.mod_1_r. reflexivity.
  - unfold be_bytes in *. cbn [le_bytes rev]. rewrite be_value_snoc, IH.
    rewrite Nat2N.inj_succ, N.pow_succ_r'. rewrite N.mod_mul_r by (try apply N.pow_nonzero; discriminate).
    lia.
Qed.

Lemma be_value_id n v : (v < 256 ^ N.of_nat n)%N -> be_value (be_bytes n v) = v.
Proof. intros H. rewrite be_value_bytes. apply N.mod_small. exact H. Qed.

Definition is_byte (b : N) : Prop := (b < 256)%N.
Lemma be_bytes_are_bytes n v : Forall is_byte (be_bytes n v).
Proof.
  unfold be_bytes. apply Forall_rev. revert v; induction n as [|n IH]; intros v; cbn [le_bytes]; constructor; auto.
  unfold is_byte. apply N.mod_lt. discriminate.
Qed.

(** ** Readers *)

(** [reads r w a]: reader [r] run on a stream that starts with the bytes [w]
    returns [a] and leaves the rest of the stream. *)
Definition reads {A} (r : reader A) (w : bytes) (a : A) : Prop :=
  forall rest, r (w ++ rest) = Ok (a, rest).

(** [stops r w t]: reader [r] run on a proper prefix of [w] fails, unless the
    prefix lacks at most the last [t] bytes, in which case something is
    returned all the same. *)
Definition stops {A} (r : reader A) (w : bytes) (t : nat) : Prop :=
  forall n, n < length w ->
    (n + t < length w -> exists e, r (firstn n w) = Err e) /\
    (length w <= n + t -> exists a, r (firstn n w) = Ok (a, [])).

Definition fails_at_end {A} (r : reader A) : Prop := exists e, r [] = Err e.

Lemma reads_ret {A} (a : A) : reads (rret a) [] a.
Proof. intros rest. reflexivity. Qed.

Lemma reads_bind {A B} (r : reader A) (f : A -> reader B) w1 w2 a b :
  reads r w1 a -> reads (f a) w2 b -> reads (rbind r f) (w1 ++ w2) b.
Proof. intros H1 H2 rest. unfold rbind. rewrite <- app_assoc, H1. cbn [bind fst snd]. apply H2. Qed.

Lemma reads_bind_ret {A B} (r : reader A) (f : A -> B) w a :
  reads r w a -> reads (rbind r (fun x => rret (f x))) w (f a).
Proof. intros H rest. unfold rbind. rewrite H. reflexivity. Qed.

Lemma reads_map {A B} (r : reader A) (f : A -> B) w a b :
  reads r w a -> f a = b -> reads (rbind r (fun x => rret (f x))) w b.
Proof. intros H <-. apply reads_bind_ret. exact H. Qed.

Lemma reads_fail_ok {A} (a : A) : reads (rfail (Ok a)) [] a.
Proof. intros rest. reflexivity. Qed.

Lemma reads_exact w : reads (read_exact (length w)) w w.
Proof.
  intros rest. unfold read_exact. rewrite app_length.
  destruct (Nat.leb_spec (length w) (length w + length rest)); [|lia].
  rewrite firstn_app, firstn_all, Nat.sub_diag, app_nil_r, skipn_app, skipn_all, Nat.sub_diag. reflexivity.
Qed.

Lemma reads_take w : reads (read_take (length w)) w w.
Proof.
  intros rest. unfold read_take.
  rewrite firstn_app, firstn_all, Nat.sub_diag, app_nil_r, skipn_app, skipn_all, Nat.sub_diag. reflexivity.
Qed.

Lemma reads_many {A} (r : reader A) (w : A -> bytes) l :
  (forall x, In x l -> reads r (w x) x) -> reads (rmany (length l) r) (flat_map w l) l.
Proof.
  induction l as [|x l IH]; intros H; cbn [length rmany flat_map]; [apply reads_ret|].
  apply reads_bind with (a := x); [apply H; left; reflexivity|].
  apply reads_bind_ret. apply IH. intros y Hy. apply H. right. exact Hy.
Qed.

(** Truncation *)
Lemma stops_bind {A B} (r : reader A) (f : A -> reader B) w1 w2 a t1 t2 :
  reads r w1 a -> stops r w1 t1 -> (forall a', fails_at_end (f a')) ->
  stops (f a) w2 t2 -> t2 < length w2 -> stops (rbind r f) (w1 ++ w2) t2.
Proof.
  intros HR H1 HF H2 Ht n Hn. rewrite app_length in *. rewrite firstn_app. unfold rbind.
  destruct (Nat.lt_ge_cases n (length w1)) as [Hl|Hl].
  - replace (n - length w1) with 0 by lia. rewrite firstn_O, app_nil_r.
    split; [|lia]. intros _.
    destruct (H1 n Hl) as [He Ho]. destruct (Nat.lt_ge_cases (n + t1) (length w1)) as [H|H].
    + destruct (He H) as (e & ->). exists e. reflexivity.
    + destruct (Ho H) as (a' & ->). cbn [bind fst snd]. destruct (HF a') as (e & ->). exists e. reflexivity.
  - rewrite (firstn_all2 w1) by exact Hl. rewrite HR. cbn [bind fst snd].
    destruct (H2 (n - length w1) ltac:(lia)) as [He Ho].
    split; intros H; [apply He|apply Ho]; lia.
Qed.

Lemma stops_bind0 {A B} (r : reader A) (f : A -> reader B) w1 w2 a t2 :
  reads r w1 a -> stops r w1 0 -> stops (f a) w2 t2 -> t2 <= length w2 ->
  stops (rbind r f) (w1 ++ w2) t2.
Proof.
  intros HR H1 H2 Ht n Hn. rewrite app_length in *. rewrite firstn_app. unfold rbind.
  destruct (Nat.lt_ge_cases n (length w1)) as [Hl|Hl].
  - replace (n - length w1) with 0 by lia. rewrite firstn_O, app_nil_r.
    split; [|lia]. intros _.
    destruct (H1 n Hl) as [He _]. destruct He as (e & ->); [lia|]. exists e. reflexivity.
  - rewrite (firstn_all2 w1) by exact Hl. rewrite HR. cbn [bind fst snd].
    destruct (H2 (n - length w1) ltac:(lia)) as [He Ho].
    split; intros H; [apply He|apply Ho]; lia.
Qed.

Lemma stops_nil {A} (r : reader A) t : stops r [] t.
Proof. intros n Hn. cbn in Hn. lia. Qed.

Lemma stops_map {A B} (r : reader A) (f : A -> B) w t :
  stops r w t -> stops (rbind r (fun x => rret (f x))) w t.
Proof.
  intros H n Hn. destruct (H n Hn) as [He Ho]. unfold rbind. split; intros Hc.
  - destruct (He Hc) as (e & ->). exists e. reflexivity.
  - destruct (Ho Hc) as (a & ->). exists (f a). reflexivity.
Qed.

Lemma stops_exact n w : length w = n -> stops (read_exact n) w 0.
Proof.
  intros Hw m Hm. unfold read_exact. rewrite firstn_length. split; [|lia]. intros _.
  destruct (Nat.leb_spec n (Nat.min m (length w))); [lia|]. exists EIo. reflexivity.
Qed.

Lemma stops_take n w : length w = n -> stops (read_take n) w (length w).
Proof.
  intros Hw m Hm. unfold read_take. split; [lia|]. intros _.
  exists (firstn n (firstn m w)). rewrite skipn_all2; [reflexivity|]. rewrite firstn_length. lia.
Qed.

Lemma stops_weaken {A} (r : reader A) w t t' :
  (forall n, n < length w -> n + t < length w <-> n + t' < length w) -> stops r w t -> stops r w t'.
Proof.
  intros Ht H n Hn. destruct (H n Hn) as [He Ho]. specialize (Ht n Hn).
  split; intros Hc; [apply He|apply Ho]; lia.
Qed.

(** The last element of a list of objects decides the tolerance. *)
Definition last_tail {A} (t : A -> nat) (l : list A) : nat :=
  match rev l with [] => 0 | x :: _ => t x end.

Lemma last_tail_cons {A} (t : A -> nat) x y l : last_tail t (x :: y :: l) = last_tail t (y :: l).
Proof.
  unfold last_tail. change (x :: y :: l) with ([x] ++ (y :: l)). rewrite rev_app_distr.
  destruct (rev (y :: l)) eqn:E; [|reflexivity].
  apply (f_equal (@length A)) in E. rewrite rev_length in E. discriminate.
Qed.

Lemma last_tail_lt {A} (t : A -> nat) (w : A -> bytes) (l : list A) :
  l <> [] -> (forall x, In x l -> t x < length (w x)) -> last_tail t l < length (flat_map w l).
Proof.
  intros Hl H. destruct l as [|x l]; [congruence|]. clear Hl. revert x H.
  induction l as [|y l IH]; intros x H.
  - cbn. rewrite app_nil_r. apply H. left. reflexivity.
  - rewrite last_tail_cons. cbn [flat_map] in *. rewrite app_length.
    specialize (IH y ltac:(intros z Hz; apply H; right; exact Hz)). lia.
Qed.

Lemma stops_many {A} (r : reader A) (w : A -> bytes) (t : A -> nat) l :
  fails_at_end r ->
  (forall x, In x l -> reads r (w x) x /\ stops r (w x) (t x) /\ t x < length (w x)) ->
  stops (rmany (length l) r) (flat_map w l) (last_tail t l).
Proof.
  intros HF. induction l as [|x l IH]; intros H.
  - intros n Hn. cbn in Hn. lia.
  - destruct (H x (or_introl eq_refl)) as (HR & HS & HT).
    destruct l as [|y l].
    + cbn [length rmany flat_map last_tail rev app]. rewrite app_nil_r.
      intros n Hn. destruct (HS n Hn) as [He Ho]. unfold rbind. split; intros Hc.
      * destruct (He Hc) as (e & ->). exists e. reflexivity.
      * destruct (Ho Hc) as (a & ->). cbn. exists [a]. reflexivity.
    + rewrite last_tail_cons. cbn [length rmany flat_map].
      eapply (stops_bind r _ (w x) _ x (t x)); try eassumption.
      * intros a'. destruct HF as (e & E). exists e. cbn [rmany]. unfold rbind. rewrite E. reflexivity.
      * apply (stops_map (rmany (S (length l)) r)). apply IH. intros z Hz. apply H. right. exact Hz.
      * apply (last_tail_lt t w (y :: l)); [congruence|]. intros z Hz. apply H. right. exact Hz.
Qed.

(** ** Primitive fields *)
Lemma length_write_u32 v : length (write_u32 v) = 4.
Proof. apply length_be_bytes. Qed.
Lemma length_write_byte v : length (write_byte v) = 1.
Proof. apply length_be_bytes. Qed.

Lemma reads_be n v : (v < 256 ^ N.of_nat n)%N ->
  reads (rbind (read_exact n) (fun b => rret (be_value b))) (be_bytes n v) v.
Proof.
  intros H. rewrite <- (be_value_id n v H) at 2. apply (reads_bind_ret _ be_value).
  rewrite <- (length_be_bytes n v) at 1. apply reads_exact.
Qed.

Lemma stops_be n v : stops (rbind (read_exact n) (fun b => rret (be_value b))) (be_bytes n v) 0.
Proof. apply stops_map. apply stops_exact, length_be_bytes. Qed.

Lemma reads_u32 v : (v < 2 ^ 32)%N -> reads read_u32 (write_u32 v) v.
Proof. intros H. apply reads_be. exact H. Qed.
Lemma reads_byte v : (v < 256)%N -> reads read_byte (write_byte v) v.
Proof. intros H. apply reads_be. exact H. Qed.
Lemma stops_u32 v : stops read_u32 (write_u32 v) 0.
Proof. apply stops_be. Qed.
Lemma stops_byte v : stops read_byte (write_byte v) 0.
Proof. apply stops_be. Qed.
Lemma eof_u32 : fails_at_end read_u32.
Proof. exists EIo. reflexivity. Qed.
Lemma eof_byte : fails_at_end read_byte.
Proof. exists EIo. reflexivity. Qed.

Definition fits32 (n : nat) : Prop := (N.of_nat n < 2 ^ 32)%N.
Definition fits8 (n : nat) : Prop := (N.of_nat n < 256)%N.

Lemma reads_usize32 n : fits32 n -> reads read_usize32 (write_usize32 n) n.
Proof.
  intros H. rewrite <- (Nat2N.id n) at 2. apply (reads_bind_ret _ N.to_nat). apply reads_u32. exact H.
Qed.
Lemma reads_usize8 n : fits8 n -> reads read_usize8 (write_usize8 n) n.
Proof.
  intros H. rewrite <- (Nat2N.id n) at 2. apply (reads_bind_ret _ N.to_nat). apply reads_byte. exact H.
Qed.
Lemma stops_usize32 n : stops read_usize32 (write_usize32 n) 0.
Proof. apply stops_map. apply stops_u32. Qed.
Lemma stops_usize8 n : stops read_usize8 (write_usize8 n) 0.
Proof. apply stops_map. apply stops_byte. Qed.

Lemma eof_bind {A B} (r : reader A) (f : A -> reader B) : fails_at_end r -> fails_at_end (rbind r f).
Proof. intros (e & E). exists e. unfold rbind. rewrite E. reflexivity. Qed.
Lemma eof_usize32 : fails_at_end read_usize32.
Proof. apply eof_bind, eof_u32. Qed.
Lemma eof_usize8 : fails_at_end read_usize8.
Proof. apply eof_bind, eof_byte. Qed.

(** ** Bitmaps *)

(** The fields have the sizes the format implies and fit its widths. *)
Record wf_bitmap (m : bitmap) : Prop := {
  wfb_len : fits32 (bm_length m);
  wfb_k : bm_k m <> 0 /\ fits32 (bm_k m);
  wfb_index : length (bm_index m) = bm_length m / 32 / bm_k m /\ Forall (fun x => (x < 2 ^ 32)%N) (bm_index m);
  wfb_words : length (bm_words m) = div_ceil (bm_length m) 32 /\ Forall (fun x => (x < 2 ^ 32)%N) (bm_words m)
}.

Lemma reads_words n l : length l = n -> Forall (fun x => (x < 2 ^ 32)%N) l ->
  reads (rmany n read_u32) (flat_map write_u32 l) l.
Proof.
  intros <- HF. apply reads_many. intros x Hx. apply reads_u32.
  rewrite Forall_forall in HF. apply HF. exact Hx.
Qed.

Lemma bitmap_reads m : wf_bitmap m -> reads bitmap_read (bitmap_write m) m.
Proof.
  intros [H1 [H2 H2'] [H3 H3'] [H4 H4']]. unfold bitmap_read, bitmap_write.
  eapply reads_bind; [apply reads_usize32; exact H1|].
  eapply reads_bind; [apply reads_usize32; exact H2'|].
  rewrite udiv_ok by exact H2.
  change (flat_map write_u32 (bm_index m) ++ flat_map write_u32 (bm_words m))
    with ([] ++ (flat_map write_u32 (bm_index m) ++ flat_map write_u32 (bm_words m))).
  eapply reads_bind; [apply reads_fail_ok|].
  eapply reads_bind; [apply reads_words; assumption|].
  eapply (reads_map _ (fun w => mkBitmap (bm_length m) (bm_k m) (bm_index m) w)); [apply reads_words; assumption|destruct m; reflexivity].
Qed.

Lemma length_words l : length (flat_map write_u32 l) = length l * 4.
Proof.
  induction l as [|x l IH]; [reflexivity|]. cbn [flat_map length]. rewrite app_length, length_write_u32, IH. lia.
Qed.
Lemma length_usize32 n : length (write_usize32 n) = 4.
Proof. apply length_be_bytes. Qed.
Lemma length_usize8 n : length (write_usize8 n) = 1.
Proof. apply length_be_bytes. Qed.

Lemma bitmap_write_length m : length (bitmap_write m) = bitmap_size m.
Proof.
  unfold bitmap_write, bitmap_size. rewrite !app_length, !length_words, !length_usize32. lia.
Qed.

Lemma eof_bitmap : fails_at_end bitmap_read.
Proof. apply eof_bind, eof_usize32. Qed.

Lemma stops_words l : Forall (fun x => (x < 2 ^ 32)%N) l ->
  stops (rmany (length l) read_u32) (flat_map write_u32 l) 0.
Proof.
  intros HF. pose proof (stops_many read_u32 write_u32 (fun _ => 0) l eof_u32) as H.
  replace (last_tail (fun _ => 0) l) with 0 in H by (unfold last_tail; destruct (rev l); reflexivity).
  apply H. intros x Hx. rewrite Forall_forall in HF. split; [|split].
  - apply reads_u32. auto.
  - apply stops_u32.
  - rewrite length_write_u32. lia.
Qed.

(** A bitmap whose serialization is cut anywhere is refused. *)
Lemma bitmap_stops m : wf_bitmap m -> stops bitmap_read (bitmap_write m) 0.
Proof.
  intros [H1 [H2 H2'] [H3 H3'] [H4 H4']]. unfold bitmap_read, bitmap_write.
  eapply stops_bind0; [apply reads_usize32; exact H1|apply stops_usize32| |lia].
  eapply stops_bind0; [apply reads_usize32; exact H2'|apply stops_usize32| |lia].
  rewrite udiv_ok by exact H2.
  change (flat_map write_u32 (bm_index m) ++ flat_map write_u32 (bm_words m))
    with ([] ++ (flat_map write_u32 (bm_index m) ++ flat_map write_u32 (bm_words m))).
  eapply stops_bind0; [apply reads_fail_ok|apply stops_nil| |lia].
  eapply stops_bind0; [apply reads_words; assumption|rewrite <- H3; apply stops_words; exact H3'| |lia].
  apply (stops_map _ (fun w => mkBitmap (bm_length m) (bm_k m) (bm_index m) w)).
  rewrite <- H4. apply stops_words. exact H4'.
Qed.

(** ** Compressed arrays *)
Record wf_level (l : bitmap * list N) : Prop := {
  wfl_bm : wf_bitmap (fst l);
  wfl_len : length (snd l) = bm_length (fst l)
}.
Record wf_dac (d : dac) : Prop := {
  wfd_n : fits8 (length d);
  wfd_levels : Forall wf_level d
}.

Lemma level_reads l : wf_level l -> reads dac_level_read (dac_level_write l) l.
Proof.
  intros [H1 H2]. unfold dac_level_read, dac_level_write.
  eapply reads_bind; [apply bitmap_reads; exact H1|].
  eapply (reads_map _ (fun b => (fst l, b))); [rewrite <- H2; apply reads_take|destruct l; reflexivity].
Qed.

Lemma level_stops l : wf_level l -> stops dac_level_read (dac_level_write l) (length (snd l)).
Proof.
  intros [H1 H2]. unfold dac_level_read, dac_level_write.
  eapply stops_bind0; [apply bitmap_reads; exact H1|apply bitmap_stops; exact H1| |lia].
  apply (stops_map _ (fun b => (fst l, b))). apply stops_take. exact H2.
Qed.

Lemma level_write_length l : length (dac_level_write l) = bitmap_size (fst l) + length (snd l).
Proof. unfold dac_level_write. rewrite app_length, bitmap_write_length. reflexivity. Qed.

Lemma bitmap_size_pos m : 8 <= bitmap_size m.
Proof. unfold bitmap_size. lia. Qed.

Lemma eof_level : fails_at_end dac_level_read.
Proof. apply eof_bind, eof_bitmap. Qed.

Lemma dac_reads d : wf_dac d -> reads dac_read (dac_write d) d.
Proof.
  intros [H1 H2]. unfold dac_read, dac_write. eapply reads_bind; [apply reads_usize8; exact H1|].
  apply reads_many. intros x Hx. apply level_reads. rewrite Forall_forall in H2. auto.
Qed.

Lemma sum_length_flat_map {A} (w : A -> bytes) (s : A -> nat) l :
  (forall x, length (w x) = s x) -> length (flat_map w l) = sum_nat (map s l).
Proof.
  intros H. induction l as [|x l IH]; [reflexivity|]. cbn [flat_map map sum_nat fold_right].
  rewrite app_length, H, IH. reflexivity.
Qed.

Lemma dac_write_length d : length (dac_write d) = dac_size d.
Proof.
  unfold dac_write, dac_size. rewrite app_length, length_usize8. f_equal.
  apply sum_length_flat_map. intros x. apply level_write_length.
Qed.

(** How many bytes may be missing at the end of a compressed array without
    the reader noticing: the byte array of its last level. *)
Definition dac_tail (d : dac) : nat := last_tail (fun l => length (snd l)) d.

Lemma dac_tail_lt d : dac_tail d < length (dac_write d).
Proof.
  unfold dac_tail, dac_write. rewrite app_length, length_usize8. destruct d as [|x d]; [cbn; lia|].
  pose proof (last_tail_lt (fun l => length (snd l)) dac_level_write (x :: d) ltac:(congruence)) as H.
  assert (HH : forall x : bitmap * list N, length (snd x) < length (dac_level_write x)).
  { intros y. rewrite level_write_length. pose proof (bitmap_size_pos (fst y)). lia. }
  specialize (H (fun y _ => HH y)). lia.
Qed.

Lemma eof_dac : fails_at_end dac_read.
Proof. apply eof_bind, eof_usize8. Qed.

Lemma dac_stops d : wf_dac d -> stops dac_read (dac_write d) (dac_tail d).
Proof.
  intros [H1 H2]. destruct d as [|x d].
  - apply (stops_weaken _ _ 0); [cbn; intros; lia|]. change (dac_write []) with (write_usize8 0).
    intros n Hn. rewrite length_usize8 in *. split; [|lia]. intros _. replace n with 0 by lia.
    rewrite firstn_O. apply eof_dac.
  - unfold dac_read, dac_write. eapply stops_bind0; [apply reads_usize8; exact H1|apply stops_usize8| |].
    + unfold dac_tail. apply stops_many; [apply eof_level|]. intros y Hy. rewrite Forall_forall in H2.
      split; [|split].
      * apply level_reads. auto.
      * apply level_stops. auto.
      * rewrite level_write_length. pose proof (bitmap_size_pos (fst y)). lia.
    + pose proof (dac_tail_lt (x :: d)) as H. unfold dac_write in H. rewrite app_length, length_usize8 in H. lia.
Qed.

(** ** Snapshots *)
Record wf_snapshot (s : snapshot) : Prop := {
  wfs_k : fits8 (s_k s);
  wfs_shape : fits32 (s_rows s) /\ fits32 (s_cols s) /\ fits32 (s_sidelen s);
  wfs_nodemap : wf_bitmap (s_nodemap s);
  wfs_max : wf_dac (s_max s);
  wfs_min : wf_dac (s_min s)
}.

Lemma snapshot_reads s : wf_snapshot s -> reads snapshot_read (snapshot_write s) s.
Proof.
  intros [H1 (H2 & H3 & H4) H5 H6 H7]. unfold snapshot_read, snapshot_write.
  eapply reads_bind; [apply reads_usize8; exact H1|].
  eapply reads_bind; [apply reads_usize32; exact H2|].
  eapply reads_bind; [apply reads_usize32; exact H3|].
  eapply reads_bind; [apply reads_usize32; exact H4|].
  eapply reads_bind; [apply bitmap_reads; exact H5|].
  eapply reads_bind; [apply dac_reads; exact H6|].
  eapply (reads_map _ (fun m => mkSnapshot (s_nodemap s) (s_max s) m (s_k s) (s_rows s) (s_cols s) (s_sidelen s))); [apply dac_reads; exact H7|destruct s; reflexivity].
Qed.

Definition snapshot_tail (s : snapshot) : nat := dac_tail (s_min s).

Lemma snapshot_stops s : wf_snapshot s -> stops snapshot_read (snapshot_write s) (snapshot_tail s).
Proof.
  intros [H1 (H2 & H3 & H4) H5 H6 H7]. unfold snapshot_read, snapshot_write, snapshot_tail.
  pose proof (dac_tail_lt (s_min s)) as HT.
  eapply stops_bind0; [apply reads_usize8; exact H1|apply stops_usize8| |rewrite !app_length; lia].
  eapply stops_bind0; [apply reads_usize32; exact H2|apply stops_usize32| |rewrite !app_length; lia].
  eapply stops_bind0; [apply reads_usize32; exact H3|apply stops_usize32| |rewrite !app_length; lia].
  eapply stops_bind0; [apply reads_usize32; exact H4|apply stops_usize32| |rewrite !app_length; lia].
  eapply stops_bind0; [apply bitmap_reads; exact H5|apply bitmap_stops; exact H5| |rewrite !app_length; lia].
  eapply stops_bind; [apply dac_reads; exact H6|apply dac_stops; exact H6| | |exact HT].
  - intros a'. apply eof_bind, eof_dac.
  - apply (stops_map _ (fun m => mkSnapshot (s_nodemap s) (s_max s) m (s_k s) (s_rows s) (s_cols s) (s_sidelen s))).
    apply dac_stops. exact H7.
Qed.

Lemma snapshot_write_length s : length (snapshot_write s) = snapshot_size s.
Proof.
  unfold snapshot_write, snapshot_size.
  rewrite !app_length, length_usize8, !length_usize32, bitmap_write_length, !dac_write_length. lia.
Qed.

Lemma eof_snapshot : fails_at_end snapshot_read.
Proof. apply eof_bind, eof_usize8. Qed.

(** ** Logs *)
Record wf_log (l : log) : Prop := {
  wfg_k : fits8 (l_k l);
  wfg_shape : fits32 (l_rows l) /\ fits32 (l_cols l) /\ fits32 (l_sidelen l);
  wfg_nodemap : wf_bitmap (l_nodemap l);
  wfg_equal : wf_bitmap (l_equal l);
  wfg_max : wf_dac (l_max l);
  wfg_min : wf_dac (l_min l)
}.

Lemma log_reads l : wf_log l -> reads log_read (log_write l) l.
Proof.
  intros [H1 (H2 & H3 & H4) H5 H5' H6 H7]. unfold log_read, log_write.
  eapply reads_bind; [apply reads_usize8; exact H1|].
  eapply reads_bind; [apply reads_usize32; exact H2|].
  eapply reads_bind; [apply reads_usize32; exact H3|].
  eapply reads_bind; [apply reads_usize32; exact H4|].
  eapply reads_bind; [apply bitmap_reads; exact H5|].
  eapply reads_bind; [apply bitmap_reads; exact H5'|].
  eapply reads_bind; [apply dac_reads; exact H6|].
  eapply (reads_map _ (fun m => mkLog (l_nodemap l) (l_equal l) (l_max l) m (l_k l) (l_rows l) (l_cols l) (l_sidelen l))); [apply dac_reads; exact H7|destruct l; reflexivity].
Qed.

Definition log_tail (l : log) : nat := dac_tail (l_min l).

Lemma log_stops l : wf_log l -> stops log_read (log_write l) (log_tail l).
Proof.
  intros [H1 (H2 & H3 & H4) H5 H5' H6 H7]. unfold log_read, log_write, log_tail.
  pose proof (dac_tail_lt (l_min l)) as HT.
  eapply stops_bind0; [apply reads_usize8; exact H1|apply stops_usize8| |rewrite !app_length; lia].
  eapply stops_bind0; [apply reads_usize32; exact H2|apply stops_usize32| |rewrite !app_length; lia].
  eapply stops_bind0; [apply reads_usize32; exact H3|apply stops_usize32| |rewrite !app_length; lia].
  eapply stops_bind0; [apply reads_usize32; exact H4|apply stops_usize32| |rewrite !app_length; lia].
  eapply stops_bind0; [apply bitmap_reads; exact H5|apply bitmap_stops; exact H5| |rewrite !app_length; lia].
  eapply stops_bind0; [apply bitmap_reads; exact H5'|apply bitmap_stops; exact H5'| |rewrite !app_length; lia].
  eapply stops_bind; [apply dac_reads; exact H6|apply dac_stops; exact H6| | |exact HT].
  - intros a'. apply eof_bind, eof_dac.
  - apply (stops_map _ (fun m => mkLog (l_nodemap l) (l_equal l) (l_max l) m (l_k l) (l_rows l) (l_cols l) (l_sidelen l))).
    apply dac_stops. exact H7.
Qed.

Lemma log_write_length l : length (log_write l) = log_size l.
Proof.
  unfold log_write, log_size.
  rewrite !app_length, length_usize8, !length_usize32, !bitmap_write_length, !dac_write_length. lia.
Qed.

Lemma eof_log : fails_at_end log_read.
Proof. apply eof_bind, eof_usize8. Qed.

(** ** Whatever the encoders build fits the format, if it is not too large *)
Lemma fits32_le a b : a <= b -> fits32 b -> fits32 a.
Proof. unfold fits32. lia. Qed.

Lemma cnt_le f n : cnt f n <= n.
Proof. induction n as [|n IH]; cbn [cnt]; [lia|]. destruct (f n); cbn [b2n]; lia. Qed.

Lemma bitmap_rel_wf m bits : bitmap_rel m bits -> fits32 (length bits) -> wf_bitmap m.
Proof.
  intros (HL & HK & HW & HI) HF. constructor.
  - rewrite HL. exact HF.
  - rewrite HK. split; [discriminate|]. reflexivity.
  - destruct HI as (H1 & H2). rewrite HL, HK. split; [exact H1|].
    apply Forall_forall. intros x Hx. apply (In_nth _ _ 0%N) in Hx. destruct Hx as (b & Hb & <-).
    rewrite H2 by exact Hb. pose proof (cnt_le (fun i => nth i bits false) (S b * 128)).
    assert (S b * 128 <= length bits) by (rewrite H1 in Hb; lia). unfold fits32 in HF. lia.
  - destruct HW as (H1 & H2 & _). rewrite HL, div_ceil_32. split; [exact H1|exact H2].
Qed.

Lemma filter_len_le {A} (p : A -> bool) l : length (filter p l) <= length l.
Proof. induction l as [|x l IH]; cbn [filter length]; [lia|]. destruct (p x); cbn [length]; lia. Qed.

Lemma levels_spec_small n : forall D, Forall (fun l => length (fst l) <= length D /\ length (snd l) = length (fst l)) (levels_spec n D).
Proof.
  induction n as [|n IH]; intros D; cbn [levels_spec]; constructor.
  - cbn [fst snd]. rewrite !map_length. lia.
  - eapply Forall_impl; [|apply IH]. cbv beta. intros l (H1 & H2). split; [|exact H2].
    rewrite map_length in H1. pose proof (filter_len_le lvl_more D). lia.
Qed.

Lemma take_while_incl {A} (p : A -> bool) l x : In x (take_while p l) -> In x l.
Proof.
  induction l as [|y l IH]; cbn [take_while]; [auto|]. destruct (p y); cbn [In]; [|tauto]. intuition.
Qed.
Lemma take_while_length {A} (p : A -> bool) l : length (take_while p l) <= length l.
Proof. induction l as [|y l IH]; cbn [take_while]; [auto|]. destruct (p y); cbn [length]; lia. Qed.

Lemma levels_spec_length n : forall D, length (levels_spec n D) = n.
Proof. induction n as [|n IH]; intros D; cbn [levels_spec length]; [reflexivity|]. rewrite IH. reflexivity. Qed.

Lemma dac_rel_wf d D : dac_rel d D -> fits32 (length D) -> wf_dac d.
Proof.
  intros HR HF. constructor.
  - pose proof (Forall2_length _ _ _ HR) as HL. pose proof (take_while_length nonempty_lvl (levels_spec 8 D)) as HT.
    rewrite levels_spec_length in HT. unfold fits8. lia.
  - apply Forall_forall. intros l Hl. apply In_nth_error in Hl. destruct Hl as (i & Hi).
    destruct (Forall2_nth_error_l _ _ _ _ _ HR Hi) as (sp & Hs & HB & HE).
    apply nth_error_In, take_while_incl in Hs.
    pose proof (levels_spec_small 8 D) as HS. rewrite Forall_forall in HS. destruct (HS _ Hs) as (H1 & H2).
    constructor.
    + eapply bitmap_rel_wf; [exact HB|]. eapply fits32_le; eassumption.
    + rewrite HE, H2. symmetry. apply HB.
Qed.

Lemma pow_sq k e : (k * k) ^ e = k ^ e * k ^ e.
Proof. apply Nat.pow_mul_l. Qed.

(** An encoding with at most [2 (k^e)^2] nodes, where that many still fit 32 bits. *)
Definition encodable (rows cols k e : nat) : Prop :=
  fits8 k /\ Nat.max rows cols <= k ^ e /\ fits32 (2 * (k ^ e * k ^ e)).

Lemma encodable_fits rows cols k e : 2 <= k -> encodable rows cols k e ->
  fits32 rows /\ fits32 cols /\ fits32 (k ^ e).
Proof.
  intros Hk (_ & HM & HF).
  assert (1 <= k ^ e) by (apply Nat.neq_0_lt_0, Nat.pow_nonzero; lia).
  repeat split; (eapply fits32_le; [|exact HF]); nia.
Qed.

Lemma snapshot_build_wf g rows cols k e s : 2 <= k -> i64_raster g rows cols ->
  encodable rows cols k e -> snapshot_build_e g rows cols k e = Ok s -> wf_snapshot s.
Proof.
  intros Hk Hg He Es. destruct (snapshot_build_ok g rows cols k Hk e Hg) as (s' & root & V & V1 & V2 & E & OK).
  rewrite Es in E. injection E as <-. destruct (encodable_fits _ _ _ _ Hk He) as (F1 & F2 & F3).
  destruct He as (F4 & HM & HF).
  pose proof (so_count _ _ _ _ _ _ _ _ _ _ OK) as HC. rewrite pow_sq in HC.
  assert (HV : fits32 (length V)) by (eapply fits32_le; [|exact HF]; lia).
  constructor.
  - rewrite (so_k _ _ _ _ _ _ _ _ _ _ OK). exact F4.
  - rewrite (so_rows _ _ _ _ _ _ _ _ _ _ OK), (so_cols _ _ _ _ _ _ _ _ _ _ OK), (so_sidelen _ _ _ _ _ _ _ _ _ _ OK).
    auto.
  - eapply bitmap_rel_wf; [apply (so_nodemap _ _ _ _ _ _ _ _ _ _ OK)|]. rewrite map_length.
    eapply fits32_le; [|exact HV]. rewrite (so_V12 _ _ _ _ _ _ _ _ _ _ OK), app_length. lia.
  - eapply dac_rel_wf; [apply (so_max _ _ _ _ _ _ _ _ _ _ OK)|]. rewrite !map_length. exact HV.
  - eapply dac_rel_wf; [apply (so_min _ _ _ _ _ _ _ _ _ _ OK)|]. rewrite !map_length.
    eapply fits32_le; [apply filter_len_le|exact HV].
Qed.

Lemma log_build_wf gs gt rows cols k e l : 2 <= k -> i64_raster gs rows cols -> i64_raster gt rows cols ->
  encodable rows cols k e -> log_build_e gs gt rows cols k e = Ok l -> wf_log l.
Proof.
  intros Hk Hgs Hgt He El. destruct (log_build_ok gs gt rows cols k Hk e Hgs Hgt) as (l' & root & V & V1 & V2 & E & OK).
  rewrite El in E. injection E as <-. destruct (encodable_fits _ _ _ _ Hk He) as (F1 & F2 & F3).
  destruct He as (F4 & HM & HF).
  pose proof (lo_count _ _ _ _ _ _ _ _ _ _ _ OK) as HC. rewrite pow_sq in HC.
  assert (HV : fits32 (length V)) by (eapply fits32_le; [|exact HF]; lia).
  assert (HV1 : fits32 (length V1)).
  { eapply fits32_le; [|exact HV]. rewrite (lo_V12 _ _ _ _ _ _ _ _ _ _ _ OK), app_length. lia. }
  constructor.
  - rewrite (lo_k _ _ _ _ _ _ _ _ _ _ _ OK). exact F4.
  - rewrite (lo_rows _ _ _ _ _ _ _ _ _ _ _ OK), (lo_cols _ _ _ _ _ _ _ _ _ _ _ OK), (lo_sidelen _ _ _ _ _ _ _ _ _ _ _ OK).
    auto.
  - eapply bitmap_rel_wf; [apply (lo_nodemap _ _ _ _ _ _ _ _ _ _ _ OK)|]. rewrite map_length. exact HV1.
  - eapply bitmap_rel_wf; [apply (lo_equal _ _ _ _ _ _ _ _ _ _ _ OK)|]. rewrite map_length.
    eapply fits32_le; [apply filter_len_le|exact HV1].
  - eapply dac_rel_wf; [apply (lo_max _ _ _ _ _ _ _ _ _ _ _ OK)|]. rewrite !map_length. exact HV.
  - eapply dac_rel_wf; [apply (lo_min _ _ _ _ _ _ _ _ _ _ _ OK)|]. rewrite !map_length.
    eapply fits32_le; [apply filter_len_le|exact HV].
Qed.
