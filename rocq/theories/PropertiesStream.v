(** * Properties C13-C15 and C35: serialization of chunk-level objects, strings
    and content identifiers. *)
From Verif Require Import Base BaseFacts Spec BitmapModel BitmapProofs DacModel DacProofs
  GeomModel SnapshotModel SnapshotProofs LogModel LogTree LogProofs StreamModel StreamProofs
  PropertiesLog ChunkModel ChunkProofs ChunkReads ChunkStream PropertiesChunk.
Ltac Zify.zify_post_hook ::= Z.div_mod_to_equations.
Arguments Nat.pow : simpl never.

(** ** C13: writing and reading back, whatever follows in the stream

    [fits32 n] says that a count is below 2^32, [fits8 n] that it is below 256:
    the widths of the format's fields. *)
Theorem C13_bitmap_round_trip : forall bits m, fits32 (length bits) -> bitmap_of bits = Ok m ->
  forall rest, bitmap_read (bitmap_write m ++ rest) = Ok (m, rest).
Proof.
  intros bits m HF E. destruct (bitmap_of_ok bits) as (m' & E' & R). rewrite E in E'. injection E' as <-.
  apply bitmap_reads. eapply bitmap_rel_wf; eassumption.
Qed.

Theorem C13_dac_round_trip : forall data d, fits32 (length data) -> dac_of data = Ok d ->
  forall rest, dac_read (dac_write d ++ rest) = Ok (d, rest).
Proof.
  intros data d HF E. destruct (dac_of_ok data) as (d' & E' & R). rewrite E in E'. injection E' as <-.
  apply dac_reads. eapply dac_rel_wf; [exact R|]. rewrite map_length. exact HF.
Qed.

(** Snapshots, logs and chunks made by the encoders: [encodable] bounds the
    number of nodes of the trees by the format's 32 bit counts. *)
Theorem C13_snapshot_round_trip : forall g rows cols k e s,
  2 <= k -> encodable rows cols k e -> i64_raster g rows cols ->
  snapshot_build_e g rows cols k e = Ok s ->
  forall rest, snapshot_read (snapshot_write s ++ rest) = Ok (s, rest).
Proof. intros g rows cols k e s Hk He Hg E. apply snapshot_reads. eapply snapshot_build_wf; eassumption. Qed.

Theorem C13_log_round_trip : forall gs gt rows cols k e l,
  2 <= k -> encodable rows cols k e -> i64_raster gs rows cols -> i64_raster gt rows cols ->
  log_build_e gs gt rows cols k e = Ok l ->
  forall rest, log_read (log_write l ++ rest) = Ok (l, rest).
Proof. intros. apply log_reads. eapply (log_build_wf gs gt); eassumption. Qed.

Theorem C13_chunk_round_trip : forall g instants rows cols k e enc fb c,
  2 <= k -> encodable rows cols k e -> i64_series g instants rows cols -> fits32 instants -> fits8 fb ->
  chunk_build_e g instants rows cols k e enc fb = Ok c ->
  forall rest, chunk_read (chunk_write (cb_data c) ++ rest) = Ok (cb_data c, rest).
Proof. intros. apply chunk_reads. eapply chunk_build_wf; eassumption. Qed.

(** Blocks, from their parts (a block may hold up to 254 logs). *)
Theorem C13_block_round_trip : forall b,
  wf_snapshot (bl_snapshot b) -> Forall wf_log (bl_logs b) -> length (bl_logs b) <= 254 ->
  forall rest, block_read (block_write b ++ rest) = Ok (b, rest).
Proof. intros b H1 H2 H3. apply block_reads. constructor; assumption. Qed.

(** Objects can be concatenated: two chunks written one after the other. *)
Theorem C13_concatenation : forall c1 c2, wf_chunk c1 -> wf_chunk c2 -> forall rest,
  exists s, chunk_read (chunk_write c1 ++ chunk_write c2 ++ rest) = Ok (c1, s) /\ chunk_read s = Ok (c2, rest).
Proof.
  intros c1 c2 H1 H2 rest. exists (chunk_write c2 ++ rest). split; [apply chunk_reads; exact H1|apply chunk_reads; exact H2].
Qed.

(** The primitive numbers of the stream. *)
Theorem C13_numbers_round_trip :
  (forall v rest, (v < 2 ^ 8)%N -> read_byte (write_byte v ++ rest) = Ok (v, rest)) /\
  (forall v rest, (v < 2 ^ 16)%N -> read_u16 (write_u16 v ++ rest) = Ok (v, rest)) /\
  (forall v rest, (v < 2 ^ 32)%N -> read_u32 (write_u32 v ++ rest) = Ok (v, rest)) /\
  (forall z rest, (- 2 ^ 31 <= z < 2 ^ 31)%Z -> read_i32 (write_i32 z ++ rest) = Ok (z, rest)) /\
  (forall z rest, (- 2 ^ 63 <= z < 2 ^ 63)%Z -> read_i64 (write_i64 z ++ rest) = Ok (z, rest)) /\
  (forall v rest, (v < 2 ^ 32)%N -> read_f32 (write_f32 v ++ rest) = Ok (v, rest)) /\
  (forall v rest, (v < 2 ^ 64)%N -> read_f64 (write_f64 v ++ rest) = Ok (v, rest)).
Proof.
  repeat split; intros.
  - apply (reads_be 1); assumption.
  - apply (reads_be 2); assumption.
  - apply (reads_be 4); assumption.
  - apply (reads_signed 32 4); [reflexivity|reflexivity|assumption].
  - apply (reads_signed 64 8); [reflexivity|reflexivity|assumption].
  - apply (reads_be 4); assumption.
  - apply (reads_be 8); assumption.
Qed.

Example C13_example : encodable 4 4 2 2 /\ i64_series ex_g 12 4 4 /\ fits32 12 /\ fits8 0 /\
  exists c, chunk_build_e ex_g 12 4 4 2 2 EncI64 0 = Ok c /\ length (chunk_write (cb_data c)) = 978 /\
    chunk_read (chunk_write (cb_data c) ++ [7; 8; 9]%N) = Ok (cb_data c, [7; 8; 9]%N).
Proof.
  split; [unfold encodable, fits8, fits32; split; [reflexivity|split; [vm_compute; auto|reflexivity]]|].
  split; [apply ex_g_series; lia|]. split; [reflexivity|]. split; [reflexivity|].
  eexists. split; [vm_compute; reflexivity|]. split; vm_compute; reflexivity.
Qed.

(** ** C14: the reported size is the serialized size *)
Theorem C14_sizes_partial :
  (forall m, bitmap_size m = length (bitmap_write m)) /\
  (forall d, dac_size d = length (dac_write d)) /\
  (forall s, snapshot_size s = length (snapshot_write s)) /\
  (forall l, log_size l = length (log_write l)) /\
  (forall b, block_size b = length (block_write b)) /\
  (forall c, chunk_size c = length (chunk_write c)).
Proof.
  repeat split; intros; symmetry.
  - apply bitmap_write_length.
  - apply dac_write_length.
  - apply snapshot_write_length.
  - apply log_write_length.
  - apply block_write_length.
  - apply chunk_write_length.
Qed.

(** ** C15: truncated objects *)

(** Bitmaps, content identifiers: every proper prefix is refused. *)
Theorem C15_truncated_bitmap : forall bits m n, fits32 (length bits) -> bitmap_of bits = Ok m ->
  n < length (bitmap_write m) -> exists e, bitmap_read (firstn n (bitmap_write m)) = Err e.
Proof.
  intros bits m n HF E Hn. destruct (bitmap_of_ok bits) as (m' & E' & R). rewrite E in E'. injection E' as <-.
  destruct (bitmap_stops m (bitmap_rel_wf _ _ R HF) n Hn) as [H _]. apply H. lia.
Qed.

Theorem C15_truncated_cid : forall c n, wf_cid c ->
  n < length (write_cid c) -> exists e, read_cid (firstn n (write_cid c)) = Err e.
Proof. intros c n Hc Hn. destruct (cid_stops c Hc n Hn) as [H _]. apply H. lia. Qed.

(** Chunks: refused exactly when more is missing than the raw bytes of the last
    level of the last compressed array ([chunk_tail], at most the last level's
    length); what is missing is the refusal inside those last bytes, which is
    false of the code. *)
Theorem C15_truncated_chunk_partial : forall g instants rows cols k e enc fb c n,
  2 <= k -> encodable rows cols k e -> i64_series g instants rows cols -> fits32 instants -> fits8 fb ->
  chunk_build_e g instants rows cols k e enc fb = Ok c ->
  n < length (chunk_write (cb_data c)) ->
  (n + chunk_tail (cb_data c) < length (chunk_write (cb_data c)) ->
     exists err, chunk_read (firstn n (chunk_write (cb_data c))) = Err err) /\
  (length (chunk_write (cb_data c)) <= n + chunk_tail (cb_data c) ->
     exists c', chunk_read (firstn n (chunk_write (cb_data c))) = Ok (c', [])).
Proof.
  intros g instants rows cols k e enc fb c n Hk He Hg Hi Hf E Hn.
  assert (HW : wf_chunk (cb_data c)) by (eapply chunk_build_wf; eassumption).
  exact (chunk_stops _ HW n Hn).
Qed.

(** A chunk cut by one byte is accepted, and a search in the object returned panics. *)
Theorem C15_truncated_chunk_refuted :
  exists c c' out, chunk_build ex_g 1 4 4 2 EncI64 0 = Ok c /\ 0 < chunk_tail (cb_data c) /\
    chunk_read (firstn (length (chunk_write (cb_data c)) - 1) (chunk_write (cb_data c))) = Ok (c', []) /\
    chunk_search (cb_data c) (cube_new 0 1 0 4 0 4) 1400 1400 = Ok out /\
    chunk_search c' (cube_new 0 1 0 4 0 4) 1400 1400 = Panic.
Proof.
  do 3 eexists. split; [vm_compute; reflexivity|]. split; [vm_compute; lia|]. split; [vm_compute; reflexivity|].
  split; vm_compute; reflexivity.
Qed.

(** The same for names. *)
Theorem C15_truncated_name_refuted :
  read_str (firstn 3 (write_str [97; 98; 99; 100]%N)) = Ok ([97; 98]%N, []).
Proof. reflexivity. Qed.

Example C15_example : exists c, chunk_build ex_g 3 4 4 2 EncI64 0 = Ok c /\
  chunk_read (firstn 200 (chunk_write (cb_data c))) = Err EIo.
Proof. eexists. split; vm_compute; reflexivity. Qed.

(** ** C35: strings and content identifiers *)
Theorem C35_string_partial : forall s rest, utf8_valid s = true -> length s <= 255 ->
  read_str (write_str s ++ rest) = Ok (s, rest).
Proof. intros s rest Hu Hl. apply str_reads; assumption. Qed.

(** A longer name is not read back: the length is written modulo 256. *)
Theorem C35_long_string_refuted : forall s rest, 255 < length s -> read_str (write_str s ++ rest) <> Ok (s, rest).
Proof.
  intros s rest Hl H. unfold read_str, write_str in H. unfold rbind at 1 in H.
  assert (Hr : read_usize8 ((write_usize8 (length s) ++ s) ++ rest) =
    Ok (N.to_nat (N.of_nat (length s) mod 256), s ++ rest)).
  { unfold read_usize8, rbind at 1, write_usize8, write_byte. rewrite <- app_assoc.
    unfold read_byte, rbind at 1. unfold be_bytes. cbn [le_bytes rev app]. cbn. reflexivity. }
  rewrite Hr in H. cbn [bind fst snd] in H. unfold rbind, read_take in H. cbn [bind fst snd] in H.
  set (m := N.to_nat (N.of_nat (length s) mod 256)) in *.
  assert (Hm : m < 256) by (unfold m; pose proof (N.mod_lt (N.of_nat (length s)) 256 ltac:(discriminate)); lia).
  destruct (utf8_valid (firstn m (s ++ rest))); [|discriminate].
  unfold rret in H. injection H as H1 H2. apply (f_equal (@length N)) in H1. rewrite firstn_length in H1. lia.
Qed.

Theorem C35_cid : forall c rest, wf_cid c -> read_cid (write_cid c ++ rest) = Ok (c, rest).
Proof. intros c rest Hc. apply cid_reads. exact Hc. Qed.

Example C35_example : utf8_valid [104; 195; 169]%N = true /\
  wf_cid (CidV0 (repeat 5%N 32)) /\ wf_cid (CidV1 113 18 (repeat 200%N 32)) /\
  read_cid (write_cid (CidV1 113 18 (repeat 200%N 32)) ++ [1; 2]%N) = Ok (CidV1 113 18 (repeat 200%N 32), [1; 2]%N).
Proof. split; [reflexivity|]. split; [reflexivity|]. split; [split; [reflexivity|split; [reflexivity|vm_compute; lia]]|]. reflexivity. Qed.

Print Assumptions C13_chunk_round_trip.
Print Assumptions C13_numbers_round_trip.
Print Assumptions C14_sizes_partial.
Print Assumptions C15_truncated_bitmap.
Print Assumptions C15_truncated_cid.
Print Assumptions C15_truncated_chunk_partial.
Print Assumptions C35_string_partial.
Print Assumptions C35_cid.
Print Assumptions C13_bitmap_round_trip.
Print Assumptions C13_dac_round_trip.
Print Assumptions C13_snapshot_round_trip.
Print Assumptions C13_log_round_trip.
Print Assumptions C13_block_round_trip.
Print Assumptions C13_concatenation.
Print Assumptions C15_truncated_chunk_refuted.
Print Assumptions C15_truncated_name_refuted.
Print Assumptions C35_long_string_refuted.
