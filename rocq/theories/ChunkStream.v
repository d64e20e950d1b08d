(** * Serialization of blocks and chunks; strings and content identifiers. *)
From Verif Require Import Base BaseFacts Spec BitmapModel BitmapProofs DacModel DacProofs
  GeomModel GeomProofs SnapshotModel SnapshotProofs LogModel LogTree LogProofs StreamModel StreamProofs
  ChunkModel ChunkProofs.
Ltac Zify.zify_post_hook ::= Z.div_mod_to_equations.
Arguments Nat.pow : simpl never.

(** ** Blocks *)
Record wf_block (b : block) : Prop := {
  wfk_snapshot : wf_snapshot (bl_snapshot b);
  wfk_count : length (bl_logs b) <= 254;
  wfk_logs : Forall wf_log (bl_logs b)
}.

Definition block_tail (b : block) : nat :=
  match bl_logs b with [] => snapshot_tail (bl_snapshot b) | _ => last_tail log_tail (bl_logs b) end.

Lemma log_tail_lt l : log_tail l < length (log_write l).
Proof.
  unfold log_tail, log_write. rewrite !app_length. pose proof (dac_tail_lt (l_min l)). lia.
Qed.
Lemma snapshot_tail_lt s : snapshot_tail s < length (snapshot_write s).
Proof.
  unfold snapshot_tail, snapshot_write. rewrite !app_length. pose proof (dac_tail_lt (s_min s)). lia.
Qed.

Lemma block_reads b : wf_block b -> reads block_read (block_write b) b.
Proof.
  intros [H1 H2 H3]. unfold block_read, block_write.
  eapply reads_bind; [apply reads_usize8; unfold fits8; lia|].
  eapply reads_bind; [apply snapshot_reads; exact H1|].
  rewrite usub_ok by lia. replace (length (bl_logs b) + 1 - 1) with (length (bl_logs b)) by lia.
  change (reads (rbind (rmany (length (bl_logs b)) log_read) (fun logs => rret (mkBlock (bl_snapshot b) logs)))
    (flat_map log_write (bl_logs b)) b).
  eapply reads_map; [apply reads_many|].
  - intros x Hx. apply log_reads. rewrite Forall_forall in H3. auto.
  - destruct b; reflexivity.
Qed.

Lemma eof_block : fails_at_end block_read.
Proof. apply eof_bind. apply eof_usize8. Qed.

Lemma block_stops b : wf_block b -> stops block_read (block_write b) (block_tail b).
Proof.
  intros [H1 H2 H3]. unfold block_read, block_write.
  assert (HR : forall x, In x (bl_logs b) -> reads log_read (log_write x) x /\ stops log_read (log_write x) (log_tail x) /\
     log_tail x < length (log_write x)).
  { intros x Hx. rewrite Forall_forall in H3. specialize (H3 x Hx).
    split; [apply log_reads; exact H3|]. split; [apply log_stops; exact H3|apply log_tail_lt]. }
  assert (HT : block_tail b <= length (snapshot_write (bl_snapshot b) ++ flat_map log_write (bl_logs b))).
  { unfold block_tail. rewrite app_length. destruct (bl_logs b) as [|l ls] eqn:E.
    - pose proof (snapshot_tail_lt (bl_snapshot b)). lia.
    - pose proof (last_tail_lt log_tail log_write (l :: ls) ltac:(congruence)) as H.
      specialize (H ltac:(intros x Hx; apply log_tail_lt)). lia. }
  eapply stops_bind0; [apply reads_usize8; unfold fits8; lia|apply stops_usize8| |exact HT].
  rewrite usub_ok by lia. replace (length (bl_logs b) + 1 - 1) with (length (bl_logs b)) by lia.
  unfold block_tail. destruct (bl_logs b) as [|l ls] eqn:E.
  - cbn [flat_map length]. rewrite app_nil_r.
    change (stops (rbind snapshot_read (fun s => rret (mkBlock s []))) (snapshot_write (bl_snapshot b))
      (snapshot_tail (bl_snapshot b))). apply stops_map. apply snapshot_stops. exact H1.
  - eapply stops_bind; [apply snapshot_reads; exact H1|apply snapshot_stops; exact H1| | |].
    + intros s. change (fails_at_end (rbind (rmany (S (length ls)) log_read) (fun logs => rret (mkBlock s logs)))).
      apply eof_bind. cbn [rmany]. apply eof_bind. apply eof_log.
    + change (stops (rbind (rmany (length (l :: ls)) log_read) (fun logs => rret (mkBlock (bl_snapshot b) logs)))
        (flat_map log_write (l :: ls)) (last_tail log_tail (l :: ls))).
      apply stops_map. apply stops_many; [apply eof_log|exact HR].
    + apply last_tail_lt; [congruence|]. intros x _. apply log_tail_lt.
Qed.

Lemma block_write_length b : length (block_write b) = block_size b.
Proof.
  unfold block_write, block_size. rewrite !app_length, length_usize8, snapshot_write_length.
  rewrite (sum_length_flat_map log_write log_size _ log_write_length). lia.
Qed.

Lemma block_tail_lt b : block_tail b < length (block_write b).
Proof.
  unfold block_tail, block_write. rewrite !app_length, length_usize8. destruct (bl_logs b) as [|l ls].
  - pose proof (snapshot_tail_lt (bl_snapshot b)). lia.
  - pose proof (last_tail_lt log_tail log_write (l :: ls) ltac:(congruence)) as H.
    specialize (H ltac:(intros x Hx; apply log_tail_lt)). lia.
Qed.

(** ** Chunks *)
Record wf_chunk (c : chunk) : Prop := {
  wfc_blocks : Forall wf_block (ch_blocks c);
  wfc_count : fits32 (length (ch_blocks c));
  wfc_fbits : fits8 (ch_fbits c);
  wfc_index : ch_index c = index_of (ch_blocks c) 0
}.

Definition chunk_tail (c : chunk) : nat := last_tail block_tail (ch_blocks c).

Lemma encoding_of_code e : encoding_of (encoding_code e) = Ok e.
Proof. destruct e; reflexivity. Qed.
Lemma encoding_code_byte e : (encoding_code e < 256)%N.
Proof. destruct e; reflexivity. Qed.

Lemma chunk_reads c : wf_chunk c -> reads chunk_read (chunk_write c) c.
Proof.
  intros [H1 H2 H3 H4]. unfold chunk_read, chunk_write.
  eapply reads_bind; [apply reads_byte; apply encoding_code_byte|]. rewrite encoding_of_code.
  change (reads (rbind read_usize8 (fun fbits => rbind read_usize32 (fun n_blocks => rbind (rmany n_blocks block_read)
    (fun blocks => rret (mkChunk blocks (index_of blocks 0) (ch_encoding c) fbits)))))
    (write_usize8 (ch_fbits c) ++ write_usize32 (length (ch_blocks c)) ++ flat_map block_write (ch_blocks c)) c).
  eapply reads_bind; [apply reads_usize8; exact H3|].
  eapply reads_bind; [apply reads_usize32; exact H2|].
  eapply reads_map; [apply reads_many|].
  - intros x Hx. apply block_reads. rewrite Forall_forall in H1. auto.
  - destruct c; cbn in *. rewrite H4. reflexivity.
Qed.

Lemma eof_chunk : fails_at_end chunk_read.
Proof. apply eof_bind. apply eof_byte. Qed.

Lemma chunk_tail_le c : chunk_tail c <= length (flat_map block_write (ch_blocks c)).
Proof.
  unfold chunk_tail. destruct (ch_blocks c) as [|b bs]; [cbn; lia|].
  pose proof (last_tail_lt block_tail block_write (b :: bs) ltac:(congruence)) as H.
  specialize (H ltac:(intros x Hx; apply block_tail_lt)). lia.
Qed.

Lemma chunk_stops c : wf_chunk c -> stops chunk_read (chunk_write c) (chunk_tail c).
Proof.
  intros [H1 H2 H3 H4]. unfold chunk_read, chunk_write. pose proof (chunk_tail_le c) as HT.
  eapply stops_bind0; [apply reads_byte; apply encoding_code_byte|apply stops_byte| |rewrite !app_length; lia].
  rewrite encoding_of_code.
  change (stops (rbind read_usize8 (fun fbits => rbind read_usize32 (fun n_blocks => rbind (rmany n_blocks block_read)
    (fun blocks => rret (mkChunk blocks (index_of blocks 0) (ch_encoding c) fbits)))))
    (write_usize8 (ch_fbits c) ++ write_usize32 (length (ch_blocks c)) ++ flat_map block_write (ch_blocks c)) (chunk_tail c)).
  eapply stops_bind0; [apply reads_usize8; exact H3|apply stops_usize8| |rewrite !app_length; lia].
  eapply stops_bind0; [apply reads_usize32; exact H2|apply stops_usize32| |lia].
  apply stops_map. apply stops_many; [apply eof_block|].
  intros x Hx. rewrite Forall_forall in H1. specialize (H1 x Hx).
  split; [apply block_reads; exact H1|]. split; [apply block_stops; exact H1|apply block_tail_lt].
Qed.

Lemma chunk_write_length c : length (chunk_write c) = chunk_size c.
Proof.
  unfold chunk_write, chunk_size. rewrite !app_length, length_usize8, length_usize32, length_write_byte.
  rewrite (sum_length_flat_map block_write block_size _ block_write_length). lia.
Qed.

(** Whatever [Chunk::build] makes fits the format. *)
Lemma built_block_wf g rows cols k e t0 b : 2 <= k -> encodable rows cols k e ->
  (forall i, i < blen b -> i64_raster (g (t0 + i)) rows cols) ->
  built_block g rows cols k e t0 b -> wf_block b.
Proof.
  intros Hk He Hg (Es & Hn & Hl). assert (H0 : i64_raster (g t0) rows cols).
  { specialize (Hg 0 ltac:(unfold blen; lia)). replace (t0 + 0) with t0 in Hg by lia. exact Hg. }
  constructor.
  - eapply snapshot_build_wf; eassumption.
  - exact Hn.
  - apply Forall_forall. intros l Hin. apply In_nth_error in Hin. destruct Hin as (i & Hi).
    assert (i < length (bl_logs b)) by (apply nth_error_Some; congruence).
    eapply (log_build_wf (g t0) (g (t0 + 1 + i)) rows cols k e); eauto.
    specialize (Hg (1 + i) ltac:(unfold blen; lia)). replace (t0 + 1 + i) with (t0 + (1 + i)) by lia. exact Hg.
Qed.

Lemma built_blocks_wf g rows cols k e : 2 <= k -> encodable rows cols k e ->
  forall blocks t0, (forall i, i < total blocks -> i64_raster (g (t0 + i)) rows cols) ->
  built_blocks g rows cols k e t0 blocks -> Forall wf_block blocks.
Proof.
  intros Hk He. induction blocks as [|b blocks IH]; intros t0 Hg HB; constructor; destruct HB as [H1 H2].
  - eapply built_block_wf; eauto. intros i Hi. apply Hg. rewrite total_cons. lia.
  - eapply (IH (t0 + blen b)); [|exact H2]. intros i Hi. replace (t0 + blen b + i) with (t0 + (blen b + i)) by lia.
    apply Hg. rewrite total_cons. lia.
Qed.

Lemma length_le_total blocks : length blocks <= total blocks.
Proof. induction blocks as [|b l IH]; [cbn; lia|]. rewrite total_cons. cbn [length]. unfold blen. lia. Qed.

Lemma chunk_build_wf g instants rows cols k e enc fb c : 2 <= k -> encodable rows cols k e ->
  i64_series g instants rows cols -> fits32 instants -> fits8 fb ->
  chunk_build_e g instants rows cols k e enc fb = Ok c -> wf_chunk (cb_data c).
Proof.
  intros Hk He Hg Hn Hf E.
  destruct (Nat.eq_dec instants 0) as [->|H0]; [unfold chunk_build_e in E; discriminate|].
  destruct (chunk_build_ok g rows cols k e Hk instants enc fb ltac:(lia) Hg) as (blocks & ns & nl & E' & HB & HT & _).
  rewrite E in E'. injection E' as ->. cbn [cb_data]. constructor; cbn [ch_blocks ch_fbits ch_index chunk_new].
  - eapply built_blocks_wf; eauto. intros i Hi r c Hr Hc. apply Hg; [|assumption|assumption]. cbn. lia.
  - eapply fits32_le; [apply length_le_total|]. rewrite HT. exact Hn.
  - exact Hf.
  - reflexivity.
Qed.

(** ** Varints *)
Lemma land127 n : N.land n 127 = (n mod 128)%N.
Proof. change 127%N with (N.ones 7). rewrite N.land_ones. reflexivity. Qed.

Lemma lor_low a b i : (a < 2 ^ i)%N -> N.lor a (N.shiftl b i) = (a + b * 2 ^ i)%N.
Proof.
  intros H. rewrite N.shiftl_mul_pow2. rewrite <- N.lxor_lor, <- N.add_nocarry_lxor; [reflexivity| |].
  all: apply N.bits_inj; intros j; rewrite N.land_spec, N.bits_0;
       destruct (N.lt_ge_cases j i) as [L|L].
  all: try (rewrite N.mul_pow2_bits_low by exact L; apply Bool.andb_false_r).
  all: destruct (N.eq_dec a 0) as [->|Ha]; [rewrite N.bits_0; reflexivity|];
       rewrite (N.bits_above_log2 a j); [reflexivity|];
       assert (N.log2 a < i)%N by (apply N.log2_lt_pow2; lia); lia.
Qed.

Lemma varint_dec_S f i acc b rest :
  varint_dec (S f) i acc (b :: rest) =
  (let n' := N.lor acc (N.shiftl (N.land b 127) (7 * i) mod 2 ^ 64) in
   (if b <? 128 then (if (b =? 0) && (0 <? i) then rfail (Err ECid) else rret n')
    else varint_dec f (i + 1) n') rest)%N.
Proof. reflexivity. Qed.

Lemma varint_dec_ok fuel : forall i acc n rest,
  (i + N.of_nat fuel = 9)%N -> (acc < 2 ^ (7 * i))%N -> (n < 2 ^ (64 - 7 * i))%N -> (i = 0 \/ n <> 0)%N ->
  varint_dec (S fuel) i acc (varint_enc fuel n ++ rest) = Ok ((acc + n * 2 ^ (7 * i))%N, rest).
Proof.
  induction fuel as [|fuel IH]; intros i acc n rest Hi Ha Hn Hz.
  - assert (i = 9)%N by lia. subst i. change (64 - 7 * 9)%N with 1%N in Hn. change (2 ^ 1)%N with 2%N in Hn.
    assert (Hc : (n = 1)%N) by lia. subst n.
    change (varint_dec 1 9 acc (varint_enc 0 1 ++ rest)) with
      (Ok (N.lor acc (N.shiftl 1 (7 * 9)), rest)).
    rewrite lor_low by exact Ha. reflexivity.
  - cbn [varint_enc]. destruct (N.ltb_spec n 128) as [L|L].
    + cbn [app]. rewrite varint_dec_S.
      cbv zeta. destruct (N.ltb_spec n 128); [|lia].
      assert (Hb : ((n =? 0) && (0 <? i))%N = false).
      { destruct (N.eqb_spec n 0), (N.ltb_spec 0 i); cbn [andb]; lia. }
      rewrite Hb. unfold rret. f_equal. f_equal. rewrite land127, (N.mod_small n 128) by exact L.
      rewrite N.mod_small.
      * apply lor_low. exact Ha.
      * rewrite N.shiftl_mul_pow2.
        apply N.lt_le_trans with (2 ^ (64 - 7 * i) * 2 ^ (7 * i))%N.
        -- apply N.mul_lt_mono_pos_r; [|exact Hn]. apply N.neq_0_lt_0. apply N.pow_nonzero. discriminate.
        -- rewrite <- N.pow_add_r. apply N.pow_le_mono_r; lia.
    + set (b := N.lor (N.land n 127) 128).
      assert (Eb : b = (n mod 128 + 128)%N).
      { unfold b. rewrite land127. change 128%N with (N.shiftl 1 7) at 2. rewrite lor_low; [reflexivity|].
        apply N.mod_lt. discriminate. }
      assert (Hm : (n mod 128 < 128)%N) by (apply N.mod_lt; discriminate).
      cbn [app]. rewrite varint_dec_S.
      cbv zeta. destruct (N.ltb_spec b 128); [lia|].
      assert (El : N.land b 127 = (n mod 128)%N).
      { rewrite land127, Eb. rewrite N.add_mod by discriminate. rewrite N.mod_same by discriminate.
        rewrite N.add_0_r, !N.mod_mod by discriminate. reflexivity. }
      assert (Hpow : (128 * 2 ^ (7 * i) = 2 ^ (7 * (i + 1)))%N).
      { replace (7 * (i + 1))%N with (7 + 7 * i)%N by lia. rewrite N.pow_add_r. reflexivity. }
      assert (Hp0 : (0 < 2 ^ (7 * i))%N) by (apply N.neq_0_lt_0; apply N.pow_nonzero; discriminate).
      rewrite El. rewrite (N.mod_small (N.shiftl _ _)).
      * rewrite lor_low by exact Ha. rewrite IH.
        -- f_equal. f_equal. rewrite <- Hpow. rewrite N.shiftr_div_pow2. change (2 ^ 7)%N with 128%N.
           pose proof (N.div_mod n 128 ltac:(discriminate)) as HD.
           rewrite HD at 3. rewrite N.mul_add_distr_r. ring.
        -- lia.
        -- rewrite <- Hpow. nia.
        -- rewrite N.shiftr_div_pow2. change (2 ^ 7)%N with 128%N.
           apply N.div_lt_upper_bound; [discriminate|].
           change 128%N with (2 ^ 7)%N. rewrite <- N.pow_add_r. replace (7 + (64 - 7 * (i + 1)))%N with (64 - 7 * i)%N by lia. exact Hn.
        -- right. rewrite N.shiftr_div_pow2. change (2 ^ 7)%N with 128%N. intros Hz'.
           apply N.div_small_iff in Hz'; [lia|discriminate].
      * rewrite N.shiftl_mul_pow2. apply N.lt_le_trans with (128 * 2 ^ (7 * i))%N.
        -- apply N.mul_lt_mono_pos_r; assumption.
        -- rewrite Hpow. apply N.pow_le_mono_r; lia.
Qed.

Lemma varint_reads n : (n < 2 ^ 64)%N -> reads varint_read (varint_encode n) n.
Proof.
  intros H rest. unfold varint_read, varint_encode. rewrite varint_dec_ok.
  - f_equal. f_equal. change (2 ^ (7 * 0))%N with 1%N. lia.
  - reflexivity.
  - reflexivity.
  - exact H.
  - left. reflexivity.
Qed.

(** ** Strings *)
Lemma reads_bind_end {A B} (r : reader A) (f : A -> reader B) w a b :
  reads r w a -> reads (f a) [] b -> reads (rbind r f) w b.
Proof. intros H1 H2. rewrite <- (app_nil_r w). eapply reads_bind; eassumption. Qed.

Lemma str_reads s : length s <= 255 -> utf8_valid s = true -> reads read_str (write_str s) s.
Proof.
  intros Hl Hu. unfold read_str, write_str. eapply reads_bind; [apply reads_usize8; unfold fits8; lia|].
  eapply reads_bind_end; [apply reads_take|]. rewrite Hu. apply reads_ret.
Qed.

(** ** Content identifiers: every value of the [Cid] type (64-byte multihashes). *)
Definition wf_cid (c : cid) : Prop :=
  match c with
  | CidV0 d => length d = 32
  | CidV1 codec code d => (codec < 2 ^ 64)%N /\ (code < 2 ^ 64)%N /\ length d <= 64
  end.

Lemma cid_parse_bytes c rest : wf_cid c -> cid_parse (cid_bytes c ++ rest) = Ok c.
Proof.
  destruct c as [d|codec code d]; cbn [wf_cid cid_bytes].
  - intros Hd. unfold cid_parse. change ([18; 32]%N ++ d) with (varint_encode 18 ++ varint_encode 32 ++ d).
    rewrite <- !app_assoc. rewrite (varint_reads 18) by reflexivity. cbn [bind].
    rewrite (varint_reads 32) by reflexivity. cbn [bind]. change ((18 =? 18)%N && (32 =? 32)%N) with true. cbv iota.
    rewrite app_length. destruct (Nat.leb_spec 32 (length d + length rest)); [|lia].
    rewrite <- Hd, firstn_app, firstn_all, Nat.sub_diag, firstn_O, app_nil_r. reflexivity.
  - intros (H1 & H2 & H3). unfold cid_parse. rewrite <- !app_assoc.
    rewrite (varint_reads 1) by reflexivity. cbn [bind].
    rewrite (varint_reads codec) by exact H1. cbn [bind]. change (1 =? 18)%N with false. cbn [andb].
    change (1 =? 1)%N with true. cbv iota.
    rewrite (varint_reads code) by exact H2. cbn [bind].
    rewrite (varint_reads (N.of_nat (length d))) by (change (2 ^ 64)%N with 18446744073709551616%N; lia). cbn [bind].
    rewrite Nat2N.id, app_length.
    destruct (N.leb_spec (N.of_nat (length d)) 64); [|lia]. cbn [andb].
    destruct (Nat.leb_spec (length d) (length d + length rest)); [|lia].
    rewrite firstn_app, firstn_all, Nat.sub_diag, firstn_O, app_nil_r. reflexivity.
Qed.

Lemma cid_reads c : wf_cid c -> reads read_cid (write_cid c) c.
Proof.
  intros Hc. unfold read_cid, write_cid. pose proof (cid_parse_bytes c [] Hc) as HP. rewrite app_nil_r in HP.
  destruct c as [d|codec code d]; cbn [wf_cid cid_bytes] in *.
  - change ([18; 32]%N ++ d) with (varint_encode 18 ++ varint_encode 32 ++ d).
    eapply reads_bind; [apply varint_reads; reflexivity|]. eapply reads_bind; [apply varint_reads; reflexivity|].
    change ((18 =? 18)%N && (32 =? 32)%N) with true. cbv iota.
    eapply reads_bind_end; [rewrite <- Hc; apply reads_take|].
    rewrite HP. apply reads_fail_ok.
  - destruct Hc as (H1 & H2 & H3).
    eapply reads_bind; [apply varint_reads; reflexivity|].
    eapply reads_bind; [apply varint_reads; exact H1|]. change (1 =? 18)%N with false. cbn [andb].
    eapply reads_bind; [apply varint_reads; exact H2|].
    eapply reads_bind; [apply varint_reads; change (2 ^ 64)%N with 18446744073709551616%N; lia|].
    rewrite Nat2N.id. eapply reads_bind_end; [apply reads_take|].
    rewrite HP. apply reads_fail_ok.
Qed.

Lemma varint_stops fuel : forall i acc n, stops (varint_dec (S fuel) i acc) (varint_enc fuel n) 0.
Proof.
  induction fuel as [|fuel IH]; intros i acc n m Hm; (split; [intros _|lia]).
  - cbn [varint_enc length] in Hm. assert (m = 0) by lia. subst m. exists EIo. reflexivity.
  - cbn [varint_enc] in *. destruct (N.ltb_spec n 128) as [L|L].
    + cbn [length] in Hm. assert (m = 0) by lia. subst m. exists EIo. reflexivity.
    + destruct m as [|m]; [exists EIo; reflexivity|].
      set (b := N.lor (N.land n 127) 128) in *.
      assert (Hb : (128 <= b)%N).
      { unfold b. rewrite land127. change 128%N with (N.shiftl 1 7) at 3. rewrite lor_low; [cbn; lia|].
        apply N.mod_lt. discriminate. }
      cbn [firstn]. rewrite varint_dec_S. cbv zeta. destruct (N.ltb_spec b 128); [lia|].
      cbn [length] in Hm. destruct (IH (i + 1)%N (N.lor acc (N.shiftl (N.land b 127) (7 * i) mod 2 ^ 64)) (N.shiftr n 7) m ltac:(lia)) as [H0 _].
      apply H0. lia.
Qed.

(** A reader that accepts a short answer but whose continuation then refuses. *)
Lemma stops_take_strict {B} w (f : bytes -> reader B) :
  (forall m, m < length w -> exists e, f (firstn m w) [] = Err e) ->
  stops (rbind (read_take (length w)) f) w 0.
Proof.
  intros H m Hm. split; [intros _|lia]. destruct (H m Hm) as (e & He). exists e.
  unfold rbind, read_take. cbn [bind fst snd]. rewrite skipn_all2 by (rewrite firstn_length; lia).
  rewrite firstn_firstn. replace (Nat.min (length w) m) with m by lia. exact He.
Qed.

Lemma cid_stops c : wf_cid c -> stops read_cid (write_cid c) 0.
Proof.
  intros Hc. unfold read_cid, write_cid.
  destruct c as [d|codec code d]; cbn [wf_cid cid_bytes] in *.
  - change ([18; 32]%N ++ d) with (varint_encode 18 ++ varint_encode 32 ++ d).
    eapply stops_bind0; [apply varint_reads; reflexivity|apply varint_stops| |lia].
    eapply stops_bind0; [apply varint_reads; reflexivity|apply varint_stops| |lia].
    change ((18 =? 18)%N && (32 =? 32)%N) with true. cbv iota. rewrite <- Hc. apply stops_take_strict.
    intros m Hm. exists ECid. unfold rfail, cid_parse.
    change ([18; 32]%N ++ firstn m d) with (varint_encode 18 ++ varint_encode 32 ++ firstn m d).
    rewrite (varint_reads 18) by reflexivity. cbn [bind].
    rewrite (varint_reads 32) by reflexivity. cbn [bind]. change ((18 =? 18)%N && (32 =? 32)%N) with true. cbv iota.
    rewrite firstn_length. destruct (Nat.leb_spec 32 (Nat.min m (length d))); [lia|]. reflexivity.
  - destruct Hc as (H1 & H2 & H3).
    assert (H4 : (N.of_nat (length d) < 2 ^ 64)%N) by (change (2 ^ 64)%N with 18446744073709551616%N; lia).
    eapply stops_bind0; [apply varint_reads; reflexivity|apply varint_stops| |lia].
    eapply stops_bind0; [apply varint_reads; exact H1|apply varint_stops| |lia].
    change (1 =? 18)%N with false. cbn [andb].
    eapply stops_bind0; [apply varint_reads; exact H2|apply varint_stops| |lia].
    eapply stops_bind0; [apply varint_reads; exact H4|apply varint_stops| |lia].
    rewrite Nat2N.id. apply stops_take_strict.
    intros m Hm. exists ECid. unfold rfail, cid_parse.
    rewrite (varint_reads 1) by reflexivity. cbn [bind].
    rewrite (varint_reads codec) by exact H1. cbn [bind]. change (1 =? 18)%N with false. cbn [andb].
    change (1 =? 1)%N with true. cbv iota.
    rewrite (varint_reads code) by exact H2. cbn [bind].
    rewrite (varint_reads (N.of_nat (length d))) by exact H4. cbn [bind].
    rewrite Nat2N.id, firstn_length. destruct (Nat.leb_spec (length d) (Nat.min m (length d))); [lia|].
    rewrite Bool.andb_false_r. reflexivity.
Qed.

(** ** Machine numbers *)
Lemma reads_signed bits n z : (bits = 8 * Z.of_nat n)%Z -> (0 < bits)%Z ->
  (- 2 ^ (bits - 1) <= z < 2 ^ (bits - 1))%Z ->
  reads (rbind (read_exact n) (fun b => rret (of_u bits (be_value b)))) (be_bytes n (to_u bits z)) z.
Proof.
  intros Hb H0 Hz. eapply reads_map.
  - rewrite <- (length_be_bytes n (to_u bits z)) at 1. apply reads_exact.
  - assert (HP : (0 < 2 ^ bits)%Z) by (apply Z.pow_pos_nonneg; lia).
    assert (HP2 : (2 ^ bits = 2 * 2 ^ (bits - 1))%Z).
    { replace bits with (Z.succ (bits - 1)) at 1 by lia. rewrite Z.pow_succ_r by lia. reflexivity. }
    rewrite be_value_id.
    + unfold of_u, to_u. rewrite Z2N.id by (apply Z.mod_pos_bound; exact HP).
      rewrite Zplus_mod_idemp_l. rewrite Z.mod_small by lia. lia.
    + unfold to_u. apply N2Z.inj_lt. rewrite Z2N.id by (apply Z.mod_pos_bound; exact HP).
      rewrite N2Z.inj_pow. replace (Z.of_N 256) with (2 ^ 8)%Z by reflexivity.
      rewrite <- Z.pow_mul_r by lia. rewrite nat_N_Z, <- Hb. apply Z.mod_pos_bound. exact HP.
Qed.
