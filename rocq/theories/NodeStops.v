(** * Truncated nodes: which prefixes of a saved object are refused. *)
From Verif Require Import Base BaseFacts BitmapModel DacModel StreamModel StreamProofs ChunkModel ChunkStream NodeModel NodeProofs TransportModel TransportProofs.
Arguments Nat.pow : simpl never.

Lemma eof_rfail_bind {A B} (x : A) (f : A -> reader B) : fails_at_end (f x) -> fails_at_end (rbind (rfail (Ok x)) f).
Proof. intros H. exact H. Qed.
Lemma stops_enc {B} (e : encoding) (f : encoding -> reader B) w t : stops (f e) w t -> t <= length w ->
  stops (rbind read_byte (fun x => rbind (rfail (encoding_of x)) f)) (write_byte (encoding_code e) ++ w) t.
Proof.
  intros H Ht. eapply stops_bind0; [apply reads_byte; apply encoding_code_byte|apply stops_byte| |exact Ht]. rewrite encoding_of_code.
  intros n Hn. exact (H n Hn).
Qed.
Lemma eof_cid : fails_at_end read_cid.
Proof. exists EIo. reflexivity. Qed.
Lemma length_cid c : 0 < length (write_cid c).
Proof. destruct c; cbn; lia. Qed.
Lemma last_tail_0 {A} (l : list A) : last_tail (fun _ => 0) l = 0.
Proof. unfold last_tail. destruct (rev l); reflexivity. Qed.
Lemma stops_cids l : Forall wf_cid l -> stops (rmany (length l) read_cid) (flat_map write_cid l) 0.
Proof.
  intros H. rewrite <- (last_tail_0 l). apply stops_many; [apply eof_cid|]. intros x Hx. rewrite Forall_forall in H.
  split; [apply cid_reads; auto|]. split; [apply cid_stops; auto|apply length_cid].
Qed.
Lemma span_stops s : wf_span s -> stops span_read (span_write s) 0.
Proof.
  intros [H1 H2 H3 H4 H5 H6]. unfold span_read, span_write. apply stops_enc; [|lia].
  eapply stops_bind0; [apply reads_usize32; exact H1|apply stops_usize32| |lia].
  eapply stops_bind0; [apply reads_usize32; exact H2|apply stops_usize32| |lia].
  eapply stops_bind0; [apply reads_usize32; exact H3|apply stops_usize32| |lia].
  eapply stops_bind0; [apply reads_usize32; exact H4|apply stops_usize32| |lia].
  eapply stops_bind0; [apply reads_usize32; exact H5|apply stops_usize32| |lia].
  apply stops_map. apply stops_cids. exact H6.
Qed.
Lemma eof_reference : fails_at_end reference_read.
Proof. exists EIo. reflexivity. Qed.
Lemma reference_stops r : wf_ref r -> stops reference_read (reference_write r) 0.
Proof.
  intros H. unfold reference_read. destruct r as [|i|i]; cbn [reference_write].
  - rewrite <- (app_nil_r (write_byte 0)). eapply stops_bind0; [apply reads_byte; reflexivity|apply stops_byte|apply stops_nil|lia].
  - eapply stops_bind0; [apply reads_byte; reflexivity|apply stops_byte| |lia]. cbn [N.eqb Pos.eqb]. apply stops_map, stops_usize32.
  - eapply stops_bind0; [apply reads_byte; reflexivity|apply stops_byte| |lia]. cbn [N.eqb Pos.eqb]. apply stops_map, stops_usize32.
Qed.
Lemma length_reference r : 0 < length (reference_write r).
Proof. destruct r; cbn; lia. Qed.

(** The number of bytes at the end of an object without which it is accepted all the same. *)
Definition mm_tail (m : mmstruct) : nat :=
  match m with MSpan _ => 0 | MSub c => chunk_tail c | MSuper s _ => dac_tail (su_min s) end.
Definition node_tail (n : node) : nat := match n with NMM m => mm_tail m | _ => 0 end.
Lemma chunk_tail_lt c : chunk_tail c < length (chunk_write c).
Proof.
  unfold chunk_tail, chunk_write. rewrite !app_length, length_write_byte.
  destruct (ch_blocks c) as [|b l] eqn:E; [cbn [last_tail rev]; lia|].
  pose proof (last_tail_lt block_tail block_write (b :: l) ltac:(discriminate) (fun x _ => block_tail_lt x)). lia.
Qed.
Lemma mm_tail_lt m : mm_tail m < length (mm_write m).
Proof.
  destruct m as [s|c|s local]; cbn [mm_tail mm_write]; rewrite app_length, length_write_byte; [lia|pose proof (chunk_tail_lt c); lia|].
  unfold super_write_back. rewrite !app_length. pose proof (dac_tail_lt (su_min s)). lia.
Qed.
Lemma eof_mm f : fails_at_end (mm_read_f (S f)).
Proof. exists EIo. reflexivity. Qed.
Lemma mm_stops_f m : wf_mm m -> forall fuel, mm_depth m < fuel -> stops (mm_read_f fuel) (mm_write m) (mm_tail m).
Proof.
  induction m as [s|c|s local IH] using mm_ind'; intros HW fuel HD; cbn [mm_depth] in HD;
    (destruct fuel as [|fuel]; [lia|]); cbn [mm_read_f mm_write mm_tail].
  - eapply stops_bind0; [apply reads_byte; reflexivity|apply stops_byte| |lia]. cbn [N.eqb Pos.eqb]. apply stops_map, span_stops. exact HW.
  - eapply stops_bind0; [apply reads_byte; reflexivity|apply stops_byte| |pose proof (chunk_tail_lt c); lia]. cbn [N.eqb Pos.eqb]. apply stops_map, chunk_stops. exact HW.
  - cbn [wf_mm] in HW. destruct HW as ([H1 H2 H3 H4 H5 H6 H7 H8 H9 H10 H11 H12 H13] & HL & HS).
    rewrite (fold_and wf_mm) in HS. pose proof (dac_tail_lt (su_min s)) as HT.
    unfold super_read, super_write_front, super_write_back. rewrite <- !app_assoc.
    eapply stops_bind0; [apply reads_byte; reflexivity|apply stops_byte| |rewrite !app_length; lia]. cbn [N.eqb Pos.eqb].
    eapply stops_bind0; [apply reads_usize32; exact H1|apply stops_usize32| |rewrite !app_length; lia].
    eapply stops_bind0; [apply reads_usize32; exact H2|apply stops_usize32| |rewrite !app_length; lia].
    eapply stops_bind0; [apply reads_usize32; exact H3|apply stops_usize32| |rewrite !app_length; lia].
    eapply stops_bind0; [apply reads_usize32; exact H4|apply stops_usize32| |rewrite !app_length; lia].
    eapply stops_bind0; [apply reads_usize8; exact H5|apply stops_usize8| |rewrite !app_length; lia].
    eapply stops_bind0; [apply reads_usize32; exact H6|apply stops_usize32| |rewrite !app_length; lia].
    eapply stops_bind0; [apply reads_usize32; exact H7|apply stops_usize32| |rewrite !app_length; lia].
    eapply stops_bind0; [apply reads_usize8; exact H8|apply stops_usize8| |rewrite !app_length; lia].
    apply stops_enc; [|rewrite !app_length; lia].
    eapply stops_bind0; [apply reads_usize32; exact H9|apply stops_usize32| |rewrite !app_length; lia].
    eapply stops_bind0; [apply reads_many; intros x Hx; apply reference_reads; rewrite Forall_forall in H10; auto| | |rewrite !app_length; lia].
    { rewrite <- (last_tail_0 (su_refs s)). apply stops_many; [apply eof_reference|]. intros x Hx. rewrite Forall_forall in H10.
      split; [apply reference_reads; auto|]. split; [apply reference_stops; auto|apply length_reference]. }
    eapply stops_bind0; [apply cid_reads; exact H11|apply cid_stops; exact H11| |rewrite !app_length; lia].
    eapply stops_bind0; [apply reads_usize32; exact HL|apply stops_usize32| |rewrite !app_length; lia].
    assert (HX : forall x, In x local -> reads (mm_read_f fuel) (mm_write x) x /\ stops (mm_read_f fuel) (mm_write x) (mm_tail x) /\ mm_tail x < length (mm_write x)).
    { intros x Hx. pose proof (fold_max mm_depth local x Hx). split; [apply mm_reads_f; [auto|lia]|]. split; [apply IH; [exact Hx|auto|lia]|apply mm_tail_lt]. }
    eapply stops_bind; [apply reads_many; intros x Hx; apply (HX x Hx)| | | |].
    { apply stops_many; [|exact HX]. destruct fuel as [|fuel]; [lia|apply eof_mm]. }
    { intros a'. apply eof_bind, eof_dac. }
    2: { rewrite app_length. lia. }
    eapply stops_bind; [apply dac_reads; exact H12|apply dac_stops; exact H12| | |exact HT].
    { intros a'. apply eof_bind, eof_dac. }
    apply (stops_map dac_read). apply dac_stops. exact H13.
Qed.
Lemma mm_stops m : wf_mm m -> stops mm_read (mm_write m) (mm_tail m).
Proof.
  intros HW n Hn. assert (L : length (firstn n (mm_write m)) < S (length (mm_write m))) by (rewrite firstn_length; lia).
  rewrite <- (flat_mm _ _ L), same_mm_f. apply mm_stops_f; [exact HW| |exact Hn]. pose proof (mm_depth_le m). lia.
Qed.

(** ** Links *)
Lemma cid_read_bytes_stops c : wf_cid c -> stops cid_read_bytes (write_cid c) 0.
Proof.
  intros Hc. unfold cid_read_bytes, write_cid. destruct c as [d|codec code d]; cbn [wf_cid cid_bytes] in *.
  - change ([18; 32]%N ++ d) with (varint_encode 18 ++ varint_encode 32 ++ d).
    eapply stops_bind0; [apply varint_reads; reflexivity|apply varint_stops| |lia].
    eapply stops_bind0; [apply varint_reads; reflexivity|apply varint_stops| |lia].
    change ((18 =? 18)%N && (32 =? 32)%N) with true. cbv iota. apply stops_map, stops_exact. exact Hc.
  - destruct Hc as (H1 & H2 & H3).
    assert (H4 : (N.of_nat (length d) < 2 ^ 64)%N) by (change (2 ^ 64)%N with 18446744073709551616%N; lia).
    eapply stops_bind0; [apply varint_reads; reflexivity|apply varint_stops| |lia].
    eapply stops_bind0; [apply varint_reads; exact H1|apply varint_stops| |lia].
    change (1 =? 18)%N with false. cbn [andb]. change (1 =? 1)%N with true. cbv iota.
    eapply stops_bind0; [apply varint_reads; exact H2|apply varint_stops| |lia].
    eapply stops_bind0; [apply varint_reads; exact H4|apply varint_stops| |lia].
    destruct (N.leb_spec (N.of_nat (length d)) 64); [|lia]. rewrite Nat2N.id. apply stops_map, stops_exact. reflexivity.
Qed.
Lemma eof_cid_bytes : fails_at_end cid_read_bytes.
Proof. exists EIo. reflexivity. Qed.
Lemma links_stops l : fits32 (length l) -> Forall wf_cid l -> stops links_read (links_write l) 0.
Proof.
  intros H1 H2. unfold links_read, links_write. eapply stops_bind0; [apply reads_usize32; exact H1|apply stops_usize32| |lia].
  assert (S0 : stops (rmany (length l) cid_read_bytes) (flat_map write_cid l) 0).
  { rewrite <- (last_tail_0 l). apply stops_many; [apply eof_cid_bytes|]. intros x Hx. rewrite Forall_forall in H2.
    split; [apply cid_read_bytes_reads; auto|]. split; [apply cid_read_bytes_stops; auto|apply length_cid]. }
  intros n Hn. split; [|lia]. intros _. destruct (proj1 (S0 n Hn) ltac:(lia)) as [e E]. exists e. unfold rbind. rewrite E. reflexivity.
Qed.

(** ** Datasets: a name cut short is accepted, but what must follow is missing *)
Definition halts {A} (r : reader A) (w : bytes) : Prop :=
  forall n, n < length w -> (exists e, r (firstn n w) = Err e) \/ (exists a, r (firstn n w) = Ok (a, [])).
Lemma halts_bind {A B} (r : reader A) (f : A -> reader B) w1 w2 a : reads r w1 a -> halts r w1 -> (forall a', fails_at_end (f a')) -> stops (f a) w2 0 ->
  stops (rbind r f) (w1 ++ w2) 0.
Proof.
  intros HR H1 HF H2 n Hn. rewrite app_length in *. rewrite firstn_app. unfold rbind. split; [|lia]. intros _.
  destruct (Nat.lt_ge_cases n (length w1)) as [Hl|Hl].
  - replace (n - length w1) with 0 by lia. rewrite firstn_O, app_nil_r.
    destruct (H1 n Hl) as [[e ->]|[a' ->]]; cbn [bind fst snd]; [exists e; reflexivity|apply HF].
  - rewrite (firstn_all2 w1) by exact Hl. rewrite HR. cbn [bind fst snd]. apply (H2 (n - length w1)); lia.
Qed.
Lemma str_halts s : length s <= 255 -> halts read_str (write_str s).
Proof.
  intros H n Hn. unfold write_str in *. rewrite app_length, length_usize8 in Hn. unfold read_str.
  destruct n as [|n]; [left; exists EIo; reflexivity|].
  rewrite firstn_app, length_usize8, (firstn_all2 (write_usize8 _)) by (rewrite length_usize8; lia). replace (S n - 1) with n by lia.
  unfold rbind. rewrite (reads_usize8 (length s) ltac:(unfold fits8; lia) (firstn n s)). cbn [bind fst snd]. unfold read_take. cbn [bind fst snd].
  rewrite (skipn_all2 (firstn n s)) by (rewrite firstn_length; lia).
  destruct (utf8_valid (firstn (length s) (firstn n s))); [right; eexists; reflexivity|left; eexists; reflexivity].
Qed.
Lemma eof_str : fails_at_end read_str.
Proof. exists EIo. reflexivity. Qed.
Lemma eof_kind : fails_at_end kind_read.
Proof. exists EIo. reflexivity. Qed.
Lemma kind_stops k : wf_kind k -> stops kind_read (kind_write k) 0.
Proof.
  destruct k as [a b|a b n|a b n|a b n|a b n]; cbn [wf_kind kind_write]; unfold kind_read.
  - intros (Ha & Hb). apply stops_enc; [|lia]. eapply stops_bind0; [apply reads_i64; exact Ha|apply stops_map, stops_exact, length_be_bytes| |lia].
    apply stops_map, stops_map, stops_exact, length_be_bytes.
  - intros (Ha & Hb & Hn). apply stops_enc; [|lia]. eapply stops_bind0; [apply reads_i32; exact Ha|apply stops_map, stops_exact, length_be_bytes| |lia].
    eapply stops_bind0; [apply reads_i32; exact Hb|apply stops_map, stops_exact, length_be_bytes| |lia]. apply stops_map, stops_usize32.
  - intros (Ha & Hb & Hn). apply stops_enc; [|lia]. eapply stops_bind0; [apply reads_i64; exact Ha|apply stops_map, stops_exact, length_be_bytes| |lia].
    eapply stops_bind0; [apply reads_i64; exact Hb|apply stops_map, stops_exact, length_be_bytes| |lia]. apply stops_map, stops_usize32.
  - intros (Ha & Hb & Hn). apply stops_enc; [|lia]. eapply stops_bind0; [apply reads_f32; exact Ha|apply stops_map, stops_exact, length_be_bytes| |lia].
    eapply stops_bind0; [apply reads_f32; exact Hb|apply stops_map, stops_exact, length_be_bytes| |lia]. apply stops_map, stops_usize32.
  - intros (Ha & Hb & Hn). apply stops_enc; [|lia]. eapply stops_bind0; [apply reads_f64; exact Ha|apply stops_map, stops_exact, length_be_bytes| |lia].
    eapply stops_bind0; [apply reads_f64; exact Hb|apply stops_map, stops_exact, length_be_bytes| |lia]. apply stops_map, stops_usize32.
Qed.
Lemma coord_stops c : wf_coord c -> stops coord_read (coord_write c) 0.
Proof.
  intros ((H1 & H2) & H3). unfold coord_read, coord_write. eapply halts_bind; [apply str_reads; assumption|apply str_halts; assumption| |].
  - intros a'. apply eof_bind, eof_kind.
  - apply stops_map, kind_stops. exact H3.
Qed.
Lemma eof_variable : fails_at_end variable_read.
Proof. exists EIo. reflexivity. Qed.
Lemma variable_stops v : wf_variable v -> stops variable_read (variable_write v) 0.
Proof.
  intros [[H1 H1'] H2 H3 H4 H5 H6 H7]. unfold variable_read, variable_write.
  eapply halts_bind; [apply str_reads; assumption|apply str_halts; assumption|intros a'; apply eof_bind, eof_byte|].
  assert (HR : forall (f : option nat -> reader variable) w,
    stops (f (va_round v)) w 0 ->
    stops (rbind read_byte (fun b => rbind (if (b =? 1)%N then rbind read_usize8 (fun bits => rret (Some bits)) else rret None) f))
      (match va_round v with Some bits => write_byte 1 ++ write_usize8 bits | None => write_byte 0 end ++ w) 0).
  { intros f w Hf. destruct (va_round v) as [bits|].
    - rewrite <- app_assoc. eapply stops_bind0; [apply reads_byte; reflexivity|apply stops_byte| |lia]. cbn [N.eqb Pos.eqb].
      eapply stops_bind0; [apply (reads_bind_ret read_usize8 Some), reads_usize8; exact H2|apply stops_map, stops_usize8|exact Hf|lia].
    - eapply stops_bind0; [apply reads_byte; reflexivity|apply stops_byte| |lia]. cbn [N.eqb Pos.eqb]. intros n Hn. exact (Hf n Hn). }
  apply HR. clear HR.
  eapply stops_bind0; [apply reads_usize32; exact H3|apply stops_usize32| |lia].
  eapply stops_bind0; [apply reads_usize32; exact H4|apply stops_usize32| |lia].
  eapply stops_bind0; [apply reads_usize8; exact H5|apply stops_usize8| |lia].
  rewrite Forall_forall in H6.
  eapply stops_bind0; [apply reads_many; intros x Hx; apply reads_usize32; auto| | |lia].
  { rewrite <- (last_tail_0 (va_levels v)). apply stops_many; [apply eof_usize32|]. intros x Hx.
    split; [apply reads_usize32; auto|]. split; [apply stops_usize32|rewrite length_usize32; lia]. }
  apply stops_enc; [|lia]. apply stops_map, cid_stops. exact H7.
Qed.
Lemma length_variable v : 0 < length (variable_write v).
Proof. unfold variable_write, write_str. rewrite !app_length, length_usize8. lia. Qed.
Lemma dataset_stops d : wf_dataset d -> stops dataset_read (dataset_write d) 0.
Proof.
  intros [H1 H2 H3 H4 H5 H6]. unfold dataset_read, dataset_write. destruct (ds_coords d) as [[c1 c2] c3]. destruct H1 as (W1 & W2 & W3).
  eapply stops_bind0; [apply coord_reads; exact W1|apply coord_stops; exact W1| |lia].
  eapply stops_bind0; [apply coord_reads; exact W2|apply coord_stops; exact W2| |lia].
  eapply stops_bind0; [apply coord_reads; exact W3|apply coord_stops; exact W3| |lia].
  eapply stops_bind0; [apply reads_usize8; exact H2|apply stops_usize8| |lia]. rewrite Forall_forall in H3.
  eapply stops_bind0; [apply reads_many; intros x Hx; apply variable_reads; auto| | |lia].
  { rewrite <- (last_tail_0 (ds_vars d)). apply stops_many; [apply eof_variable|]. intros x Hx.
    split; [apply variable_reads; auto|]. split; [apply variable_stops; auto|apply length_variable]. }
  eapply stops_bind0; [apply reads_usize32; exact H4|apply stops_usize32| |lia].
  eapply stops_bind0; [apply reads_usize32; exact H5|apply stops_usize32| |lia].
  destruct (ds_prev d) as [c|].
  - eapply stops_bind0; [apply reads_byte; reflexivity|apply stops_byte| |lia]. cbn [N.eqb Pos.eqb].
    apply (stops_map (rbind read_cid (fun c => rret (Some c)))), stops_map, cid_stops. exact H6.
  - rewrite <- (app_nil_r (write_byte 0)). eapply stops_bind0; [apply reads_byte; reflexivity|apply stops_byte|apply stops_nil|lia].
Qed.

(** ** Nodes *)
Lemma header_stops t : stops read_header (write_u16 magic_number ++ write_u32 format_version ++ write_byte t) 0.
Proof.
  unfold read_header. eapply stops_bind0; [intros rest; apply (reads_be 2); reflexivity|apply stops_map, stops_exact, length_be_bytes| |lia].
  rewrite N.eqb_refl. cbn [negb]. eapply stops_bind0; [apply reads_u32; reflexivity|apply stops_u32| |lia]. rewrite N.eqb_refl. cbn [negb]. apply stops_byte.
Qed.
Lemma node_stops c n : wf_node n -> stops (node_read c) (node_bytes n) (node_tail n).
Proof.
  intros HW. unfold node_read, node_bytes. rewrite (app_assoc (write_u32 _)), (app_assoc (write_u16 _)).
  eapply stops_bind0; [apply header_reads, node_type_byte|apply header_stops| |].
  - destruct n as [d|l|m]; cbn [node_type node_body node_tail N.eqb Pos.eqb wf_node] in *.
    + apply stops_map, dataset_stops, HW.
    + apply stops_map, links_stops; apply HW.
    + apply stops_map, mm_stops, HW.
  - destruct n as [d|l|m]; cbn [node_body node_tail]; [lia|lia|pose proof (mm_tail_lt m); lia].
Qed.
