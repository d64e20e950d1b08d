(** * Round trips, sizes and store lemmas for stored objects. *)
From Verif Require Import Base BaseFacts BitmapModel DacModel StreamModel StreamProofs ChunkModel ChunkStream NodeModel.
Ltac Zify.zify_post_hook ::= Z.div_mod_to_equations.
Arguments Nat.pow : simpl never.

(** ** Keys *)
Lemma bytes_eqb_spec a : forall b, bytes_eqb a b = true <-> a = b.
Proof.
  unfold bytes_eqb. induction a as [|x a IH]; intros [|y b]; cbn [length combine forallb].
  - split; reflexivity.
  - split; discriminate.
  - split; discriminate.
  - specialize (IH b). cbn [fst snd]. cbn [Nat.eqb]. rewrite !andb_true_iff in *. split.
    + intros (H1 & H2 & H3). apply N.eqb_eq in H2. subst y. f_equal. apply IH. auto.
    + intros E. injection E as -> ->. destruct IH as [_ IH]. destruct (IH eq_refl). rewrite N.eqb_refl. auto.
Qed.

Lemma cid_eqb_spec a b : cid_eqb a b = true <-> a = b.
Proof.
  destruct a as [d|co c d], b as [d'|co' c' d']; cbn [cid_eqb]; try (split; discriminate).
  - rewrite bytes_eqb_spec. split; congruence.
  - rewrite !andb_true_iff, bytes_eqb_spec, !N.eqb_eq. split; [intros ((-> & ->) & ->); reflexivity|].
    intros E. injection E as -> -> ->. auto.
Qed.
Lemma cid_eqb_refl a : cid_eqb a a = true.
Proof. apply cid_eqb_spec. reflexivity. Qed.
Lemma cid_eqb_neq a b : a <> b -> cid_eqb a b = false.
Proof. intros H. destruct (cid_eqb a b) eqn:E; [|reflexivity]. apply cid_eqb_spec in E. contradiction. Qed.
Definition cid_eq_dec (a b : cid) : {a = b} + {a <> b}.
Proof. destruct (cid_eqb a b) eqn:E; [left; apply cid_eqb_spec; exact E|right; intros ->; rewrite cid_eqb_refl in E; discriminate]. Defined.

(** ** Readers *)
Lemma reads_rfail {A B} (x : A) (f : A -> reader B) w b : reads (f x) w b -> reads (rbind (rfail (Ok x)) f) w b.
Proof. intros H rest. unfold rbind, rfail. cbn [bind fst snd]. apply H. Qed.

Lemma reads_enc {B} (e : encoding) (f : encoding -> reader B) w b : reads (f e) w b ->
  reads (rbind read_byte (fun x => rbind (rfail (encoding_of x)) f)) (write_byte (encoding_code e) ++ w) b.
Proof.
  intros H. eapply reads_bind; [apply reads_byte; apply encoding_code_byte|]. rewrite encoding_of_code.
  apply reads_rfail. exact H.
Qed.

(** Turns the goal's written bytes into the list of the pieces read. *)
Lemma reads_end {A} (r : reader A) w a : reads r (w ++ []) a -> reads r w a.
Proof. rewrite app_nil_r. trivial. Qed.

Record wf_span (s : span) : Prop := {
  wsp_instants : fits32 (sp_instants s); wsp_rows : fits32 (sp_rows s); wsp_cols : fits32 (sp_cols s);
  wsp_stride : fits32 (sp_stride s); wsp_count : fits32 (length (sp_spans s));
  wsp_cids : Forall wf_cid (sp_spans s) }.

Lemma reads_cids l : Forall wf_cid l -> reads (rmany (length l) read_cid) (flat_map write_cid l) l.
Proof. intros H. apply reads_many. intros x Hx. apply cid_reads. rewrite Forall_forall in H. auto. Qed.

Lemma span_reads s : wf_span s -> reads span_read (span_write s) s.
Proof.
  intros [H1 H2 H3 H4 H5 H6]. unfold span_read, span_write. apply reads_enc.
  eapply reads_bind; [apply reads_usize32; exact H1|].
  eapply reads_bind; [apply reads_usize32; exact H2|].
  eapply reads_bind; [apply reads_usize32; exact H3|].
  eapply reads_bind; [apply reads_usize32; exact H4|].
  eapply reads_bind; [apply reads_usize32; exact H5|].
  eapply reads_map; [apply reads_cids; exact H6|]. destruct s; reflexivity.
Qed.

Definition wf_ref (r : reference) : Prop :=
  match r with RElided => True | RLocal i => fits32 i | RExternal i => fits32 i end.

Lemma reference_reads r : wf_ref r -> reads reference_read (reference_write r) r.
Proof.
  intros H. unfold reference_read. destruct r as [|i|i]; cbn [reference_write].
  - apply reads_end. eapply reads_bind; [apply reads_byte; reflexivity|]. cbn [N.eqb Pos.eqb]. apply reads_ret.
  - eapply reads_bind; [apply reads_byte; reflexivity|]. cbn [N.eqb Pos.eqb].
    apply (reads_bind_ret read_usize32 RLocal), reads_usize32. exact H.
  - eapply reads_bind; [apply reads_byte; reflexivity|]. cbn [N.eqb Pos.eqb].
    apply (reads_bind_ret read_usize32 RExternal), reads_usize32. exact H.
Qed.

Record wf_super (s : super) : Prop := {
  wsu_instants : fits32 (su_instants s); wsu_rows : fits32 (su_rows s); wsu_cols : fits32 (su_cols s);
  wsu_sidelen : fits32 (su_sidelen s); wsu_levels : fits8 (su_levels s);
  wsu_chunks : fits32 (su_chunks_sidelen s); wsu_sub : fits32 (su_subsidelen s);
  wsu_fbits : fits8 (su_fbits s); wsu_nrefs : fits32 (length (su_refs s));
  wsu_refs : Forall wf_ref (su_refs s); wsu_external : wf_cid (su_external s);
  wsu_max : wf_dac (su_max s); wsu_min : wf_dac (su_min s) }.

Fixpoint wf_mm (m : mmstruct) : Prop :=
  match m with
  | MSpan s => wf_span s
  | MSub c => wf_chunk c
  | MSuper s local => wf_super s /\ fits32 (length local) /\ fold_right (fun x P => wf_mm x /\ P) True local
  end.

Fixpoint mm_depth (m : mmstruct) : nat :=
  match m with
  | MSpan _ | MSub _ => 1
  | MSuper _ local => S (fold_right (fun x d => Nat.max (mm_depth x) d) 0 local)
  end.

Lemma mm_ind' (P : mmstruct -> Prop) :
  (forall s, P (MSpan s)) -> (forall c, P (MSub c)) ->
  (forall s local, (forall x, In x local -> P x) -> P (MSuper s local)) -> forall m, P m.
Proof.
  intros H1 H2 H3. fix IH 1. intros [s|c|s local]; [apply H1|apply H2|].
  apply H3. induction local as [|y local IHl]; intros x Hx.
  - destruct Hx.
  - destruct Hx as [E|Hx]; [rewrite <- E; apply IH|apply IHl; exact Hx].
Qed.

Lemma fold_and {A} (Q : A -> Prop) l : fold_right (fun x P => Q x /\ P) True l <-> (forall x, In x l -> Q x).
Proof.
  induction l as [|y l IH]; cbn [fold_right]; split.
  - intros _ x [].
  - trivial.
  - intros [H1 H2] x [<-|Hx]; [exact H1|]. apply IH; assumption.
  - intros H. split; [apply H; left; reflexivity|]. apply IH. intros x Hx. apply H. right. exact Hx.
Qed.
Lemma fold_max {A} (d : A -> nat) l x : In x l -> d x <= fold_right (fun x m => Nat.max (d x) m) 0 l.
Proof.
  induction l as [|y l IH]; intros []; cbn [fold_right].
  - subst. lia.
  - specialize (IH H). lia.
Qed.

Lemma mm_reads_f m : wf_mm m -> forall fuel, mm_depth m <= fuel -> reads (mm_read_f fuel) (mm_write m) m.
Proof.
  induction m as [s|c|s local IH] using mm_ind'; intros HW fuel HD; cbn [mm_depth] in HD;
    (destruct fuel as [|fuel]; [lia|]); cbn [mm_read_f mm_write].
  - eapply reads_bind; [apply reads_byte; reflexivity|]. cbn [N.eqb Pos.eqb].
    apply (reads_bind_ret span_read MSpan), span_reads. exact HW.
  - eapply reads_bind; [apply reads_byte; reflexivity|]. cbn [N.eqb Pos.eqb].
    apply (reads_bind_ret chunk_read MSub), chunk_reads. exact HW.
  - eapply reads_bind; [apply reads_byte; reflexivity|]. cbn [N.eqb Pos.eqb].
    cbn [wf_mm] in HW. destruct HW as ([H1 H2 H3 H4 H5 H6 H7 H8 H9 H10 H11 H12 H13] & HL & HS).
    rewrite (fold_and wf_mm) in HS. unfold super_read, super_write_front. rewrite <- !app_assoc.
    eapply reads_bind; [apply reads_usize32; exact H1|].
    eapply reads_bind; [apply reads_usize32; exact H2|].
    eapply reads_bind; [apply reads_usize32; exact H3|].
    eapply reads_bind; [apply reads_usize32; exact H4|].
    eapply reads_bind; [apply reads_usize8; exact H5|].
    eapply reads_bind; [apply reads_usize32; exact H6|].
    eapply reads_bind; [apply reads_usize32; exact H7|].
    eapply reads_bind; [apply reads_usize8; exact H8|].
    apply reads_enc.
    eapply reads_bind; [apply reads_usize32; exact H9|].
    eapply reads_bind; [apply reads_many; intros x Hx; apply reference_reads; rewrite Forall_forall in H10; auto|].
    eapply reads_bind; [apply cid_reads; exact H11|].
    eapply reads_bind; [apply reads_usize32; exact HL|].
    eapply reads_bind.
    { apply reads_many. intros x Hx. apply IH; [exact Hx|auto|].
      pose proof (fold_max mm_depth local x Hx). lia. }
    unfold super_write_back.
    eapply reads_bind; [apply dac_reads; exact H12|].
    eapply reads_map; [apply dac_reads; exact H13|]. destruct s; reflexivity.
Qed.

Lemma length_write_byte' v : length (write_byte v) = 1.
Proof. apply length_write_byte. Qed.

Lemma mm_depth_le m : mm_depth m <= length (mm_write m).
Proof.
  induction m as [s|c|s local IH] using mm_ind'; cbn [mm_depth mm_write]; rewrite app_length, length_write_byte; try lia.
  rewrite !app_length. enough (fold_right (fun x d => Nat.max (mm_depth x) d) 0 local <= length (flat_map mm_write local)) by lia.
  clear s. induction local as [|x l IHl]; cbn [fold_right flat_map length]; [lia|].
  rewrite app_length. pose proof (IH x (or_introl eq_refl)). specialize (IHl (fun y H => IH y (or_intror H))). lia.
Qed.

Lemma mm_reads m : wf_mm m -> reads mm_read (mm_write m) m.
Proof.
  intros HW rest. unfold mm_read. apply mm_reads_f; [exact HW|]. rewrite app_length. pose proof (mm_depth_le m). lia.
Qed.

(** ** Links *)
Lemma cid_read_bytes_reads c : wf_cid c -> reads cid_read_bytes (write_cid c) c.
Proof.
  intros Hc. unfold cid_read_bytes, write_cid. destruct c as [d|codec code d]; cbn [wf_cid cid_bytes] in *.
  - change ([18; 32]%N ++ d) with (varint_encode 18 ++ varint_encode 32 ++ d).
    eapply reads_bind; [apply varint_reads; reflexivity|]. eapply reads_bind; [apply varint_reads; reflexivity|].
    change ((18 =? 18)%N && (32 =? 32)%N) with true. cbv iota.
    apply (reads_bind_ret (read_exact 32) CidV0). rewrite <- Hc. apply reads_exact.
  - destruct Hc as (H1 & H2 & H3).
    eapply reads_bind; [apply varint_reads; reflexivity|].
    eapply reads_bind; [apply varint_reads; exact H1|]. change (1 =? 18)%N with false. cbn [andb].
    change (1 =? 1)%N with true. cbv iota.
    eapply reads_bind; [apply varint_reads; exact H2|].
    eapply reads_bind; [apply varint_reads; change (2 ^ 64)%N with 18446744073709551616%N; lia|].
    destruct (N.leb_spec (N.of_nat (length d)) 64); [|lia].
    rewrite Nat2N.id. apply (reads_bind_ret (read_exact (length d)) (CidV1 codec code)). apply reads_exact.
Qed.

Lemma links_reads l rest : fits32 (length l) -> Forall wf_cid l -> links_read (links_write l ++ rest) = Ok (l, []).
Proof.
  intros H1 H2. unfold links_read, links_write. rewrite <- app_assoc.
  unfold rbind at 1. rewrite (reads_usize32 _ H1). cbn [bind fst snd].
  unfold rbind at 1. rewrite reads_many; [reflexivity|].
  intros x Hx. apply cid_read_bytes_reads. rewrite Forall_forall in H2. auto.
Qed.

(** ** Datasets *)
Definition i32_range (z : Z) : Prop := (- 2 ^ 31 <= z < 2 ^ 31)%Z.
Definition wf_kind (k : coord_kind) : Prop :=
  match k with
  | KTime a b => i64_range a /\ i64_range b
  | KI32 a b n => i32_range a /\ i32_range b /\ fits32 n
  | KI64 a b n => i64_range a /\ i64_range b /\ fits32 n
  | KF32 a b n => (a < 2 ^ 32)%N /\ (b < 2 ^ 32)%N /\ fits32 n
  | KF64 a b n => (a < 2 ^ 64)%N /\ (b < 2 ^ 64)%N /\ fits32 n
  end.
Definition wf_name (s : bytes) : Prop := utf8_valid s = true /\ length s <= 255.

Lemma reads_i64 z : i64_range z -> reads read_i64 (write_i64 z) z.
Proof. intros H rest. apply (reads_signed 64 8); [reflexivity|reflexivity|exact H]. Qed.
Lemma reads_i32 z : i32_range z -> reads read_i32 (write_i32 z) z.
Proof. intros H rest. apply (reads_signed 32 4); [reflexivity|reflexivity|exact H]. Qed.
Lemma reads_f32 v : (v < 2 ^ 32)%N -> reads read_f32 (write_f32 v) v.
Proof. intros H rest. apply (reads_be 4). exact H. Qed.
Lemma reads_f64 v : (v < 2 ^ 64)%N -> reads read_f64 (write_f64 v) v.
Proof. intros H rest. apply (reads_be 8). exact H. Qed.

Lemma kind_reads k : wf_kind k -> reads kind_read (kind_write k) k.
Proof.
  destruct k as [a b|a b n|a b n|a b n|a b n]; cbn [wf_kind kind_write]; unfold kind_read.
  - intros (Ha & Hb). apply reads_enc. eapply reads_bind; [apply reads_i64; exact Ha|].
    apply (reads_bind_ret read_i64 (KTime a)). apply reads_i64. exact Hb.
  - intros (Ha & Hb & Hn). apply reads_enc. eapply reads_bind; [apply reads_i32; exact Ha|].
    eapply reads_bind; [apply reads_i32; exact Hb|]. apply (reads_bind_ret read_usize32 (KI32 a b)). apply reads_usize32. exact Hn.
  - intros (Ha & Hb & Hn). apply reads_enc. eapply reads_bind; [apply reads_i64; exact Ha|].
    eapply reads_bind; [apply reads_i64; exact Hb|]. apply (reads_bind_ret read_usize32 (KI64 a b)). apply reads_usize32. exact Hn.
  - intros (Ha & Hb & Hn). apply reads_enc. eapply reads_bind; [apply reads_f32; exact Ha|].
    eapply reads_bind; [apply reads_f32; exact Hb|]. apply (reads_bind_ret read_usize32 (KF32 a b)). apply reads_usize32. exact Hn.
  - intros (Ha & Hb & Hn). apply reads_enc. eapply reads_bind; [apply reads_f64; exact Ha|].
    eapply reads_bind; [apply reads_f64; exact Hb|]. apply (reads_bind_ret read_usize32 (KF64 a b)). apply reads_usize32. exact Hn.
Qed.

Definition wf_coord (c : coordinate) : Prop := wf_name (co_name c) /\ wf_kind (co_kind c).
Lemma coord_reads c : wf_coord c -> reads coord_read (coord_write c) c.
Proof.
  intros ((H1 & H2) & H3). unfold coord_read, coord_write.
  eapply reads_bind; [apply str_reads; assumption|].
  eapply reads_map; [apply kind_reads; exact H3|]. destruct c; reflexivity.
Qed.

Record wf_variable (v : variable) : Prop := {
  wv_name : wf_name (va_name v); wv_round : match va_round v with Some b => fits8 b | None => True end;
  wv_span : fits32 (va_span_size v); wv_chunk : fits32 (va_chunk_size v);
  wv_nlevels : fits8 (length (va_levels v)); wv_levels : Forall fits32 (va_levels v); wv_cid : wf_cid (va_cid v) }.

Lemma variable_reads v : wf_variable v -> reads variable_read (variable_write v) v.
Proof.
  intros [[H1 H1'] H2 H3 H4 H5 H6 H7]. unfold variable_read, variable_write.
  eapply reads_bind; [apply str_reads; assumption|].
  assert (HR : forall (f : option nat -> reader variable) w,
    reads (f (va_round v)) w v ->
    reads (rbind read_byte (fun b => rbind (if (b =? 1)%N then rbind read_usize8 (fun bits => rret (Some bits)) else rret None) f))
      (match va_round v with Some bits => write_byte 1 ++ write_usize8 bits | None => write_byte 0 end ++ w) v).
  { intros f w Hf. destruct (va_round v) as [bits|].
    - rewrite <- app_assoc. eapply reads_bind; [apply reads_byte; reflexivity|]. cbn [N.eqb Pos.eqb].
      eapply reads_bind; [apply (reads_bind_ret read_usize8 Some), reads_usize8; exact H2|]. exact Hf.
    - eapply reads_bind; [apply reads_byte; reflexivity|]. cbn [N.eqb Pos.eqb].
      intros rest. unfold rbind, rret. cbn [bind fst snd]. apply Hf. }
  apply HR. clear HR.
  eapply reads_bind; [apply reads_usize32; exact H3|].
  eapply reads_bind; [apply reads_usize32; exact H4|].
  eapply reads_bind; [apply reads_usize8; exact H5|].
  eapply reads_bind; [apply reads_many; intros x Hx; apply reads_usize32; rewrite Forall_forall in H6; auto|].
  apply reads_enc. eapply reads_map; [apply cid_reads; exact H7|]. destruct v; reflexivity.
Qed.

Record wf_dataset (d : dataset) : Prop := {
  wd_coords : let '(c1, c2, c3) := ds_coords d in wf_coord c1 /\ wf_coord c2 /\ wf_coord c3;
  wd_nvars : fits8 (length (ds_vars d)); wd_vars : Forall wf_variable (ds_vars d);
  wd_rows : fits32 (ds_rows d); wd_cols : fits32 (ds_cols d);
  wd_prev : match ds_prev d with Some c => wf_cid c | None => True end }.

(** The dataset with its own identifier forgotten, or set. *)
Definition with_cid (d : dataset) (c : option cid) : dataset :=
  mkDataset (ds_coords d) (ds_vars d) (ds_rows d) (ds_cols d) c (ds_prev d).

Lemma dataset_reads d : wf_dataset d -> reads dataset_read (dataset_write d) (with_cid d None).
Proof.
  intros [H1 H2 H3 H4 H5 H6]. unfold dataset_read, dataset_write, with_cid.
  destruct (ds_coords d) as [[c1 c2] c3]. destruct H1 as (W1 & W2 & W3).
  eapply reads_bind; [apply coord_reads; exact W1|].
  eapply reads_bind; [apply coord_reads; exact W2|].
  eapply reads_bind; [apply coord_reads; exact W3|].
  eapply reads_bind; [apply reads_usize8; exact H2|].
  eapply reads_bind; [apply reads_many; intros x Hx; apply variable_reads; rewrite Forall_forall in H3; auto|].
  eapply reads_bind; [apply reads_usize32; exact H4|].
  eapply reads_bind; [apply reads_usize32; exact H5|].
  destruct (ds_prev d) as [c|].
  - eapply reads_bind; [apply reads_byte; reflexivity|]. cbn [N.eqb Pos.eqb].
    eapply reads_map; [apply (reads_bind_ret read_cid Some), cid_reads; exact H6|]. reflexivity.
  - apply reads_end. eapply reads_bind; [apply reads_byte; reflexivity|]. cbn [N.eqb Pos.eqb].
    intros rest. reflexivity.
Qed.

(** ** Nodes *)
Definition wf_node (n : node) : Prop :=
  match n with
  | NDataset d => wf_dataset d
  | NLinks l => fits32 (length l) /\ Forall wf_cid l
  | NMM m => wf_mm m
  end.

(** What is loaded for a stored node: a dataset learns its identifier. *)
Definition loaded (c : cid) (n : node) : node :=
  match n with NDataset d => NDataset (with_cid d (Some c)) | _ => n end.

Lemma header_reads t : (t < 256)%N ->
  reads read_header (write_u16 magic_number ++ write_u32 format_version ++ write_byte t) t.
Proof.
  intros Ht. unfold read_header.
  eapply reads_bind; [intros rest; apply (reads_be 2); reflexivity|].
  rewrite N.eqb_refl. cbn [negb].
  eapply reads_bind; [apply reads_u32; reflexivity|]. rewrite N.eqb_refl. cbn [negb]. apply reads_byte. exact Ht.
Qed.

Lemma node_type_byte n : (node_type n < 256)%N.
Proof. destruct n; reflexivity. Qed.

Lemma node_reads c n rest : wf_node n -> exists rest', node_read c (node_bytes n ++ rest) = Ok (loaded c n, rest').
Proof.
  intros HW. unfold node_read, node_bytes. unfold rbind at 1.
  replace ((write_u16 magic_number ++ write_u32 format_version ++ write_byte (node_type n) ++ node_body n) ++ rest)
    with ((write_u16 magic_number ++ write_u32 format_version ++ write_byte (node_type n)) ++ (node_body n ++ rest))
    by (rewrite <- !app_assoc; reflexivity).
  rewrite (header_reads _ (node_type_byte n)). cbn [bind fst snd].
  destruct n as [d|l|m]; cbn [node_type node_body N.eqb Pos.eqb wf_node loaded] in *; unfold rbind.
  - rewrite (dataset_reads d HW). cbn [bind fst snd]. eexists. reflexivity.
  - destruct HW as [H1 H2]. rewrite (links_reads l rest H1 H2). cbn [bind fst snd]. eexists. reflexivity.
  - rewrite (mm_reads m HW). cbn [bind fst snd]. eexists. reflexivity.
Qed.

(** ** The store *)

(** No two different byte strings of the store have the same identifier. *)
Definition functional (st : store) : Prop :=
  forall c b1 b2, In (c, b1) st -> In (c, b2) st -> b1 = b2.

Lemma store_get_in st c b : functional st -> In (c, b) st -> store_get st c = Some b.
Proof.
  intros HF HI. unfold store_get. destruct (find _ st) as [p|] eqn:E.
  - apply find_some in E. destruct E as [E1 E2]. apply cid_eqb_spec in E2. destruct p as [c' b']. cbn in *. subst c'.
    f_equal. eapply HF; eassumption.
  - exfalso. pose proof (find_none _ _ E _ HI) as H. cbn [fst] in H. rewrite cid_eqb_refl in H. discriminate.
Qed.
Lemma store_get_some st c b : store_get st c = Some b -> In (c, b) st.
Proof.
  unfold store_get. destruct (find _ st) as [p|] eqn:E; [|discriminate]. intros H. injection H as <-.
  apply find_some in E. destruct E as [E1 E2]. apply cid_eqb_spec in E2. subst c. destruct p; exact E1.
Qed.
Lemma functional_incl st st' : incl st st' -> functional st' -> functional st.
Proof. intros HI HF c b1 b2 H1 H2. eapply HF; apply HI; eassumption. Qed.

(** Growing the store (in any way, as long as it stays functional) does not
    change what is already there. *)
Lemma retrieve_incl st st' c n : incl st st' -> functional st' -> retrieve st c = Ok n -> retrieve st' c = Ok n.
Proof.
  intros HI HF. unfold retrieve. destruct (store_get st c) as [b|] eqn:E; [|discriminate].
  apply store_get_some in E. rewrite (store_get_in st' c b HF (HI _ E)). trivial.
Qed.
Lemma get_mm_incl st st' c m : incl st st' -> functional st' -> get_mm st c = Ok m -> get_mm st' c = Ok m.
Proof.
  intros HI HF. unfold get_mm. intros H. apply bind_inv in H. destruct H as (n & E & H).
  rewrite (retrieve_incl _ _ _ _ HI HF E). exact H.
Qed.
Lemma get_links_incl st st' c l : incl st st' -> functional st' -> get_links st c = Ok l -> get_links st' c = Ok l.
Proof.
  intros HI HF. unfold get_links. intros H. apply bind_inv in H. destruct H as (n & E & H).
  rewrite (retrieve_incl _ _ _ _ HI HF E). exact H.
Qed.
Lemma get_dataset_incl st st' c d : incl st st' -> functional st' -> get_dataset st c = Ok d -> get_dataset st' c = Ok d.
Proof.
  intros HI HF. unfold get_dataset. intros H. apply bind_inv in H. destruct H as (n & E & H).
  rewrite (retrieve_incl _ _ _ _ HI HF E). exact H.
Qed.

Lemma retrieve_saved st' hash n : wf_node n -> functional st' -> In (hash (node_bytes n), node_bytes n) st' ->
  retrieve st' (hash (node_bytes n)) = Ok (loaded (hash (node_bytes n)) n).
Proof.
  intros HW HF HI. unfold retrieve. rewrite (store_get_in _ _ _ HF HI).
  destruct (node_reads (hash (node_bytes n)) n [] HW) as (r & E). rewrite app_nil_r in E. rewrite E. reflexivity.
Qed.

Lemma save_in hash st n : In (hash (node_bytes n), node_bytes n) (snd (save hash st n)).
Proof. unfold save. cbn [snd]. apply in_or_app. right. left. reflexivity. Qed.
Lemma save_incl hash st n : incl st (snd (save hash st n)).
Proof. intros x Hx. unfold save. cbn [snd]. apply in_or_app. left. exact Hx. Qed.

(** ** What the code stores *)

(** The code never puts subchunks inside a superchunk ("local" subchunks), see
    SuperModel.v. *)
Definition no_local (n : node) : Prop := match n with NMM (MSuper _ local) => local = [] | _ => True end.
Definition plain (n : node) : Prop := wf_node n /\ no_local n.

(** Every object in the store is such a node. *)
Definition written (st : store) : Prop := Forall (fun p => exists n, plain n /\ snd p = node_bytes n) st.
Lemma written_app st st' : written (st ++ st') <-> written st /\ written st'.
Proof. apply Forall_app. Qed.
Lemma written_save hash st n : plain n -> written st -> written (snd (save hash st n)).
Proof. intros HP H. unfold save. cbn [snd]. apply written_app. split; [exact H|]. constructor; [exists n; auto|constructor]. Qed.
Lemma written_retrieve st c n : written st -> retrieve st c = Ok n -> no_local n.
Proof.
  intros HW. unfold retrieve. destruct (store_get st c) as [b|] eqn:E; [|discriminate]. apply store_get_some in E.
  unfold written in HW. rewrite Forall_forall in HW. destruct (HW _ E) as (n0 & [W NL] & Eb). cbn [snd] in Eb. subst b.
  destruct (node_reads c n0 [] W) as (r & Er). rewrite app_nil_r in Er. rewrite Er. cbn [bind fst]. intros H. injection H as <-.
  destruct n0; exact NL || exact I.
Qed.

(** The identifiers that a node refers to: what it has to be read with. *)
Fixpoint mm_refs (m : mmstruct) : list cid :=
  match m with
  | MSpan s => sp_spans s
  | MSub _ => []
  | MSuper s local => su_external s :: flat_map mm_refs local
  end.
Definition refs (n : node) : list cid :=
  match n with
  | NMM m => mm_refs m
  | NLinks l => l
  | NDataset d => map va_cid (ds_vars d) ++ match ds_prev d with Some c => [c] | None => [] end
  end.
(** There is an object with identifier [x]. *)
Definition has (st : store) (x : cid) : Prop := exists b, In (x, b) st.
Definition anchored (st : store) (n : node) : Prop := plain n /\ forall x, In x (refs n) -> has st x.
(** Every object in the store is a proper node that refers only to objects stored before it. *)
Definition laid (st : store) : Prop := forall i p, nth_error st i = Some p ->
  exists n, snd p = node_bytes n /\ anchored (firstn i st) n.
Definition grown (st st' : store) : Prop := (written st -> written st') /\ (laid st -> laid st').

Lemma has_incl st st' x : incl st st' -> has st x -> has st' x.
Proof. intros H (b & Hb). exists b. apply H, Hb. Qed.
Lemma anchored_incl st st' n : incl st st' -> anchored st n -> anchored st' n.
Proof. intros H (P & HR). split; [exact P|]. intros x Hx. eapply has_incl; [exact H|apply HR, Hx]. Qed.
Lemma has_get st c b : store_get st c = Some b -> has st c.
Proof. intros H. exists b. apply store_get_some, H. Qed.
Lemma has_retrieve st c n : retrieve st c = Ok n -> has st c.
Proof. unfold retrieve. destruct (store_get st c) as [b|] eqn:E; [|discriminate]. intros _. eapply has_get, E. Qed.
Lemma has_get_mm st c m : get_mm st c = Ok m -> has st c.
Proof. intros H. unfold get_mm in H. apply bind_inv in H. destruct H as (n & H & _). eapply has_retrieve, H. Qed.
Lemma grown_refl st : grown st st.
Proof. split; trivial. Qed.
Lemma grown_trans a b c : grown a b -> grown b c -> grown a c.
Proof. intros [H1 H2] [H3 H4]. split; auto. Qed.
Lemma laid_nil : laid [].
Proof. intros i p H. destruct i; discriminate. Qed.
Lemma laid_save hash st n : anchored st n -> laid st -> laid (snd (save hash st n)).
Proof.
  intros HA H i p Hi. unfold save in Hi. cbn [snd] in Hi. destruct (Nat.lt_ge_cases i (length st)) as [L|L].
  - rewrite nth_error_app1 in Hi by exact L. destruct (H i p Hi) as (n0 & E & HN). exists n0. split; [exact E|].
    cbn [save snd]. rewrite firstn_app. replace (i - length st) with 0 by lia. cbn [firstn]. rewrite app_nil_r. exact HN.
  - rewrite nth_error_app2 in Hi by exact L. destruct (i - length st) as [|j] eqn:Ej; [|destruct j; discriminate]. injection Hi as <-.
    exists n. split; [reflexivity|]. cbn [save snd]. rewrite firstn_app. replace i with (length st) by lia. rewrite firstn_all, Nat.sub_diag. cbn [firstn]. rewrite app_nil_r. exact HA.
Qed.
Lemma grown_save hash st n : anchored st n -> grown st (snd (save hash st n)).
Proof. intros H. split; [apply written_save, H|apply laid_save, H]. Qed.
Lemma nth_error_firstn_lt {A} (l : list A) : forall k i, i < k -> nth_error (firstn k l) i = nth_error l i.
Proof. induction l as [|x l IH]; intros [|k] [|i] H; try reflexivity; try lia. cbn [firstn nth_error]. apply IH. lia. Qed.
Lemma laid_prefix st k : laid st -> laid (firstn k st).
Proof.
  intros H i p Hi. assert (L : i < k).
  { apply Nat.lt_nge. intros C. assert (E : nth_error (firstn k st) i = None) by (apply nth_error_None; rewrite firstn_length; lia). congruence. }
  rewrite nth_error_firstn_lt in Hi by exact L. destruct (H i p Hi) as (n & E & HN). exists n. split; [exact E|].
  rewrite firstn_firstn. replace (Nat.min i k) with i by lia. exact HN.
Qed.
(** Whatever loads from such a store refers to what is there. *)
Lemma laid_retrieve st c n : laid st -> retrieve st c = Ok n -> forall x, In x (refs n) -> has st x.
Proof.
  intros HL. unfold retrieve. destruct (store_get st c) as [b|] eqn:E; [|discriminate]. apply store_get_some in E.
  apply In_nth_error in E. destruct E as (i & E). destruct (HL i _ E) as (n0 & Eb & (W & _) & HR). cbn [snd] in Eb. subst b.
  destruct (node_reads c n0 [] W) as (r & Er). rewrite app_nil_r in Er. rewrite Er. cbn [bind fst]. intros H. injection H as <-.
  intros x Hx. apply has_incl with (firstn i st); [|apply HR; destruct n0; exact Hx].
  intros y Hy. rewrite <- (firstn_skipn i st). apply in_or_app. left. exact Hy.
Qed.

(** ** Sizes *)
Lemma span_write_length s : length (span_write s) = 21 + sum_nat (map cid_len (sp_spans s)).
Proof.
  unfold span_write. rewrite !app_length, length_write_byte, !length_usize32.
  rewrite (sum_length_flat_map write_cid cid_len); [lia|]. intros x. reflexivity.
Qed.
Lemma span_size_ok s : mm_size (MSpan s) = length (node_bytes (NMM (MSpan s))).
Proof.
  unfold node_bytes. cbn [mm_size node_body mm_write]. rewrite !app_length, span_write_length. unfold span_size, header_size.
  rewrite !length_write_byte. change (length (write_u16 magic_number)) with 2. change (length (write_u32 format_version)) with 4. lia.
Qed.
Lemma links_size_ok l : links_size l = length (node_bytes (NLinks l)).
Proof.
  unfold node_bytes. cbn [node_body]. unfold links_write, links_size, header_size. rewrite !app_length, !length_write_byte, length_usize32.
  rewrite (sum_length_flat_map write_cid cid_len) by (intros x; reflexivity).
  change (length (write_u16 magic_number)) with 2. change (length (write_u32 format_version)) with 4. lia.
Qed.
Lemma sub_size_off c : mm_size (MSub c) + 7 = length (node_bytes (NMM (MSub c))).
Proof.
  unfold node_bytes. cbn [mm_size node_body mm_write]. rewrite !app_length, chunk_write_length, !length_write_byte.
  change (length (write_u16 magic_number)) with 2. change (length (write_u32 format_version)) with 4. lia.
Qed.
Lemma reference_write_length r : length (reference_write r) = reference_size r.
Proof. destruct r; reflexivity. Qed.
Lemma node_mm_length m : length (node_bytes (NMM m)) = 7 + length (mm_write m).
Proof. unfold node_bytes. rewrite !app_length. reflexivity. Qed.
Lemma super_size_off s local :
  mm_size (MSuper s local) + 1 + sum_nat (map (fun m => length (mm_write m)) local) =
  length (node_bytes (NMM (MSuper s local))) + sum_nat (map mm_size local).
Proof.
  rewrite node_mm_length. cbn [mm_size mm_write]. unfold super_write_front, super_write_back.
  rewrite !app_length, !length_usize32, !length_usize8, !length_write_byte, !dac_write_length.
  rewrite (sum_length_flat_map reference_write reference_size) by (intros x; apply reference_write_length).
  rewrite (sum_length_flat_map mm_write (fun m => length (mm_write m))) by reflexivity.
  unfold header_size, cid_len, write_cid. lia.
Qed.
Lemma super_subs_size_off s l : mm_size (MSuper s (map MSub l)) + 1 = length (node_bytes (NMM (MSuper s (map MSub l)))).
Proof.
  pose proof (super_size_off s (map MSub l)) as H. rewrite !map_map in H.
  assert (E : sum_nat (map (fun c => length (mm_write (MSub c))) l) = sum_nat (map (fun c => mm_size (MSub c)) l)).
  { clear H. induction l as [|c l IH]; [reflexivity|]. cbn [map sum_nat fold_right]. unfold sum_nat in IH. rewrite IH. f_equal.
    pose proof (sub_size_off c) as X. rewrite node_mm_length in X. lia. }
  lia.
Qed.
Lemma kind_write_length k : length (kind_write k) = kind_size k + 1.
Proof. destruct k; reflexivity. Qed.
Lemma coord_write_length c : length (coord_write c) = coord_size c + 1.
Proof. unfold coord_write, coord_size, write_str. rewrite !app_length, kind_write_length, length_usize8. lia. Qed.
Lemma variable_write_length v : length (variable_write v) = variable_size v + 1.
Proof.
  unfold variable_write, variable_size, write_str. rewrite !app_length, !length_write_byte, !length_usize32, !length_usize8.
  rewrite (sum_length_flat_map write_usize32 (fun _ => 4)) by (intros x; apply length_usize32).
  assert (E : sum_nat (map (fun _ => 4) (va_levels v)) = 4 * length (va_levels v)).
  { induction (va_levels v) as [|x l IH]; [reflexivity|]. cbn [map sum_nat fold_right length]. unfold sum_nat in IH. lia. }
  rewrite E. unfold cid_len, write_cid. clear E.
  destruct (va_round v); [rewrite app_length, length_usize8|]; rewrite length_write_byte; lia.
Qed.
Lemma dataset_size_off d : dataset_size d + 4 + length (ds_vars d) = length (node_bytes (NDataset d)).
Proof.
  unfold node_bytes. cbn [node_body]. unfold dataset_write, dataset_size, header_size. destruct (ds_coords d) as [[c1 c2] c3].
  rewrite !app_length, !coord_write_length, !length_write_byte, !length_usize32, length_usize8.
  rewrite (sum_length_flat_map variable_write (fun v => variable_size v + 1)) by (intros x; apply variable_write_length).
  assert (E : sum_nat (map (fun v => variable_size v + 1) (ds_vars d)) = sum_nat (map variable_size (ds_vars d)) + length (ds_vars d)).
  { induction (ds_vars d) as [|x l IH]; [reflexivity|]. cbn [map sum_nat fold_right length]. unfold sum_nat in IH. lia. }
  rewrite E. clear E. change (length (write_u16 magic_number)) with 2. change (length (write_u32 format_version)) with 4.
  destruct (ds_prev d); [rewrite app_length; unfold cid_len, write_cid|]; rewrite length_write_byte; lia.
Qed.

(** ** Headers *)
Lemma read_header_inv b t rest : Forall (fun x => (x < 256)%N) b -> read_header b = Ok (t, rest) ->
  b = [220; 224; 0; 0; 0; 1]%N ++ t :: rest.
Proof.
  intros HB. unfold read_header, read_u16, read_u32, read_byte, read_exact, rbind, rret, rfail.
  destruct b as [|x0 [|x1 b]]; try discriminate. cbn [length Nat.leb bind fst snd firstn skipn].
  unfold be_value at 1 2. cbn [fold_left]. unfold magic_number, format_version.
  destruct (N.eqb_spec ((0 * 256 + x0) * 256 + x1) 56544) as [E|E]; [|discriminate]. cbn [negb].
  destruct b as [|x2 [|x3 [|x4 [|x5 b]]]]; try discriminate. cbn [length Nat.leb bind fst snd firstn skipn].
  unfold be_value at 1. cbn [fold_left].
  destruct (N.eqb_spec ((((0 * 256 + x2) * 256 + x3) * 256 + x4) * 256 + x5) 1) as [E2|E2]; [|discriminate]. cbn [negb].
  destruct b as [|x6 b]; [discriminate|]. cbn [length Nat.leb bind fst snd firstn skipn]. unfold be_value. cbn [fold_left].
  intros H. injection H as Ht Hr. subst rest.
  repeat match goal with H : Forall _ (_ :: _) |- _ => inversion_clear H end.
  replace x0 with 220%N by lia. replace x1 with 224%N by lia. replace x2 with 0%N by lia. replace x3 with 0%N by lia.
  replace x4 with 0%N by lia. replace x5 with 1%N by lia. replace t with x6 by lia. reflexivity.
Qed.

Lemma node_bytes_header n : node_bytes n = [220; 224; 0; 0; 0; 1]%N ++ node_type n :: node_body n.
Proof. destruct n; reflexivity. Qed.

Lemma node_read_type c b n rest : Forall (fun x => (x < 256)%N) b -> node_read c b = Ok (n, rest) ->
  exists body, b = [220; 224; 0; 0; 0; 1]%N ++ node_type n :: body.
Proof.
  intros HB. unfold node_read, rbind at 1. intros H. apply bind_inv in H. destruct H as ([t r] & E & H).
  cbn [fst snd] in H. apply read_header_inv in E; [|exact HB]. exists r. rewrite E. f_equal. f_equal.
  destruct (N.eqb_spec t 0) as [->|N0].
  { unfold rbind, rret in H. apply bind_inv in H. destruct H as (y & _ & H). injection H as <- _. reflexivity. }
  destruct (N.eqb_spec t 1) as [->|N1].
  { unfold rbind, rret in H. apply bind_inv in H. destruct H as (y & _ & H). injection H as <- _. reflexivity. }
  destruct (N.eqb_spec t 2) as [->|N2]; [|discriminate].
  unfold rbind, rret in H. apply bind_inv in H. destruct H as (y & _ & H). injection H as <- _. reflexivity.
Qed.

(** ** Listing *)
Definition kind_of (n : node) : kind_name :=
  match n with
  | NDataset _ => IsDataset | NLinks _ => IsLinks
  | NMM (MSpan _) => IsSpan | NMM (MSub _) => IsSubchunk | NMM (MSuper _ _) => IsSuperchunk
  end.

Lemma node_type_of_saved st c n : store_get st c = Some (node_bytes n) -> node_type_of st c = Ok (Some (kind_of n)).
Proof.
  intros E. unfold node_type_of. rewrite E. unfold node_bytes.
  replace (write_u16 magic_number ++ write_u32 format_version ++ write_byte (node_type n) ++ node_body n)
    with ((write_u16 magic_number ++ write_u32 format_version ++ write_byte (node_type n)) ++ node_body n)
    by (rewrite <- !app_assoc; reflexivity).
  rewrite (header_reads _ (node_type_byte n)). cbn [bind fst snd].
  destruct n as [d|l|m]; [reflexivity|reflexivity|]. cbn [node_type N.eqb Pos.eqb node_body].
  destruct m as [s|c0|s local]; cbn [mm_write]; rewrite reads_byte by reflexivity; reflexivity.
Qed.

(** Whether a concrete store is functional can be computed. *)
Definition functional_check (st : store) : bool :=
  forallb (fun p => forallb (fun q => negb (cid_eqb (fst p) (fst q)) || bytes_eqb (snd p) (snd q)) st) st.
Lemma functional_checked st : functional_check st = true -> functional st.
Proof.
  unfold functional_check. intros H c b1 b2 H1 H2. rewrite forallb_forall in H. specialize (H _ H1).
  rewrite forallb_forall in H. specialize (H _ H2). cbn [fst snd] in H. rewrite cid_eqb_refl in H. cbn [negb orb] in H.
  apply bytes_eqb_spec. exact H.
Qed.
