(** * C56: loading whatever bytes a store returns

    A store may return anything for an identifier: damaged objects, objects of another program,
    forgeries. Checksums are the mapper's affair; the library has to cope with the bytes. *)
From Verif Require Import Base BaseFacts BitmapModel DacModel StreamModel StreamProofs ChunkModel ChunkStream NodeModel NodeProofs LoadProofs.
From Verif Require PropertiesNode.
Arguments Nat.pow : simpl never.

(** Loading ends, whatever the store holds: no count or nesting in the bytes makes it go on for ever.
    So does listing, and asking for the kind of an object. *)
Theorem C56_load_ends_partial : forall (st : store) (c : cid),
  retrieve st c <> Diverge /\ get_dataset st c <> Diverge /\ get_links st c <> Diverge /\ get_mm st c <> Diverge /\
  node_type_of st c <> Diverge /\ resolver_ls st c <> Diverge.
Proof.
  intros st c.
  assert (X : forall A B (x : res A) (f : A -> res B), x <> Diverge -> (forall a, f a <> Diverge) -> bind x f <> Diverge).
  { intros A B x f H1 H2. destruct x; cbn; [apply H2|discriminate..|congruence]. }
  assert (R : retrieve st c <> Diverge).
  { unfold retrieve. destruct (store_get st c) as [b|]; [|discriminate]. apply X; [apply ends_node|discriminate]. }
  assert (T : forall c, node_type_of st c <> Diverge).
  { intros c'. unfold node_type_of. destruct (store_get st c') as [b|]; [|discriminate]. apply X; [unfold read_header; apply ends_bind; [apply ends_u16|intros ?; apply ends_if; [apply ends_fail; discriminate|apply ends_bind; [apply ends_u32|intros ?; apply ends_if; [apply ends_fail; discriminate|apply ends_byte]]]]|].
    intros [x s]. apply X; [cbn [fst snd]; destruct (x =? 2)%N; [apply ends_byte|discriminate]|]. intros [y s']. cbn [fst]. repeat match goal with |- context [if ?b then _ else _] => destruct b end; discriminate. }
  split; [exact R|]. unfold get_dataset, get_links, get_mm.
  repeat (split; [apply X; [exact R|intros [d|l|m]; discriminate]|]). split; [apply T|].
  unfold resolver_ls. apply X; [exact R|]. intros n. generalize (node_ls n). intros l. induction l as [|p l IH]; cbn [mapM]; [discriminate|].
  apply X; [apply X; [apply T|discriminate]|]. intros y. apply X; [exact IH|discriminate].
Qed.

(** Lists of links are always dealt with: an object or an error. *)
Theorem C56_links_partial : forall (st : store) (c : cid) body, store_get st c = Some ([0xDC; 0xE0; 0; 0; 0; 1; 1]%N ++ body) ->
  (exists l, get_links st c = Ok l) \/ (exists e, get_links st c = Err e).
Proof.
  intros st c body H.
  assert (C : forall A (x : res A), x <> Diverge -> x <> Panic -> (exists l, x = Ok l) \/ (exists e, x = Err e)) by (intros A [a|e| |] H1 H2; eauto; congruence).
  apply C; [apply C56_load_ends_partial|].
  assert (P : forall {A} (n : nat) (r : reader A), (forall s, r s <> Panic) -> forall s, rmany n r s <> Panic).
  { intros A n r Hr. induction n as [|n IH]; intros s; cbn [rmany]; [discriminate|]. unfold rbind. specialize (Hr s). destruct (r s) as [[x s1]| | |]; cbn; try discriminate; [|congruence].
    specialize (IH s1). destruct (rmany n r s1) as [[y s2]| | |]; cbn; try discriminate. congruence. }
  assert (E : forall n s, read_exact n s <> Panic) by (intros n s; unfold read_exact; destruct (n <=? length s); discriminate).
  assert (B : forall {A C} (r : reader A) (f : A -> reader C), (forall s, r s <> Panic) -> (forall a s, f a s <> Panic) -> forall s, rbind r f s <> Panic).
  { intros A C0 r f H1 H2 s. unfold rbind. specialize (H1 s). destruct (r s) as [[x s1]| | |]; cbn; try discriminate; [apply H2|congruence]. }
  assert (Y : forall s, read_byte s <> Panic) by (apply B; [apply E|discriminate]).
  assert (V : forall f i a s, varint_dec f i a s <> Panic).
  { induction f as [|f IH]; intros i a; cbn [varint_dec]; [discriminate|]. apply B; [exact Y|]. intros b s. destruct (b <? 128)%N; [destruct (_ && _); discriminate|apply IH]. }
  assert (D : forall s, cid_read_bytes s <> Panic).
  { unfold cid_read_bytes. apply B; [apply V|]. intros v. apply B; [apply V|]. intros co s. destruct (_ && _).
    - revert s. apply B; [apply E|discriminate].
    - destruct (v =? 1)%N; [|discriminate]. revert s. apply B; [apply V|]. intros cd. apply B; [apply V|]. intros sz s. destruct (sz <=? 64)%N; [|discriminate]. revert s. apply B; [apply E|discriminate]. }
  assert (L : forall s, links_read s <> Panic).
  { unfold links_read. apply B; [apply B; [apply B; [apply E|discriminate]|discriminate]|]. intros n. apply B; [apply P; exact D|discriminate]. }
  unfold get_links, retrieve. rewrite H.
  change (node_read c ([0xDC; 0xE0; 0; 0; 0; 1; 1]%N ++ body)) with (rbind links_read (fun l => rret (NLinks l)) body).
  unfold rbind. specialize (L body). destruct (links_read body) as [[l s]| | |]; cbn; try discriminate. congruence.
Qed.

(** Everything else can panic. Whatever object is stored, changing its first byte makes loading panic
    instead of reporting an error. *)
Theorem C56_header_panics_refuted : forall n c x b b', node_bytes n = b :: b' -> (x < 256)%N -> x <> b -> retrieve [(c, x :: b')] c = Panic.
Proof.
  intros n c x b b' E Hx Hn. unfold retrieve, store_get. cbn [find fst]. rewrite cid_eqb_refl. cbn [snd].
  unfold node_bytes in E. change (write_u16 magic_number) with [220; 224]%N in E. cbn [app] in E. injection E as <- <-.
  unfold node_read, read_header. unfold rbind at 1 2. unfold read_u16 at 1. unfold rbind at 1. unfold read_exact at 1. cbn [length Nat.leb].
  cbn [bind fst snd firstn skipn rret]. unfold rret. cbn [bind fst snd].
  replace (be_value [x; 224]%N =? magic_number)%N with false; [reflexivity|]. symmetry. apply N.eqb_neq. unfold be_value, magic_number. cbn [fold_left]. lia.
Qed.
(** Nor only there: one byte within a stored chunk (its encoding), or a divisor of [0] in a bitmap. *)
Theorem C56_body_panics_refuted : exists good bad1 bad2 c,
  length bad1 = length good /\ length bad2 = length good /\ (exists m, get_mm [(c, good)] c = Ok m) /\
  get_mm [(c, bad1)] c = Panic /\ get_mm [(c, bad2)] c = Panic.
Proof.
  pose (g := fun e k => ([220; 224; 0; 0; 0; 1; 2; 4; e; 0; 0; 0; 0; 1; 1; 2; 0; 0; 0; 2; 0; 0; 0; 2; 0; 0; 0; 2; 0; 0; 0; 0; 0; 0; 0; k; 0; 0] : bytes)%N).
  exists (g 4 1)%N, (g 5 1)%N, (g 4 0)%N, (CidV0 []).
  split; [reflexivity|]. split; [reflexivity|]. split; [eexists; vm_compute; reflexivity|]. split; vm_compute; reflexivity.
Qed.

(** Bytes after the end of an object are never noticed. *)
Theorem C56_excess_accepted_refuted : forall n c more, wf_node n ->
  exists n', retrieve [(c, node_bytes n)] c = Ok n' /\ retrieve [(c, node_bytes n ++ more)] c = Ok n'.
Proof.
  intros n c more W. exists (loaded c n). unfold retrieve, store_get. cbn [find fst]. rewrite cid_eqb_refl. cbn [snd].
  destruct (node_reads c n [] W) as (r & E). rewrite app_nil_r in E. destruct (node_reads c n more W) as (r' & E').
  rewrite E, E'. split; reflexivity.
Qed.
(** And the same object has several serializations of the same length: the byte that says whether a
    dataset has a previous version may be anything but [1]. *)
Theorem C56_other_bytes_refuted : forall d c x, wf_dataset d -> ds_prev d = None -> (1 < x < 256)%N ->
  exists front, node_bytes (NDataset d) = front ++ [0]%N /\
    exists n', retrieve [(c, front ++ [0]%N)] c = Ok n' /\ retrieve [(c, front ++ [x])] c = Ok n'.
Proof.
  intros d c x W Hp Hx. destruct d as [co vs r cl ci pv]. cbn [ds_prev] in Hp. subst pv.
  set (front := let '(c1, c2, c3) := co in coord_write c1 ++ coord_write c2 ++ coord_write c3 ++ write_usize8 (length vs) ++ flat_map variable_write vs ++ write_usize32 r ++ write_usize32 cl).
  set (h := write_u16 magic_number ++ write_u32 format_version ++ write_byte 0).
  assert (Hb : forall y, (y < 256)%N -> write_byte y = [y]).
  { intros y Hy. unfold write_byte, be_bytes. cbn [le_bytes rev app]. rewrite N.mod_small by exact Hy. reflexivity. }
  assert (R : forall y, (y < 256)%N -> (y =? 1)%N = false -> forall rest, dataset_read (front ++ write_byte y ++ rest) = Ok (mkDataset co vs r cl None None, rest)).
  { intros y Hy Hy1 rest. destruct W as [H1 H2 H3 H4 H5 H6]. cbn [ds_coords ds_vars ds_rows ds_cols ds_prev] in *.
    assert (X : reads dataset_read (front ++ write_byte y) (mkDataset co vs r cl None None)).
    { unfold front, dataset_read. destruct co as [[c1 c2] c3]. destruct H1 as (W1 & W2 & W3). rewrite <- !app_assoc.
      eapply reads_bind; [apply coord_reads; exact W1|].
      eapply reads_bind; [apply coord_reads; exact W2|].
      eapply reads_bind; [apply coord_reads; exact W3|].
      eapply reads_bind; [apply reads_usize8; exact H2|].
      eapply reads_bind; [apply reads_many; intros v Hv; apply variable_reads; rewrite Forall_forall in H3; auto|].
      eapply reads_bind; [apply reads_usize32; exact H4|].
      eapply reads_bind; [apply reads_usize32; exact H5|].
      apply reads_end. eapply reads_bind; [apply reads_byte; exact Hy|]. rewrite Hy1. intros rest'. reflexivity. }
    specialize (X rest). rewrite <- app_assoc in X. exact X. }
  assert (Q : forall y, (y < 256)%N -> (y =? 1)%N = false -> retrieve [(c, (h ++ front) ++ [y])] c = Ok (NDataset (mkDataset co vs r cl (Some c) None))).
  { intros y Hy Hy1. unfold retrieve, store_get. cbn [find fst]. rewrite cid_eqb_refl. cbn [snd].
    change (node_read c ((h ++ front) ++ [y])) with (rbind dataset_read (fun d => rret (NDataset (mkDataset (ds_coords d) (ds_vars d) (ds_rows d) (ds_cols d) (Some c) (ds_prev d)))) (front ++ [y])).
    unfold rbind. specialize (R y Hy Hy1 []). rewrite app_nil_r, (Hb y Hy) in R. rewrite R. reflexivity. }
  exists (h ++ front). split.
  - unfold node_bytes, node_body, dataset_write, h, front. cbn [ds_coords ds_vars ds_rows ds_cols ds_prev node_type]. destruct co as [[c1 c2] c3]. rewrite <- !app_assoc. reflexivity.
  - eexists. split; apply Q; try lia; apply N.eqb_neq; lia.
Qed.

Example C56_example : wf_node (NDataset PropertiesNode.ex_dataset) /\ (exists e, retrieve [(CidV0 [], firstn 40 (node_bytes (NDataset PropertiesNode.ex_dataset)))] (CidV0 []) = Err e) /\ (exists n, retrieve [(CidV0 [], node_bytes (NDataset PropertiesNode.ex_dataset))] (CidV0 []) = Ok n).
Proof. split; [exact PropertiesNode.wf_ex_dataset|]. split; eexists; vm_compute; reflexivity. Qed.
(** A list of links that ends in the middle of the second one. *)
Example C56_links_example : exists e, get_links [(CidV0 [], [0xDC; 0xE0; 0; 0; 0; 1; 1; 0; 0; 0; 2; 1; 113; 30; 1; 7; 1; 113]%N)] (CidV0 []) = Err e.
Proof. eexists. vm_compute. reflexivity. Qed.

Print Assumptions C56_load_ends_partial.
Print Assumptions C56_links_partial.
Print Assumptions C56_header_panics_refuted.
Print Assumptions C56_body_panics_refuted.
Print Assumptions C56_excess_accepted_refuted.
Print Assumptions C56_other_bytes_refuted.
