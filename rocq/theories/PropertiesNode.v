(** * Properties C13, C14, C27 and C36: stored objects, their sizes, the resolver
    and committing datasets. *)
From Verif Require Import Base BaseFacts Spec BitmapModel BitmapProofs DacModel DacProofs StreamModel StreamProofs
  ChunkModel ChunkProofs ChunkReads ChunkStream NodeModel NodeProofs PropertiesChunk.
Ltac Zify.zify_post_hook ::= Z.div_mod_to_equations.
Arguments Nat.pow : simpl never.

(** [functional st] (NodeProofs.v) says that the store never holds two different
    byte strings under one identifier: this is what content addressing with a
    collision-free hash gives. [wf_node n] says that the fields of [n] fit the
    widths of the format (32 bit counts, 8 bit lengths of names, ...). *)

(** ** C13, continued: writing and reading the objects of the store *)
Theorem C13_mmstruct_round_trip : forall m, wf_mm m -> forall rest, mm_read (mm_write m ++ rest) = Ok (m, rest).
Proof. intros m H. apply mm_reads. exact H. Qed.

Theorem C13_dataset_round_trip : forall d, wf_dataset d -> ds_cid d = None ->
  forall rest, dataset_read (dataset_write d ++ rest) = Ok (d, rest).
Proof.
  intros d H Hc rest. rewrite (dataset_reads d H rest). unfold with_cid. rewrite <- Hc. destruct d; reflexivity.
Qed.

Theorem C13_links_round_trip : forall l, fits32 (length l) -> Forall wf_cid l -> links_read (links_write l) = Ok (l, []).
Proof. intros l H1 H2. rewrite <- (app_nil_r (links_write l)). apply links_reads; assumption. Qed.

(** ** C14, continued: the sizes of stored objects

    Spans and link lists report the number of bytes stored; the size reported
    for the other three kinds is short by what is said here. *)
Theorem C14_node_sizes_partial :
  (forall s, node_size (NMM (MSpan s)) = length (node_bytes (NMM (MSpan s)))) /\
  (forall l, node_size (NLinks l) = length (node_bytes (NLinks l))) /\
  (forall c, node_size (NMM (MSub c)) + 7 = length (node_bytes (NMM (MSub c)))) /\
  (forall s subs, node_size (NMM (MSuper s (map MSub subs))) + 1 = length (node_bytes (NMM (MSuper s (map MSub subs))))) /\
  (forall s local, node_size (NMM (MSuper s local)) + 1 + sum_nat (map (fun m => length (node_bytes (NMM m))) local) =
     length (node_bytes (NMM (MSuper s local))) + sum_nat (map (fun m => node_size (NMM m) + 7) local)) /\
  (forall d, node_size (NDataset d) + 4 + length (ds_vars d) = length (node_bytes (NDataset d))).
Proof.
  repeat split; intros.
  - apply span_size_ok.
  - apply links_size_ok.
  - apply sub_size_off.
  - apply super_subs_size_off.
  - pose proof (super_size_off s local) as H. cbn [node_size].
    assert (E : sum_nat (map (fun m => length (node_bytes (NMM m))) local) + sum_nat (map mm_size local) =
      sum_nat (map (fun m => length (mm_write m)) local) + sum_nat (map (fun m => mm_size m + 7) local)).
    { clear H. induction local as [|m l IH]; [reflexivity|]. cbn [map sum_nat fold_right]. unfold sum_nat in IH. rewrite node_mm_length. lia. }
    lia.
  - apply dataset_size_off.
Qed.

Theorem C14_node_sizes_refuted :
  (forall c, node_size (NMM (MSub c)) <> length (node_bytes (NMM (MSub c)))) /\
  (forall s subs, node_size (NMM (MSuper s (map MSub subs))) <> length (node_bytes (NMM (MSuper s (map MSub subs))))) /\
  (forall d, node_size (NDataset d) <> length (node_bytes (NDataset d))).
Proof.
  destruct C14_node_sizes_partial as (_ & _ & H3 & H4 & _ & H5). repeat split.
  - intros x E. specialize (H3 x). lia.
  - intros x subs E. specialize (H4 x subs). lia.
  - intros x E. specialize (H5 x). lia.
Qed.

(** ** C27: commit and load *)

(** [Dataset::commit], dataset.rs 112-114. *)
Definition dataset_commit (hash : bytes -> cid) (st : store) (d : dataset) : cid * store := save hash st (NDataset d).

(** [st2] is the store at any later time. *)
Theorem C27_commit_load : forall hash st d c st1, dataset_commit hash st d = (c, st1) -> wf_dataset d ->
  forall st2, incl st1 st2 -> functional st2 ->
  exists d', get_dataset st2 c = Ok d' /\
    ds_coords d' = ds_coords d /\ ds_vars d' = ds_vars d /\ ds_rows d' = ds_rows d /\ ds_cols d' = ds_cols d /\
    ds_prev d' = ds_prev d /\ ds_cid d' = Some c.
Proof.
  intros hash st d c st1 E HW st2 HI HF. unfold dataset_commit, save in E. injection E as <- <-.
  exists (with_cid d (Some (hash (node_bytes (NDataset d))))). split; [|cbn; auto 6].
  unfold get_dataset. rewrite (retrieve_saved st2 hash (NDataset d) HW HF); [reflexivity|].
  apply HI. apply in_or_app. right. left. reflexivity.
Qed.

(** Committing adds exactly one object and removes none. *)
Theorem C27_commit_adds : forall hash st d c st1, dataset_commit hash st d = (c, st1) ->
  incl st st1 /\ length st1 = S (length st) /\ store_get st1 c <> None.
Proof.
  intros hash st d c st1 E. unfold dataset_commit, save in E. injection E as <- <-. split; [|split].
  - intros x Hx. apply in_or_app. left. exact Hx.
  - rewrite app_length. cbn [length]. lia.
  - unfold store_get. destruct (find _ _) eqn:F; [discriminate|]. exfalso.
    pose proof (find_none _ _ F (hash (node_bytes (NDataset d)), node_bytes (NDataset d))) as H.
    cbn [fst] in H. rewrite cid_eqb_refl in H. discriminate H. apply in_or_app. right. left. reflexivity.
Qed.

(** A dataset, and a hash for which the store below has no collision. *)
Definition ex_hash (b : bytes) : cid :=
  CidV1 113 30 (be_bytes 32 (fold_left (fun a x => N.land (a * 1000003 + x + 1) 18446744073709551615)%N b 7%N)).
Definition ex_name : bytes := [97; 112; 112; 108; 101; 115]%N.
Definition ex_cid (n : N) : cid := CidV1 113 30 (be_bytes 32 n).
Definition ex_dataset : dataset :=
  mkDataset (mkCoord [116]%N (KTime 946684800 86400), mkCoord [121]%N (KF32 0x41200000 0x3f000000 40),
             mkCoord [120]%N (KI32 (-4) 3 80))
            [mkVar ex_name (Some 2) 10 20 [2; 3] EncF32 (ex_cid 5); mkVar [98]%N None 5 7 [4] EncI64 (ex_cid 6)]
            40 80 None (Some (ex_cid 77)).

Lemma wf_ex_cid n : wf_cid (ex_cid n).
Proof.
  cbn [wf_cid ex_cid]. unfold be_bytes. rewrite rev_length. split; [reflexivity|]. split; [reflexivity|].
  assert (forall k v, length (le_bytes k v) = k) as -> by (induction k; intros; cbn [le_bytes length]; auto).
  lia.
Qed.

Lemma wf_ex_dataset : wf_dataset ex_dataset.
Proof.
  constructor; cbn [ds_coords ds_vars ds_rows ds_cols ds_prev ex_dataset length]; unfold wf_coord, wf_name; cbn [co_name co_kind wf_kind];
    unfold i64_range, two63, i32_range, fits32, fits8.
  - repeat split; try (vm_compute; reflexivity); cbn [length]; try lia; vm_compute; discriminate.
  - reflexivity.
  - repeat constructor; cbn; try (vm_compute; reflexivity); try (apply wf_ex_cid); unfold fits8, fits32; try lia; try reflexivity.
  - reflexivity.
  - reflexivity.
  - apply wf_ex_cid.
Qed.

Example C27_example : let '(c, st1) := dataset_commit ex_hash [(ex_cid 1, [1; 2; 3]%N)] ex_dataset in
  wf_dataset ex_dataset /\ functional st1 /\ get_dataset st1 c = Ok (with_cid ex_dataset (Some c)).
Proof.
  unfold dataset_commit, save. split; [exact wf_ex_dataset|]. split; [|vm_compute; reflexivity].
  apply functional_checked. vm_compute. reflexivity.
Qed.

(** ** C36: stored objects are self-describing *)

(** An object loads as what it was saved as, and as nothing else: asking for
    another type is refused (by a panic). *)
Theorem C36_loads_as_saved_type : forall hash st n c st1, save hash st n = (c, st1) -> wf_node n ->
  forall st2, incl st1 st2 -> functional st2 ->
  match n with
  | NDataset d => (exists d', get_dataset st2 c = Ok d' /\ ds_vars d' = ds_vars d /\ ds_cid d' = Some c) /\
                  get_links st2 c = Panic /\ get_mm st2 c = Panic
  | NLinks l => get_links st2 c = Ok l /\ get_dataset st2 c = Panic /\ get_mm st2 c = Panic
  | NMM m => get_mm st2 c = Ok m /\ get_dataset st2 c = Panic /\ get_links st2 c = Panic
  end.
Proof.
  intros hash st n c st1 E HW st2 HI HF. unfold save in E. injection E as <- <-.
  assert (R : retrieve st2 (hash (node_bytes n)) = Ok (loaded (hash (node_bytes n)) n)).
  { apply retrieve_saved; [exact HW|exact HF|]. apply HI. apply in_or_app. right. left. reflexivity. }
  destruct n as [d|l|m]; unfold get_dataset, get_links, get_mm; rewrite R; cbn [bind loaded]; auto.
  split; [|auto]. eexists. split; [reflexivity|]. cbn. auto.
Qed.

(** Bytes that do not start with the magic number 0xDCE0 and version 1 followed
    by the tag of the type asked for are refused, whatever they are. *)
Theorem C36_foreign_bytes_refused : forall st c b, store_get st c = Some b -> Forall (fun x => (x < 256)%N) b ->
  (forall d, get_dataset st c = Ok d -> exists body, b = [0xDC; 0xE0; 0; 0; 0; 1; 0]%N ++ body) /\
  (forall l, get_links st c = Ok l -> exists body, b = [0xDC; 0xE0; 0; 0; 0; 1; 1]%N ++ body) /\
  (forall m, get_mm st c = Ok m -> exists body, b = [0xDC; 0xE0; 0; 0; 0; 1; 2]%N ++ body).
Proof.
  intros st c b E HB.
  assert (R : forall n, retrieve st c = Ok n -> exists body, b = [0xDC; 0xE0; 0; 0; 0; 1]%N ++ node_type n :: body).
  { intros n H. unfold retrieve in H. rewrite E in H. apply bind_inv in H. destruct H as ([n' r] & H & H').
    injection H' as <-. eapply node_read_type; eassumption. }
  repeat split.
  - intros d H. unfold get_dataset in H. apply bind_inv in H. destruct H as (n & H & H').
    destruct n as [d'|l|m]; try discriminate. exact (R _ H).
  - intros l H. unfold get_links in H. apply bind_inv in H. destruct H as (n & H & H').
    destruct n as [d'|l'|m]; try discriminate. exact (R _ H).
  - intros m H. unfold get_mm in H. apply bind_inv in H. destruct H as (n & H & H').
    destruct n as [d'|l'|m']; try discriminate. exact (R _ H).
Qed.

(** An identifier that is not in the store is reported as such. *)
Theorem C36_missing_reported : forall st c, (forall b, ~ In (c, b) st) ->
  get_dataset st c = Err ENotFound /\ get_links st c = Err ENotFound /\ get_mm st c = Err ENotFound.
Proof.
  intros st c H. assert (E : store_get st c = None).
  { destruct (store_get st c) as [b|] eqn:E; [|reflexivity]. apply store_get_some in E. destruct (H _ E). }
  unfold get_dataset, get_links, get_mm, retrieve. rewrite E. auto.
Qed.

(** The children of a node: the identifiers in its fields, with their names. *)
Inductive child : node -> ls_name -> cid -> Prop :=
| child_span s i c : nth_error (sp_spans s) i = Some c -> child (NMM (MSpan s)) (LIndex i) c
| child_super s : child (NMM (MSuper s [])) (LName str_subchunks) (su_external s)
| child_links l i c : nth_error l i = Some c -> child (NLinks l) (LIndex i) c
| child_variable d v : In v (ds_vars d) -> child (NDataset d) (LName (va_name v)) (va_cid v)
| child_prev d c : ds_prev d = Some c -> child (NDataset d) (LName str_prev) c.

Definition n_children (n : node) : nat :=
  match n with
  | NMM (MSpan s) => length (sp_spans s)
  | NMM (MSub _) => 0
  | NMM (MSuper _ _) => 1
  | NLinks l => length l
  | NDataset d => length (ds_vars d) + match ds_prev d with Some _ => 1 | None => 0 end
  end.

Lemma in_enum_ls l name c : In (name, c) (enum_ls l) <-> exists i, name = LIndex i /\ nth_error l i = Some c.
Proof.
  unfold enum_ls. rewrite in_map_iff. split.
  - intros ((i & x) & E & H). injection E as <- <-. exists i. split; [reflexivity|]. cbn [fst snd] in *.
    destruct (In_nth _ _ (0, x) H) as (j & Hj & Hn). rewrite combine_length, seq_length, Nat.min_id in Hj.
    rewrite (combine_nth _ _ _ _ _ (seq_length _ _)) in Hn. injection Hn as H1 H2. rewrite seq_nth in H1 by exact Hj.
    cbn [Nat.add] in H1. subst j. rewrite (nth_error_nth' l x Hj). f_equal. exact H2.
  - intros (i & -> & H). exists (i, c). split; [reflexivity|].
    assert (Hi : i < length l) by (apply nth_error_Some; congruence).
    replace (i, c) with (nth i (combine (seq 0 (length l)) l) (0, c)).
    + apply nth_In. rewrite combine_length, seq_length. lia.
    + rewrite (combine_nth _ _ _ _ _ (seq_length _ _)), seq_nth by exact Hi. f_equal. apply nth_error_nth. exact H.
Qed.
Lemma enum_ls_length l : length (enum_ls l) = length l.
Proof. unfold enum_ls. rewrite map_length, combine_length, seq_length. lia. Qed.

Lemma in_node_ls n name c : no_local n -> In (name, c) (node_ls n) <-> child n name c.
Proof.
  intros HN. destruct n as [d|l|[s|ch|s local]]; cbn [node_ls no_local] in *.
  - rewrite in_app_iff, in_map_iff. split.
    + intros [(v & E & H)|H].
      * injection E as <- <-. constructor. exact H.
      * destruct (ds_prev d) as [p|] eqn:E; [|destruct H]. destruct H as [H|[]]. injection H as <- <-. constructor. exact E.
    + intros H. inversion H; subst.
      * left. eexists. split; [reflexivity|assumption].
      * right. match goal with H : ds_prev d = _ |- _ => rewrite H end. left. reflexivity.
  - rewrite in_enum_ls. split; [intros (i & -> & H); constructor; exact H|]. intros H. inversion H; subst. eauto.
  - rewrite in_enum_ls. split; [intros (i & -> & H); constructor; exact H|]. intros H. inversion H; subst. eauto.
  - split; [intros []|intros H; inversion H].
  - subst local. split.
    + intros [H|[]]. injection H as <- <-. constructor.
    + intros H. inversion H; subst. left. reflexivity.
Qed.
Lemma node_ls_length n : length (node_ls n) = n_children n.
Proof.
  destruct n as [d|l|[s|ch|s local]]; cbn [node_ls n_children]; try apply enum_ls_length; try reflexivity.
  rewrite app_length, map_length. destruct (ds_prev d); reflexivity.
Qed.

(** Listing a node gives exactly its children, each with the kind and size of
    the object stored under its identifier, or none if there is none. *)
Theorem C36_ls_exact : forall st c n, retrieve st c = Ok n -> no_local n ->
  (forall name x b, child n name x -> store_get st x = Some b -> exists n', b = node_bytes n') ->
  exists entries, resolver_ls st c = Ok entries /\ length entries = n_children n /\
    (forall name x, (exists e, In e entries /\ le_name e = name /\ le_cid e = x) <-> child n name x) /\
    (forall e, In e entries ->
       match store_get st (le_cid e) with
       | None => le_type e = None /\ le_size e = None
       | Some b => (forall n', b = node_bytes n' -> le_type e = Some (kind_of n')) /\ le_size e = Some (length b)
       end).
Proof.
  intros st c n R HN HS. unfold resolver_ls. rewrite R. cbn [bind].
  set (f := fun p : ls_name * cid => _).
  set (kd := fun x => match node_type_of st x with Ok k => k | _ => None end).
  set (en := fun p : ls_name * cid => mkEntry (snd p) (fst p) (kd (snd p)) (option_map (@length N) (store_get st (snd p)))).
  assert (HT : forall p, In p (node_ls n) -> node_type_of st (snd p) = Ok (kd (snd p))).
  { intros [name x] Hp. cbn [snd]. apply in_node_ls in Hp; [|exact HN]. unfold kd.
    destruct (store_get st x) as [b|] eqn:E.
    - destruct (HS name x b Hp E) as (n' & ->). rewrite (node_type_of_saved st x n' E). reflexivity.
    - unfold node_type_of. rewrite E. reflexivity. }
  assert (HM : mapM f (node_ls n) = Ok (map en (node_ls n))).
  { apply mapM_ok. intros p Hp. unfold f. rewrite (HT p Hp). reflexivity. }
  exists (map en (node_ls n)). split; [exact HM|]. split; [rewrite map_length; apply node_ls_length|]. split.
  - intros name x. rewrite <- (in_node_ls n name x HN). split.
    + intros (e & He & <- & <-). apply in_map_iff in He. destruct He as ([a b] & <- & Hp). exact Hp.
    + intros H. exists (en (name, x)). split; [apply in_map; exact H|]. split; reflexivity.
  - intros e He. apply in_map_iff in He. destruct He as (p & <- & Hp). cbn [en le_cid le_type le_size].
    destruct (store_get st (snd p)) as [b|] eqn:E; cbn [option_map].
    + split; [|reflexivity]. intros n' ->. pose proof (node_type_of_saved st (snd p) n' E) as H. rewrite (HT p Hp) in H.
      injection H as ->. reflexivity.
    + split; [|reflexivity]. specialize (HT p Hp). unfold node_type_of in HT. rewrite E in HT. injection HT as <-. reflexivity.
Qed.

(** A dataset of one variable, whose data is a link list here, and a version that is not stored. *)
Definition ex_parent (c : cid) : dataset :=
  mkDataset (ds_coords ex_dataset) [mkVar ex_name None 10 20 [2] EncI64 c] 4 4 None (Some (ex_cid 77)).
Example C36_example :
  let '(c0, st0) := save ex_hash [] (NLinks [ex_cid 1; ex_cid 2]) in
  let '(c1, st1) := save ex_hash st0 (NDataset (ex_parent c0)) in
  wf_node (NLinks [ex_cid 1; ex_cid 2]) /\ functional st1 /\
  resolver_ls st1 c1 = Ok [mkEntry c0 (LName ex_name) (Some IsLinks) (Some 83); mkEntry (ex_cid 77) (LName str_prev) None None] /\
  get_mm st1 c0 = Panic.
Proof.
  unfold save. split.
  { split; [reflexivity|]. constructor; [apply wf_ex_cid|]. constructor; [apply wf_ex_cid|constructor]. }
  split.
  { apply functional_checked. vm_compute. reflexivity. }
  split; vm_compute; reflexivity.
Qed.

(** Examples for C13: a span and a dataset. *)
Example C13_node_example :
  let m := MSpan (mkSpan 25 4 4 10 [ex_cid 1; ex_cid 2; ex_cid 3] EncF64) in
  wf_mm m /\ mm_read (mm_write m ++ [9; 9]%N) = Ok (m, [9; 9]%N) /\
  wf_dataset ex_dataset /\ dataset_read (dataset_write ex_dataset ++ [1]%N) = Ok (ex_dataset, [1]%N).
Proof.
  split.
  { constructor; cbn; try reflexivity. repeat (constructor; [apply wf_ex_cid|]). constructor. }
  split; [vm_compute; reflexivity|]. split; [exact wf_ex_dataset|vm_compute; reflexivity].
Qed.

Print Assumptions C13_mmstruct_round_trip.
Print Assumptions C13_dataset_round_trip.
Print Assumptions C13_links_round_trip.
Print Assumptions C14_node_sizes_partial.
Print Assumptions C14_node_sizes_refuted.
Print Assumptions C27_commit_load.
Print Assumptions C27_commit_adds.
Print Assumptions C36_loads_as_saved_type.
Print Assumptions C36_foreign_bytes_refused.
Print Assumptions C36_missing_reported.
Print Assumptions C36_ls_exact.
