(** * C54: an identifier stands for one content, wherever it comes from. *)
From Coq Require Import ZArith.
From Verif Require Import Base BaseFacts Spec GeomModel GeomProofs BitmapModel DacModel StreamModel StreamProofs ChunkModel ChunkStream ChunkReads
  NodeModel NodeProofs SuperModel SuperViews SuperProofs ArrayModel ArrayProofs FixedModel FloatModel DatasetModel DatasetProofs AppendProofs HistoryModel
  KindProofs HistoryProofs SessionModel SessionSpec SessionProofs StoryProofs.
From Verif Require SnapshotModel PropertiesNode PropertiesSuper PropertiesDataset PropertiesListing PropertiesClosed PropertiesSession PropertiesVersions.
Import PropertiesNode PropertiesDataset PropertiesListing PropertiesClosed PropertiesSession PropertiesVersions.
Arguments Nat.pow : simpl never.
Open Scope nat_scope.

(** The same object, whatever a dataset knows of the identifier it was loaded from. *)
Definition same_object (n n' : NodeModel.node) : Prop :=
  match n, n' with
  | NDataset d, NDataset d' => ds_coords d = ds_coords d' /\ ds_vars d = ds_vars d' /\ ds_rows d = ds_rows d' /\ ds_cols d = ds_cols d' /\ ds_prev d = ds_prev d'
  | NLinks l, NLinks l' => l = l'
  | NMM m, NMM m' => m = m'
  | _, _ => False
  end.

Lemma same_object_bytes n n' : wf_node n -> wf_node n' -> node_bytes n = node_bytes n' <-> same_object n n'.
Proof.
  intros W W'. split.
  - intros E. destruct (node_reads (CidV0 []) n [] W) as (r & R). destruct (node_reads (CidV0 []) n' [] W') as (r' & R').
    rewrite E, R' in R. injection R as R _. destruct n as [d|l|m], n' as [d'|l'|m']; cbn [loaded same_object] in *; try discriminate.
    + injection R as -> -> -> -> ->. auto.
    + injection R as ->. reflexivity.
    + injection R as ->. reflexivity.
  - destruct n as [d|l|m], n' as [d'|l'|m']; cbn [same_object]; try (intros []; fail); try (intros ->; reflexivity).
    intros (E1 & E2 & E3 & E4 & E5). unfold node_bytes. cbn [node_body node_type]. unfold dataset_write. rewrite E1, E2, E3, E4, E5. reflexivity.
Qed.

(** Two objects are saved under the same identifier exactly if they are the same, wherever
    they are saved, if the hash does not collide on them. *)
Theorem C54_objects : forall hash n n' st st', wf_node n -> wf_node n' ->
  (hash (node_bytes n) = hash (node_bytes n') -> node_bytes n = node_bytes n') ->
  fst (save hash st n) = fst (save hash st' n') <-> same_object n n'.
Proof.
  intros hash n n' st st' W W' H. rewrite <- (same_object_bytes n n' W W'). cbn [save fst]. split; [exact H|congruence].
Qed.

(** An identifier that is known in two sessions, of different users, with different stores
    and different schedules, at any moment of each: the same is reached from it in both,
    all of it is there in both, and everything reached gives the same answers. *)
Theorem C54_sessions :
  forall hash lc lg order fuel N C S l, limits hash lc order N C S -> Forall (action_ok C S) l -> all_fit N hash lc lg order fuel session_start l ->
  forall hash' lc' lg' order' fuel' N' C' S' l', limits hash' lc' order' N' C' S' -> Forall (action_ok C' S') l' -> all_fit N' hash' lc' lg' order' fuel' session_start l' ->
  let x := run_session hash lc lg order fuel session_start l in
  let x' := run_session hash' lc' lg' order' fuel' session_start l' in
  functional (se_ever x ++ se_ever x') ->
  forall writes writes', let st := firstn writes (se_store x) in let st' := firstn writes' (se_store x') in
  forall root, has st root -> has st' root ->
    forall c, (reached st root c <-> reached st' root c) /\ (reached st root c -> has st c /\ has st' c /\ same_answers st st' c).
Proof.
  intros hash lc lg order fuel N C S l [L1 L2 L3 L4 L5] HA HB hash' lc' lg' order' fuel' N' C' S' l' [M1 M2 M3 M4 M5] HA' HB' x x' HF writes writes' st st' root Hr Hr'.
  assert (HF1 : functional (se_ever x)) by (eapply functional_incl; [|exact HF]; intros p Hp; apply in_or_app; left; exact Hp).
  assert (HF2 : functional (se_ever x')) by (eapply functional_incl; [|exact HF]; intros p Hp; apply in_or_app; right; exact Hp).
  destruct (good_session hash lc lg order fuel N C S L1 L2 L3 L5 L4 l session_start HF1 HA HB (good_start N C S)) as [G1 G2 _ _].
  destruct (good_session hash' lc' lg' order' fuel' N' C' S' M1 M2 M3 M5 M4 l' session_start HF2 HA' HB' (good_start N' C' S')) as [K1 K2 _ _].
  fold x in G1, G2. fold x' in K1, K2.
  pose proof (laid_prefix (se_store x) writes G1) as La. pose proof (laid_prefix (se_store x') writes' K1) as Lb. fold st in La. fold st' in Lb.
  assert (Ia : incl st (se_ever x ++ se_ever x')).
  { intros p Hp. apply in_or_app. left. apply G2. rewrite <- (firstn_skipn writes (se_store x)). apply in_or_app. left. exact Hp. }
  assert (Ib : incl st' (se_ever x ++ se_ever x')).
  { intros p Hp. apply in_or_app. right. apply K2. rewrite <- (firstn_skipn writes' (se_store x')). apply in_or_app. left. exact Hp. }
  assert (Shared : forall c, reached st root c -> has st c /\ has st' c) by (intros c; apply (laid_shared st st' _ root c La Lb HF Ia Ib Hr Hr')).
  assert (Copy : forall c, reached st root c -> store_get st' c = store_get st c).
  { intros c Hc. destruct (Shared c Hc) as [Ya Yb]. destruct (has_got st c Ya) as (ba & Ea). destruct (has_got st' c Yb) as (bb & Eb). rewrite Ea, Eb. f_equal.
    apply (HF c); [apply Ib, store_get_some, Eb|apply Ia, store_get_some, Ea]. }
  intros c. split.
  - symmetry. apply (C42_same_reached st st' root); [apply written_walkable, laid_written, La|exact Copy].
  - intros Hc. destruct (Shared c Hc) as [Ya Yb]. split; [exact Ya|]. split; [exact Yb|]. apply (laid_same st st' _ root c La Lb HF Ia Ib Hr Hr' Hc).
Qed.

(** The session [ex_fork] of PropertiesVersions and one that has only its first two
    versions; they share the second version. *)
Definition ex_short : list action := firstn 6 ex_before.
Example C54_example : Forall (action_ok 2 7) ex_short /\ all_fit 1000 ex_hash ex_lc ex_lg (@rev call) 4 session_start ex_short /\
  functional (se_ever (ex_start ex_fork) ++ se_ever (ex_start ex_short)) /\
  has (se_store (ex_start ex_fork)) (at_known 1) /\ has (se_store (ex_start ex_short)) (at_known 1) /\
  length (se_store (ex_start ex_short)) < length (se_store (ex_start ex_fork)).
Proof.
  destruct C28_sessions_example as (_ & HA & _). split; [|split; [|split; [|split; [|split]]]].
  - unfold ex_fork in HA. apply Forall_app in HA. destruct HA as [HA _]. unfold ex_short. rewrite <- (firstn_skipn 6 ex_before) in HA. apply Forall_app in HA. apply HA.
  - apply fit_run_ok. vm_compute. reflexivity.
  - apply functional_checked. vm_compute. reflexivity.
  - assert (G : exists b, store_get (se_store (ex_start ex_fork)) (at_known 1) = Some b) by (eexists; vm_compute; reflexivity). destruct G as (b & G). eapply has_get, G.
  - assert (G : exists b, store_get (se_store (ex_start ex_short)) (at_known 1) = Some b) by (eexists; vm_compute; reflexivity). destruct G as (b & G). eapply has_get, G.
  - apply Nat.ltb_lt. vm_compute. reflexivity.
Qed.
Example C54_objects_example : wf_node (NLinks [CidV0 (repeat 7%N 32)]) /\ same_object (NLinks [CidV0 (repeat 7%N 32)]) (NLinks [CidV0 (repeat 7%N 32)]) /\
  ~ same_object (NLinks [CidV0 (repeat 7%N 32)]) (NLinks []).
Proof.
  split; [|split; [reflexivity|discriminate]]. split; [reflexivity|]. constructor; [|constructor]. reflexivity.
Qed.

Print Assumptions C54_objects.
Print Assumptions C54_sessions.
