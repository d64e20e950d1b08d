(** * C15 for stored objects: what is loaded from an object that was cut short. *)
From Verif Require Import Base BaseFacts StreamModel StreamProofs ChunkModel ChunkStream NodeModel NodeProofs NodeStops.
From Verif Require PropertiesNode PropertiesStream.
Import PropertiesNode PropertiesStream.
Arguments Nat.pow : simpl never.
Open Scope nat_scope.

(** [cut st c n k]: under the identifier [c] the store has the first [k] bytes of the object
    [n], and not all of them. *)
Definition cut (st : store) (c : cid) (n : NodeModel.node) (k : nat) : Prop :=
  k < length (node_bytes n) /\ store_get st c = Some (firstn k (node_bytes n)).

Lemma cut_stops st c n k : wf_node n -> cut st c n k ->
  (k + node_tail n < length (node_bytes n) -> exists e, retrieve st c = Err e) /\
  (length (node_bytes n) <= k + node_tail n -> exists n', retrieve st c = Ok n').
Proof.
  intros HW [HK HS]. unfold retrieve. rewrite HS. destruct (node_stops c n HW k HK) as [H1 H2]. split; intros H.
  - destruct (H1 H) as [e E]. rewrite E. exists e. reflexivity.
  - destruct (H2 H) as [n' E]. rewrite E. exists n'. reflexivity.
Qed.

(** A dataset, a list of links and a span that were cut anywhere are refused, by whichever
    function they are loaded with. *)
Theorem C15_truncated_dataset : forall st c d k, wf_dataset d -> cut st c (NDataset d) k -> exists e, get_dataset st c = Err e.
Proof.
  intros st c d k HW HC. destruct (proj1 (cut_stops st c (NDataset d) k HW HC)) as [e E]; [destruct HC; cbn [node_tail]; lia|].
  exists e. unfold get_dataset. rewrite E. reflexivity.
Qed.
Theorem C15_truncated_links : forall st c l k, fits32 (length l) -> Forall wf_cid l -> cut st c (NLinks l) k -> exists e, get_links st c = Err e.
Proof.
  intros st c l k H1 H2 HC. destruct (proj1 (cut_stops st c (NLinks l) k (conj H1 H2) HC)) as [e E]; [destruct HC; cbn [node_tail]; lia|].
  exists e. unfold get_links. rewrite E. reflexivity.
Qed.
Theorem C15_truncated_span : forall st c s k, wf_span s -> cut st c (NMM (MSpan s)) k -> exists e, get_mm st c = Err e.
Proof.
  intros st c s k HW HC. destruct (proj1 (cut_stops st c (NMM (MSpan s)) k HW HC)) as [e E]; [destruct HC; cbn [node_tail mm_tail]; lia|].
  exists e. unfold get_mm. rewrite E. reflexivity.
Qed.
(** A subchunk and a superchunk are refused exactly when more is missing than the raw bytes
    of the last level of their last compressed array ([mm_tail]); within these the cut is
    accepted, which is what is missing. *)
Theorem C15_truncated_array_partial : forall st c m k, wf_mm m -> cut st c (NMM m) k ->
  (k + mm_tail m < length (node_bytes (NMM m)) -> exists e, get_mm st c = Err e) /\
  (length (node_bytes (NMM m)) <= k + mm_tail m -> exists n, retrieve st c = Ok n).
Proof.
  intros st c m k HW HC. destruct (cut_stops st c (NMM m) k HW HC) as [H1 H2]. split; [|exact H2].
  intros H. destruct (H1 H) as [e E]. exists e. unfold get_mm. rewrite E. reflexivity.
Qed.

(** The dataset of PropertiesNode cut in its first name, and without its last byte. *)
Example C15_dataset_example :
  let b := node_bytes (NDataset ex_dataset) in
  wf_dataset ex_dataset /\ cut [(ex_cid 1, firstn 10 b)] (ex_cid 1) (NDataset ex_dataset) 10 /\
  cut [(ex_cid 1, firstn (length b - 1) b)] (ex_cid 1) (NDataset ex_dataset) (length b - 1) /\
  get_dataset [(ex_cid 1, firstn 10 b)] (ex_cid 1) = Err EIo /\ get_dataset [(ex_cid 1, firstn (length b - 1) b)] (ex_cid 1) = Err ECid.
Proof.
  cbv zeta. split; [exact wf_ex_dataset|]. split; [split; [apply Nat.ltb_lt; vm_compute; reflexivity|vm_compute; reflexivity]|].
  split; [split; [apply Nat.ltb_lt; vm_compute; reflexivity|vm_compute; reflexivity]|]. split; vm_compute; reflexivity.
Qed.

Print Assumptions C15_truncated_dataset.
Print Assumptions C15_truncated_links.
Print Assumptions C15_truncated_span.
Print Assumptions C15_truncated_array_partial.
