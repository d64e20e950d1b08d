(** * C63: the room that is reserved while an object is loaded

    [asked c b] (MemoryModel.v) are the capacities, in elements, that loading the bytes
    [b] as the object [c] asks for before it fills them; [total] is their sum. *)
From Verif Require Import Base BaseFacts StreamModel StreamProofs NodeModel NodeProofs PropertiesNode.
From Coq Require Import ZArith Permutation FunctionalExtensionality.
From Verif Require Import Base BaseFacts Spec GeomModel GeomProofs BitmapModel DacModel StreamModel StreamProofs ChunkModel ChunkReads
  NodeModel NodeProofs SuperModel SuperViews SuperProofs ArrayModel ArrayProofs FixedModel FloatModel DatasetModel DatasetProofs AppendProofs HistoryModel
  KindProofs HistoryProofs.
From Verif Require SnapshotModel PropertiesNode PropertiesDataset PropertiesListing.
Import PropertiesNode PropertiesDataset PropertiesListing.
From Verif Require Import PropertiesDataset PropertiesClosed LoadProofs MemoryModel MemoryProofs.
Arguments Nat.pow : simpl never.
Open Scope nat_scope.

(** An object that loads, whatever its bytes and whoever wrote them, has asked for room
    for at most nine elements per byte. What is asked for is what loading it as in the
    other properties asks for: the answer is the same. *)
Theorem C63_loaded_partial : forall (st : store) (c : cid) b n, store_get st c = Some b -> retrieve st c = Ok n ->
  (exists rest, snd (a_node c b) = Ok (n, rest)) /\ (total (asked c b) <= 9 * N.of_nat (length b))%N.
Proof.
  intros st c b n G E. unfold retrieve in E. rewrite G in E. apply bind_inv in E. destruct E as ([n' rest] & E & E'). cbn [fst] in E'. injection E' as ->.
  split; [exists rest; rewrite (erases_node c b); exact E|]. exact (node_total _ _ _ _ E).
Qed.
Theorem C63_same_answer : forall c b, snd (a_node c b) = node_read c b.
Proof. intros c b. exact (erases_node c b). Qed.

(** So for everything that a history of calls stores. *)
Theorem C63_stored_partial : forall hash lc lg order fuel rows cols N coords es st0,
  setting hash lg order rows cols N coords -> valid lc fuel rows cols N es ->
  let st := fst (run hash lc lg order fuel (dataset_new coords rows cols) es st0) in
  functional st -> children_first st0 -> forall c b, In (c, b) st -> (total (asked c b) <= 9 * N.of_nat (length b))%N.
Proof.
  intros hash lc lg order fuel rows cols N coords es st0 HS HV st HF H c b I.
  pose proof (C45_children_first_partial hash lc lg order fuel rows cols N coords es st0 HS HV HF H) as K. fold st in K.
  apply In_nth_error in I. destruct I as [i I]. destruct (K i c b I) as (n & P & -> & _).
  destruct (node_reads c n [] ltac:(apply P)) as (r & E). rewrite app_nil_r in E. exact (node_total _ _ _ _ E).
Qed.

(** Not so for bytes that nobody vouches for: for every number that a count can say there
    are fourteen bytes that ask for that much room, twice, and then fail. An element of
    the first of the two is a whole block. *)
Definition forged (n : nat) : bytes := [220; 224; 0; 0; 0; 1; 2; 4; 4; 0]%N ++ write_usize32 n.
Lemma silent_step {A B} (r : StreamModel.reader A) (f : A -> areader B) s a s' : r s = Ok (a, s') -> abind (silent r) f s = f a s'.
Proof. intros E. unfold abind, silent. rewrite E. destruct (f a s'). reflexivity. Qed.
Lemma reserve_step {B} n (f : unit -> areader B) s l x : f tt s = (l, x) -> abind (reserve n) f s = (N.of_nat n :: l, x).
Proof. intros E. unfold abind, reserve. rewrite E. reflexivity. Qed.
Theorem C63_forged_refuted : forall c n, 0 < n -> fits32 n ->
  length (forged n) = 14 /\ asked c (forged n) = [N.of_nat n; N.of_nat n] /\ exists e, retrieve [(c, forged n)] c = Err e.
Proof.
  intros c n Hn Hf. pose proof (reads_usize32 n Hf []) as R. rewrite app_nil_r in R.
  assert (C : a_chunk ([4; 0]%N ++ write_usize32 n) = ([N.of_nat n; N.of_nat n], Err EIo)).
  { unfold a_chunk. erewrite silent_step by reflexivity. erewrite silent_step by reflexivity. erewrite silent_step by reflexivity. erewrite silent_step by exact R.
    apply reserve_step, reserve_step. destruct n as [|n]; [lia|]. reflexivity. }
  assert (M : a_mm ([4; 4; 0]%N ++ write_usize32 n) = ([N.of_nat n; N.of_nat n], Err EIo)).
  { unfold a_mm. cbn [a_mm_f]. erewrite silent_step with (a := 4%N) (s' := [4; 0]%N ++ write_usize32 n) by reflexivity. change (4 =? 4)%N with true. cbv iota. unfold abind at 1. rewrite C. reflexivity. }
  assert (S : a_node c (forged n) = ([N.of_nat n; N.of_nat n], Err EIo)).
  { unfold a_node, forged. erewrite silent_step with (a := 2%N) (s' := [4; 4; 0]%N ++ write_usize32 n) by reflexivity. change (2 =? 0)%N with false. change (2 =? 1)%N with false. change (2 =? 2)%N with true. cbv iota.
    unfold abind at 1. rewrite M. reflexivity. }
  split; [reflexivity|]. split; [unfold asked; rewrite S; reflexivity|]. exists EIo. unfold retrieve, store_get. cbn [find fst]. rewrite cid_eqb_refl. cbn [snd]. rewrite <- C63_same_answer, S. reflexivity.
Qed.

(** ** Concrete cases *)

(** A stored chunk of one block, and what loading it asks for: blocks and their index, the
    parts of three empty bit maps and the levels of two lists, and no logs. *)
Definition ex_chunk : bytes := [220; 224; 0; 0; 0; 1; 2; 4; 4; 0; 0; 0; 0; 1; 1; 2; 0; 0; 0; 2; 0; 0; 0; 2; 0; 0; 0; 2; 0; 0; 0; 1; 0; 0; 0; 1; 128; 0; 0; 0; 0; 0]%N.
Example C63_example : (exists n, retrieve [(CidV0 [], ex_chunk)] (CidV0 []) = Ok n) /\ length ex_chunk = 42 /\ asked (CidV0 []) ex_chunk = [1; 1; 0; 1; 0; 0; 0]%N.
Proof. split; [eexists; vm_compute; reflexivity|]. split; vm_compute; reflexivity. Qed.
(** The history of PropertiesDataset.v. *)
Example C63_stored_example : setting ex_hash ex_lg (@rev call) 5 6 1000 ex_coords /\ valid ex_lc 4 5 6 1000 ex_history /\ functional (fst ex_run) /\
  children_first [] /\ 20 < length (fst ex_run).
Proof. exact C45_example. Qed.
(** The largest count: four billion blocks, from fourteen bytes. *)
Example C63_forged_example : forall c, asked c ([220; 224; 0; 0; 0; 1; 2; 4; 4; 0; 255; 255; 255; 255]%N) = [4294967295; 4294967295]%N.
Proof.
  intros c. assert (B : exists m, N.of_nat m = 4294967295%N) by (exists (N.to_nat 4294967295); apply N2Nat.id). destruct B as [m B].
  assert (F : fits32 m) by (unfold fits32; rewrite B; reflexivity). assert (P : 0 < m) by lia. destruct (C63_forged_refuted c m P F) as (_ & A & _).
  unfold forged, write_usize32 in A. rewrite B in A. exact A.
Qed.

Print Assumptions C63_loaded_partial.
Print Assumptions C63_same_answer.
Print Assumptions C63_stored_partial.
Print Assumptions C63_forged_refuted.
