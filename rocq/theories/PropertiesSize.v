(** * C52: storing instants together never takes more space than storing each alone. *)
From Verif Require Import Base BaseFacts SnapshotModel LogModel StreamModel StreamProofs ChunkModel ChunkStream.
From Verif Require PropertiesStream.
Arguments Nat.pow : simpl never.
Open Scope nat_scope.

Definition state_size (st : build_state) : nat :=
  let '(blocks, snap, _, logs, _, _) := st in
  sum_nat (map block_size blocks) + 1 + snapshot_size snap + sum_nat (map log_size logs).
Lemma sum_nat_app l m : sum_nat (l ++ m) = sum_nat l + sum_nat m.
Proof. induction l as [|x l IH]; cbn [app sum_nat fold_right] in *; [reflexivity|]. unfold sum_nat in *. cbn [fold_right app]. lia. Qed.
Lemma sum_one n : sum_nat [n] = n.
Proof. unfold sum_nat. cbn. lia. Qed.
Lemma sum_cons x l : sum_nat (x :: l) = x + sum_nat l.
Proof. reflexivity. Qed.

Lemma mapM_len {A B} (f : A -> res B) : forall l ys, mapM f l = Ok ys -> length ys = length l.
Proof.
  induction l as [|x l IH]; intros ys H; cbn [mapM] in H; [injection H as <-; reflexivity|].
  apply bind_inv in H. destruct H as (y & _ & H). apply bind_inv in H. destruct H as (ys' & E & H). injection H as <-. cbn [length]. rewrite (IH _ E). reflexivity.
Qed.

Section One.
  Variables (get : nat -> nat -> nat -> Z) (rows cols k e : nat).
  Lemma step_size st i st' : chunk_build_step get rows cols k e st i = Ok st' ->
    exists s, snapshot_build_e (get i) rows cols k e = Ok s /\ state_size st' <= state_size st + (1 + snapshot_size s).
  Proof.
    destruct st as [[[[[blocks snap] si] logs] cs] cl]. unfold chunk_build_step. intros H.
    apply bind_inv in H. destruct H as (s & E & H). exists s. split; [exact E|].
    apply bind_inv in H. destruct H as (lg & _ & H).
    destruct ((length logs =? 254) || (snapshot_size s <=? log_size lg)) eqn:C.
    - apply bind_inv in H. destruct H as (b & B & H). unfold block_new in B. destruct (254 <? length logs); [discriminate|]. injection B as <-. injection H as <-.
      cbn [state_size map]. rewrite map_app, sum_nat_app. cbn [map]. rewrite sum_one. unfold block_size. cbn [bl_snapshot bl_logs]. change (sum_nat []) with 0. lia.
    - injection H as <-. apply orb_false_iff in C. destruct C as [_ C]. apply Nat.leb_gt in C. cbn [state_size]. rewrite map_app, sum_nat_app. cbn [map]. rewrite sum_one. lia.
  Qed.
  Lemma fold_size : forall l st st', foldM (chunk_build_step get rows cols k e) st l = Ok st' ->
    exists ss, mapM (fun i => snapshot_build_e (get i) rows cols k e) l = Ok ss /\ state_size st' <= state_size st + sum_nat (map (fun s => 1 + snapshot_size s) ss).
  Proof.
    induction l as [|i l IH]; intros st st' H; cbn [foldM mapM] in *.
    - injection H as <-. exists []. split; [reflexivity|]. cbn [map]. change (sum_nat []) with 0. lia.
    - apply bind_inv in H. destruct H as (st1 & E & H). destruct (step_size _ _ _ E) as (s & ES & L). destruct (IH _ _ H) as (ss & EM & L2).
      exists (s :: ss). rewrite ES. cbn [bind]. rewrite EM. split; [reflexivity|]. cbn [map]. rewrite sum_cons. lia.
  Qed.
  (** One instant alone. *)
  Lemma single_size enc fb i s : snapshot_build_e (get i) rows cols k e = Ok s ->
    exists c, chunk_build_e (fun _ => get i) 1 rows cols k e enc fb = Ok c /\ chunk_size (cb_data c) = 6 + (1 + snapshot_size s).
  Proof.
    intros E. unfold chunk_build_e. cbn [Nat.eqb]. rewrite E. cbn [bind range]. change (range 1 1) with (@nil nat). cbn [foldM bind]. unfold block_new. cbn [length Nat.ltb Nat.leb bind].
    eexists. split; [reflexivity|]. unfold chunk_size, block_size. cbn. lia.
  Qed.
  Lemma singles_size enc fb : forall l ss, mapM (fun i => snapshot_build_e (get i) rows cols k e) l = Ok ss ->
    exists cs, mapM (fun i => chunk_build_e (fun _ => get i) 1 rows cols k e enc fb) l = Ok cs /\
      sum_nat (map (fun c => chunk_size (cb_data c)) cs) = sum_nat (map (fun s => 6 + (1 + snapshot_size s)) ss).
  Proof.
    induction l as [|i l IH]; intros ss H; cbn [mapM] in *.
    - injection H as <-. exists []. split; reflexivity.
    - apply bind_inv in H. destruct H as (s & E & H). apply bind_inv in H. destruct H as (ss' & E2 & H). injection H as <-.
      destruct (single_size enc fb i s E) as (c & EC & SC). destruct (IH _ E2) as (cs & ECS & SS). exists (c :: cs). rewrite EC. cbn [bind]. rewrite ECS.
      split; [reflexivity|]. cbn [map]. rewrite !sum_cons, SC, SS. reflexivity.
  Qed.
End One.

(** An array is stored in no more bytes than its instants stored one by one; what is
    saved is at least the 6 bytes that each further object would need. The arity [k] and
    the depth [e] of the trees are the same on both sides. *)
Theorem C52_together_never_larger : forall get instants rows cols k e enc fb c,
  chunk_build_e get instants rows cols k e enc fb = Ok c ->
  exists alone, mapM (fun i => chunk_build_e (fun _ => get i) 1 rows cols k e enc fb) (range 0 instants) = Ok alone /\
    length (chunk_write (cb_data c)) + 6 * (instants - 1) <= sum_nat (map (fun a => length (chunk_write (cb_data a))) alone).
Proof.
  intros get instants rows cols k e enc fb c H. unfold chunk_build_e in H. destruct (Nat.eqb_spec instants 0) as [|HI]; [discriminate|].
  apply bind_inv in H. destruct H as (s0 & E0 & H). apply bind_inv in H. destruct H as (st & EF & H).
  destruct (fold_size get rows cols k e _ _ _ EF) as (ss & EM & L). destruct st as [[[[[blocks snap] si] logs] cs] cl].
  apply bind_inv in H. destruct H as (b & B & H). unfold block_new in B. destruct (254 <? length logs); [discriminate|]. injection B as <-. injection H as <-.
  assert (R : range 0 instants = 0 :: range 1 instants).
  { unfold range. replace (instants - 0) with (S (instants - 1)) by lia. reflexivity. }
  assert (EA : mapM (fun i => snapshot_build_e (get i) rows cols k e) (range 0 instants) = Ok (s0 :: ss)).
  { rewrite R. cbn [mapM]. rewrite E0. cbn [bind]. rewrite EM. reflexivity. }
  destruct (singles_size get rows cols k e enc fb _ _ EA) as (alone & ES & SS). exists alone. split; [exact ES|].
  assert (LS : length ss = instants - 1).
  { pose proof (mapM_len _ _ _ EM) as X. unfold range in X. rewrite seq_length in X. exact X. }
  rewrite (map_ext (fun a => length (chunk_write (cb_data a))) (fun a => chunk_size (cb_data a))) by (intros a; apply chunk_write_length).
  rewrite SS, chunk_write_length. unfold chunk_size. cbn [cb_data chunk_new ch_blocks map state_size] in *. rewrite map_app, sum_nat_app. cbn [map] in *. rewrite sum_one, sum_cons.
  unfold block_size at 2. cbn [bl_snapshot bl_logs]. change (sum_nat []) with 0 in *.
  assert (SM : sum_nat (map (fun s => 6 + (1 + snapshot_size s)) ss) = 6 * length ss + sum_nat (map (fun s => 1 + snapshot_size s) ss)).
  { clear. induction ss as [|s ss IH]; [reflexivity|]. cbn [map length]. rewrite !sum_cons, IH. lia. }
  rewrite SM, LS. lia.
Qed.

(** Three instants of which two differ from the first in a few cells. *)
Definition ex_slow (t r c : nat) : Z := Z.of_nat ((r * 7 + c * 3) mod 11 + (if (r =? c) && (1 <=? t) then t else 0)).
Example C52_example : exists c alone, chunk_build_e ex_slow 3 8 8 2 3 EncI64 0 = Ok c /\ cb_logs c = 2 /\
  mapM (fun i => chunk_build_e (fun _ => ex_slow i) 1 8 8 2 3 EncI64 0) (range 0 3) = Ok alone /\
  length (chunk_write (cb_data c)) < sum_nat (map (fun a => length (chunk_write (cb_data a))) alone) - 20.
Proof.
  do 2 eexists. split; [vm_compute; reflexivity|]. split; [vm_compute; reflexivity|]. split; [vm_compute; reflexivity|]. apply Nat.ltb_lt. vm_compute. reflexivity.
Qed.

Print Assumptions C52_together_never_larger.
