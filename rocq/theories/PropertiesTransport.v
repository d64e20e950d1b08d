(** * C49, C50 and C51: objects that travel in pieces. *)
From Coq Require Import ZArith.
From Verif Require Import Base BaseFacts StreamModel StreamProofs ChunkModel NodeModel NodeProofs TransportModel TransportProofs.
From Verif Require PropertiesNode.
Import PropertiesNode.
Arguments Nat.pow : simpl never.
Open Scope nat_scope.

(** ** C49 *)

(** Whatever the pieces in which the transport delivers the bytes of an object, and
    however often it has nothing ready, loading gives what loading from bytes that are
    there as a whole gives: the same object, the same error, the same panic. *)
Theorem C49_any_pieces : forall st c (s : stream), store_get st c = Some (delivered s) -> ~ In Broken s ->
  retrieve_from c (Some s) = retrieve st c.
Proof. intros st c s H U. unfold retrieve_from, retrieve. rewrite H. apply load_unbroken, U. Qed.
(** In particular what was saved is loaded. *)
Theorem C49_saved : forall c n (s : stream), wf_node n -> ~ In Broken s -> delivered s = node_bytes n ->
  retrieve_from c (Some s) = Ok (loaded c n).
Proof. intros c n s H U E. cbn [retrieve_from]. rewrite load_unbroken, E, node_reads_end by assumption. reflexivity. Qed.

(** If the transfer breaks off, this is reported as an I/O error, or what had come is
    enough to settle the outcome: it is the outcome for every way in which the bytes could
    have gone on. *)
Theorem C49_broken : forall c (s : stream), In Broken s ->
  load_stream c s = Err EIo \/ forall q st, store_get st c = Some (delivered s ++ q) -> load_stream c s = retrieve st c.
Proof.
  intros c s H. destruct (load_broken c s [] H) as [E|[_ _]]; [left; exact E|].
  assert (D : load_stream c s = Err EIo \/ load_stream c s <> Err EIo).
  { destruct (load_stream c s) as [|[]| |]; (left; reflexivity) || (right; discriminate). }
  destruct D as [D|D]; [left; exact D|]. right. intros q st E. unfold retrieve. rewrite E.
  destruct (load_broken c s q H) as [E2|[E2 _]]; [contradiction|exact E2].
Qed.
(** A transfer that breaks off before the last byte of a saved object is always reported
    (unlike a stream that ends early without an error, C15). *)
Theorem C49_broken_reported : forall c n (s : stream) (missing : bytes), wf_node n -> In Broken s ->
  delivered s ++ missing = node_bytes n -> missing <> [] -> retrieve_from c (Some s) = Err EIo.
Proof.
  intros c n s q HW H E HQ. cbn [retrieve_from]. destruct (load_broken c s q H) as [E2|[_ E2]]; [exact E2|]. exfalso.
  rewrite E, (node_reads_end c n HW) in E2. destruct (E2 _ _ eq_refl) as [r' R]. symmetry in R. apply app_eq_nil in R. destruct R. contradiction.
Qed.
(** One that breaks off after the last byte gives the object or the error. *)
Theorem C49_broken_after : forall c n (s : stream), wf_node n -> In Broken s -> delivered s = node_bytes n ->
  retrieve_from c (Some s) = Err EIo \/ retrieve_from c (Some s) = Ok (loaded c n).
Proof.
  intros c n s HW H E. cbn [retrieve_from]. destruct (load_broken c s [] H) as [E2|[E2 _]]; [left; exact E2|]. right.
  rewrite E2, app_nil_r, E, (node_reads_end c n HW). reflexivity.
Qed.

(** A link list in pieces of 5 bytes with waits between them, whole and cut. *)
Fixpoint ex_pieces (fuel : nat) (b : bytes) : stream :=
  match fuel with 0 => [] | S f => match b with [] => [] | _ => Piece (firstn 5 b) :: Pending :: ex_pieces f (skipn 5 b) end end.
Example C49_example :
  let n := NLinks [ex_cid 1; ex_cid 2] in let b := node_bytes n in
  let s := ex_pieces 100 b in let cut := ex_pieces 100 (firstn 82 b) ++ [Broken] in
  wf_node n /\ ~ In Broken s /\ 20 < length s /\ delivered s = b /\ retrieve_from (ex_cid 9) (Some s) = Ok n /\
  In Broken cut /\ delivered cut ++ skipn 82 b = b /\ skipn 82 b <> [] /\ retrieve_from (ex_cid 9) (Some cut) = Err EIo.
Proof.
  cbv zeta. split.
  { split; [reflexivity|]. constructor; [apply wf_ex_cid|]. constructor; [apply wf_ex_cid|constructor]. }
  split; [vm_compute; intuition discriminate|]. split; [vm_compute; repeat constructor|]. split; [vm_compute; reflexivity|]. split; [vm_compute; reflexivity|].
  split; [apply in_or_app; right; left; reflexivity|]. split; [vm_compute; reflexivity|]. split; [vm_compute; discriminate|]. vm_compute. reflexivity.
Qed.
(** A dataset that is there in full before the break is accepted. *)
Example C49_after_example :
  let s := [Piece (node_bytes (NDataset ex_dataset)); Broken] in
  wf_node (NDataset ex_dataset) /\ In Broken s /\ delivered s = node_bytes (NDataset ex_dataset) /\
  retrieve_from (ex_cid 9) (Some s) = Ok (NDataset (with_cid ex_dataset (Some (ex_cid 9)))).
Proof. cbv zeta. split; [exact wf_ex_dataset|]. split; [right; left; reflexivity|]. split; vm_compute; reflexivity. Qed.

(** ** C50 *)
Lemma write_all_ok : forall w b x w', write_all w b = (x, Ok w') -> x = b.
Proof.
  induction w as [|a w IH]; intros b x w' H; (destruct b as [|y b]; [cbn in H; congruence|]); cbn [write_all] in H; [congruence|].
  destruct a as [[|n]| |]; try discriminate; [|apply IH in H; exact H].
  destruct (write_all w (skipn (S n) (y :: b))) as [x2 r] eqn:E. assert (R : r = Ok w') by congruence. assert (X : x = firstn (S n) (y :: b) ++ x2) by congruence.
  rewrite R in E. apply IH in E. rewrite X, E. apply firstn_skipn.
Qed.
Lemma write_all_err : forall w b, match snd (write_all w b) with Ok _ => True | Err e => e = EIo | _ => False end.
Proof.
  induction w as [|a w IH]; intros b; (destruct b as [|y b]; [exact Logic.I|]); cbn [write_all]; [exact Logic.I|].
  destruct a as [[|n]| |]; try reflexivity; [|apply IH]. specialize (IH (skipn (S n) (y :: b))). destruct (write_all w _) as [x r]. exact IH.
Qed.
Lemma write_each_ok : forall l w x w', write_each w l = (x, Ok w') -> x = concat l.
Proof.
  induction l as [|b l IH]; intros w x w' H; cbn [write_each concat] in *; [congruence|].
  destruct (write_all w b) as [x1 [w1| | |]] eqn:E; try discriminate. destruct (write_each w1 l) as [y r] eqn:E2. injection H as <- ->.
  apply write_all_ok in E. apply IH in E2. congruence.
Qed.
Lemma write_each_err : forall l w, match snd (write_each w l) with Ok _ => True | Err e => e = EIo | _ => False end.
Proof.
  induction l as [|b l IH]; intros w; cbn [write_each]; [exact Logic.I|]. pose proof (write_all_err w b) as H.
  destruct (write_all w b) as [x1 [w1| | |]]; cbn [snd] in *; try exact H. specialize (IH w1). destruct (write_each w1 l) as [y r]. exact IH.
Qed.
Definition willing (a : acceptance) : Prop := a <> Fails /\ a <> Takes 0.
Lemma write_all_willing : forall w b, Forall willing w -> exists w', write_all w b = (b, Ok w') /\ Forall willing w'.
Proof.
  induction w as [|a w IH]; intros b H; (destruct b as [|y b]; [eexists; split; [reflexivity|exact H]|]); cbn [write_all]; [eexists; split; [reflexivity|constructor]|].
  inversion H as [|? ? [H1 H2] H3]; subst. destruct a as [[|n]| |]; [destruct (H2 eq_refl)| |apply IH, H3|destruct (H1 eq_refl)].
  destruct (IH (skipn (S n) (y :: b)) H3) as (w' & E & W). rewrite E. exists w'. split; [|exact W]. rewrite firstn_skipn. reflexivity.
Qed.
Lemma write_each_willing : forall l w, Forall willing w -> exists w', write_each w l = (concat l, Ok w') /\ Forall willing w'.
Proof.
  induction l as [|b l IH]; intros w H; cbn [write_each concat]; [eexists; split; [reflexivity|exact H]|].
  destruct (write_all_willing w b H) as (w1 & E & W). rewrite E. destruct (IH w1 W) as (w2 & E2 & W2). rewrite E2. exists w2. split; [reflexivity|exact W2].
Qed.

(** Saving an object by any sequence of writes that make up its bytes, through a writer
    that takes any number of bytes at a time, is not ready or fails at any point: either
    the store is as [save] leaves it and the identifier is that of the object, or an error
    is reported and the store is unchanged. *)
Theorem C50_whole_or_not : forall hash st n (w : list acceptance) (l : list bytes), concat l = node_bytes n ->
  save_through hash w l st = (snd (save hash st n), Ok (fst (save hash st n))) \/ save_through hash w l st = (st, Err EIo).
Proof.
  intros hash st n w l H. unfold save_through. destruct (write_each w l) as [b r] eqn:E. pose proof (write_each_err l w) as R. rewrite E in R. cbn [snd] in R.
  destruct r as [w'|e| |]; [left|right|destruct R|destruct R].
  - apply write_each_ok in E. rewrite E, H. reflexivity.
  - rewrite R. reflexivity.
Qed.
(** If no write fails the object is saved. *)
Theorem C50_saved : forall hash st n (w : list acceptance) (l : list bytes), concat l = node_bytes n ->
  (forall a, In a w -> a <> Fails /\ a <> Takes 0) -> save_through hash w l st = (snd (save hash st n), Ok (fst (save hash st n))).
Proof.
  intros hash st n w l H HW. unfold save_through. destruct (write_each_willing l w) as (w' & E & _); [apply Forall_forall; exact HW|].
  rewrite E, H. reflexivity.
Qed.
(** The bytes of the dataset in three writes, of which the writer takes 3 bytes, 1 byte,
    and then fails, or does not. *)
Example C50_example :
  let b := node_bytes (NDataset ex_dataset) in let l := [firstn 2 b; firstn 4 (skipn 2 b); skipn 6 b] in
  concat l = b /\
  save_through ex_hash [Takes 1; Later; Takes 3; Takes 2; Fails] l [] = ([], Err EIo) /\
  save_through ex_hash [Takes 1; Later; Takes 3; Takes 2; Takes 1] l [] = (snd (save ex_hash [] (NDataset ex_dataset)), Ok (fst (save ex_hash [] (NDataset ex_dataset)))).
Proof. cbv zeta. split; [vm_compute; reflexivity|]. split; vm_compute; reflexivity. Qed.

(** ** C51 *)

(** Objects that the IPFS node has are loaded as from any other store, *)
Theorem C51_present_partial : forall d c b, store_get (ip_objects d) c = Some b ->
  retrieve_from c (ipfs_load d c) = retrieve (ip_objects d) c.
Proof.
  intros d c b H. unfold ipfs_load. rewrite H. apply C49_any_pieces; [cbn [delivered]; rewrite app_nil_r; exact H|]. intros [C|[]]; discriminate.
Qed.
(** but for one that it has not, [load] does not answer that it is missing (as its
    documentation asks), the message of the node is read as the object, and since it does not
    begin like an object the program panics, where another store gives the error. *)
Theorem C51_missing_refuted : forall d c x y rest, store_get (ip_objects d) c = None ->
  ip_message d c = x :: y :: rest -> (x, y) <> (220, 224)%N -> (x < 256)%N -> (y < 256)%N ->
  ipfs_load d c <> None /\ retrieve_from c (ipfs_load d c) = Panic /\ retrieve (ip_objects d) c = Err ENotFound.
Proof.
  intros d c x y rest H M NE HX HY. unfold ipfs_load. rewrite H, M. split; [discriminate|]. split; [|unfold retrieve; rewrite H; reflexivity].
  cbn [retrieve_from]. rewrite load_unbroken by (intros [C|[]]; discriminate). cbn [delivered]. rewrite app_nil_r.
  unfold node_read, read_header, rbind. unfold read_u16 at 1. unfold rbind, read_exact. cbn [length Nat.leb firstn skipn bind fst snd rret].
  replace (be_value [x; y] =? magic_number)%N with false; [reflexivity|]. symmetry. apply N.eqb_neq. unfold be_value, magic_number. cbn [fold_left].
  intros C. apply NE. f_equal; lia.
Qed.
(** "Error: ..." *)
Definition ex_ipfs : ipfs := mkIpfs (snd (save ex_hash [] (NLinks [ex_cid 1]))) (fun _ => [69; 114; 114; 111; 114]%N).
Example C51_example : let c := fst (save ex_hash [] (NLinks [ex_cid 1])) in
  retrieve_from c (ipfs_load ex_ipfs c) = Ok (NLinks [ex_cid 1]) /\ store_get (ip_objects ex_ipfs) (ex_cid 1) = None /\
  retrieve_from (ex_cid 1) (ipfs_load ex_ipfs (ex_cid 1)) = Panic.
Proof. cbv zeta. split; [vm_compute; reflexivity|]. split; vm_compute; reflexivity. Qed.

Print Assumptions C49_any_pieces.
Print Assumptions C49_saved.
Print Assumptions C49_broken.
Print Assumptions C49_broken_reported.
Print Assumptions C49_broken_after.
Print Assumptions C50_whole_or_not.
Print Assumptions C50_saved.
Print Assumptions C51_present_partial.
Print Assumptions C51_missing_refuted.
