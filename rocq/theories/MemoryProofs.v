(** * What loading an object reserves: the readers of MemoryModel.v answer as those they
    repeat, and a load that succeeds has asked for at most nine elements per byte. *)
From Verif Require Import Base BaseFacts BitmapModel DacModel StreamModel SnapshotModel LogModel ChunkModel NodeModel.
From Verif Require Import LoadProofs MemoryModel.
Arguments Nat.pow : simpl never.

(** ** The same answers *)

Definition erases {A} (m : areader A) (r : reader A) : Prop := forall s, snd (m s) = r s.
Lemma erases_silent {A} (r : reader A) : erases (silent r) r.
Proof. intros s. reflexivity. Qed.
Lemma erases_ret {A} (a : A) : erases (aret a) (rret a).
Proof. intros s. reflexivity. Qed.
Lemma erases_bind {A B} (m : areader A) r (f : A -> areader B) g : erases m r -> (forall a, erases (f a) (g a)) -> erases (abind m f) (rbind r g).
Proof.
  intros H1 H2 s. unfold abind, rbind. specialize (H1 s). destruct (m s) as [l [[a s']|e| |]]; cbn [snd] in H1; rewrite <- H1; cbn [bind fst snd]; try reflexivity.
  specialize (H2 a s'). destruct (f a s') as [l' x]. exact H2.
Qed.
Lemma erases_reserve {B} n (m : areader B) r : erases m r -> erases (abind (reserve n) (fun _ => m)) r.
Proof. intros H s. unfold abind, reserve. specialize (H s). destruct (m s) as [l' x]. exact H. Qed.
Lemma erases_many {A} n (m : areader A) r : erases m r -> erases (amany n m) (rmany n r).
Proof.
  intros H. induction n as [|n IH]; cbn [amany rmany]; [apply erases_ret|].
  apply erases_bind; [exact H|]. intros a. apply erases_bind; [exact IH|]. intros x. apply erases_ret.
Qed.
Lemma erases_if {A} (b : bool) (m m' : areader A) r r' : erases m r -> erases m' r' -> erases (if b then m else m') (if b then r else r').
Proof. destruct b; auto. Qed.
Create HintDb erases.
#[export] Hint Resolve erases_silent erases_ret : erases.
Ltac erases := repeat first [solve [auto with erases nocore]|apply erases_reserve|apply erases_bind; [|intros ?]|apply erases_many|apply erases_if].
Lemma erases_bitmap : erases a_bitmap bitmap_read. Proof. unfold a_bitmap, bitmap_read. erases. Qed.
#[export] Hint Resolve erases_bitmap : erases.
Lemma erases_dac_level : erases a_dac_level dac_level_read. Proof. unfold a_dac_level, dac_level_read. erases. Qed.
#[export] Hint Resolve erases_dac_level : erases.
Lemma erases_dac : erases a_dac dac_read. Proof. unfold a_dac, dac_read. erases. Qed.
#[export] Hint Resolve erases_dac : erases.
Lemma erases_snapshot : erases a_snapshot snapshot_read. Proof. unfold a_snapshot, snapshot_read. erases. Qed.
Lemma erases_log : erases a_log log_read. Proof. unfold a_log, log_read. erases. Qed.
#[export] Hint Resolve erases_snapshot erases_log : erases.
Lemma erases_block : erases a_block block_read. Proof. unfold a_block, block_read. erases. Qed.
#[export] Hint Resolve erases_block : erases.
Lemma erases_chunk : erases a_chunk chunk_read. Proof. unfold a_chunk, chunk_read. erases. Qed.
Lemma erases_str : erases a_str read_str. Proof. unfold a_str, read_str. erases. Qed.
Lemma erases_span : erases a_span span_read. Proof. unfold a_span, span_read. erases. Qed.
#[export] Hint Resolve erases_chunk erases_str erases_span : erases.
Lemma erases_super m r : erases m r -> erases (a_super m) (super_read r).
Proof. intros H. unfold a_super, super_read. erases. Qed.
Lemma erases_mm_f fuel : erases (a_mm_f fuel) (mm_read_f fuel).
Proof.
  induction fuel as [|f IH]; cbn [a_mm_f mm_read_f]; [intros s; reflexivity|].
  apply erases_bind; [apply erases_silent|]. intros b. repeat apply erases_if; [erases|erases|apply erases_super, IH|erases].
Qed.
Lemma erases_mm : erases a_mm mm_read.
Proof. intros s. apply erases_mm_f. Qed.
Lemma erases_links : erases a_links links_read. Proof. unfold a_links, links_read. erases. Qed.
Lemma erases_coord : erases a_coord coord_read. Proof. unfold a_coord, coord_read. erases. Qed.
Lemma erases_variable : erases a_variable variable_read. Proof. unfold a_variable, variable_read. erases. Qed.
#[export] Hint Resolve erases_mm erases_links erases_coord erases_variable : erases.
Lemma erases_dataset : erases a_dataset dataset_read. Proof. unfold a_dataset, dataset_read. erases. Qed.
#[export] Hint Resolve erases_dataset : erases.
Lemma erases_node c : erases (a_node c) (node_read c). Proof. unfold a_node, node_read. erases. Qed.

(** ** What is paid for *)

Notation len s := (N.of_nat (length s)).
(** Nine for every byte taken pay for what was asked for, and [p] is left. *)
Definition paysR {A} (p : A -> N) (m : areader A) : Prop := forall s l a s', m s = (l, Ok (a, s')) -> (total l + p a + 9 * len s' <= 9 * len s)%N.
Definition pays {A} (p : N) (m : areader A) : Prop := paysR (fun _ => p) m.

Lemma total_app l l' : total (l ++ l') = (total l + total l')%N.
Proof. unfold total. induction l as [|x l IH]; cbn [fold_right app]; lia. Qed.
Lemma abind_inv {A B} (m : areader A) (f : A -> areader B) s l b s' : abind m f s = (l, Ok (b, s')) ->
  exists l1 a s1 l2, m s = (l1, Ok (a, s1)) /\ f a s1 = (l2, Ok (b, s')) /\ l = l1 ++ l2.
Proof.
  unfold abind. intros E. destruct (m s) as [l1 [[a s1]|e| |]]; try discriminate. destruct (f a s1) as [l2 x] eqn:F.
  exists l1, a, s1, l2. split; [reflexivity|]. inversion E; subst. auto.
Qed.
Lemma pays_le {A} p q (m : areader A) : pays p m -> (q <= p)%N -> pays q m.
Proof. intros H L s l a s' E. specialize (H _ _ _ _ E). cbv beta in *. lia. Qed.
Lemma pays_silent {A} n (r : reader A) : eats n r -> pays (9 * N.of_nat n)%N (silent r).
Proof. intros H s l a s' E. unfold silent in E. inversion E; subst. specialize (H _ _ _ ltac:(eassumption)). cbn [total fold_right]. lia. Qed.
Lemma pays_silent0 {A} (r : reader A) : eats 0 r -> pays 0 (silent r).
Proof. exact (pays_silent 0 r). Qed.
Lemma pays_ret {A} (a : A) : pays 0 (aret a).
Proof. apply pays_silent0, eats_ret. Qed.
Lemma paysR_bind {A B} (p : A -> N) (m : areader A) q (f : A -> areader B) : paysR p m -> (forall a s l b s', f a s = (l, Ok (b, s')) -> total l + q + 9 * len s' <= 9 * len s + p a)%N ->
  pays q (abind m f).
Proof.
  intros H1 H2 s l b s' E. apply abind_inv in E. destruct E as (l1 & a & s1 & l2 & E1 & E2 & ->).
  specialize (H1 _ _ _ _ E1). specialize (H2 _ _ _ _ _ E2). cbv beta in *. rewrite total_app. lia.
Qed.
Lemma pays_bind {A B} p q (m : areader A) (f : A -> areader B) : pays p m -> (forall a, pays q (f a)) -> pays (p + q) (abind m f).
Proof. intros H1 H2. apply (paysR_bind (fun _ => p)); [exact H1|]. intros a s l b s' E. specialize (H2 a _ _ _ _ E). cbv beta in *. lia. Qed.
Lemma pays_bind0 {A B} (m : areader A) (f : A -> areader B) : pays 0 m -> (forall a, pays 0 (f a)) -> pays 0 (abind m f).
Proof. exact (pays_bind 0 0 m f). Qed.
(** The first reader leaves something, the rest pays for itself. *)
Lemma pays_first {A B} p (m : areader A) (f : A -> areader B) : pays p m -> (forall a, pays 0 (f a)) -> pays p (abind m f).
Proof. intros H1 H2. rewrite <- (N.add_0_r p). apply pays_bind; assumption. Qed.
Lemma pays_if {A} p (b : bool) (m m' : areader A) : pays p m -> pays p m' -> pays p (if b then m else m').
Proof. destruct b; auto. Qed.
Lemma pays_many {A} n p (m : areader A) : pays p m -> pays (p * N.of_nat n)%N (amany n m).
Proof.
  intros H. induction n as [|n IH]; cbn [amany]; [apply pays_le with 0%N; [apply pays_ret|lia]|].
  apply pays_le with (p + (p * N.of_nat n + 0))%N; [|lia]. apply pays_bind; [exact H|]. intros a. apply pays_bind; [exact IH|]. intros x. apply pays_ret.
Qed.
(** A reservation is paid for by what is read next. *)
Lemma pays_reserve {B} n q p (m : areader B) : pays p m -> (q + N.of_nat n <= p)%N -> pays q (abind (reserve n) (fun _ => m)).
Proof.
  intros H L s l b s' E. apply abind_inv in E. destruct E as (l1 & a & s1 & l2 & E1 & E2 & ->). unfold reserve in E1. inversion E1; subst.
  specialize (H _ _ _ _ E2). cbv beta in *. rewrite total_app. cbn [total fold_right]. lia.
Qed.
Lemma pays_rmany {A} n k (r : reader A) : eats k r -> pays (9 * N.of_nat (k * n))%N (silent (rmany n r)).
Proof. intros H. apply pays_silent. intros s l s' E. apply (eats_many k n r H _ _ _ E). Qed.
(** Room for [n] things and then [n] things. *)
Lemma pays_some {A B} n p (m : areader A) (f : list A -> areader B) : pays p m -> (1 <= p)%N -> (forall a, pays 0 (f a)) -> pays 0 (abind (reserve n) (fun _ => abind (amany n m) f)).
Proof. intros H L F. apply pays_reserve with (p * N.of_nat n)%N; [|nia]. apply pays_first; [apply pays_many, H|exact F]. Qed.
Lemma pays_rsome {A B} n (r : reader A) (f : list A -> areader B) : eats 1 r -> (forall a, pays 0 (f a)) -> pays 0 (abind (reserve n) (fun _ => abind (silent (rmany n r)) f)).
Proof. intros H F. apply pays_reserve with (9 * N.of_nat (1 * n))%N; [|lia]. apply pays_first; [apply pays_rmany, H|exact F]. Qed.

Lemma eats_u32_1 : eats 1 read_u32. Proof. eapply eats_le; [apply eats_u32|lia]. Qed.
Lemma eats_usize32_1 : eats 1 read_usize32. Proof. eapply eats_le; [apply eats_usize32|lia]. Qed.
Ltac pays := repeat first [apply pays_ret|apply pays_silent0; solve [eats]|apply pays_if|apply pays_bind0; [|intros ?]].

(** A bit map pays for one element per bit too. *)
Lemma pays_bitmap : paysR (fun bm => N.of_nat (bm_length bm) + 9)%N a_bitmap.
Proof.
  intros s l bm s' E. unfold a_bitmap in E.
  apply abind_inv in E. destruct E as (l1 & n & s1 & l2 & E1 & E & ->). apply abind_inv in E. destruct E as (l3 & k & s2 & l4 & E2 & E & ->).
  apply abind_inv in E. destruct E as (l5 & blocks & s3 & l6 & E3 & E & ->). apply abind_inv in E. destruct E as (l7 & u & s4 & l8 & E4 & E & ->).
  apply abind_inv in E. destruct E as (l9 & index & s5 & l10 & E5 & E & ->). apply abind_inv in E. destruct E as (l11 & u' & s6 & l12 & E6 & E & ->).
  apply abind_inv in E. destruct E as (l13 & words & s7 & l14 & E7 & E & ->).
  apply (pays_silent 4 _ eats_usize32) in E1. apply (pays_silent 4 _ eats_usize32) in E2. apply (pays_silent0 _ (eats_fail _)) in E3.
  unfold reserve in E4, E6. inversion E4; subst. inversion E6; subst. apply (pays_rmany _ 4 _ eats_u32) in E5. apply (pays_rmany _ 4 _ eats_u32) in E7.
  unfold aret, silent, rret in E. injection E as <- <- <-. cbn [bm_length]. rewrite !total_app. cbn [total fold_right].
  assert (D : n <= 32 * div_ceil n 32). { unfold div_ceil. pose proof (Nat.div_mod_eq n 32). pose proof (Nat.mod_upper_bound n 32). destruct (n mod 32) eqn:M; cbn [Nat.eqb]; lia. }
  cbv beta in *. lia.
Qed.
Lemma pays_bitmap0 : pays 0 a_bitmap.
Proof. intros s l a s' E. pose proof (pays_bitmap _ _ _ _ E). cbv beta in *. lia. Qed.
Lemma pays_dac_level : pays 9 a_dac_level.
Proof.
  apply (paysR_bind _ _ _ _ pays_bitmap). intros bm s l a s' E. apply abind_inv in E. destruct E as (l1 & u & s1 & l2 & E1 & E & ->). unfold reserve in E1. inversion E1; subst.
  assert (P : pays 0 (abind (silent (read_take (bm_length bm))) (fun bs => aret (bm, bs)))) by pays. specialize (P _ _ _ _ E). cbv beta in *. rewrite total_app. cbn [total fold_right]. lia.
Qed.
Lemma pays_dac : pays 9 a_dac.
Proof.
  apply pays_first; [apply (pays_silent 1), eats_usize8|]. intros n. apply pays_reserve with (9 * N.of_nat n)%N; [apply pays_many, pays_dac_level|lia].
Qed.
Lemma pays_dac0 : pays 0 a_dac.
Proof. apply pays_le with 9%N; [apply pays_dac|lia]. Qed.
Ltac pays1 := repeat first [apply pays_ret|apply pays_bitmap0|apply pays_dac0|apply pays_silent0; solve [eats]|apply pays_if|apply pays_bind0; [|intros ?]].
Lemma pays_snapshot : pays 9 a_snapshot.
Proof. apply pays_first; [apply (pays_silent 1), eats_usize8|]. intros k. pays1. Qed.
Lemma pays_log : pays 9 a_log.
Proof. apply pays_first; [apply (pays_silent 1), eats_usize8|]. intros k. pays1. Qed.
Lemma pays_block : pays 9 a_block.
Proof.
  apply pays_first; [apply (pays_silent 1), eats_usize8|]. intros n. apply pays_bind0; [apply pays_le with 9%N; [apply pays_snapshot|lia]|]. intros s. apply pays_bind0; [pays|]. intros k.
  apply (pays_some _ 9); [apply pays_log|lia|]. intros a. apply pays_ret.
Qed.
Lemma pays_chunk : pays 0 a_chunk.
Proof.
  do 4 (apply pays_bind0; [pays|intros ?]). apply pays_reserve with (N.of_nat a2); [|lia]. apply pays_reserve with (9 * N.of_nat a2)%N; [|lia].
  apply pays_first; [apply pays_many, pays_block|]. intros x. apply pays_ret.
Qed.
Lemma pays_span : pays 0 a_span.
Proof. do 7 (apply pays_bind0; [pays|intros ?]). apply pays_rsome; [apply eats_cid|]. intros x. apply pays_ret. Qed.
Lemma pays_super m : pays 1 m -> pays 0 (a_super m).
Proof.
  intros H. do 11 (apply pays_bind0; [pays|intros ?]). apply pays_rsome; [apply eats_reference|]. intros refs. do 2 (apply pays_bind0; [pays|intros ?]).
  apply (pays_some _ 1); [exact H|lia|]. intros x. pays1.
Qed.
Lemma pays_mm_f fuel : pays 9 (a_mm_f fuel).
Proof.
  induction fuel as [|f IH]; cbn [a_mm_f]; [intros s l a s' E; discriminate|].
  apply pays_first; [apply (pays_silent 1), eats_byte|]. intros b. apply pays_if; [apply pays_bind0; [apply pays_chunk|intros; apply pays_ret]|]. apply pays_if; [apply pays_bind0; [apply pays_span|intros; apply pays_ret]|].
  apply pays_if; [apply pays_super; apply pays_le with 9%N; [exact IH|lia]|pays].
Qed.
Lemma pays_mm : pays 0 a_mm.
Proof. intros s l a s' E. apply pays_mm_f in E. cbv beta in *. lia. Qed.
Lemma pays_links : pays 0 a_links.
Proof.
  apply pays_bind0; [pays|]. intros n. apply pays_reserve with (9 * N.of_nat (1 * n))%N; [|lia]. apply pays_silent.
  intros s a s' E. unfold rbind in E. apply bind_inv in E. destruct E as ([x s1] & E1 & E). cbn [fst snd] in E. injection E as _ <-. pose proof (eats_many 1 n _ eats_cid_bytes _ _ _ E1). cbn [length]. lia.
Qed.
(** Only a name that the stream cuts short is not paid for, and then nothing can follow. *)
Lemma pays_str {B} p (f : bytes -> areader B) : (forall a, pays p (f a)) -> (forall a l x, f a [] <> (l, Ok x)) -> pays p (abind a_str f).
Proof.
  intros H K s l b s' E. apply abind_inv in E. destruct E as (l1 & a & s1 & l2 & E1 & E2 & ->).
  destruct s1 as [|x s1]; [exfalso; exact (K _ _ _ E2)|]. specialize (H _ _ _ _ _ E2). cbv beta in H. rewrite total_app.
  cut (total l1 + 9 * len (x :: s1) <= 9 * len s)%N; [cbv beta in *; lia|]. clear E2 H K.
  unfold a_str in E1. apply abind_inv in E1. destruct E1 as (l3 & n & s2 & l4 & E1 & E & ->). apply abind_inv in E. destruct E as (l5 & u & s3 & l6 & E3 & E & ->). unfold reserve in E3. inversion E3; subst.
  apply abind_inv in E. destruct E as (l7 & t & s4 & l8 & E4 & E & ->). apply (pays_silent 1 _ eats_usize8) in E1. cbv beta in E1.
  unfold silent, read_take in E4. injection E4 as <- <- <-.
  assert (X : pays 0 (if utf8_valid (firstn n s3) then aret (firstn n s3) else silent (rfail (Err EUtf8)))) by pays. apply X in E. cbv beta in E. clear X.
  rewrite skipn_length in E. cbn [length] in *. rewrite !total_app. cbn [total fold_right]. assert (N.of_nat (S (length s1)) <= N.of_nat (length s3 - n))%N by lia. lia.
Qed.
Lemma pays_coord : pays 0 a_coord.
Proof. apply pays_str; [intros a; pays|]. intros a l x E. discriminate. Qed.
Lemma pays_variable : pays 9 a_variable.
Proof.
  apply pays_str; [|intros a l x E; discriminate]. intros name. apply pays_first; [apply (pays_silent 1), eats_byte|]. intros b.
  do 4 (apply pays_bind0; [pays|intros ?]). apply pays_rsome; [apply eats_usize32_1|]. intros x. pays.
Qed.
Lemma pays_dataset : pays 0 a_dataset.
Proof.
  do 3 (apply pays_bind0; [apply pays_coord|intros ?]). apply pays_bind0; [pays|intros n]. apply (pays_some _ 9); [apply pays_variable|lia|]. intros x. pays.
Qed.
Lemma pays_node c : pays 0 (a_node c).
Proof.
  apply pays_bind0; [apply pays_silent0; unfold read_header; eats|]. intros t. apply pays_if; [apply pays_bind0; [apply pays_dataset|intros; apply pays_ret]|].
  apply pays_if; [apply pays_bind0; [apply pays_links|intros; apply pays_ret]|]. apply pays_if; [apply pays_bind0; [apply pays_mm|intros; apply pays_ret]|pays].
Qed.
Theorem node_total c b n s' : node_read c b = Ok (n, s') -> (total (asked c b) <= 9 * len b)%N.
Proof.
  intros E. pose proof (erases_node c b) as R. unfold asked. destruct (a_node c b) as [l x] eqn:M. cbn [fst snd] in *. rewrite E in R. subst x. pose proof (pays_node c _ _ _ _ M) as P. cbv beta in P. lia.
Qed.
