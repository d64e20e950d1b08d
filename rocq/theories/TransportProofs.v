(** * Reading in pieces is reading the whole. *)
From Verif Require Import Base BaseFacts BitmapModel DacModel SnapshotModel LogModel StreamModel StreamProofs ChunkModel NodeModel NodeProofs TransportModel.
Arguments Nat.pow : simpl never.

(** A program over bytes that are there as a whole. *)
Fixpoint flat {A} (p : prog A) (s : bytes) : res (A * bytes) :=
  match p with
  | PDone x => a <- x ;; Ok (a, s)
  | PExact n k => x <- read_exact n s ;; flat (k (fst x)) (snd x)
  | PMost n k => x <- read_take n s ;; flat (k (fst x)) (snd x)
  | PAll k => flat (k s) []
  end.

(** ** Streams that do not break *)
Lemma take_exact_whole : forall s n, ~ In Broken s ->
  match take_exact s n with
  | Ok (b, s') => read_exact n (delivered s) = Ok (b, delivered s') /\ ~ In Broken s'
  | x => forall y, read_exact n (delivered s) = y -> match x, y with Err e, Err e' => e = e' | _, _ => False end
  end.
Proof.
  unfold read_exact. induction s as [|[b| |] s IH]; intros n H.
  - destruct n as [|n]; cbn; [split; [reflexivity|intros []]|]. intros y <-. reflexivity.
  - assert (H' : ~ In Broken s) by (intros C; apply H; right; exact C). destruct n as [|n]; [cbn; split; [reflexivity|exact H]|].
    cbn [take_exact delivered]. destruct (Nat.leb_spec (S n) (length b)) as [L|L].
    + rewrite app_length. rewrite (proj2 (Nat.leb_le _ _)) by lia. split.
      * f_equal. rewrite firstn_app, skipn_app. replace (S n - length b) with 0 by lia. rewrite firstn_O, app_nil_r, skipn_O. reflexivity.
      * intros [C|C]; [discriminate|exact (H' C)].
    + specialize (IH (S n - length b) H'). remember (S n - length b) as m eqn:Hm. destruct (take_exact s m) as [[x s']| | |]; cbn [bind fst snd].
      * destruct IH as [E U]. destruct (Nat.leb_spec m (length (delivered s))) as [L2|L2]; [|discriminate]. injection E as E1 E2.
        rewrite app_length. rewrite (proj2 (Nat.leb_le _ _)) by lia. split; [|exact U].
        rewrite firstn_app, skipn_app, <- Hm, E1, E2. rewrite (firstn_all2 b) by lia. rewrite (skipn_all2 b) by lia. reflexivity.
      * destruct (Nat.leb_spec m (length (delivered s))) as [L2|L2]; [destruct (IH _ eq_refl)|]. specialize (IH _ eq_refl). cbn in IH. subst.
        rewrite app_length. rewrite (proj2 (Nat.leb_gt _ _)) by lia. intros y <-. reflexivity.
      * destruct (Nat.leb_spec m (length (delivered s))); destruct (IH _ eq_refl).
      * destruct (Nat.leb_spec m (length (delivered s))); destruct (IH _ eq_refl).
  - destruct n as [|n]; [cbn; split; [reflexivity|exact H]|]. cbn [take_exact delivered]. apply IH. intros C. apply H. right. exact C.
  - exfalso. apply H. left. reflexivity.
Qed.
Lemma take_most_whole : forall s n, ~ In Broken s ->
  exists b s', take_most s n = Ok (b, s') /\ read_take n (delivered s) = Ok (b, delivered s') /\ ~ In Broken s'.
Proof.
  unfold read_take. induction s as [|[b| |] s IH]; intros n H.
  - exists [], []. destruct n; cbn; auto.
  - assert (H' : ~ In Broken s) by (intros C; apply H; right; exact C). destruct n as [|n]; [exists [], (Piece b :: s); cbn; auto|].
    cbn [take_most delivered]. destruct (Nat.leb_spec (S n) (length b)) as [L|L].
    + eexists. eexists. split; [reflexivity|]. split.
      * f_equal. rewrite firstn_app, skipn_app. replace (S n - length b) with 0 by lia. rewrite firstn_O, app_nil_r, skipn_O. reflexivity.
      * intros [C|C]; [discriminate|exact (H' C)].
    + remember (S n - length b) as m eqn:Hm. destruct (IH m H') as (x & s' & E & E2 & U). rewrite E. cbn [bind fst snd]. eexists. eexists. split; [reflexivity|]. split; [|exact U].
      injection E2 as E1 E2. rewrite firstn_app, skipn_app, <- Hm, E1, E2. rewrite (firstn_all2 b) by lia. rewrite (skipn_all2 b) by lia. reflexivity.
  - destruct n as [|n]; [exists [], (Pending :: s); cbn; auto|]. cbn [take_most delivered]. apply IH. intros C. apply H. right. exact C.
  - exfalso. apply H. left. reflexivity.
Qed.
Lemma take_all_whole : forall s, ~ In Broken s -> take_all s = Ok (delivered s).
Proof.
  induction s as [|[b| |] s IH]; intros H; cbn [take_all delivered]; [reflexivity| | |exfalso; apply H; left; reflexivity];
    rewrite IH by (intros C; apply H; right; exact C); reflexivity.
Qed.

Lemma prun_whole {A} (p : prog A) : forall s, ~ In Broken s ->
  (x <- prun p s ;; Ok (fst x, delivered (snd x))) = flat p (delivered s).
Proof.
  induction p as [x|n k IH|n k IH|k IH]; intros s H; cbn [prun flat].
  - destruct x; reflexivity.
  - pose proof (take_exact_whole s n H) as T. destruct (take_exact s n) as [[b s']| | |]; cbn [bind fst snd].
    + destruct T as [E U]. rewrite E. cbn [bind fst snd]. apply IH, U.
    + specialize (T _ eq_refl). destruct (read_exact n (delivered s)) as [y| | |]; try contradiction. cbn [bind]. congruence.
    + specialize (T _ eq_refl). destruct (read_exact n (delivered s)); contradiction.
    + specialize (T _ eq_refl). destruct (read_exact n (delivered s)); contradiction.
  - destruct (take_most_whole s n H) as (b & s' & E & E2 & U). rewrite E, E2. cbn [bind fst snd]. apply IH, U.
  - rewrite (take_all_whole s H). cbn [bind]. apply (IH (delivered s) []). intros [].
Qed.

(** ** Streams that break *)
Lemma take_exact_broken : forall s n, In Broken s ->
  (n <= length (delivered s) /\ exists s', take_exact s n = Ok (firstn n (delivered s), s') /\ delivered s' = skipn n (delivered s) /\ In Broken s') \/
  (length (delivered s) < n /\ take_exact s n = Err EIo).
Proof.
  induction s as [|[b| |] s IH]; intros n H; [destruct H| | |].
  - destruct H as [H|H]; [discriminate|]. destruct n as [|n]; [left; cbn; split; [lia|]; exists (Piece b :: s); repeat split; auto; right; exact H|].
    cbn [take_exact delivered]. rewrite app_length. destruct (Nat.leb_spec (S n) (length b)) as [L|L].
    + left. split; [lia|]. eexists. split; [f_equal; f_equal; rewrite firstn_app; replace (S n - length b) with 0 by lia; rewrite firstn_O, app_nil_r; reflexivity|].
      split; [cbn [delivered]; rewrite skipn_app; replace (S n - length b) with 0 by lia; rewrite skipn_O; reflexivity|right; exact H].
    + destruct (IH (S n - length b) H) as [[L2 (s' & E & E2 & U)]|[L2 E]]; rewrite E; cbn [bind fst snd].
      * left. split; [lia|]. exists s'. rewrite firstn_app, skipn_app, E2. rewrite (firstn_all2 b) by lia. rewrite (skipn_all2 b) by lia. auto.
      * right. split; [lia|reflexivity].
  - destruct H as [H|H]; [discriminate|]. destruct n as [|n]; [left; cbn; split; [lia|]; exists (Pending :: s); repeat split; auto; right; exact H|].
    cbn [take_exact delivered]. apply IH, H.
  - cbn [delivered length]. destruct n as [|n]; [left; split; [lia|]; exists (Broken :: s); cbn; auto|]. right. split; [lia|reflexivity].
Qed.
Lemma take_most_broken : forall s n, In Broken s -> take_most s n = take_exact s n.
Proof.
  induction s as [|[b| |] s IH]; intros n H; [destruct H| | |]; (destruct n as [|n]; [reflexivity|]); cbn [take_most take_exact].
  - destruct H as [H|H]; [discriminate|]. rewrite IH by exact H. reflexivity.
  - destruct H as [H|H]; [discriminate|]. apply IH, H.
  - reflexivity.
Qed.
Lemma take_all_broken : forall s, In Broken s -> take_all s = Err EIo.
Proof.
  induction s as [|[b| |] s IH]; intros H; cbn [take_all]; [destruct H| | |reflexivity]; (destruct H as [H|H]; [discriminate|]); rewrite IH by exact H; reflexivity.
Qed.
Lemma read_exact_more n s q : n <= length s -> read_exact n (s ++ q) = Ok (firstn n s, skipn n s ++ q).
Proof.
  intros H. unfold read_exact. rewrite app_length, (proj2 (Nat.leb_le _ _)) by lia. rewrite firstn_app, skipn_app.
  replace (n - length s) with 0 by lia. rewrite firstn_O, skipn_O, app_nil_r. reflexivity.
Qed.
Lemma read_take_more n s q : n <= length s -> read_take n (s ++ q) = Ok (firstn n s, skipn n s ++ q).
Proof. intros H. unfold read_take. rewrite firstn_app, skipn_app. replace (n - length s) with 0 by lia. rewrite firstn_O, skipn_O, app_nil_r. reflexivity. Qed.

(** From a stream that breaks, a program has the result that it has from any bytes that go
    on in whatever way, or an I/O error. *)
Lemma prun_broken {A} (p : prog A) : forall s q, In Broken s ->
  prun p s = Err EIo \/
  match prun p s with
  | Ok (a, s') => flat p (delivered s ++ q) = Ok (a, delivered s' ++ q)
  | Err e => flat p (delivered s ++ q) = Err e
  | Panic => flat p (delivered s ++ q) = Panic
  | Diverge => flat p (delivered s ++ q) = Diverge
  end.
Proof.
  induction p as [x|n k IH|n k IH|k IH]; intros s q H; cbn [prun flat].
  - right. destruct x; reflexivity.
  - destruct (take_exact_broken s n H) as [[L (s' & E & E2 & U)]|[L E]]; rewrite E; cbn [bind fst snd]; [|left; reflexivity].
    rewrite read_exact_more by exact L. cbn [bind fst snd]. rewrite <- E2. apply IH, U.
  - rewrite (take_most_broken s n H). destruct (take_exact_broken s n H) as [[L (s' & E & E2 & U)]|[L E]]; rewrite E; cbn [bind fst snd]; [|left; reflexivity].
    rewrite read_take_more by exact L. cbn [bind fst snd]. rewrite <- E2. apply IH, U.
  - rewrite (take_all_broken s H). left. reflexivity.
Qed.

(** ** The programs are the readers *)
Definition same {A} (p : prog A) (r : reader A) : Prop := forall s, flat p s = r s.
Lemma flat_bind {A B} (p : prog A) (f : A -> prog B) : forall s, flat (pbind p f) s = (x <- flat p s ;; flat (f (fst x)) (snd x)).
Proof.
  induction p as [x|n k IH|n k IH|k IH]; intros s; cbn [pbind flat].
  - destruct x; reflexivity.
  - destruct (read_exact n s) as [[b s']| | |]; cbn [bind fst snd]; [apply IH| | |]; reflexivity.
  - destruct (read_take n s) as [[b s']| | |]; cbn [bind fst snd]; [apply IH| | |]; reflexivity.
  - apply IH.
Qed.
Lemma same_bind {A B} (p : prog A) (r : reader A) (f : A -> prog B) (g : A -> reader B) : same p r -> (forall a, same (f a) (g a)) -> same (pbind p f) (rbind r g).
Proof. intros H1 H2 s. rewrite flat_bind, H1. unfold rbind. destruct (r s) as [[a s']| | |]; cbn [bind fst snd]; [apply H2| | |]; reflexivity. Qed.
Lemma same_ret {A} (a : A) : same (pret a) (rret a).
Proof. intros s. reflexivity. Qed.
Lemma same_fail {A} (x : res A) : same (pfail x) (rfail x).
Proof. intros s. reflexivity. Qed.
Lemma same_exact n : same (p_exact n) (read_exact n).
Proof. intros s. unfold p_exact. cbn [flat]. destruct (read_exact n s) as [[b s']| | |]; reflexivity. Qed.
Lemma same_take n : same (p_take n) (read_take n).
Proof. intros s. unfold p_take. cbn [flat]. destruct (read_take n s) as [[b s']| | |]; reflexivity. Qed.
Lemma same_if {A} (b : bool) (p p' : prog A) r r' : same p r -> same p' r' -> same (if b then p else p') (if b then r else r').
Proof. destruct b; trivial. Qed.
Lemma same_many {A} (p : prog A) r n : same p r -> same (pmany n p) (rmany n r).
Proof. intros H. induction n as [|n IH]; cbn [pmany rmany]; [apply same_ret|]. apply same_bind; [exact H|]. intros a. apply same_bind; [exact IH|]. intros l. apply same_ret. Qed.

Create HintDb same discriminated.
#[export] Hint Resolve same_ret same_fail same_exact same_take same_many : same.
Ltac sames := repeat first [solve [auto with same]|apply same_bind; [solve [auto with same]|intros]|apply same_if|apply same_many|apply same_bind; [|intros]].
Lemma same_byte : same p_byte read_byte. Proof. unfold p_byte, read_byte. sames. Qed.
Lemma same_u16 : same p_u16 read_u16. Proof. unfold p_u16, read_u16. sames. Qed.
Lemma same_u32 : same p_u32 read_u32. Proof. unfold p_u32, read_u32. sames. Qed.
Lemma same_i32 : same p_i32 read_i32. Proof. unfold p_i32, read_i32. sames. Qed.
Lemma same_i64 : same p_i64 read_i64. Proof. unfold p_i64, read_i64. sames. Qed.
Lemma same_f32 : same p_f32 read_f32. Proof. unfold p_f32, read_f32. sames. Qed.
Lemma same_f64 : same p_f64 read_f64. Proof. unfold p_f64, read_f64. sames. Qed.
#[export] Hint Resolve same_byte same_u16 same_u32 same_i32 same_i64 same_f32 same_f64 : same.
Lemma same_usize32 : same p_usize32 read_usize32. Proof. unfold p_usize32, read_usize32. sames. Qed.
Lemma same_usize8 : same p_usize8 read_usize8. Proof. unfold p_usize8, read_usize8. sames. Qed.
#[export] Hint Resolve same_usize32 same_usize8 : same.
Lemma same_bitmap : same p_bitmap bitmap_read. Proof. unfold p_bitmap, bitmap_read. sames. Qed.
#[export] Hint Resolve same_bitmap : same.
Lemma same_dac_level : same p_dac_level dac_level_read. Proof. unfold p_dac_level, dac_level_read. sames. Qed.
#[export] Hint Resolve same_dac_level : same.
Lemma same_dac : same p_dac dac_read. Proof. unfold p_dac, dac_read. sames. Qed.
#[export] Hint Resolve same_dac : same.
Lemma same_snapshot : same p_snapshot snapshot_read. Proof. unfold p_snapshot, snapshot_read. sames. Qed.
Lemma same_log : same p_log log_read. Proof. unfold p_log, log_read. sames. Qed.
#[export] Hint Resolve same_snapshot same_log : same.
Lemma same_block : same p_block block_read. Proof. unfold p_block, block_read. sames. Qed.
#[export] Hint Resolve same_block : same.
Lemma same_chunk : same p_chunk chunk_read. Proof. unfold p_chunk, chunk_read. sames. Qed.
Lemma same_str : same p_str read_str. Proof. unfold p_str, read_str. sames. Qed.
Lemma same_varint_dec : forall fuel i acc, same (p_varint_dec fuel i acc) (varint_dec fuel i acc).
Proof. induction fuel as [|fuel IH]; intros i acc; cbn [p_varint_dec varint_dec]; sames. Qed.
Lemma same_varint : same p_varint varint_read. Proof. apply same_varint_dec. Qed.
#[export] Hint Resolve same_chunk same_str same_varint : same.
Lemma same_cid : same p_cid read_cid. Proof. unfold p_cid, read_cid. sames. Qed.
#[export] Hint Resolve same_cid : same.
Lemma same_span : same p_span span_read. Proof. unfold p_span, span_read. sames. Qed.
Lemma same_reference : same p_reference reference_read. Proof. unfold p_reference, reference_read. sames. Qed.
#[export] Hint Resolve same_span same_reference : same.
Lemma same_super p r : same p r -> same (p_super p) (super_read r). Proof. intros H. unfold p_super, super_read. sames. Qed.
#[export] Hint Resolve same_super : same.
Lemma same_mm_f : forall fuel, same (p_mm fuel) (mm_read_f fuel).
Proof. induction fuel as [|fuel IH]; cbn [p_mm mm_read_f]; [intros s; reflexivity|]. sames. Qed.
Lemma same_links : same p_links links_read.
Proof.
  unfold p_links, links_read. apply same_bind; [auto with same|]. intros n s. cbn [flat]. unfold pfail, rbind. cbn [flat].
  destruct (rmany n cid_read_bytes s) as [[l s']| | |]; reflexivity.
Qed.
Lemma same_kind : same p_kind kind_read.
Proof. unfold p_kind, kind_read. apply same_bind; [auto with same|]. intros b. apply same_bind; [auto with same|]. intros [| | | |]; sames. Qed.
#[export] Hint Resolve same_mm_f same_links same_kind : same.
Lemma same_coord : same p_coord coord_read. Proof. unfold p_coord, coord_read. sames. Qed.
Lemma same_variable : same p_variable variable_read. Proof. unfold p_variable, variable_read. sames. Qed.
#[export] Hint Resolve same_coord same_variable : same.
Lemma same_dataset : same p_dataset dataset_read. Proof. unfold p_dataset, dataset_read. sames. Qed.
Lemma same_header : same p_header read_header. Proof. unfold p_header, read_header. sames. Qed.
#[export] Hint Resolve same_dataset same_header : same.

(** ** Nesting *)
Lemma prun_bind {A B} (p : prog A) (f : A -> prog B) : forall s, prun (pbind p f) s = (x <- prun p s ;; prun (f (fst x)) (snd x)).
Proof.
  induction p as [x|n k IH|n k IH|k IH]; intros s; cbn [pbind prun].
  - destruct x; reflexivity.
  - destruct (take_exact s n) as [[b s']| | |]; cbn [bind fst snd]; [apply IH| | |]; reflexivity.
  - destruct (take_most s n) as [[b s']| | |]; cbn [bind fst snd]; [apply IH| | |]; reflexivity.
  - destruct (take_all s) as [b| | |]; cbn [bind fst snd]; [apply IH| | |]; reflexivity.
Qed.
Lemma take_exact_shrinks : forall s n b s', take_exact s n = Ok (b, s') -> length (delivered s') + n = length (delivered s).
Proof.
  induction s as [|[d| |] s IH]; intros n b s' H; (destruct n as [|n]; [cbn in H; injection H as <- <-; cbn [delivered]; lia|]); cbn [take_exact delivered] in *; try discriminate.
  - rewrite app_length. destruct (Nat.leb_spec (S n) (length d)) as [L|L].
    + assert (X : s' = Piece (skipn (S n) d) :: s) by congruence. rewrite X. cbn [delivered]. rewrite app_length, skipn_length. lia.
    + remember (S n - length d) as m eqn:Hm. destruct (take_exact s m) as [[x s2]| | |] eqn:E; cbn [bind fst snd] in H; try discriminate. injection H as <- <-.
      specialize (IH _ _ _ E). lia.
  - apply IH in H. lia.
Qed.
Lemma take_most_shrinks : forall s n b s', take_most s n = Ok (b, s') -> length (delivered s') <= length (delivered s).
Proof.
  induction s as [|[d| |] s IH]; intros n b s' H; (destruct n as [|n]; [cbn in H; injection H as <- <-; cbn [delivered]; lia|]); cbn [take_most delivered] in *; try discriminate.
  - injection H as <- <-. cbn. lia.
  - rewrite app_length. destruct (Nat.leb_spec (S n) (length d)) as [L|L].
    + assert (X : s' = Piece (skipn (S n) d) :: s) by congruence. rewrite X. cbn [delivered]. rewrite app_length, skipn_length. lia.
    + remember (S n - length d) as m eqn:Hm. destruct (take_most s m) as [[x s2]| | |] eqn:E; cbn [bind fst snd] in H; try discriminate. injection H as <- <-.
      specialize (IH _ _ _ E). lia.
  - apply IH in H. lia.
Qed.
Lemma prun_shrinks {A} (p : prog A) : forall s a s', prun p s = Ok (a, s') -> length (delivered s') <= length (delivered s).
Proof.
  induction p as [x|n k IH|n k IH|k IH]; intros s a s' H; cbn [prun] in H.
  - destruct x; cbn [bind] in H; try discriminate. injection H as <- <-. lia.
  - destruct (take_exact s n) as [[b s2]| | |] eqn:E; cbn [bind fst snd] in H; try discriminate. apply IH in H. apply take_exact_shrinks in E. lia.
  - destruct (take_most s n) as [[b s2]| | |] eqn:E; cbn [bind fst snd] in H; try discriminate. apply IH in H. apply take_most_shrinks in E. lia.
  - destruct (take_all s) as [b| | |] eqn:E; cbn [bind fst snd] in H; try discriminate. apply IH in H. cbn in H. lia.
Qed.
Definition agree {A} (L : nat) (p p' : prog A) : Prop := forall s, length (delivered s) <= L -> prun p s = prun p' s.
Lemma agree_refl {A} L (p : prog A) : agree L p p.
Proof. intros s _. reflexivity. Qed.
Lemma agree_bind {A B} L (p p' : prog A) (f f' : A -> prog B) : agree L p p' -> (forall a, agree L (f a) (f' a)) -> agree L (pbind p f) (pbind p' f').
Proof.
  intros H1 H2 s HL. rewrite !prun_bind, (H1 s HL). destruct (prun p' s) as [[a s']| | |] eqn:E; cbn [bind fst snd]; try reflexivity.
  apply H2. apply prun_shrinks in E. lia.
Qed.
Lemma agree_many {A} L (p p' : prog A) n : agree L p p' -> agree L (pmany n p) (pmany n p').
Proof. intros H. induction n as [|n IH]; cbn [pmany]; [apply agree_refl|]. apply agree_bind; [exact H|]. intros a. apply agree_bind; [exact IH|]. intros l. apply agree_refl. Qed.
Lemma agree_super L (p p' : prog mmstruct) : agree L p p' -> agree L (p_super p) (p_super p').
Proof.
  intros H. unfold p_super. repeat (apply agree_bind; [first [apply agree_refl|apply agree_many; exact H]|intros ?]). apply agree_refl.
Qed.
Lemma byte_shrinks s b s' : prun p_byte s = Ok (b, s') -> S (length (delivered s')) = length (delivered s).
Proof.
  intros E. unfold p_byte, p_exact, pret in E. cbn [prun pbind] in E. destruct (take_exact s 1) as [[x s2]| | |] eqn:E2; cbn [bind fst snd] in E; try discriminate.
  injection E as _ <-. apply take_exact_shrinks in E2. lia.
Qed.
Lemma agree_byte {B} L (f f' : N -> prog B) : (forall L' b, L' < L -> agree L' (f b) (f' b)) -> agree L (pbind p_byte f) (pbind p_byte f').
Proof.
  intros H s HL. rewrite !prun_bind. destruct (prun p_byte s) as [[b s']| | |] eqn:E; cbn [bind fst snd]; [|reflexivity|reflexivity|reflexivity].
  apply byte_shrinks in E. apply (H (length (delivered s'))); lia.
Qed.
Lemma agree_if {A} L (b : bool) (p1 p1' p2 p2' : prog A) : agree L p1 p1' -> agree L p2 p2' -> agree L (if b then p1 else p2) (if b then p1' else p2').
Proof. destruct b; trivial. Qed.
Lemma mm_agree : forall f f' L, L < f -> L < f' -> agree L (p_mm f) (p_mm f').
Proof.
  induction f as [|f IH]; intros [|f'] L H1 H2; [lia|lia|lia|]. cbn [p_mm]. apply agree_byte. intros L' b HL.
  apply agree_if; [apply agree_refl|]. apply agree_if; [apply agree_refl|]. apply agree_if; [|apply agree_refl].
  apply agree_super, IH; lia.
Qed.
Lemma node_agree c : forall L f f', L < f -> L < f' -> agree L (p_node f c) (p_node f' c).
Proof.
  intros L f f' H1 H2. unfold p_node. apply agree_bind; [apply agree_refl|]. intros t.
  apply agree_if; [apply agree_refl|]. apply agree_if; [apply agree_refl|]. apply agree_if; [|apply agree_refl].
  apply agree_bind; [apply mm_agree; assumption|]. intros m. apply agree_refl.
Qed.

Lemma flat_prun {A} (p : prog A) b : flat p b = (x <- prun p [Piece b] ;; Ok (fst x, delivered (snd x))).
Proof. rewrite prun_whole by (intros [C|[]]; discriminate). cbn [delivered]. rewrite app_nil_r. reflexivity. Qed.
Lemma flat_shrinks {A} (p : prog A) b a b' : flat p b = Ok (a, b') -> length b' <= length b.
Proof.
  rewrite flat_prun. destruct (prun p [Piece b]) as [[x s']| | |] eqn:E; cbn [bind fst snd]; intros H; try discriminate. injection H as _ <-.
  apply prun_shrinks in E. cbn [delivered] in E. rewrite app_nil_r in E. exact E.
Qed.
Lemma flat_mm : forall f s, length s < f -> flat (p_mm f) s = mm_read s.
Proof.
  intros f s H. unfold mm_read. rewrite <- same_mm_f, !flat_prun. rewrite (mm_agree f (S (length s)) (length s) H ltac:(lia)); [reflexivity|].
  cbn [delivered]. rewrite app_nil_r. lia.
Qed.
Lemma flat_node c : forall f s, length s < f -> flat (p_node f c) s = node_read c s.
Proof.
  intros f s H. unfold p_node, node_read. rewrite flat_bind, same_header. unfold rbind at 1.
  destruct (read_header s) as [[t s']| | |] eqn:E; cbn [bind fst snd]; try reflexivity.
  rewrite <- same_header in E. apply flat_shrinks in E.
  destruct (t =? 0)%N; [apply same_bind; [auto with same|intros d; apply same_ret]|].
  destruct (t =? 1)%N; [apply same_bind; [auto with same|intros d; apply same_ret]|].
  destruct (t =? 2)%N; [|apply same_fail].
  rewrite flat_bind, flat_mm by lia. unfold rbind. destruct (mm_read s') as [[m r]| | |]; reflexivity.
Qed.

(** ** Loading *)
Lemma load_unbroken c s : ~ In Broken s -> load_stream c s = (x <- node_read c (delivered s) ;; Ok (fst x)).
Proof.
  intros H. unfold load_stream. rewrite <- (flat_node c (S (length (delivered s)))) by lia. rewrite <- prun_whole by exact H.
  destruct (prun _ s) as [[n s']| | |]; reflexivity.
Qed.
Lemma load_broken c s q : In Broken s ->
  load_stream c s = Err EIo \/
  load_stream c s = (x <- node_read c (delivered s ++ q) ;; Ok (fst x)) /\
  (forall n r, node_read c (delivered s ++ q) = Ok (n, r) -> exists r', r = r' ++ q).
Proof.
  intros H. unfold load_stream.
  rewrite (node_agree c (length (delivered s)) (S (length (delivered s))) (S (length (delivered s ++ q)))) by (rewrite ?app_length; lia).
  rewrite <- (flat_node c (S (length (delivered s ++ q)))) by lia.
  destruct (prun_broken (p_node (S (length (delivered s ++ q))) c) s q H) as [E|E]; [rewrite E; left; reflexivity|].
  destruct (prun _ s) as [[n s']|e| |] eqn:E2; rewrite E; cbn [bind fst snd]; right.
  - split; [reflexivity|]. intros n2 r E3. injection E3 as _ <-. exists (delivered s'). reflexivity.
  - split; [reflexivity|discriminate].
  - split; [reflexivity|discriminate].
  - split; [reflexivity|discriminate].
Qed.
Lemma node_reads_end c n : wf_node n -> node_read c (node_bytes n) = Ok (loaded c n, []).
Proof.
  intros HW. unfold node_read, node_bytes. unfold rbind at 1. rewrite (app_assoc (write_u32 _)), (app_assoc (write_u16 _)).
  rewrite (header_reads _ (node_type_byte n)). cbn [bind fst snd].
  destruct n as [d|l|m]; cbn [node_type node_body N.eqb Pos.eqb wf_node loaded] in *; unfold rbind.
  - rewrite <- (app_nil_r (dataset_write d)). rewrite (dataset_reads d HW). cbn [bind fst snd]. reflexivity.
  - destruct HW as [H1 H2]. rewrite <- (app_nil_r (links_write l)). rewrite (links_reads l [] H1 H2). cbn [bind fst snd]. reflexivity.
  - rewrite <- (app_nil_r (mm_write m)). rewrite (mm_reads m HW). cbn [bind fst snd]. reflexivity.
Qed.
