(** * Loading from bytes that nobody vouches for: every reader ends, and what it
    returns has no more parts than the stream had bytes. *)
From Verif Require Import Base BaseFacts BitmapModel DacModel StreamModel SnapshotModel LogModel ChunkModel NodeModel.
Arguments Nat.pow : simpl never.

(** [r] ends on every stream. *)
Definition ends {A} (r : reader A) : Prop := forall s, r s <> Diverge.
(** [r] takes at least [n] bytes from the stream when it succeeds. *)
Definition eats {A} (n : nat) (r : reader A) : Prop := forall s a s', r s = Ok (a, s') -> n + length s' <= length s.

Lemma ends_ret {A} (a : A) : ends (rret a).
Proof. intros s. discriminate. Qed.
Lemma ends_bind {A B} (r : reader A) (f : A -> reader B) : ends r -> (forall a, ends (f a)) -> ends (rbind r f).
Proof. intros H1 H2 s. unfold rbind. destruct (r s) as [[a s']|e| |] eqn:E; cbn; [apply H2|discriminate..|exfalso; exact (H1 s E)]. Qed.
Lemma ends_fail {A} (x : res A) : x <> Diverge -> ends (rfail x).
Proof. intros H s. unfold rfail. destruct x; cbn; try discriminate. congruence. Qed.
Lemma ends_exact n : ends (read_exact n).
Proof. intros s. unfold read_exact. destruct (n <=? length s); discriminate. Qed.
Lemma ends_take n : ends (read_take n).
Proof. intros s. discriminate. Qed.
Lemma ends_many {A} n (r : reader A) : ends r -> ends (rmany n r).
Proof. intros H. induction n as [|n IH]; cbn [rmany]; [apply ends_ret|]. apply ends_bind; [exact H|]. intros a. apply ends_bind; [exact IH|]. intros x. apply ends_ret. Qed.
Lemma ends_if {A} (b : bool) (r r' : reader A) : ends r -> ends r' -> ends (if b then r else r').
Proof. destruct b; auto. Qed.

Lemma eats_ret {A} (a : A) : eats 0 (rret a).
Proof. intros s x s' E. injection E as _ <-. lia. Qed.
Lemma eats_bind {A B} n m (r : reader A) (f : A -> reader B) : eats n r -> (forall a, eats m (f a)) -> eats (n + m) (rbind r f).
Proof.
  intros H1 H2 s b s' E. unfold rbind in E. apply bind_inv in E. destruct E as ([a s1] & E1 & E2). cbn [fst snd] in E2.
  specialize (H1 _ _ _ E1). specialize (H2 _ _ _ _ E2). lia.
Qed.
Lemma eats_le {A} n m (r : reader A) : eats n r -> m <= n -> eats m r.
Proof. intros H L s a s' E. specialize (H _ _ _ E). lia. Qed.
Lemma eats_fail {A} (x : res A) : eats 0 (rfail x).
Proof. intros s a s' E. unfold rfail in E. apply bind_inv in E. destruct E as (b & _ & E). injection E as _ <-. lia. Qed.
Lemma eats_exact n : eats n (read_exact n).
Proof. intros s a s' E. unfold read_exact in E. destruct (n <=? length s) eqn:L; [|discriminate]. injection E as _ <-. apply Nat.leb_le in L. rewrite skipn_length. lia. Qed.
Lemma eats_take n : eats 0 (read_take n).
Proof. intros s a s' E. injection E as _ <-. rewrite skipn_length. lia. Qed.
Lemma eats_if {A} n (b : bool) (r r' : reader A) : eats n r -> eats n r' -> eats n (if b then r else r').
Proof. destruct b; auto. Qed.
(** As many elements as asked for, each with its bytes. *)
Lemma eats_many {A} k n (r : reader A) : eats k r -> forall s l s', rmany n r s = Ok (l, s') -> length l = n /\ k * n + length s' <= length s.
Proof.
  intros H. induction n as [|n IH]; intros s l s' E; cbn [rmany] in E.
  - injection E as <- <-. cbn [length]. lia.
  - unfold rbind in E. apply bind_inv in E. destruct E as ([x s1] & E1 & E). cbn [fst snd] in E. apply bind_inv in E. destruct E as ([xs s2] & E2 & E). cbn [fst snd] in E.
    unfold rret in E. injection E as <- <-. specialize (H _ _ _ E1). destruct (IH _ _ _ E2) as [L2 B2]. cbn [length]. split; [congruence|]. nia.
Qed.
Lemma eats_many0 {A} n (r : reader A) : eats 0 r -> eats 0 (rmany n r).
Proof. intros H s l s' E. destruct (eats_many 0 n r H _ _ _ E) as [_ B]. lia. Qed.

Create HintDb ends.
Create HintDb eats.
Ltac ends := repeat first [ solve [auto 2 with ends nocore] | apply ends_bind; [|intros ?] | apply ends_if | apply ends_many | apply ends_ret | apply ends_exact | apply ends_take
  | apply ends_fail; first [discriminate | unfold udiv, usub; match goal with |- context [if ?b then _ else _] => destruct b end; discriminate ] ].

Lemma ends_byte : ends read_byte. Proof. unfold read_byte. ends. Qed.
Lemma ends_u16 : ends read_u16. Proof. unfold read_u16. ends. Qed.
Lemma ends_u32 : ends read_u32. Proof. unfold read_u32. ends. Qed.
Lemma ends_i32 : ends read_i32. Proof. unfold read_i32. ends. Qed.
Lemma ends_i64 : ends read_i64. Proof. unfold read_i64. ends. Qed.
Lemma ends_f32 : ends read_f32. Proof. unfold read_f32. ends. Qed.
Lemma ends_f64 : ends read_f64. Proof. unfold read_f64. ends. Qed.
#[export] Hint Resolve ends_byte ends_u16 ends_u32 ends_i32 ends_i64 ends_f32 ends_f64 : ends.
Lemma ends_usize32 : ends read_usize32. Proof. unfold read_usize32. ends. Qed.
Lemma ends_usize8 : ends read_usize8. Proof. unfold read_usize8. ends. Qed.
#[export] Hint Resolve ends_usize32 ends_usize8 : ends.
Lemma ends_encoding b : ends (rfail (encoding_of b)).
Proof. apply ends_fail. unfold encoding_of. repeat match goal with |- context [if ?x then _ else _] => destruct x end; discriminate. Qed.
#[export] Hint Resolve ends_encoding : ends.
Lemma ends_bitmap : ends bitmap_read. Proof. unfold bitmap_read. ends. Qed.
#[export] Hint Resolve ends_bitmap : ends.
Lemma ends_dac : ends dac_read. Proof. unfold dac_read, dac_level_read. ends. Qed.
#[export] Hint Resolve ends_dac : ends.
Lemma ends_snapshot : ends snapshot_read. Proof. unfold snapshot_read. ends. Qed.
Lemma ends_log : ends log_read. Proof. unfold log_read. ends. Qed.
#[export] Hint Resolve ends_snapshot ends_log : ends.
Lemma ends_block : ends block_read. Proof. unfold block_read. ends. Qed.
#[export] Hint Resolve ends_block : ends.
Lemma ends_chunk : ends chunk_read. Proof. unfold chunk_read. ends. Qed.
Lemma ends_str : ends read_str. Proof. unfold read_str. ends. Qed.
Lemma ends_varint fuel : forall i acc, ends (varint_dec fuel i acc).
Proof. induction fuel as [|f IH]; intros i acc; cbn [varint_dec]; ends. Qed.
#[export] Hint Resolve ends_chunk ends_str : ends.
Lemma ends_varint_read : ends varint_read. Proof. apply ends_varint. Qed.
#[export] Hint Resolve ends_varint_read : ends.
Lemma cid_parse_ends b : cid_parse b <> Diverge.
Proof.
  assert (X : forall A B (x : res A) (f : A -> res B), x <> Diverge -> (forall a, f a <> Diverge) -> bind x f <> Diverge).
  { intros A B x f H1 H2. destruct x; cbn; [apply H2|discriminate..|congruence]. }
  unfold cid_parse. apply X; [apply ends_varint_read|]. intros [v s]. apply X; [apply ends_varint_read|]. intros [co s1].
  destruct ((v =? 18)%N && (co =? 32)%N); [destruct (_ <=? _); discriminate|]. destruct (v =? 1)%N; [|discriminate].
  apply X; [apply ends_varint_read|]. intros [co2 s2]. apply X; [apply ends_varint_read|]. intros [sz s3]. destruct (_ && _); discriminate.
Qed.
Lemma ends_cid : ends read_cid. Proof. unfold read_cid. ends; apply ends_fail, cid_parse_ends. Qed.
Lemma ends_cid_bytes : ends cid_read_bytes. Proof. unfold cid_read_bytes. ends. Qed.
#[export] Hint Resolve ends_cid ends_cid_bytes : ends.
Lemma ends_span : ends span_read. Proof. unfold span_read. ends. Qed.
Lemma ends_reference : ends reference_read. Proof. unfold reference_read. ends. Qed.
#[export] Hint Resolve ends_span ends_reference : ends.
Lemma ends_kind : ends kind_read. Proof. unfold kind_read. ends. destruct a0; ends. Qed.
#[export] Hint Resolve ends_kind : ends.
Lemma ends_coord : ends coord_read. Proof. unfold coord_read. ends. Qed.
Lemma ends_variable : ends variable_read. Proof. unfold variable_read. ends. Qed.
#[export] Hint Resolve ends_coord ends_variable : ends.
Lemma ends_dataset : ends dataset_read. Proof. unfold dataset_read. ends. Qed.
Lemma ends_links : ends links_read. Proof. unfold links_read. ends. intros s. discriminate. Qed.

(** Bytes taken. *)
Ltac eat1 := eapply eats_le; [apply eats_bind with (m := 0); [apply eats_exact|intros; apply eats_ret]|cbn; lia].
Lemma eats_byte : eats 1 read_byte. Proof. eat1. Qed.
Lemma eats_u16 : eats 2 read_u16. Proof. eat1. Qed.
Lemma eats_u32 : eats 4 read_u32. Proof. eat1. Qed.
Lemma eats_usize32 : eats 4 read_usize32. Proof. eapply eats_le; [apply eats_bind with (m := 0); [apply eats_u32|intros; apply eats_ret]|cbn; lia]. Qed.
Lemma eats_usize8 : eats 1 read_usize8. Proof. eapply eats_le; [apply eats_bind with (m := 0); [apply eats_byte|intros; apply eats_ret]|cbn; lia]. Qed.
Lemma eats_weak {A} n (r : reader A) : eats n r -> eats 0 r.
Proof. intros H. eapply eats_le; [exact H|lia]. Qed.
Lemma eats_bind0 {A B} (r : reader A) (f : A -> reader B) : eats 0 r -> (forall a, eats 0 (f a)) -> eats 0 (rbind r f).
Proof. intros H1 H2. exact (eats_bind 0 0 r f H1 H2). Qed.
Lemma eats_bind1 {A B} (r : reader A) (f : A -> reader B) : eats 1 r -> (forall a, eats 0 (f a)) -> eats 1 (rbind r f).
Proof. intros H1 H2. exact (eats_bind 1 0 r f H1 H2). Qed.
Ltac eats := repeat first [ solve [auto 2 with eats nocore] | apply eats_bind0; [|intros ?] | apply eats_if | apply eats_many0 | apply eats_ret | apply eats_fail | apply eats_take
  | solve [eapply eats_weak; first [apply eats_usize32 | apply eats_usize8 | apply eats_byte | apply eats_u32 | apply eats_exact]] ].
Lemma eats_i64 : eats 0 read_i64. Proof. unfold read_i64. eats. Qed.
Lemma eats_i32 : eats 0 read_i32. Proof. unfold read_i32. eats. Qed.
Lemma eats_f64 : eats 0 read_f64. Proof. unfold read_f64. eats. Qed.
Lemma eats_f32 : eats 0 read_f32. Proof. unfold read_f32. eats. Qed.
Lemma eats_bitmap : eats 0 bitmap_read. Proof. unfold bitmap_read. eats. Qed.
#[export] Hint Resolve eats_i64 eats_i32 eats_f64 eats_f32 eats_bitmap : eats.
Lemma eats_dac : eats 0 dac_read. Proof. unfold dac_read, dac_level_read. eats. Qed.
#[export] Hint Resolve eats_dac : eats.
Lemma eats_snapshot : eats 0 snapshot_read. Proof. unfold snapshot_read. eats. Qed.
Lemma eats_log : eats 0 log_read. Proof. unfold log_read. eats. Qed.
#[export] Hint Resolve eats_snapshot eats_log : eats.
Lemma eats_block : eats 1 block_read. Proof. unfold block_read. apply eats_bind1; [apply eats_usize8|intros ?]. eats. Qed.
Lemma eats_block0 : eats 0 block_read. Proof. eapply eats_weak, eats_block. Qed.
#[export] Hint Resolve eats_block0 : eats.
Lemma eats_chunk : eats 0 chunk_read. Proof. unfold chunk_read. eats. Qed.
Lemma eats_str : eats 1 read_str. Proof. unfold read_str. apply eats_bind1; [apply eats_usize8|intros ?]. eats. Qed.
Lemma eats_varint fuel : forall i acc, eats 1 (varint_dec fuel i acc).
Proof.
  induction fuel as [|f IH]; intros i acc; cbn [varint_dec].
  - intros s a s' E. cbn in E. discriminate.
  - apply eats_bind1; [apply eats_byte|]. intros b. apply eats_if; [apply eats_if; eats|]. eapply eats_weak, IH.
Qed.
Lemma eats_varint_read : eats 1 varint_read. Proof. apply eats_varint. Qed.
Lemma eats_varint0 : eats 0 varint_read. Proof. eapply eats_weak, eats_varint. Qed.
Lemma eats_str0 : eats 0 read_str. Proof. eapply eats_weak, eats_str. Qed.
#[export] Hint Resolve eats_varint0 eats_str0 eats_chunk : eats.
Lemma eats_cid : eats 1 read_cid. Proof. unfold read_cid. apply eats_bind1; [apply eats_varint_read|intros ?]. eats. Qed.
Lemma eats_cid_bytes : eats 1 cid_read_bytes. Proof. unfold cid_read_bytes. apply eats_bind1; [apply eats_varint_read|intros ?]. eats. Qed.
Lemma eats_cid0 : eats 0 read_cid. Proof. eapply eats_weak, eats_cid. Qed.
#[export] Hint Resolve eats_cid0 : eats.
Lemma eats_span : eats 0 span_read. Proof. unfold span_read. eats. Qed.
Lemma eats_reference : eats 1 reference_read. Proof. unfold reference_read. apply eats_bind1; [apply eats_byte|intros ?]. eats. Qed.
Lemma eats_reference0 : eats 0 reference_read. Proof. eapply eats_weak, eats_reference. Qed.
#[export] Hint Resolve eats_span eats_reference0 : eats.
Lemma eats_kind : eats 0 kind_read. Proof. unfold kind_read. eats. destruct a0; eats. Qed.
#[export] Hint Resolve eats_kind : eats.
Lemma eats_coord : eats 0 coord_read. Proof. unfold coord_read. eats. Qed.
Lemma eats_variable : eats 1 variable_read. Proof. unfold variable_read. apply eats_bind1; [apply eats_str|intros ?]. eats. Qed.
#[export] Hint Resolve eats_coord : eats.

Lemma eats_super sub : eats 0 sub -> eats 0 (super_read sub).
Proof. intros H. unfold super_read. eats. Qed.
Lemma eats_mm_f fuel : eats 1 (mm_read_f fuel).
Proof.
  induction fuel as [|f IH]; cbn [mm_read_f]; [intros s a s' E; discriminate|].
  apply eats_bind1; [apply eats_byte|]. intros b. assert (X : eats 0 (super_read (mm_read_f f))) by (apply eats_super; eapply eats_weak, IH). repeat apply eats_if; [eats..|exact X|eats].
Qed.

(** A reader that ends on streams of up to [n] bytes. *)
Definition ends_to {A} (n : nat) (r : reader A) : Prop := forall s, length s <= n -> r s <> Diverge.
Lemma ends_to_bind {A B} n (r : reader A) (f : A -> reader B) : ends_to n r -> eats 0 r -> (forall a, ends_to n (f a)) -> ends_to n (rbind r f).
Proof.
  intros H1 He H2 s L. unfold rbind. destruct (r s) as [[a s']|e| |] eqn:E; cbn; [apply H2; specialize (He _ _ _ E); lia|discriminate..|exfalso; exact (H1 s L E)].
Qed.
Lemma ends_to_all {A} n (r : reader A) : ends r -> ends_to n r.
Proof. intros H s _. apply H. Qed.
Lemma ends_to_many {A} n k (r : reader A) : ends_to n r -> eats 0 r -> ends_to n (rmany k r).
Proof.
  intros H He. induction k as [|k IH]; cbn [rmany]; [apply ends_to_all, ends_ret|].
  apply ends_to_bind; [exact H|exact He|]. intros a. apply ends_to_bind; [exact IH|apply eats_many0, He|]. intros l. apply ends_to_all, ends_ret.
Qed.
Lemma super_read_ends n sub : ends_to n sub -> eats 0 sub -> ends_to n (super_read sub).
Proof.
  intros H He. unfold super_read.
  do 9 (apply ends_to_bind; [apply ends_to_all; solve [ends]|solve [eats]|intros ?]).
  apply ends_to_bind; [apply ends_to_all; solve [ends]|apply eats_fail|intros ?].
  apply ends_to_bind; [apply ends_to_all; solve [ends]|solve [eats]|intros ?].
  apply ends_to_bind; [apply ends_to_all; solve [ends]|solve [eats]|intros ?].
  apply ends_to_bind; [apply ends_to_all; solve [ends]|solve [eats]|intros ?].
  apply ends_to_bind; [apply ends_to_all; solve [ends]|solve [eats]|intros ?].
  apply ends_to_bind; [apply ends_to_many; assumption|apply eats_many0, He|intros ?].
  apply ends_to_all. ends.
Qed.
Lemma mm_read_f_ends fuel : ends_to fuel (mm_read_f (S fuel)).
Proof.
  induction fuel as [|f IH].
  - intros [|x s] L; [cbn; discriminate|cbn [length] in L; lia].
  - intros s L. change (mm_read_f (S (S f)) s) with (rbind read_byte (fun b =>
      if (b =? 4)%N then rbind chunk_read (fun c => rret (MSub c))
      else if (b =? 3)%N then rbind span_read (fun s => rret (MSpan s))
      else if (b =? 5)%N then super_read (mm_read_f (S f))
      else rfail Panic) s).
    unfold rbind at 1. destruct (read_byte s) as [[b s1]|e| |] eqn:E; cbn; [|discriminate..|exfalso; exact (ends_byte _ E)].
    pose proof (eats_byte _ _ _ E) as Hb. destruct (b =? 4)%N; [apply (ends_bind _ _ ends_chunk); intros; apply ends_ret|]. destruct (b =? 3)%N; [apply (ends_bind _ _ ends_span); intros; apply ends_ret|].
    destruct (b =? 5)%N; [|discriminate]. apply (super_read_ends f); [exact IH|exact (eats_weak 1 _ (eats_mm_f (S f)))|lia].
Qed.
Lemma ends_mm : ends mm_read.
Proof. intros s. unfold mm_read. apply mm_read_f_ends. lia. Qed.
Lemma ends_node c : ends (node_read c).
Proof.
  unfold node_read. apply ends_bind; [unfold read_header; ends; apply ends_if; ends|]. intros t.
  repeat apply ends_if; try (apply ends_fail; discriminate); (apply ends_bind; [|intros ?; apply ends_ret]).
  - apply ends_dataset.
  - apply ends_links.
  - apply ends_mm.
Qed.
