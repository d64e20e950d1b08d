(** * Chunks with the same contents at the same place are the same chunk. *)
From Verif Require Import Base BaseFacts Spec GeomModel GeomProofs BitmapModel DacModel StreamModel StreamProofs FixedModel ChunkModel ChunkStream ChunkReads
  NodeModel NodeProofs SuperModel SuperViews SuperProofs SuperInt ArrayModel ArrayProofs FloatModel FloatBuild DatasetModel DatasetProofs AppendProofs HistoryModel
  HistoryProofs KeyProofs DetProofs CanonProofs.
Ltac Zify.zify_post_hook ::= Z.div_mod_to_equations.
Arguments Nat.pow : simpl never.

(** The chunk that instant [t] of the array [c] is stored in: spans are followed to the
    part that holds the instant. *)
Inductive chunk_at (st : store) : cid -> nat -> cid -> Prop :=
| chunk_here c t m : get_mm st c = Ok m -> (forall s, m <> MSpan s) -> chunk_at st c t c
| chunk_below c t s x y : get_mm st c = Ok (MSpan s) -> nth_error (sp_spans s) (t / sp_stride s) = Some x ->
    chunk_at st x (t mod sp_stride s) y -> chunk_at st c t y.

Lemma chunk_at_one st c t x : chunk_at st c t x -> forall y, chunk_at st c t y -> x = y.
Proof.
  intros H. induction H as [c t m G H1|c t s x y G E H IH]; intros z Hz; inversion Hz as [c' t' m' G' H1'|c' t' s' x' y' G' E' H'].
  - reflexivity.
  - exfalso. apply (H1 s'). congruence.
  - exfalso. apply (H1' s). congruence.
  - assert (s' = s) by congruence. subst s'. assert (x' = x) by congruence. subst x'. apply IH, H'.
Qed.

Lemma super_not_span {A} hash (E : elem A) k lc levels g n rows cols bits st b s : outcome (super_build hash E k lc levels g n rows cols bits st) = Ok b -> mb_data b <> MSpan s.
Proof.
  destruct levels as [|level sub]; cbn [super_build]; destruct (negb _); try discriminate. unfold outcome.
  destruct (udiv _ _) as [cs| | |]; cbn [bind]; try discriminate.
  match goal with |- context [bind ?x _] => destruct x as [[st1 tiles]| | |] end; cbn [bind]; try discriminate.
  destruct (by_instant n (map fst tiles) snd) as [mx| | |]; cbn [bind]; try discriminate. destruct (by_instant n (map fst tiles) fst) as [mn| | |]; cbn [bind]; try discriminate.
  destruct (save _ _ _) as [ex st2]. destruct (dac_of mx) as [d1| | |]; cbn [bind]; try discriminate. destruct (dac_of mn) as [d2| | |]; cbn [bind]; try discriminate.
  intros H. injection H as <-. discriminate.
Qed.

Section Share.
  Variables (rows cols cs ss : nat) (enc : encoding) (V : store -> nat -> nat -> mmstruct -> Prop) (st : store).
  Hypothesis Hcs : 1 <= cs.
  Hypothesis Hss : 2 <= ss.
  Hypothesis HF : functional st.
  Hypothesis HV : forall off n m s, V st off n m -> m <> MSpan s.
  Notation strd := (strd cs ss).
  Notation node := (node rows cols cs ss enc V).

  (** Every instant is found, in a chunk that begins at a multiple of the chunk size. *)
  Lemma node_chunk : forall h c off n e m t, get_mm st c = Ok m -> node h st off n e m -> t < n ->
    exists x mx, chunk_at st c t x /\ get_mm st x = Ok mx /\ V st (off + t / cs * cs) (Nat.min cs (n - t / cs * cs)) mx.
  Proof.
    induction h as [|h IH]; intros c off n e m t G (s & -> & HS & Hn & H) Ht; pose proof (so_stride _ _ _ _ _ _ _ HS) as Es.
    - destruct H as (_ & H1 & H2 & H3 & H4). rewrite strd_0 in Es.
      assert (Hi : t / cs < length (sp_spans s)) by (apply Nat.div_lt_upper_bound; [clear -Hcs; lia|rewrite Nat.mul_comm; clear -Ht H2; lia]).
      destruct (H4 _ Hi) as (x & mx & Ex & Gx & _ & _ & Vx). specialize (Vx st (incl_refl _) HF). exists x, mx.
      split; [|split; [exact Gx|exact Vx]]. apply (chunk_below st c t s x x); [exact G|rewrite Es; exact Ex|].
      apply (chunk_here st x _ mx Gx). intros s0. exact (HV _ _ _ s0 Vx).
    - destruct H as (k & Hk & Hl & Hb & Hc & Hd). pose proof (strd_pos cs ss Hcs Hss (S h)) as Hp.
      assert (D : exists y, strd (S h) = y * cs) by (exists (ss ^ (S h)); unfold DatasetProofs.strd; ring). destruct D as (y & Ey).
      set (i := t / strd (S h)). set (r := t mod strd (S h)).
      assert (Et : t = i * strd (S h) + r) by (unfold i, r; rewrite Nat.mul_comm; apply Nat.div_mod; lia).
      assert (Hr : r < strd (S h)) by (apply Nat.mod_upper_bound; lia).
      assert (Eq : t / cs * cs = i * strd (S h) + r / cs * cs).
      { rewrite Et at 1. rewrite Ey, Nat.mul_assoc, Nat.add_comm, Nat.div_add by lia. ring. }
      assert (Hrc : r / cs * cs + cs <= strd (S h)).
      { assert (r / cs < y) by (apply Nat.div_lt_upper_bound; [lia|rewrite Nat.mul_comm, <- Ey; exact Hr]). rewrite Ey. nia. }
      clearbody i r.
      assert (Q : forall x mx, nth_error (sp_spans s) i = Some x -> chunk_at st x r mx -> chunk_at st c t mx).
      { intros x mx Hx Hat. apply (chunk_below st c t s x mx G); rewrite Es.
        - replace (t / strd (S h)) with i; [exact Hx|]. rewrite Et, Nat.add_comm, Nat.div_add by lia. rewrite Nat.div_small by exact Hr. reflexivity.
        - replace (t mod strd (S h)) with r; [exact Hat|]. rewrite Et, Nat.add_comm, Nat.mod_add by lia. rewrite Nat.mod_small by exact Hr. reflexivity. }
      destruct (Nat.lt_ge_cases i k) as [L|L].
      + destruct (Hc i L) as (x & m' & Ex & Gx & e' & Nx). destruct (IH x _ _ _ _ r Gx Nx Hr) as (z & mz & A1 & A2 & A3). exists z, mz.
        split; [exact (Q _ _ Ex A1)|]. split; [exact A2|]. rewrite Eq, Nat.add_assoc.
        replace (Nat.min cs (n - (i * strd (S h) + r / cs * cs))) with (Nat.min cs (strd (S h) - r / cs * cs)); [exact A3|].
        assert (S i * strd (S h) <= k * strd (S h)) by (apply Nat.mul_le_mono_r; exact L). clear -Hrc H Hb. lia.
      + assert (i = k). { assert (i * strd (S h) < S k * strd (S h)) by (clear -Hb Ht Et; lia). assert (i < S k) by (clear -H; nia). clear -L H0. lia. } subst i. clear L.
        destruct Hd as (x & m' & Ex & Gx & Nx). destruct (IH x _ _ _ _ r Gx Nx ltac:(clear -Ht Et; lia)) as (z & mz & A1 & A2 & A3). exists z, mz.
        split; [exact (Q _ _ Ex A1)|]. split; [exact A2|]. rewrite Eq, Nat.add_assoc.
        rewrite Nat.sub_add_distr. exact A3.
  Qed.
End Share.
