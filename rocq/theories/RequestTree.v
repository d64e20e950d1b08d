(** * How many objects a get of a variable asks for *)
From Verif Require Import Base BaseFacts GeomModel BitmapModel DacModel StreamModel ChunkModel NodeModel NodeProofs SuperModel SuperViews SuperProofs
  ArrayModel DatasetModel DatasetProofs CanonProofs RequestModel RequestProofs RequestReach.
Ltac Zify.zify_post_hook ::= Z.div_mod_to_equations.
Arguments Nat.pow : simpl never.

Section Few.
  Variables (rows cols cs ss : nat) (enc : encoding) (d : nat) (V : store -> nat -> nat -> mmstruct -> Prop).
  Hypothesis Hcs : 1 <= cs.
  Hypothesis Hss : 2 <= ss.
  Hypothesis HV : forall st off n m, V st off n m -> exists f, view st d m n rows cols f.
  Notation node := (DatasetProofs.node rows cols cs ss enc V).
  Notation strd := (DatasetProofs.strd cs ss).

  Lemma leaf_few st off n m fuel t r c : functional st -> DatasetProofs.leaf rows cols V st off n m -> d <= fuel -> t < n -> r < rows -> c < cols ->
    length (asked st (ask_get fuel m t r c (mm_fbits m))) <= 2 * (d - 1).
  Proof.
    intros HF (_ & _ & HL) Hd Ht Hr Hc. destruct (HV _ _ _ _ (HL st (incl_refl _) HF)) as (f & Vf).
    pose proof (v_get _ _ _ _ _ _ _ Vf d t r c (le_n _) Ht Hr Hc) as G. rewrite (get_fuel st d fuel m t r c _ _ G Hd). exact (get_few st d m t r c _ _ G).
  Qed.
  Lemma span_few st fuel s t r c bits ci m' b : 0 < sp_stride s -> nth_error (sp_spans s) (t / sp_stride s) = Some ci -> get_mm st ci = Ok m' ->
    length (asked st (ask_get fuel m' (t mod sp_stride s) r c (mm_fbits m'))) <= b ->
    length (asked st (ask_get (S fuel) (MSpan s) t r c bits)) <= S b.
  Proof.
    intros Hs E G H. cbn [ask_get]. unfold find_span. rewrite udiv_ok, umod_ok by lia. cbn [bind].
    rewrite asked_bind. cbn [asked ask_store app fst snd]. unfold nth_res. rewrite E, asked_bind. cbn [asked ask_store app].
    rewrite asked_bind, store_mm, G, app_length. cbn [ask_mm asked length]. lia.
  Qed.
  Lemma div_below t k s : 0 < s -> t < k * s -> t / s < k.
  Proof. intros Hs H. apply Nat.div_lt_upper_bound; lia. Qed.

  Lemma node_few : forall h st off n e m fuel t r c bits, functional st -> node h st off n e m -> d + S h <= fuel -> t < n -> r < rows -> c < cols ->
    length (asked st (ask_get fuel m t r c bits)) <= S h + 2 * (d - 1).
  Proof.
    induction h as [|h IH]; intros st off n e m fuel t r c bits HF (s & -> & [W R C X Y] & Hn & H) Hfu Ht Hr Hc; (destruct fuel as [|fuel]; [lia|]).
    - rewrite strd_0 in Y. destruct H as (_ & H1 & H2 & H3 & H4). assert (L : t / cs < length (sp_spans s)) by (apply div_below; lia).
      destruct (H4 _ L) as (ci & m' & E1 & E2 & HL). eapply span_few; [rewrite Y; lia|rewrite Y; exact E1|exact E2|].
      rewrite Y. apply (leaf_few _ _ _ _ fuel _ _ _ HF HL); [lia| |exact Hr|exact Hc].
      unfold sub_instants. pose proof (Nat.mod_upper_bound t cs ltac:(lia)) as Q. pose proof (Nat.div_mod t cs ltac:(lia)) as D. rewrite (Nat.mul_comm cs) in D.
      revert Q D Ht. clear. generalize (t / cs * cs) (t mod cs). intros; lia.
    - destruct H as (k & H1 & H2 & H3 & H4 & H5). pose proof (strd_pos cs ss Hcs Hss (S h)) as Sp. set (S' := strd (S h)) in *.
      assert (L : t / S' < S k) by (apply div_below; lia).
      pose proof (Nat.mod_upper_bound t S' ltac:(lia)) as Q. pose proof (Nat.div_mod t S' ltac:(lia)) as D. rewrite (Nat.mul_comm S') in D.
      destruct (Nat.eq_dec (t / S') k) as [Ek|Nk].
      + destruct H5 as (ci & m' & E1 & E2 & HN). eapply span_few; [rewrite Y; lia|rewrite Y, Ek; exact E1|exact E2|]. rewrite Y.
        apply (IH _ _ _ _ _ fuel _ _ _ _ HF HN); [lia| |exact Hr|exact Hc]. rewrite Ek in D. revert D Ht H3. clear. generalize (k * S') (t mod S'). intros; lia.
      + destruct (H4 (t / S') ltac:(lia)) as (ci & m' & E1 & E2 & e' & HN). eapply span_few; [rewrite Y; lia|rewrite Y; exact E1|exact E2|]. rewrite Y.
        apply (IH _ _ _ _ _ fuel _ _ _ _ HF HN); [lia|exact Q|exact Hr|exact Hc].
  Qed.
  (** A tree is not higher than it must be. *)
  Lemma height_few h st n e m : node h st 0 n e m -> DatasetProofs.fine h m -> (e = 0 -> n = 0) -> h = 0 \/ strd h < n.
  Proof using Hcs Hss.
    clear HV. intros HN [->|(s & -> & Hl)] He; [auto|]. destruct h as [|h]; [auto|]. right.
    destruct HN as (s0 & Es & HS & Hn & k & Hk & Hlk & Hb & _ & _ & x & _ & _ & Hx). injection Es as <-. apply CanonProofs.node_last in Hx.
    pose proof (strd_pos cs ss Hcs Hss (S h)) as Hp.
    assert (k <> 0) by lia. assert (N0 : n <> 0) by nia. assert (e <> 0) by (intros Z; apply N0, He, Z). nia.
  Qed.
End Few.
