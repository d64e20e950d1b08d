(** * Trees of spans with the same contents are the same tree. *)
From Verif Require Import Base BaseFacts Spec GeomModel GeomProofs BitmapModel DacModel StreamModel StreamProofs FixedModel ChunkModel ChunkStream ChunkReads
  NodeModel NodeProofs SuperModel SuperViews SuperProofs SuperInt ArrayModel ArrayProofs FloatModel FloatBuild DatasetModel DatasetProofs AppendProofs HistoryModel
  HistoryProofs KeyProofs.
Ltac Zify.zify_post_hook ::= Z.div_mod_to_equations.
Arguments Nat.pow : simpl never.

Lemma nth_error_ext {X} : forall l l' : list X, (forall i, nth_error l i = nth_error l' i) -> l = l'.
Proof.
  induction l as [|x l IH]; intros [|y l'] H; [reflexivity|specialize (H 0); discriminate H|specialize (H 0); discriminate H|].
  pose proof (H 0) as H0. cbn in H0. injection H0 as ->. f_equal. apply IH. intros i. exact (H (S i)).
Qed.

Section Canon.
  Variables (hash : bytes -> cid) (rows cols cs ss : nat) (enc : encoding).
  Variables (V V' : store -> nat -> nat -> mmstruct -> Prop) (st st' : store) (T : nat).
  Hypothesis Hcs : 1 <= cs.
  Hypothesis Hss : 2 <= ss.
  Hypothesis HF : functional st.
  Hypothesis HF' : functional st'.
  Hypothesis HW : written st.
  Hypothesis HW' : written st'.
  Hypothesis HA : addressed hash st.
  Hypothesis HA' : addressed hash st'.
  (** The chunks with the same place in both are the same. *)
  Hypothesis HV : forall i n m m', i * cs < T -> n = Nat.min cs (T - i * cs) -> V st (i * cs) n m -> V' st' (i * cs) n m' -> m = m'.
  Notation strd := (strd cs ss).
  Notation node := (node rows cols cs ss enc V).
  Notation node' := (DatasetProofs.node rows cols cs ss enc V').
  Notation child := DatasetProofs.child.

  Lemma child_same s s' i (Q Q' : mmstruct -> Prop) : child st s i Q -> child st' s' i Q' -> (forall m m', Q m -> Q' m' -> m = m') ->
    nth_error (sp_spans s) i = nth_error (sp_spans s') i.
  Proof.
    intros (c & m & E1 & E2 & E3) (c' & m' & E1' & E2' & E3') H. rewrite E1, E1'. f_equal.
    rewrite (got_identifier hash st c m HW HA E2), (got_identifier hash st' c' m' HW' HA' E2'), (H m m' E3 E3'). reflexivity.
  Qed.
  Lemma children_same s s' len : length (sp_spans s) = len -> length (sp_spans s') = len ->
    (forall i, i < len -> nth_error (sp_spans s) i = nth_error (sp_spans s') i) -> sp_spans s = sp_spans s'.
  Proof using Type.
    clear. intros L L' H. apply nth_error_ext. intros i. destruct (Nat.lt_ge_cases i len) as [Hi|Hi]; [apply H; exact Hi|].
    rewrite !(proj2 (nth_error_None _ _)) by (clear -L L' Hi; lia). reflexivity.
  Qed.
  Lemma span_same h s s' : span_of rows cols cs ss enc h s -> span_of rows cols cs ss enc h s' -> sp_instants s = sp_instants s' -> sp_spans s = sp_spans s' -> s = s'.
  Proof using Type.
    clear. intros [_ A1 A2 A3 A4] [_ B1 B2 B3 B4] E1 E2. destruct s, s'. cbn in *. congruence.
  Qed.

  Lemma node_last W st0 : forall h off n e m, DatasetProofs.node rows cols cs ss enc W h st0 off n e m -> e <= n.
  Proof using Type.
    clear. induction h as [|h IH]; intros off n e m (s & -> & HS & Hn & H).
    - destruct H as (-> & _). apply le_n.
    - destruct H as (k & Hk & Hl & Hb & _ & c & m' & _ & _ & HN). apply IH in HN. lia.
  Qed.
  Lemma node_full W st0 : forall h off e m, DatasetProofs.node rows cols cs ss enc W h st0 off (ss * strd h) e m -> e <> 0.
  Proof using Hcs Hss.
    clear -Hcs Hss. induction h as [|h IH]; intros off e m (s & -> & HS & Hn & H).
    - destruct H as (-> & _). pose proof (strd_pos cs ss Hcs Hss 0). nia.
    - destruct H as (k & Hk & Hl & Hb & _ & c & m' & _ & _ & HN). pose proof (strd_pos cs ss Hcs Hss (S h)) as Hp.
      assert (Ek : S k = ss) by nia. assert (En : ss * strd (S h) - k * strd (S h) = ss * strd h).
      { rewrite <- (strd_S cs ss h). revert Ek. generalize (strd (S h)) as x. clear. intros x <-. lia. }
      rewrite En in HN. apply IH in HN. exact HN.
  Qed.

  Lemma node_same : forall h j n e e' m m', j * strd (S h) + n <= T -> (n = ss * strd h \/ j * strd (S h) + n = T) ->
    (e = 0 -> n = 0) -> (e' = 0 -> n = 0) ->
    node h st (j * strd (S h)) n e m -> node' h st' (j * strd (S h)) n e' m' -> m = m'.
  Proof.
    assert (Hs0 : strd 0 = cs) by apply strd_0.
    induction h as [|h IH]; intros j n e e' m m' HT Hlast He He' HN HN'; pose proof (strd_S cs ss) as HS1.
    - destruct HN as (s & -> & HS & Hn & -> & H1 & H2 & H3 & H4). destruct HN' as (s' & -> & HS' & Hn' & -> & H1' & H2' & H3' & H4').
      f_equal. apply (span_same 0 s s' HS HS'); [congruence|].
      assert (L : length (sp_spans s) = length (sp_spans s')) by (clear -H2 H3 H2' H3' Hcs; nia).
      apply (children_same s s' (length (sp_spans s)) eq_refl (eq_sym L)). intros i Hi.
      assert (Ei : j * strd 1 + i * cs = (j * ss + i) * cs) by (rewrite HS1, Hs0; ring).
      apply (child_same s s' i _ _ (H4 i Hi) (H4' i ltac:(clear -Hi L; lia))).
      rewrite Ei. intros x x' (_ & _ & X) (_ & _ & X'). specialize (X st (incl_refl _) HF). specialize (X' st' (incl_refl _) HF').
      apply (HV (j * ss + i) (sub_instants n cs i) x x'); auto; rewrite <- Ei.
      + clear -HT Hi H3 Hcs. nia.
      + unfold sub_instants. rewrite Hs0 in Hlast. clear -HT Hlast Hi H1 H2 H3 Hcs Hss HS1 Hs0. rewrite HS1, Hs0 in *.
        destruct Hlast as [->|E]; [|nia].
        assert (i * cs + cs <= ss * cs) by nia. nia.
    - destruct HN as (s & -> & HS & Hn & k & Hk & Hl & Hb & Hc & Hd). destruct HN' as (s' & -> & HS' & Hn' & k' & Hk' & Hl' & Hb' & Hc' & Hd').
      pose proof (strd_pos cs ss Hcs Hss (S h)) as Hp.
      assert (Ek : k = k').
      { destruct (Nat.eq_dec n 0) as [N0|N0]; [clear -N0 Hb Hb' Hp; nia|].
        destruct Hd as (_ & x & _ & _ & Hx). destruct Hd' as (_ & x' & _ & _ & Hx'). apply node_last in Hx. apply node_last in Hx'.
        assert (e <> 0) by (intros Z; apply N0, He, Z). assert (e' <> 0) by (intros Z; apply N0, He', Z).
        clear -Hb Hb' Hp Hx Hx' H H0. nia. }
      subst k'. f_equal. apply (span_same (S h) s s' HS HS'); [congruence|]. apply (children_same s s' (S k) Hl Hl').
      assert (Eo : forall i, j * strd (S (S h)) + i * strd (S h) = (j * ss + i) * strd (S h)) by (intros i; rewrite (HS1 (S h)); ring).
      intros i Hi. destruct (Nat.eq_dec i k) as [->|D].
      + apply (child_same s s' k _ _ Hd Hd'). rewrite Eo. intros x x'. apply IH.
        * rewrite <- Eo. clear -HT Hb. lia.
        * destruct Hlast as [Hf|Hf]; [left|right; rewrite <- Eo; clear -Hf Hb; lia].
          assert (S k = ss) by (clear -Hf Hb Hk Hp; nia). rewrite Hf, <- (HS1 h). revert H. generalize (strd (S h)) as y. clear. intros y <-. lia.
        * intros Z. specialize (He Z). clear -He. lia.
        * intros Z. specialize (He' Z). clear -He'. lia.
      + apply (child_same s s' i _ _ (Hc i ltac:(clear -Hi D; lia)) (Hc' i ltac:(clear -Hi D; lia))). rewrite Eo.
        intros x x' (f & Hx) (f' & Hx'). rewrite (HS1 h) in Hx at 2. rewrite (HS1 h) in Hx' at 2.
        apply (IH (j * ss + i) (ss * strd h) f f' x x'); auto.
        * rewrite <- Eo, <- HS1. assert (i * strd (S h) + strd (S h) <= k * strd (S h)) by (clear -Hi D; nia). clear -HT Hb H. lia.
        * intros Z. exfalso. exact (node_full _ _ _ _ _ _ Hx Z).
        * intros Z. exfalso. exact (node_full _ _ _ _ _ _ Hx' Z).
  Qed.

  (** The height is the least that will do. *)
  Lemma fine_height W st0 W' st1 h h' n e e' m m' : DatasetProofs.node rows cols cs ss enc W h st0 0 n e m -> fine h m -> (e = 0 -> n = 0) ->
    DatasetProofs.node rows cols cs ss enc W' h' st1 0 n e' m' -> h <= h'.
  Proof using Hcs Hss.
    clear -Hcs Hss. intros HN [->|(s & -> & Hl)] He HN'; [apply Nat.le_0_l|].
    destruct h as [|h]; [apply Nat.le_0_l|]. apply node_le in HN'; [|assumption|assumption].
    destruct HN as (s0 & Es & HS & Hn & k & Hk & Hlk & Hb & _ & _ & x & _ & _ & Hx). injection Es as <-. apply node_last in Hx.
    pose proof (strd_pos cs ss Hcs Hss (S h)) as Hp.
    assert (k <> 0) by lia. assert (N0 : n <> 0) by nia. assert (e <> 0) by (intros Z; apply N0, He, Z).
    assert (L : strd (S h) < n) by nia. rewrite <- strd_S in HN'.
    destruct (Nat.le_gt_cases (S h) h') as [Q|Q]; [exact Q|exfalso].
    assert (strd (S h') <= strd (S h)). { unfold DatasetProofs.strd. apply Nat.mul_le_mono_l, Nat.pow_le_mono_r; lia. }
    lia.
  Qed.

  Theorem tree_same root root' e e' : tree rows cols cs ss enc V st root T e -> tree rows cols cs ss enc V' st' root' T e' ->
    (e = 0 -> T = 0) -> (e' = 0 -> T = 0) -> root = root'.
  Proof.
    intros (_ & m & h & G & HN & Hf) (_ & m' & h' & G' & HN' & Hf') He He'.
    assert (h = h') by (apply Nat.le_antisymm; eapply fine_height; eassumption). subst h'.
    rewrite (got_identifier hash st root m HW HA G), (got_identifier hash st' root' m' HW' HA' G').
    rewrite (node_same h 0 T e e' m m'); auto.
  Qed.
End Canon.
