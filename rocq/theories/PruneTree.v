(** * What a search of a variable asks for *)
From Verif Require Import Base BaseFacts Spec GeomModel GeomProofs BitmapModel DacModel StreamModel ChunkModel NodeModel NodeProofs SuperModel SuperViews SuperProofs
  ArrayModel DatasetModel DatasetProofs AppendProofs RequestModel RequestProofs RequestReach PruneProofs.
Ltac Zify.zify_post_hook ::= Z.div_mod_to_equations.
Arguments Nat.pow : simpl never.

(** The objects that the spans of a structure name, at every height: spans and chunks. *)
Inductive indexed (st : store) : mmstruct -> cid -> Prop :=
  | InSpan s c : In c (sp_spans s) -> indexed st (MSpan s) c
  | BelowSpan s c m x : In c (sp_spans s) -> get_mm st c = Ok m -> indexed st m x -> indexed st (MSpan s) x.

(** What a search asks for are spans and chunks, and below a chunk only what [prunes] says. *)
Definition skims (st : store) (m : mmstruct) (n rows cols : nat) (f : nat -> nat -> nat -> Z) : Prop :=
  forall fuel b lower upper x, cells_in b -> c_end b <= n -> c_bottom b <= rows -> c_right b <= cols ->
    In x (asked st (ask_search fuel m b lower upper)) -> indexed st m x \/
    exists t r1 c1 r2 c2, c_start b <= t < c_end b /\ (r1 < rows /\ c1 < cols) /\ (r2 < rows /\ c2 < cols) /\
      (f t r1 c1 <= Z.max lower upper)%Z /\ (Z.min lower upper <= f t r2 c2)%Z /\
      forall bits, In x (asked st (ask_get fuel m t r1 c1 bits)) /\ In x (asked st (ask_get fuel m t r2 c2 bits)).

Lemma prunes_skims st m n rows cols f : prunes st m n rows cols f -> skims st m n rows cols f.
Proof. intros H fuel b lower upper x HB B1 B2 B3 Hx. right. exact (H fuel b lower upper x HB B1 B2 B3 Hx). Qed.

Lemma span_skims st s rows cols n (f : nat -> nat -> nat -> Z) : 0 < sp_stride s ->
  (forall i c m, i * sp_stride s < n -> nth_error (sp_spans s) i = Some c -> get_mm st c = Ok m ->
     skims st m (sub_instants n (sp_stride s) i) rows cols (fun t => f (i * sp_stride s + t))) ->
  skims st (MSpan s) n rows cols f.
Proof.
  intros _ HC fuel b lower upper x (B1 & B2 & B3) N1 N2 N3 H. destruct fuel as [|fuel]; [destruct H|]. cbn [ask_search] in H.
  apply asked_pure in H. destruct H as (k & E & H). unfold cube_instants in E. rewrite usub_ok in E by lia. injection E as <-.
  apply asked_pure in H. destruct H as (pieces & E & H). apply pieces_in in E. destruct E as (Hs & HP).
  apply asked_one in H. destruct H as ([[[sp i] len] off] & Hin & H). apply HP in Hin. destruct Hin as (H1 & H2 & H3 & H4).
  apply asked_pure in H. destruct H as (ci & E & H). rewrite asked_asked_map in H.
  assert (En : nth_error (sp_spans s) sp = Some ci). { unfold nth_res in E. destruct (nth_error (sp_spans s) sp); [congruence|discriminate]. }
  apply asked_then in H. destruct H as [H|(m' & G & H)].
  - left. destruct H as [->|[]]. apply InSpan. eapply nth_error_In. exact En.
  - rewrite store_mm in G. apply asked_then in H. destruct H as [H|(l & _ & H)]; [|destruct H]. rewrite cube_new_ordered in H by lia.
    set (stride := sp_stride s) in *. set (base := sp * stride) in *.
    apply (HC sp ci m') in H; [|fold base; lia|exact En|exact G|unfold cells_in; cbn [c_start c_end c_top c_bottom c_left c_right]; lia
      |cbn [c_end]; unfold sub_instants; fold base; lia|exact N2|exact N3].
    destruct H
      as [HX|(t & r1 & c1 & r2 & c2 & Ht & P1 & P2 & L1 & L2 & HA)].
    + left. eapply BelowSpan; [eapply nth_error_In; exact En|exact G|exact HX].
    + right. cbn [c_start c_end] in Ht. exists (base + t), r1, c1, r2, c2. split; [lia|]. split; [exact P1|]. split; [exact P2|]. split; [exact L1|]. split; [exact L2|].
      intros bits. split; (eapply get_span; [exact Hs|reflexivity|lia|exact E|]); right; exists m'; (split; [exact G|apply HA]).
Qed.

Section Tree.
  Variables (rows cols cs ss : nat) (enc : encoding) (V : store -> nat -> nat -> mmstruct -> Prop) (g : nat -> nat -> nat -> Z).
  Hypothesis Hcs : 1 <= cs.
  Hypothesis Hss : 2 <= ss.
  Hypothesis HV : forall st off n m, V st off n m -> prunes st m n rows cols (later g off).
  Notation node := (DatasetProofs.node rows cols cs ss enc V).
  Notation strd := (DatasetProofs.strd cs ss).

  Lemma node_skims : forall h st off n e m, functional st -> node h st off n e m -> skims st m n rows cols (later g off).
  Proof.
    induction h as [|h IH]; intros st off n e m HF (s & -> & [W R C X Y] & Hn & H).
    - rewrite strd_0 in Y. destruct H as (_ & H1 & H2 & H3 & H4). apply span_skims; [lia|]. rewrite Y. intros i c m Hi En G.
      destruct (H4 i) as (c' & m' & E1 & E2 & _ & _ & HL). { apply nth_error_Some. congruence. }
      rewrite E1 in En. injection En as <-. rewrite E2 in G. injection G as <-. apply prunes_skims.
      eapply prunes_ext; [|exact (HV _ _ _ _ (HL st (incl_refl _) HF))]. intros t r k _ _ _. unfold later. rewrite Nat.add_assoc. reflexivity.
    - destruct H as (k & H1 & H2 & H3 & H4 & H5). pose proof (strd_pos cs ss Hcs Hss (S h)) as Sp. apply span_skims; [lia|]. rewrite Y. set (S' := strd (S h)) in *.
      intros i c m Hi En G. assert (Hik : i <= k) by (assert (i < length (sp_spans s)) by (apply nth_error_Some; congruence); lia).
      assert (Q : exists off' e', off' = off + i * S' /\ node h st off' (sub_instants n S' i) e' m).
      { destruct (Nat.eq_dec i k) as [->|Nk].
        - destruct H5 as (c' & m' & E1 & E2 & HN). rewrite E1 in En. injection En as <-. rewrite E2 in G. injection G as <-.
          eexists _, _. split; [reflexivity|]. replace (sub_instants n S' k) with (n - k * S') by (unfold sub_instants; lia). exact HN.
        - destruct (H4 i ltac:(lia)) as (c' & m' & E1 & E2 & e' & HN). rewrite E1 in En. injection En as <-. rewrite E2 in G. injection G as <-.
          eexists _, _. split; [reflexivity|]. replace (sub_instants n S' i) with S'; [exact HN|].
          unfold sub_instants. assert (S i * S' <= k * S') by (apply Nat.mul_le_mono_r; lia). lia. }
      destruct Q as (off' & e' & -> & HN). apply (IH _ _ _ _ _ HF) in HN.
      intros fuel b lower upper x HB B1 B2 B3 Hx. destruct (HN fuel b lower upper x HB B1 B2 B3 Hx) as [HI|(t & r1 & c1 & r2 & c2 & K)]; [auto|].
      right. exists t, r1, c1, r2, c2. unfold later in *. rewrite !Nat.add_assoc. exact K.
  Qed.
End Tree.
