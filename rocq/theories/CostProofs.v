(** * How many objects the operations of a dataset write. *)
From Verif Require Import Base BaseFacts Spec GeomModel BitmapModel DacModel StreamModel StreamProofs ChunkModel ChunkStream
  NodeModel NodeProofs SuperModel SuperViews SuperProofs ArrayModel ArrayProofs FloatModel DatasetModel DatasetProofs AppendProofs.
Ltac Zify.zify_post_hook ::= Z.div_mod_to_equations.
Arguments Nat.pow : simpl never.

(** The number of objects that a chunk is made of, besides its root, when it is cut as
    [levels] says: at each level but the last the raster is cut into [2 ^ level] by
    [2 ^ level] parts, each of them an object, with one more object for the list of them.
    What the last level says is the depth of the parts of the level before. *)
Fixpoint chunk_objects (levels : list nat) : nat :=
  match levels with
  | [] => 0
  | [_] => 1
  | [level; _] => 1 + 2 ^ level * 2 ^ level
  | level :: deeper => 1 + 2 ^ level * 2 ^ level * (1 + chunk_objects deeper)
  end.

(** How many parts of size [size] hold [n]. *)
Definition parts (n size : nat) : nat := (n + size - 1) / size.
Lemma parts_open size k n : 1 <= size -> k * size < n -> S (parts (k * size) size) <= parts n size.
Proof.
  intros Hs Hn. unfold parts. assert (E : (k * size + size - 1) / size = k). { symmetry. apply (Nat.div_unique _ _ _ (size - 1)); lia. }
  rewrite E. apply Nat.div_le_lower_bound; [lia|]. nia.
Qed.
Lemma parts_mono n m size : 1 <= size -> n <= m -> parts n size <= parts m size.
Proof. intros. unfold parts. apply Nat.div_le_mono; lia. Qed.

(** [costs n left m st]: with room for [n] more objects, [m] can be run in [st], and if it
    succeeds there is room left for [left] of its result. *)
Definition costs {A} (n : nat) (left : A -> nat) (m : op A) (st : store) : Prop :=
  functional (fst (m st)) -> length (fst (m st)) <= length st + n /\
    forall x, snd (m st) = Ok x -> length (fst (m st)) + left x <= length st + n.

Lemma costs_ret {A} (x : A) n (l : A -> nat) st : l x <= n -> costs n l (oret x) st.
Proof. intros H _. cbn [oret fst snd]. split; [lia|]. intros y E. injection E as <-. lia. Qed.
Lemma costs_lift {A} (r : res A) n st : costs n (fun _ => n) (olift r) st.
Proof. intros _. cbn [olift fst snd]. split; [lia|]. intros; lia. Qed.
Lemma costs_still {A} (m : op A) n st : fst (m st) = st -> costs n (fun _ => n) m st.
Proof. intros E _. rewrite E. split; [lia|]. intros; lia. Qed.
Lemma costs_save hash x n st : costs (S n) (fun _ => n) (osave hash x) st.
Proof. intros _. unfold osave, save. cbn [fst snd]. rewrite app_length. cbn [length]. split; [lia|]. intros; lia. Qed.
Lemma costs_weak {A} (m : op A) n n' (l l' : A -> nat) st : costs n l m st -> n <= n' -> (forall x, l' x <= l x + (n' - n)) -> costs n' l' m st.
Proof. intros H Hn Hl HF. destruct (H HF) as (H1 & H2). split; [lia|]. intros x E. specialize (H2 x E). specialize (Hl x). lia. Qed.
Lemma costs_bind {A B} (m : op A) (f : A -> op B) n l l' st : mono m -> (forall x, mono (f x)) -> costs n l m st ->
  (forall x st1, m st = (st1, Ok x) -> incl st st1 -> functional st1 -> costs (l x) l' (f x) st1) -> costs n l' (obind m f) st.
Proof.
  intros Mm Mf Hm Hf HF. unfold costs, obind in *. pose proof (mono_incl m st Mm) as Mi. destruct (m st) as [st1 r] eqn:E. cbn [fst snd] in *.
  assert (F1 : functional st1). { eapply functional_incl; [|exact HF]. destruct r as [x| | |]; try apply incl_refl. apply mono_incl, Mf. }
  destruct (Hm F1) as (H1 & H2). destruct r as [x| | |]; cbn [fst snd]; try (split; [exact H1|intros; discriminate]).
  specialize (H2 x eq_refl). destruct (Hf x st1 eq_refl Mi F1 HF) as (H3 & H4). split; [lia|]. intros y Ey. specialize (H4 y Ey). lia.
Qed.
(** The same, when what the first step leaves is known. *)
Lemma costs_bind_ok {A B} (m : op A) (f : A -> op B) n l l' st (mid : A -> store -> Prop) : mono m -> (forall x, mono (f x)) ->
  ok_in m st mid -> costs n l m st ->
  (forall x st1, incl st st1 -> functional st1 -> mid x st1 -> costs (l x) l' (f x) st1) -> costs n l' (obind m f) st.
Proof.
  intros Mm Mf Ho Hm Hf. eapply costs_bind; [exact Mm|exact Mf|exact Hm|]. intros x st1 E HI F1.
  unfold ok_in in Ho. rewrite E in Ho. destruct (Ho F1) as (y & Ey & Hy & _). cbn [snd] in Ey. injection Ey as <-. apply Hf; assumption.
Qed.
Lemma costs_if {A} (b : bool) (m1 m2 : op A) n l st : costs n l m1 st -> costs n l m2 st -> costs n l (if b then m1 else m2) st.
Proof. destruct b; trivial. Qed.
Lemma costs_lift_bind {A B} (r : res A) (f : A -> op B) n l st : (forall x, mono (f x)) ->
  (forall x, r = Ok x -> costs n l (f x) st) -> costs n l (obind (olift r) f) st.
Proof.
  intros Mf H. eapply costs_bind; [apply mono_lift|exact Mf|apply costs_lift|]. intros x st1 E _ _. unfold olift in E. injection E as <- E.
  apply H. exact E.
Qed.

Section Ops.
  Variable hash : bytes -> cid.

  Lemma costs_span_append s m n st : costs (S n) (fun _ => n) (span_append hash s m) st.
  Proof.
    unfold span_append. eapply costs_bind with (l := fun _ => S n); [mono_auto|mono_auto| |].
    - apply costs_still. destruct (0 <? length (sp_spans s)); [|reflexivity]. unfold obind, olift, oload, oret.
      destruct (span_last s) as [c| | |]; try reflexivity. destruct (get_mm st c) as [m'| | |]; try reflexivity.
      destruct (instants_of m') as [k| | |]; try reflexivity. destruct (k =? sp_stride s); reflexivity.
    - intros _ st1 _ _ _. apply costs_lift_bind; [mono_auto|]. intros [[k h] w] _.
      apply costs_if; [eapply costs_weak; [apply costs_lift|apply Nat.le_refl|intros; cbn beta; lia]|].
      apply costs_if; [eapply costs_weak; [apply costs_lift|apply Nat.le_refl|intros; cbn beta; lia]|].
      eapply costs_bind; [apply mono_save|mono_auto|apply costs_save|]. intros c st2 _ _ _. apply costs_ret. lia.
  Qed.
  Lemma costs_span_update s m n st : costs (S n) (fun _ => n) (span_update hash s m) st.
  Proof. apply costs_span_append. Qed.

  Lemma costs_update_up n : forall rest m st, costs (length rest + n) (fun _ => n) (update_up hash m rest) st.
  Proof.
    induction rest as [|p rest IH]; intros m st; cbn [update_up length].
    - apply costs_ret. lia.
    - apply costs_lift_bind; [intros; apply mono_bind; [apply mono_span_update|intros; apply mono_update_up]|]. intros s _.
      eapply costs_bind; [apply mono_span_update|intros; apply mono_update_up|apply costs_span_update|]. intros s' st1 _ _ _. apply IH.
  Qed.
  Lemma costs_save_spans spans n st : costs (length spans + n) (fun _ => n) (save_spans hash spans) st.
  Proof.
    unfold save_spans. destruct spans as [|m rest]; [apply costs_lift|]. cbn [length].
    eapply costs_bind; [apply mono_update_up|intros; apply mono_save| |].
    - eapply costs_weak; [apply (costs_update_up (S n))|lia|]. intros; cbn beta. apply Nat.le_add_r.
    - intros m' st1 _ _ _. apply costs_save.
  Qed.
  (** No ancestor has room for another part. *)
  Definition no_room (span_size : nat) (spans : list mmstruct) : bool :=
    forallb (fun p => match p with MSpan s => length (sp_spans s) =? span_size | _ => true end) spans.
  Definition grows (span_size : nat) (spans : list mmstruct) : nat := if no_room span_size spans then 2 else 0.
  Lemma costs_open_loop span_size rows cols enc n : forall spans s l st,
    costs (length spans + grows span_size spans + n) (fun x => length (snd x) + n) (open_loop hash span_size rows cols enc s l spans) st.
  Proof.
    unfold grows. induction spans as [|p rest IH]; intros s l st; cbn [open_loop length].
    - eapply costs_bind; [apply mono_span_append|mono_auto; apply mono_span_append|apply costs_span_append|].
      intros r st1 _ _ _. eapply costs_bind; [apply mono_span_append|mono_auto|apply costs_span_append|]. intros r' st2 _ _ _. apply costs_ret. cbn beta iota delta [snd length]. lia.
    - apply costs_lift_bind.
      { intros. apply mono_if; apply mono_bind; intros; try apply mono_span_append; try apply mono_open_loop. apply mono_ret. }
      intros q Eq. destruct p as [q0|ch|sp lcl]; try discriminate. cbn [as_span] in Eq. injection Eq as ->. cbn [no_room forallb].
      change (forallb _ rest) with (no_room span_size rest).
      destruct (length (sp_spans q) =? span_size); cbn [andb]; (eapply costs_bind; [apply mono_span_append| |apply costs_span_append|]).
      + intros; apply mono_open_loop.
      + intros s' st1 _ _ _. apply IH.
      + intros; apply mono_ret.
      + intros s' st1 _ _ _. apply costs_ret. cbn [snd]. match goal with |- _ <= ?x => change x with (length rest + 0 + n) end. lia.
  Qed.

  Lemma still_tail_loop cs : forall fuel m anc st, fst (tail_loop fuel cs m anc st) = st.
  Proof.
    induction fuel as [|fuel IH]; intros m anc st; cbn [tail_loop]; [reflexivity|]. unfold obind at 1, olift at 1.
    destruct (as_span m) as [s| | |]; try reflexivity. destruct (cs <? sp_stride s); [|reflexivity].
    unfold obind, olift, oload. destruct (span_last s) as [c| | |]; try reflexivity. destruct (get_mm st c) as [m'| | |]; try reflexivity. apply IH.
  Qed.
  Lemma still_tail_spans cs root st : fst (tail_spans cs root st) = st.
  Proof.
    unfold tail_spans, obind, oload, olift. destruct (get_mm st root) as [m| | |]; try reflexivity. destruct (as_span m) as [s| | |]; try reflexivity.
    apply still_tail_loop.
  Qed.
  Lemma still_tail_data cs root st : fst (tail_data cs root st) = st.
  Proof.
    unfold tail_data, obind at 1. pose proof (still_tail_spans cs root st) as E. destruct (tail_spans cs root st) as [st1 r]. cbn [fst] in E. subst st1.
    destruct r as [[|m l]| | |]; try reflexivity. unfold obind, olift, oload, oret. destruct (as_span m) as [s| | |]; try reflexivity.
    destruct (length (sp_spans s) =? 0); [reflexivity|]. destruct (span_last s) as [c| | |]; try reflexivity.
    destruct (get_mm st c) as [m'| | |]; try reflexivity. destruct (instants_of m') as [k| | |]; reflexivity.
  Qed.
  Lemma costs_create_open_span span_size cs rows cols enc root n st w :
    (forall m rest, snd (tail_spans cs root st) = Ok (m :: rest) -> length rest + grows span_size rest <= w) ->
    costs (w + 1 + n) (fun _ => n) (create_open_span hash span_size cs rows cols enc root) st.
  Proof.
    intros Hl. unfold create_open_span. eapply costs_bind; [apply mono_tail_spans| |apply costs_still, still_tail_spans|].
    { intros [|lh rest]; [apply mono_lift|]. apply mono_bind; [apply mono_open_loop|]. intros [s' anc].
      apply mono_bind; [apply mono_update_up|intros; apply mono_save]. }
    intros l st1 E _ _. rewrite E in Hl. destruct l as [|lh rest].
    { eapply costs_weak; [apply costs_lift|apply Nat.le_refl|]. intros; cbn beta; lia. }
    specialize (Hl lh rest eq_refl). eapply costs_bind; [apply mono_open_loop| | |].
    { intros [s' anc]. apply mono_bind; [apply mono_update_up|intros; apply mono_save]. }
    - eapply costs_weak; [apply (costs_open_loop span_size rows cols enc (S n))|lia|]. intros; cbn beta. apply Nat.le_add_r.
    - intros [s anc] st2 _ _ _. cbn [snd]. eapply costs_bind; [apply mono_update_up|intros; apply mono_save|apply (costs_update_up (S n))|].
      intros m st3 _ _ _. apply costs_save.
  Qed.
End Ops.

(** ** Trees *)
Section Tree.
  Variables (hash : bytes -> cid) (rows cols cs ss : nat) (enc : encoding).
  Variable V : store -> nat -> nat -> mmstruct -> Prop.
  Hypothesis Hhash : forall b, wf_cid (hash b).
  Hypothesis Hcs : 1 <= cs.
  Hypothesis Hss : 2 <= ss.
  Hypothesis Fr : fits32 rows.
  Hypothesis Fc : fits32 cols.
  Hypothesis Fcs : fits32 cs.
  Hypothesis Fss : fits32 ss.
  Variable N : nat.
  Hypothesis FN : fits32 N.
  Notation rest_ok := (rest_ok rows cols cs ss enc V).
  Notation ready := (ready rows cols cs ss enc V).
  Notation tree := (tree rows cols cs ss enc V).
  Notation strd := (strd cs ss).

  (** What comes before a tree with many ancestors is long. *)
  Lemma rest_long ex st : forall rest h lo, rest_ok ex st h lo rest -> rest <> [] -> strd (h + length rest) <= lo.
  Proof.
    intros rest. revert ex. induction rest as [|p rest IH]; intros ex h lo HR Hne; [contradiction|]. cbn [DatasetProofs.rest_ok length] in *.
    destruct HR as (s & k & lo' & _ & _ & _ & _ & -> & _ & _ & Htop & HR).
    destruct rest as [|p' rest].
    - specialize (Htop eq_refl). cbn [length]. rewrite Nat.add_1_r. clear -Htop. nia.
    - apply IH in HR; [|discriminate]. rewrite Nat.add_succ_r. cbn [Nat.add] in HR. clear -HR. lia.
  Qed.
  Lemma rest_whole ex st : forall rest h lo, rest_ok ex st h lo rest -> exists j, lo = j * strd (S h).
  Proof.
    intros rest. revert ex. induction rest as [|p rest IH]; intros ex h lo HR; cbn [DatasetProofs.rest_ok] in HR; [exists 0; exact HR|].
    destruct HR as (s & k & lo' & _ & _ & _ & _ & -> & _ & _ & _ & HR). apply IH in HR. destruct HR as (j & ->).
    exists (j * ss + k). rewrite (strd_S cs ss (S h)). ring.
  Qed.
  (** A tree whose ancestors have no room is the last part of a complete one. *)
  Lemma rest_full ex st : forall rest h lo, rest_ok ex st h lo rest -> no_room ss rest = true -> lo + strd (S h) = strd (S h + length rest).
  Proof.
    intros rest. revert ex. induction rest as [|p rest IH]; intros ex h lo HR HN0; cbn [DatasetProofs.rest_ok length] in *.
    - subst lo. rewrite Nat.add_0_r. reflexivity.
    - destruct HR as (s & k & lo' & -> & _ & Hk & Hl & -> & _ & _ & _ & HR). cbn [no_room forallb] in HN0. apply andb_true_iff in HN0. destruct HN0 as (N1 & N2).
      apply Nat.eqb_eq in N1. apply IH in HR; [|exact N2]. rewrite Nat.add_succ_r. cbn [Nat.add] in *. rewrite <- HR, (strd_S cs ss (S h)). nia.
  Qed.
  (** [d]: so many levels of spans above the spans of chunks are enough for [M] instants. *)
  Variables (d M : nat).
  Hypothesis Hd : M <= strd (S d).
  Lemma rest_few ex st rest lo : rest_ok ex st 0 lo rest -> lo < M -> length rest <= d.
  Proof using Hcs Hss Hd.
    intros HR Hlo. destruct rest as [|p rest]; [cbn [length]; lia|]. apply rest_long in HR; [|discriminate]. cbn [Nat.add] in HR.
    destruct (Nat.le_gt_cases (length (p :: rest)) d) as [L|L]; [exact L|exfalso].
    assert (strd (S d) <= strd (length (p :: rest))). { unfold DatasetProofs.strd. apply Nat.mul_le_mono_l. apply Nat.pow_le_mono_r; lia. }
    clear -HR Hlo Hd H. lia.
  Qed.

  (** The paths that are written when the ancestors have no room for another span. *)
  Lemma rest_paths ex st st' rest ex' rest' lo T : rest_ok ex st 0 lo rest -> rest_ok ex' st' 0 lo rest' -> lo + strd 1 = T -> T < M ->
    S (length rest) + (length rest' + grows ss rest' + 1) <= 2 * d + 2.
  Proof using Hcs Hss Hd.
    intros HR HR' HT HTM. assert (L : length rest <= d) by (apply (rest_few ex st rest lo HR); lia).
    assert (L' : length rest' <= d) by (apply (rest_few ex' st' rest' lo HR'); lia).
    unfold grows. destruct (no_room ss rest') eqn:En; [|lia].
    apply (rest_full ex' st' rest' 0 lo HR') in En. rewrite HT in En. cbn [Nat.add] in En.
    assert (Hlt : forall a b, strd a < strd b -> a < b).
    { intros a b Hab. destruct (Nat.lt_ge_cases a b) as [Q|Q]; [exact Q|exfalso]. assert (strd b <= strd a); [|lia].
      unfold DatasetProofs.strd. apply Nat.mul_le_mono_l, Nat.pow_le_mono_r; lia. }
    assert (A1 : S (length rest') < S d) by (apply Hlt; lia).
    assert (A2 : length rest < S (length rest')).
    { destruct rest as [|p rest]; [cbn [length]; lia|]. apply Hlt. apply (rest_long ex st) in HR; [|discriminate]. cbn [Nat.add] in HR.
      pose proof (strd_pos cs ss Hcs Hss 1). lia. }
    lia.
  Qed.

  Section Steps.
    Variables (v : variable) (build : nat -> nat -> op mmstruct) (base instants C : nat).
    Hypothesis Hvc : va_chunk_size v = cs.
    Hypothesis Hvs : va_span_size v = ss.
    Hypothesis Hve : va_enc v = enc.
    Hypothesis Hbm : forall a b, mono (build a b).
    Hypothesis HN : base + instants <= N.
    Hypothesis HM : base + instants <= M.
    (** No chunk is made of more than [C] objects besides its root. *)
    Hypothesis HC : forall a b n st, costs (C + n) (fun _ => n) (build a b) st.

    (** The step adds a span of chunks only if the spans before it are complete. *)
    Lemma costs_step o n st root spans upd start : functional st -> start < instants -> ready upd st (base + start) spans ->
      (upd = false -> (exists j, base + start = j * (cs * ss)) -> 1 <= o) ->
      (forall len, len = Nat.min cs (instants - start) -> ok_in (build start len) st (fun m st' => leaf rows cols V st' (base + start) len m)) ->
      costs (C + S (o * (2 * d + 2)) + n) (fun _ => n) (append_step hash build v instants rows cols (root, spans, upd) start) st.
    Proof.
      intros HF Hst HR Ho Hbuild. unfold append_step. rewrite Hvc, Hvs, Hve.
      set (len := Nat.min (start + cs) instants - start). assert (Hlen : 1 <= len <= cs) by lia.
      rewrite <- Nat.add_assoc.
      eapply costs_bind_ok; [apply Hbm| |apply (Hbuild len); unfold len; lia|apply HC|].
      { intros chunk. destruct spans as [|m rest]; [apply mono_lift|]. apply mono_bind; [apply mono_lift|]. intros s.
        apply mono_bind.
        - apply mono_if; [|apply mono_ret]. apply mono_bind; [apply mono_save_spans|]. intros r1.
          apply mono_bind; [apply mono_create_open_span|]. intros r2. apply mono_bind; [apply mono_tail_spans|].
          intros [|m' rest']; mono_auto.
        - intros [[r s'] rest']. apply mono_bind; [|intros; apply mono_ret]. apply mono_if; [apply mono_span_update|apply mono_span_append]. }
      intros chunk st1 HI HF1 _. apply (ready_incl _ _ _ _ _ _ _ _ _ _ _ HI HF1) in HR.
      destruct HR as (s & rest & lo & k & -> & HR & Hpos & H).
      assert (Hfew : length rest <= d) by (apply (rest_few None st1 rest lo HR); clear -HM Hst Hpos; nia).
      apply costs_lift_bind.
      { intros s0. apply mono_bind.
        - apply mono_if; [|apply mono_ret]. apply mono_bind; [apply mono_save_spans|]. intros r1.
          apply mono_bind; [apply mono_create_open_span|]. intros r2. apply mono_bind; [apply mono_tail_spans|].
          intros [|m' rest']; mono_auto.
        - intros [[r s'] rest']. apply mono_bind; [|intros; apply mono_ret]. apply mono_if; [apply mono_span_update|apply mono_span_append]. }
      intros s0 Es. cbn [as_span] in Es. injection Es as <-.
      eapply costs_bind with (l := fun _ => S n).
      { apply mono_if; [|apply mono_ret]. apply mono_bind; [apply mono_save_spans|]. intros r1.
          apply mono_bind; [apply mono_create_open_span|]. intros r2. apply mono_bind; [apply mono_tail_spans|].
          intros [|m' rest']; mono_auto. }
      { intros [[r s'] rest']. apply mono_bind; [|intros; apply mono_ret]. apply mono_if; [apply mono_span_update|apply mono_span_append]. }
      - destruct (Nat.eqb_spec (sp_instants s) (ss * sp_stride s)) as [Ef|Nf].
        + destruct upd.
          { exfalso. destruct H as ([W R X Y Z] & H2 & H3 & H4 & H5). rewrite Z, strd_0 in Ef. lia. }
          pose proof (node0_full _ _ _ _ _ _ Hcs Hss _ _ _ _ H) as (F1 & F2 & F3 & F4).
          assert (Es : sp_stride s = cs). { destruct (node_span _ _ _ _ _ _ _ _ _ _ _ _ H) as (s0 & E & [W R X Y Z] & _). injection E as <-. rewrite Z. apply strd_0. }
          rewrite Es, F2 in Ef.
          assert (Ho1 : 1 <= o). { apply Ho; [reflexivity|]. destruct (rest_whole _ _ _ _ _ HR) as (j & Hj). exists (S j).
            rewrite Hpos, Hj, Ef, strd_S, strd_0. ring. }
          assert (Ho2 : 2 * d + 2 <= o * (2 * d + 2)) by (clear -Ho1; nia).
          eapply costs_bind_ok; [apply mono_save_spans| |
            apply (ok_save_spans hash rows cols cs ss enc V Hhash Hcs Hss Fr Fc N FN (MSpan s) rest lo (k * cs) st1 H HR); [lia|exact HF1]| |].
          { intros r1. apply mono_bind; [apply mono_create_open_span|]. intros r2. apply mono_bind; [apply mono_tail_spans|].
            intros [|m' rest']; mono_auto. }
          { apply (costs_weak _ (length (MSpan s :: rest) + (2 * d + 2 - S (length rest) + S n)) _ (fun _ => 2 * d + 2 - S (length rest) + S n)); [apply costs_save_spans|cbn [length]; lia|].
            intros; apply Nat.le_add_r. }
          intros r1 st2 HI2 HF2 HT. rewrite <- Hpos in HT.
          replace (k * cs) with (strd 1) in HT by (rewrite strd_S, strd_0; lia).
          eapply costs_bind_ok; [apply mono_create_open_span| |apply (ok_create_open_span hash rows cols cs ss enc V Hhash Hcs Hss Fr Fc Fcs Fss N FN st2 r1 (base + start) HF2 HT); lia| |].
          { intros r2. apply mono_bind; [apply mono_tail_spans|]. intros [|m' rest']; mono_auto. }
          { destruct (tail_spans_ok rows cols cs ss enc V Hcs Hss st2 HF2 r1 _ _ HT) as (m0 & rest0 & lo0 & Et & _ & HR0 & E0).
            assert (Hp : S (length rest) + (length rest0 + grows ss rest0 + 1) <= 2 * d + 2).
            { apply (rest_paths None st1 st2 rest (Some (strd 1, strd 1)) rest0 lo (base + start)); auto.
              - replace lo with lo0; [exact HR0|]. rewrite strd_S, strd_0 in E0. clear -E0 Hpos Ef. lia.
              - rewrite strd_S, strd_0. clear -Hpos Ef. lia.
              - clear -HM Hst. lia. }
            eapply costs_weak; [apply (costs_create_open_span hash ss cs rows cols enc r1 (S n) st2 (length rest0 + grows ss rest0))| |].
            - intros m rest' El. rewrite Et in El. injection El as _ <-. apply Nat.le_refl.
            - clear -Hp. lia.
            - intros; apply Nat.le_add_r. }
          intros r2 st3 HI3 HF3 HT3.
          eapply costs_bind; [apply mono_tail_spans| |apply costs_still, still_tail_spans|].
          { intros [|m' rest']; mono_auto. }
          intros l st4 _ _ _. destruct l as [|m' rest']; [apply costs_lift|].
          apply costs_lift_bind; [mono_auto|]. intros s' _. apply costs_if; [apply costs_ret; lia|apply costs_lift].
        + apply costs_ret. lia.
      - intros [[r s'] rest'] st2 _ _ _. eapply costs_bind; [apply mono_if; [apply mono_span_update|apply mono_span_append]|intros; apply mono_ret| |].
        + destruct upd; [apply costs_span_update|apply costs_span_append].
        + intros s2 st3 _ _ _. apply costs_ret. lia.
    Qed.

    Hypothesis Hbuild : forall st start len, functional st -> (exists i, start = i * cs) -> start < instants ->
      len = Nat.min cs (instants - start) ->
      ok_in (build start len) st (fun m st' => leaf rows cols V st' (base + start) len m).

    Lemma costs_steps k : forall n i st root spans upd, functional st -> i + n = (instants + cs - 1) / cs -> (exists j, base = j * cs) ->
      ready upd st (base + i * cs) spans ->
      costs (n * S C + (parts (base + instants) (cs * ss) - parts (base + (if upd : bool then S i else i) * cs) (cs * ss)) * (2 * d + 2) + k) (fun _ => k)
        (ofold (append_step hash build v instants rows cols) (root, spans, upd) (map (fun i => i * cs) (seq i n))) st.
    Proof.
      induction n as [|n IH]; intros i st root spans upd HF Hin Hj HR; cbn [seq map ofold].
      - apply costs_ret. rewrite Nat.add_comm. apply Nat.le_add_r.
      - assert (Hi : i * cs < instants). { clear -Hin Hcs. assert (S i <= (instants + cs - 1) / cs) by lia.
          assert (cs * S i <= cs * ((instants + cs - 1) / cs)) by (apply Nat.mul_le_mono_l; assumption).
          pose proof (Nat.mul_div_le (instants + cs - 1) cs ltac:(lia)). lia. }
        assert (Hq : 1 <= cs * ss) by (clear -Hcs Hss; nia).
        set (after := parts (base + instants) (cs * ss)).
        set (b2 := parts (base + S i * cs) (cs * ss)).
        set (b1 := parts (base + (if upd then S i else i) * cs) (cs * ss)).
        assert (Hb : b1 <= b2). { unfold b1, b2. apply parts_mono; [exact Hq|]. destruct upd; [apply Nat.le_refl|]. clear; lia. }
        assert (Ho : upd = false -> (exists j, base + i * cs = j * (cs * ss)) -> S b1 <= b2 /\ b2 <= S b1 /\ S b1 <= after).
        { intros -> (j & Ej). unfold b1, b2, after. rewrite Ej. replace (base + S i * cs) with (j * (cs * ss) + cs) by lia.
          split; [apply parts_open; [exact Hq|clear -Hcs; lia]|]. split; [|apply parts_open; [exact Hq|]; rewrite <- Ej; clear -Hi; lia].
          unfold parts. assert (E1 : (j * (cs * ss) + cs * ss - 1) / (cs * ss) = j). { symmetry. apply (Nat.div_unique _ _ _ (cs * ss - 1)); lia. }
          rewrite E1. apply Nat.lt_succ_r. apply Nat.div_lt_upper_bound; [lia|]. clear -Hcs Hss. nia. }
        set (o := if (negb upd && ((base + i * cs) mod (cs * ss) =? 0))%bool then 1 else 0).
        assert (Hoo : upd = false -> (exists j, base + i * cs = j * (cs * ss)) -> 1 <= o).
        { intros -> (j & Ej). unfold o. rewrite Ej, Nat.mod_mul by lia. cbn. lia. }
        assert (Hsum : o + (after - b2) <= after - b1).
        { unfold o. destruct upd; cbn [negb andb]; [clear -Hb; lia|]. destruct (Nat.eqb_spec ((base + i * cs) mod (cs * ss)) 0) as [E0|_]; [|clear -Hb; lia].
          apply Nat.mod_divides in E0; [|lia]. destruct E0 as (j & Ej). destruct (Ho eq_refl) as (H1 & H2 & H3); [exists j; rewrite Ej; apply Nat.mul_comm|].
          clear -H1 H2 H3. lia. }
        eapply costs_bind_ok; [apply mono_append_step; exact Hbm|intros; apply mono_ofold; intros; apply mono_append_step; exact Hbm| | |].
        + eapply (ok_step hash rows cols cs ss enc V Hhash Hcs Hss Fr Fc Fcs Fss N FN v build base instants Hvc Hvs Hve Hbm HN st root spans upd (i * cs) HF Hi HR).
          intros len Hlen; exact (Hbuild st (i * cs) len HF (ex_intro _ i eq_refl) Hi Hlen).
        + apply (costs_weak _ (C + S (o * (2 * d + 2)) + (n * S C + (after - b2) * (2 * d + 2) + k)) _ (fun _ => n * S C + (after - b2) * (2 * d + 2) + k)).
          * apply costs_step; auto.
            intros len Hlen; exact (Hbuild st (i * cs) len HF (ex_intro _ i eq_refl) Hi Hlen).
          * assert ((o + (after - b2)) * (2 * d + 2) <= (after - b1) * (2 * d + 2)) by (apply Nat.mul_le_mono_r; exact Hsum).
            rewrite Nat.mul_add_distr_r in H. rewrite (Nat.mul_succ_l n (S C)). revert H. generalize (o * (2 * d + 2)) ((after - b2) * (2 * d + 2)) ((after - b1) * (2 * d + 2)) (n * S C). clear. intros; lia.
          * intros; apply Nat.le_add_r.
        + intros x st1 HI HF1 (r & sp & -> & _ & Hrdy).
          destruct (Nat.eq_dec n 0) as [->|Nn]; [cbn [seq map ofold]; apply costs_ret; rewrite Nat.add_comm; apply Nat.le_add_r|].
          assert (Hi' : S i * cs < instants). { clear -Hin Hcs Nn. assert (S (S i) <= (instants + cs - 1) / cs) by lia.
            assert (cs * S (S i) <= cs * ((instants + cs - 1) / cs)) by (apply Nat.mul_le_mono_l; assumption).
            pose proof (Nat.mul_div_le (instants + cs - 1) cs ltac:(lia)). lia. }
          apply (IH (S i) st1 r sp false HF1); auto; [lia|]. replace (S i * cs) with (i * cs + cs) by lia. apply Hrdy. lia.
    Qed.

    Lemma costs_var_append k st T e : functional st -> tree st (va_cid v) T e -> (exists j, base = j * cs) ->
      forall upd : bool, T = base + (if upd then e mod cs else 0) -> (if upd then e mod cs <> 0 /\ e mod cs <= instants else e mod cs = 0) ->
      (e = 0 -> T = 0) ->
      costs (parts instants cs * S C + (parts (base + instants) (cs * ss) - parts T (cs * ss)) * (2 * d + 2) + (d + 1) + k) (fun _ => k) (var_append hash build v instants rows cols upd) st.
    Proof.
      intros HF HT Hj upd Hbase Hupd He. unfold var_append. unfold parts at 1. rewrite Hvc.
      eapply costs_bind_ok; [apply mono_tail_spans| |apply (ok_tail_spans rows cols cs ss enc V Hcs Hss st HF _ _ _ HT)|apply costs_still, still_tail_spans|].
      { intros spans. apply mono_bind; [apply mono_lift|]. intros l.
        apply mono_bind; [apply mono_ofold; intros s x; apply mono_append_step; exact Hbm|]. intros [[r sp] u]. apply mono_save_spans. }
      intros l st1 _ _ (-> & m0 & rest & lo & -> & HN0 & HR & E).
      assert (HRd : ready upd st base (m0 :: rest)).
      { destruct (node_span _ _ _ _ _ _ _ _ _ _ _ _ HN0) as (s & -> & HS & Hi).
        exists s, rest, lo, (e / cs). split; [reflexivity|]. split; [eapply rest_none; exact HR|].
        pose proof (Nat.div_mod e cs ltac:(lia)) as Hdm. pose proof (Nat.mod_upper_bound e cs ltac:(lia)) as Hm.
        split; [destruct upd; lia|].
        destruct upd.
        - destruct HN0 as (s' & Es & _ & Hn & _ & H1 & H2 & H3 & H4). injection Es as <-.
          set (q := e / cs) in *. set (p := e mod cs) in *. clearbody p q. destruct Hupd as (Hp & Hp').
          assert (El : length (sp_spans s) = S q) by nia.
          split; [exact HS|]. split; [lia|]. split; [exact El|]. split; [nia|]. intros i Hi'.
          specialize (H4 i ltac:(lia)). replace (sub_instants e cs i) with cs in H4 by (unfold sub_instants; nia). exact H4.
        - replace (e / cs * cs) with e by lia. exact HN0. }
      apply costs_lift_bind.
      { intros l. apply mono_bind; [apply mono_ofold; intros s x; apply mono_append_step; exact Hbm|]. intros [[r sp] u]. apply mono_save_spans. }
      intros starts Es. unfold step_starts in Es. destruct (Nat.eqb_spec cs 0); [lia|]. injection Es as <-.
      assert (Hz : (instants + cs - 1) / cs = 0 -> instants = 0).
      { intros H0. pose proof (Nat.mod_upper_bound (instants + cs - 1) cs ltac:(lia)). pose proof (Nat.div_mod (instants + cs - 1) cs ltac:(lia)) as D. rewrite H0 in D. lia. }
      destruct (Nat.eq_dec ((instants + cs - 1) / cs) 0) as [Z0|NZ].
      { rewrite Z0. cbn [seq map ofold]. specialize (Hz Z0). assert (Eu : upd = false) by (destruct upd; [exfalso; lia|reflexivity]). subst upd.
        change (costs (0 * S C + (parts (base + instants) (cs * ss) - parts T (cs * ss)) * (2 * d + 2) + (d + 1) + k) (fun _ => k) (save_spans hash (m0 :: rest)) st).
        generalize (parts (base + instants) (cs * ss) - parts T (cs * ss)). intros x.
        eapply costs_weak; [apply (costs_save_spans hash (m0 :: rest) k)| |intros; apply Nat.le_add_r]. cbn [length].
        destruct rest as [|p rest]; [cbn [length]; lia|].
        assert (length (p :: rest) <= d); [|lia]. eapply rest_few; [exact HR|].
        assert (e <> 0). { intros C0. specialize (He C0). apply rest_long in HR; [|discriminate]. pose proof (strd_pos cs ss Hcs Hss (0 + length (p :: rest))). lia. }
        lia. }
      eapply costs_bind_ok; [apply mono_ofold; intros s x; apply mono_append_step; exact Hbm|intros [[r sp] u]; apply mono_save_spans| | |].
      - apply (ok_steps hash rows cols cs ss enc V Hhash Hcs Hss Fr Fc Fcs Fss N FN v build base instants Hvc Hvs Hve Hbm HN Hbuild ((instants + cs - 1) / cs) 0 st (va_cid v) (m0 :: rest) upd HF); [lia| |].
        + rewrite Nat.mul_0_l, Nat.add_0_r. exact HRd.
        + intros H0. contradiction.
      - eapply costs_weak with (l := fun _ => d + 1 + k); [apply (costs_steps (d + 1 + k) ((instants + cs - 1) / cs) 0 st (va_cid v) (m0 :: rest) upd HF); [lia|exact Hj|]| |intros; apply Nat.le_add_r].
        + rewrite Nat.mul_0_l, Nat.add_0_r. exact HRd.
        + assert (Hle : parts T (cs * ss) <= parts (base + (if upd then 1 else 0) * cs) (cs * ss)).
          { apply parts_mono; [clear -Hcs Hss; nia|]. rewrite Hbase. destruct upd; [|lia]. pose proof (Nat.mod_upper_bound e cs ltac:(lia)). lia. }
          assert ((parts (base + instants) (cs * ss) - parts (base + (if upd then 1 else 0) * cs) (cs * ss)) * (2 * d + 2) <=
                  (parts (base + instants) (cs * ss) - parts T (cs * ss)) * (2 * d + 2)) by (apply Nat.mul_le_mono_r; clear -Hle; lia).
          rewrite <- !Nat.add_assoc. apply Nat.add_le_mono_l. apply Nat.add_le_mono_r. exact H.
      - intros x st1 HI HF1 (r & sp & u & -> & _ & HA). destruct (HA NZ) as (m & rest1 & lo1 & n1 & -> & HR1 & HN1 & E1 & Hn1).
        eapply costs_weak; [apply (costs_save_spans hash (m :: rest1) k)| |intros; apply Nat.le_add_r]. cbn [length].
        assert (length rest1 <= d); [|lia]. eapply rest_few; [exact HR1|]. lia.
    Qed.
  End Steps.
End Tree.

(** ** Chunks *)
Section Chunks.
  Context {A : Type}.
  Variables (hash : bytes -> cid) (E : elem A) (lc : nat -> nat).

  Lemma save_tiles_count tiles : forall s, length (ss_store (fold_left (save_tile hash) tiles s)) <= length (ss_store s) + length tiles.
  Proof.
    induction tiles as [|t tiles IH]; intros s; cbn [fold_left length]; [lia|]. specialize (IH (save_tile hash s t)).
    assert (length (ss_store (save_tile hash s t)) <= length (ss_store s) + 1); [|lia].
    unfold save_tile, save. destruct (snd t) as [b|]; cbn [ss_store]; [|lia]. destruct (link_index _ _); cbn [ss_store]; rewrite app_length; cbn [length]; lia.
  Qed.
  Lemma no_tiles_count tiles : Forall (fun t : tile => snd t = None) tiles -> forall s, ss_store (fold_left (save_tile hash) tiles s) = ss_store s.
  Proof.
    induction 1 as [|t tiles H _ IH]; intros s; cbn [fold_left]; [reflexivity|]. rewrite IH. unfold save_tile. rewrite H. reflexivity.
  Qed.
  Lemma mono_finish_op level instants rows cols sidelen bits cs ss tiles max min :
    mono (finish_op hash E level instants rows cols sidelen bits cs ss tiles max min).
  Proof.
    intros st. unfold finish_op, save. eapply extends_trans; [apply (save_tiles_extends hash tiles (mkSave st [] [] 0 0 0 0))|].
    eapply extends_trans; [eexists; reflexivity|].
    apply (mono_bind (olift (dac_of max))); [apply mono_lift|]. intros d1. apply mono_bind; [apply mono_lift|]. intros d2. apply mono_ret.
  Qed.
  Lemma costs_finish_op level instants rows cols sidelen bits cs ss tiles max min w n st :
    length (ss_store (fold_left (save_tile hash) tiles (mkSave st [] [] 0 0 0 0))) <= length st + w ->
    costs (w + S n) (fun _ => n) (finish_op hash E level instants rows cols sidelen bits cs ss tiles max min) st.
  Proof.
    intros H _. unfold finish_op, save. set (s := fold_left _ _ _) in *. unfold obind, olift, oret.
    destruct (dac_of max) as [d1| | |]; [destruct (dac_of min) as [d2| | |]| | |]; cbn [fst snd]; rewrite app_length; cbn [length]; (split; [lia|]); intros; lia.
  Qed.

  Lemma mono_tile_op rec sub g instants rows cols bits cs tiles rc : (forall g h w b, mono (rec g h w b)) ->
    mono (tile_op E 2 lc rec sub g instants rows cols bits cs tiles rc).
  Proof.
    intros IH. unfold tile_op. destruct (_ || _); [apply mono_ret|].
    apply mono_bind; [apply mono_lift|]. intros mm. destruct (forallb _ mm); [apply mono_ret|].
    apply mono_bind; [apply mono_lift|]. intros lf. apply mono_bind; [apply mono_lift|]. intros b.
    apply mono_bind; [destruct lf; [apply mono_lift|apply IH]|]. intros; apply mono_ret.
  Qed.
  Lemma costs_tile_op rec sub g instants rows cols bits cs c tiles rc n st : (forall g h w b, mono (rec g h w b)) ->
    (length sub = 1 \/ forall g h w b n st, costs (c + n) (fun _ => n) (rec g h w b) st) ->
    costs (length tiles + S c + n) (fun t => length t + n) (tile_op E 2 lc rec sub g instants rows cols bits cs tiles rc) st.
  Proof.
    intros IM IC. unfold tile_op.
    assert (Hone : forall (x : tile), length (tiles ++ [x]) = S (length tiles)) by (intros; rewrite app_length; cbn [length]; lia).
    destruct (_ || _); [apply costs_ret; rewrite Hone; lia|].
    apply costs_lift_bind.
    { intros mm. destruct (forallb _ mm); [apply mono_ret|].
      apply mono_bind; [apply mono_lift|]. intros lf. apply mono_bind; [apply mono_lift|]. intros b.
      apply mono_bind; [destruct lf; [apply mono_lift|apply IM]|]. intros; apply mono_ret. }
    intros mm _. destruct (forallb _ mm); [apply costs_ret; rewrite Hone; lia|].
    apply costs_lift_bind.
    { intros lf. apply mono_bind; [apply mono_lift|]. intros b.
      apply mono_bind; [destruct lf; [apply mono_lift|apply IM]|]. intros; apply mono_ret. }
    intros lf Elf. apply costs_lift_bind.
    { intros b. apply mono_bind; [destruct lf; [apply mono_lift|apply IM]|]. intros; apply mono_ret. }
    intros b _. eapply costs_bind with (l := fun _ => length tiles + S n); [destruct lf; [apply mono_lift|apply IM]|intros; apply mono_ret| |].
    - destruct lf.
      + eapply costs_weak; [apply costs_lift|apply Nat.le_refl|]. intros; cbn beta; lia.
      + destruct IC as [IC|IC]; [unfold build_subchunk in Elf; rewrite IC in Elf; discriminate Elf|].
        eapply costs_weak; [apply (IC _ _ _ _ (length tiles + S n))|lia|]. intros; cbn beta; lia.
    - intros x st1 _ _ _. apply costs_ret. rewrite Hone. lia.
  Qed.
  Lemma costs_tiles rec sub g instants rows cols bits cs c n : (forall g h w b, mono (rec g h w b)) ->
    (length sub = 1 \/ forall g h w b n st, costs (c + n) (fun _ => n) (rec g h w b) st) ->
    forall l tiles st, costs (length tiles + length l * S c + n) (fun t => length t + n)
      (ofold (tile_op E 2 lc rec sub g instants rows cols bits cs) tiles l) st.
  Proof.
    intros IM IC. induction l as [|rc l IH]; intros tiles st; cbn [ofold length].
    - apply costs_ret. lia.
    - eapply costs_bind; [apply mono_tile_op; exact IM|intros; apply mono_ofold; intros; apply mono_tile_op; exact IM| |].
      + eapply costs_weak; [apply (costs_tile_op _ _ _ _ _ _ _ _ c tiles rc (length l * S c + n) st IM IC)|cbn [Nat.mul]; lia|]. intros; apply Nat.le_add_r.
      + intros t st1 _ _ _. cbn beta. rewrite Nat.add_assoc. apply IH.
  Qed.
  (** With no further level, no tile is kept. *)
  Lemma no_tiles rec g instants rows cols bits cs : forall l tiles st st' t,
    ofold (tile_op E 2 lc rec [] g instants rows cols bits cs) tiles l st = (st', Ok t) -> Forall (fun t : tile => snd t = None) tiles ->
    st' = st /\ Forall (fun t : tile => snd t = None) t.
  Proof.
    induction l as [|rc l IH]; intros tiles st st' t; cbn [ofold].
    - unfold oret. intros H. injection H as <- <-. auto.
    - unfold obind at 1. destruct (tile_op E 2 lc rec [] g instants rows cols bits cs tiles rc st) as [st1 r] eqn:Er.
      destruct r as [t1| | |]; try discriminate. intros H HT.
      assert (Hr : st1 = st /\ Forall (fun t : tile => snd t = None) t1).
      { unfold tile_op in Er. destruct (_ || _).
        - unfold oret in Er. injection Er as <- <-. split; [reflexivity|]. apply Forall_app. split; [exact HT|]. repeat constructor.
        - unfold obind at 1, olift at 1 in Er. destruct (minmax_of _ _ _ _ _ _) as [mm| | |]; try discriminate.
          destruct (forallb _ mm).
          + unfold oret in Er. injection Er as <- <-. split; [reflexivity|]. apply Forall_app. split; [exact HT|]. repeat constructor.
          + unfold obind, olift, build_subchunk in Er. cbn in Er. discriminate Er. }
      destruct Hr as (-> & HT1). exact (IH _ _ _ _ H HT1).
  Qed.
  Lemma stay_tiles rec g instants rows cols bits cs n : forall l tiles st, (forall g h w b, mono (rec g h w b)) ->
    costs n (fun _ => n) (ofold (tile_op E 2 lc rec [] g instants rows cols bits cs) tiles l) st.
  Proof.
    intros l tiles st IM. apply costs_still. revert tiles st. induction l as [|rc l IH]; intros tiles st; cbn [ofold]; [reflexivity|].
    unfold obind at 1. destruct (tile_op E 2 lc rec [] g instants rows cols bits cs tiles rc st) as [st1 r] eqn:Er.
    assert (st1 = st).
    { unfold tile_op in Er. destruct (_ || _); [unfold oret in Er; injection Er as <- _; reflexivity|].
      unfold obind at 1, olift at 1 in Er. destruct (minmax_of _ _ _ _ _ _) as [mm| | |]; try (injection Er as <- _; reflexivity).
      destruct (forallb _ mm); [unfold oret in Er; injection Er as <- _; reflexivity|].
      unfold obind, olift, build_subchunk in Er. cbn in Er. injection Er as <- _. reflexivity. }
    subst st1. destruct r; try reflexivity. apply IH.
  Qed.

  Lemma costs_super_op n : forall levels g instants rows cols bits st,
    costs (chunk_objects levels + n) (fun _ => n) (super_op hash E 2 lc levels g instants rows cols bits) st.
  Proof.
    intros levels. revert n. induction levels as [|level sub IH]; intros n g instants rows cols bits st; cbn [super_op];
      (destruct (negb _); [eapply costs_weak; [apply costs_lift|apply Nat.le_refl|intros; cbn beta; lia]|]).
    { eapply costs_weak; [apply costs_lift|apply Nat.le_refl|intros; cbn beta; lia]. }
    assert (MF : forall cs t mx mn, mono (finish_op hash E level instants rows cols (2 ^ lc (Nat.max rows cols)) bits cs (2 ^ level) t mx mn)) by (intros; apply mono_finish_op).
    assert (M1 : forall cs t, mono (mx <! olift (by_instant instants (map fst t) snd) ;; mn <! olift (by_instant instants (map fst t) fst) ;;
      finish_op hash E level instants rows cols (2 ^ lc (Nat.max rows cols)) bits cs (2 ^ level) t mx mn)%op).
    { intros. apply mono_bind; [apply mono_lift|]. intros. apply mono_bind; [apply mono_lift|]. intros. apply MF. }
    assert (MT : forall cs t l, mono (ofold (tile_op E 2 lc (fun g' h w b => super_op hash E 2 lc sub g' instants h w b) sub g instants rows cols bits cs) t l)).
    { intros. apply mono_ofold. intros. apply mono_tile_op. intros; apply mono_super_op. }
    apply costs_lift_bind; [intros cs; apply mono_bind; [apply MT|intros; apply M1]|]. intros cs _.
    destruct sub as [|l2 sub].
    - cbn [chunk_objects]. eapply costs_bind; [apply MT|intros; apply M1|apply stay_tiles; intros; apply mono_super_op|].
      intros t st1 Et _ _. apply no_tiles in Et; [|constructor]. destruct Et as (-> & Et).
      apply costs_lift_bind; [intros; apply mono_bind; [apply mono_lift|intros; apply MF]|]. intros mx _.
      apply costs_lift_bind; [intros; apply MF|]. intros mn _. apply (costs_finish_op _ _ _ _ _ _ _ _ _ _ _ 0).
      rewrite no_tiles_count by exact Et. cbn [ss_store]. lia.
    - set (c := match sub with [] => 0 | _ => chunk_objects (l2 :: sub) end).
      assert (Ec : chunk_objects (level :: l2 :: sub) = 1 + 2 ^ level * 2 ^ level * S c).
      { unfold c. destruct sub; [cbn [chunk_objects]; lia|reflexivity]. }
      rewrite Ec. eapply costs_bind; [apply MT|intros; apply M1| |].
      + eapply costs_weak.
        * apply (costs_tiles _ (l2 :: sub) g instants rows cols bits cs c (S n)); [intros; apply mono_super_op|].
          unfold c. destruct sub as [|l3 sub]; [left; reflexivity|]. right. intros. apply IH.
        * rewrite length_grid. cbn [length]. lia.
        * intros; apply Nat.le_add_r.
      + intros t st1 _ _ _.
        apply costs_lift_bind; [intros; apply mono_bind; [apply mono_lift|intros; apply MF]|]. intros mx _.
        apply costs_lift_bind; [intros; apply MF|]. intros mn _. apply costs_finish_op. apply (save_tiles_count t (mkSave st1 [] [] 0 0 0 0)).
  Qed.
End Chunks.

Lemma costs_build_chunk {A} hash lc (D : dtype A) v data a b n st :
  costs (chunk_objects (va_levels v) + n) (fun _ => n) (build_chunk hash lc D v data a b) st.
Proof.
  unfold build_chunk. destruct (a3_shape data) as [[k h] w].
  apply costs_lift_bind; [intros; apply mono_bind; [apply mono_super_op|intros; apply mono_ret]|]. intros bits _.
  eapply costs_bind; [apply mono_super_op|intros; apply mono_ret|apply costs_super_op|]. intros x st1 _ _ _. apply costs_ret. lia.
Qed.

(** ** Appending *)
Section Append.
  Context {A : Type}.
  Variables (hash : bytes -> cid) (lc : nat -> nat) (D : dtype A) (order : list call -> list call) (fuel : nat).
  (** The same value, as far as reads can tell. *)
  Variable eqv : A -> A -> Prop.
  Variables (rows cols cs ss : nat) (levels : list nat) (enc : encoding) (round : option nat).
  Hypothesis Hhash : forall b, wf_cid (hash b).
  Hypothesis Horder : forall l, Permutation l (order l).
  Hypothesis Hfuel : S (length levels) <= fuel.
  Hypothesis Hr : 0 < rows.
  Hypothesis Hc : 0 < cols.
  Hypothesis Hcs : 1 <= cs.
  Hypothesis Hss : 2 <= ss.
  Hypothesis Fr : fits32 rows.
  Hypothesis Fc : fits32 cols.
  Hypothesis Fcs : fits32 cs.
  Hypothesis Fss : fits32 ss.
  Variable N : nat.
  Hypothesis FN : fits32 N.
  Hypothesis eqv_trans : forall x y z, eqv x y -> eqv y z -> eqv x z.
  Hypothesis eqv_sym : forall x y, eqv x y -> eqv y x.

  Notation same := (AppendProofs.same eqv rows cols).

  (** Chunks that can be built, and what is known of a chunk built from [g]. *)
  Variable chunk_ok : (nat -> nat -> nat -> A) -> nat -> Prop.
  Variable V0 : (nat -> nat -> nat -> A) -> store -> nat -> mmstruct -> Prop.
  Hypothesis chunk_ok_same : forall g g' n, same g g' n -> chunk_ok g n -> chunk_ok g' n.
  Hypothesis V0_same : forall g g' st n m, same g g' n -> V0 g st n m -> V0 g' st n m.
  Hypothesis V0_view : forall g st n m, V0 g st n m ->
    exists f, view st (S (length levels)) m n rows cols f /\
      forall t r c, t < n -> r < rows -> c < cols -> eqv (rd_set (dt_reader D) (snd (f t r c)) (fst (f t r c))) (g t r c).
  Hypothesis Hbuild : forall g n st, 1 <= n <= cs -> chunk_ok g n ->
    exists st2 b bits, el_bits (dt_elem D round) (dt_bits D round) (all_values g n rows cols) = Ok bits /\
      super_build hash (dt_elem D round) 2 lc levels g n rows cols bits st = Ok (st2, b) /\
      incl st st2 /\ (anchored st2 (NMM (mb_data b)) /\ grown st st2) /\ mm_shape (mb_data b) = Ok (n, rows, cols) /\
      forall st', incl st2 st' -> functional st' -> V0 g st' n (mb_data b).

  (** What the variable is to hold. *)
  Variable G : nat -> nat -> nat -> A.
  Notation leaf_ok := (AppendProofs.leaf_ok V0 G).
  Notation tree := (tree rows cols cs ss enc leaf_ok).


  (** [d]: so many levels of spans above the spans of chunks are enough for [T + n] instants. *)
  Lemma costs_dataset_append d0 name v data n T e d k st : functional st -> find_var name (ds_vars d0) = Some v ->
    va_round v = round -> va_levels v = levels -> va_chunk_size v = cs -> va_span_size v = ss -> va_enc v = enc ->
    tree st (va_cid v) T e -> a3_shape data = (n, rows, cols) ->
    same (a3_at data) (fun t => G (T + t)) n -> G_ok cs chunk_ok G (T + n) -> T + n <= N -> (e = 0 -> T = 0) -> T + n <= cs * ss ^ S d ->
    costs (parts (T mod cs + n) cs * S (chunk_objects levels) + (parts (T + n) (cs * ss) - parts T (cs * ss)) * (2 * d + 2) + (d + 1) + k) (fun _ => k) (dataset_append hash lc D order fuel d0 name data) st.
  Proof.
    intros HF Hv Er El Ecs Ess Eenc HT Es HS HG HN He0 Hd. unfold dataset_append. rewrite Hv, Ecs.
    destruct (tree_multiple rows cols cs ss enc leaf_ok Hcs Hss st _ T e HF HT) as (j & Hj & Hm).
    assert (Ep : T mod cs = e mod cs).
    { rewrite Hj at 1. rewrite Nat.add_comm, Nat.mod_add by lia. apply Nat.mod_mod. lia. }
    assert (Mb : forall data0, mono (let '(n0, rows0, cols0) := a3_shape data0 in var_append hash (build_chunk hash lc D v data0) v n0 rows0 cols0 true)).
    { intros data0. destruct (a3_shape data0) as [[n0 h0] w0]. apply mono_var_append. intros; apply mono_build. }
    assert (Hvar : forall data0 base n0 (upd : bool), a3_shape data0 = (n0, rows, cols) -> T = base + (if upd then e mod cs else 0) ->
      (if upd then e mod cs <> 0 /\ e mod cs <= n0 else e mod cs = 0) -> (exists j, base = j * cs) -> base + n0 = T + n ->
      same (a3_at data0) (fun t => G (base + t)) n0 ->
      costs (parts n0 cs * S (chunk_objects levels) + (parts (T + n) (cs * ss) - parts T (cs * ss)) * (2 * d + 2) + (d + 1) + k) (fun _ => k) (var_append hash (build_chunk hash lc D v data0) v n0 rows cols upd) st).
    { intros data0 base n0 upd Es0 HT1 HT2 (j0 & Hj0) Hb HS0. rewrite <- Hb at 1.
      apply (costs_var_append hash rows cols cs ss enc leaf_ok Hhash Hcs Hss Fr Fc Fcs Fss N FN d (T + n) Hd v (build_chunk hash lc D v data0) base n0
        (chunk_objects levels) Ecs Ess Eenc) with (T := T) (e := e); auto.
      - intros; apply mono_build.
      - rewrite Hb. exact HN.
      - rewrite Hb. apply Nat.le_refl.
      - intros. rewrite <- El. apply costs_build_chunk.
      - intros st1 start len _ (i & Hi) Hst Hlen.
        apply (ok_build hash lc D eqv rows cols cs levels round eqv_sym chunk_ok V0 chunk_ok_same V0_same Hbuild G v data0 base n0); auto; [clear -Hlen Hst Hcs; lia|clear -Hlen Hst; lia| |].
        + intros t r c Ht Hr' Hc'. rewrite <- Nat.add_assoc. apply HS0; auto. clear -Ht Hlen Hst; lia.
        + rewrite <- Hb in HG. specialize (HG (j0 + i)). replace ((j0 + i) * cs) with (base + start) in HG by (clear -Hj0 Hi; lia).
          replace len with (Nat.min cs (base + n0 - (base + start))) by (clear -Hlen; lia). apply HG. clear -Hst; lia.
      - exists j0. exact Hj0. }
    eapply costs_bind_ok; [apply mono_tail_data| |apply (ok_tail_data rows cols cs ss enc leaf_ok Hcs Hss st _ T e HF HT)|apply costs_still, still_tail_data|].
    { intros tail. apply mono_bind; [|intros; apply mono_ret]. destruct tail as [m|].
      - apply mono_bind; [apply mono_read_tail|]. intros a. apply mono_bind; [apply mono_lift|exact Mb].
      - destruct (a3_shape data) as [[n0 h0] w0]. apply mono_var_append. intros; apply mono_build. }
    intros tail st1 _ _ (-> & Ht).
    eapply costs_bind with (l := fun _ => k).
    { destruct tail as [m|].
      - apply mono_bind; [apply mono_read_tail|]. intros a. apply mono_bind; [apply mono_lift|exact Mb].
      - destruct (a3_shape data) as [[n0 h0] w0]. apply mono_var_append. intros; apply mono_build. }
    { intros; apply mono_ret. }
    - rewrite Ep. destruct tail as [m|].
      + destruct Ht as (Hp & HpT & HL). set (p := e mod cs) in *.
        eapply costs_bind_ok; [apply mono_read_tail| |
          apply (ok_read_tail hash lc D order fuel eqv rows cols cs ss levels round Horder Hfuel Hr Hc Hcs Hss chunk_ok V0 chunk_ok_same V0_same V0_view Hbuild G st (T - p) p m HF); [lia|exact HL]|apply costs_still; reflexivity|].
        { intros a. apply mono_bind; [apply mono_lift|exact Mb]. }
        intros a st1 _ _ (-> & Ea & Ha). unfold join3 at 1. rewrite Ea, Es, !Nat.eqb_refl. cbn [andb].
        apply costs_lift_bind; [exact Mb|]. intros a' Ea'. injection Ea' as <-. cbn [a3_shape].
        apply (Hvar _ (T - p) (p + n) true); auto; cbn [a3_shape a3_at]; try (fold p; clear -Hp HpT; lia).
        * fold p. exists j. clear -Hj. lia.
        * intros t r c Ht Hr' Hc'. cbn [a3_at]. destruct (Nat.ltb_spec t p) as [L|L]; [apply Ha; assumption|].
          replace (T - p + t) with (T + (t - p)) by (clear -HpT L; lia). apply HS; auto. clear -Ht L; lia.
      + rewrite Es, Ht. cbn [Nat.add]. apply (Hvar data T n false); auto. exists j. rewrite Hj at 1. rewrite Ht. apply Nat.add_0_r.
    - intros c st' _ _ _. apply costs_ret. apply Nat.le_refl.
  Qed.
End Append.
