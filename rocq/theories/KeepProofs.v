(** * What operations leave behind, whatever the data and whether they succeed or not. *)
From Coq Require Import Permutation.
From Verif Require Import Base BaseFacts Spec FixedModel GeomModel GeomProofs BitmapModel DacModel DacProofs StreamModel StreamProofs ChunkModel ChunkProofs
  ChunkReads ChunkStream NodeModel NodeProofs SuperModel SuperViews SuperProofs SuperLinks SuperInt ArrayModel ArrayProofs ReadRange FloatModel DatasetModel DatasetProofs
  AppendProofs.
Ltac Zify.zify_post_hook ::= Z.div_mod_to_equations.
Arguments Nat.pow : simpl never.

(** [keeps m st post]: if no two objects in the store that [m] leaves have the same
    identifier, [m] adds only proper nodes to the store, and if it succeeds, [post]
    holds of its result and of the store it leaves. *)
Definition keeps {A} (m : op A) (st : store) (post : A -> store -> Prop) : Prop :=
  functional (fst (m st)) -> grown st (fst (m st)) /\ forall x, snd (m st) = Ok x -> post x (fst (m st)).

Lemma ok_keeps {A} (m : op A) st post : ok_in m st post -> keeps m st post.
Proof. intros H HF. destruct (H HF) as (x & E & P & G). split; [exact G|]. intros y Ey. rewrite E in Ey. injection Ey as <-. exact P. Qed.
Lemma keeps_ret {A} (x : A) st (post : A -> store -> Prop) : post x st -> keeps (oret x) st post.
Proof. intros H _. split; [apply grown_refl|]. intros y Ey. injection Ey as <-. exact H. Qed.
Lemma keeps_lift {A} (r : res A) st (post : A -> store -> Prop) : (forall x, r = Ok x -> post x st) -> keeps (olift r) st post.
Proof. intros H _. split; [apply grown_refl|exact H]. Qed.
Lemma keeps_bind {A B} (m : op A) (f : A -> op B) st mid post : mono m -> (forall x, mono (f x)) ->
  keeps m st mid -> (forall x st1, incl st st1 -> functional st1 -> mid x st1 -> keeps (f x) st1 post) ->
  keeps (obind m f) st post.
Proof.
  intros Mm Mf Hm Hf HF. unfold keeps, obind in *. pose proof (mono_incl m st Mm) as Mi. destruct (m st) as [st1 r] eqn:E. cbn [fst snd] in *.
  assert (F1 : functional st1).
  { eapply functional_incl; [|exact HF]. destruct r as [x| | |]; try apply incl_refl. apply mono_incl, Mf. }
  destruct (Hm F1) as (G1 & P1). destruct r as [x| | |]; cbn [fst snd] in *; try (split; [exact G1|]; intros; discriminate).
  destruct (Hf x st1 Mi F1 (P1 x eq_refl) HF) as (G2 & P2). split; [exact (grown_trans _ _ _ G1 G2)|exact P2].
Qed.
Lemma keeps_lift_bind {A B} (r : res A) (f : A -> op B) st post : (forall x, r = Ok x -> keeps (f x) st post) -> keeps (obind (olift r) f) st post.
Proof.
  intros H. unfold keeps, obind, olift. destruct r as [x| | |]; try (intros _; split; [apply grown_refl|]; intros; discriminate).
  exact (H x eq_refl).
Qed.
Lemma keeps_post {A} (m : op A) st (post post' : A -> store -> Prop) : mono m ->
  keeps m st post -> (forall x st', incl st st' -> functional st' -> post x st' -> post' x st') -> keeps m st post'.
Proof. intros M H K HF. destruct (H HF) as (G & P). split; [exact G|]. intros x Ex. apply K; auto. apply mono_incl, M. Qed.
Lemma keeps_fold {S X} (f : S -> X -> op S) (I : S -> list X -> store -> Prop) : (forall s x, mono (f s x)) ->
  (forall s x l st, functional st -> I s (x :: l) st -> keeps (f s x) st (fun s' st' => I s' l st')) ->
  forall l s st, functional st -> I s l st -> keeps (ofold f s l) st (fun s' st' => I s' [] st').
Proof.
  intros M H. induction l as [|x l IH]; intros s st HF HI; cbn [ofold]; [apply keeps_ret; exact HI|].
  eapply keeps_bind; [apply M|intros; apply mono_ofold; exact M|apply (H s x l st HF HI)|].
  intros s' st' _ HF' HI'. apply IH; assumption.
Qed.

(** ** Building *)

(** What an element type must satisfy, whatever the values: raw values are i64s and
    numbers of bits fit a byte. *)
Record elem_ok {A} (E : elem A) (okv : A -> Prop) : Prop :=
  { eo_fixed : forall b x z, okv x -> el_fixed E b x = Ok z -> i64_range z;
    eo_bits : forall b l b', fits8 b -> el_bits E b l = Ok b' -> fits8 b' }.

Section Building.
  Context {A : Type}.
  Variables (hash : bytes -> cid) (E : elem A) (k : nat) (lc : nat -> nat) (okv : A -> Prop).
  Hypothesis Hhash : forall b, wf_cid (hash b).
  Hypothesis Hk : 2 <= k.
  Hypothesis Hk8 : fits8 k.
  Hypothesis HE : elem_ok E okv.

  Definition all_ok (g : nat -> nat -> nat -> A) (instants h w : nat) : Prop :=
    forall t r c, t < instants -> r < h -> c < w -> okv (g t r c).

  Lemma leaf_anchored g instants h w b y st : 0 < instants -> 0 < h -> 0 < w ->
    sizes_ok k lc instants (Nat.max h w) -> all_ok g instants h w -> fits8 b ->
    leaf_build E k (lc (Nat.max h w)) g instants h w b = Ok y -> anchored st (NMM (mb_data y)).
  Proof.
    intros H0 Hh Hw HS HA Hb El. pose proof (leaf_encoded E k _ g instants h w b y El) as Henc.
    destruct (HS (Nat.max h w) ltac:(lia)) as [Hle Hfit]. set (e := lc (Nat.max h w)) in *.
    assert (Hf1 : fits32 (2 * (k ^ e * k ^ e))). { eapply fits32_le; [|exact Hfit]. clear -H0. nia. }
    assert (Hfi : fits32 instants).
    { eapply fits32_le; [|exact Hfit]. assert (1 <= k ^ e * k ^ e) by (clear -Hh Hle; nia). clear -H. nia. }
    unfold leaf_build in El. apply bind_inv in El. destruct El as (zs & _ & El).
    apply bind_inv in El. destruct El as (cb & Ec & El). injection El as <-. cbn [mb_data].
    split; [|intros z []]. split; [|exact I]. cbn [wf_node wf_mm].
    refine (chunk_build_wf _ instants h w k e (el_enc E) b cb Hk (conj Hk8 (conj Hle Hf1)) _ Hfi Hb Ec).
    intros t r c Ht Hr Hc. eapply (eo_fixed _ _ HE); [apply (HA t r c Ht Hr Hc)|apply Henc; assumption].
  Qed.

  (** What the list of subarrays holds while it is made. *)
  Definition tiles_kept (instants : nat) (ts : list tile) (st : store) : Prop :=
    Forall (fun x => length (fst x) = instants /\ forall y, snd x = Some y -> anchored st (NMM (mb_data y))) ts.
  Lemma tiles_kept_incl instants ts st st' : incl st st' -> tiles_kept instants ts st -> tiles_kept instants ts st'.
  Proof. intros HI H. eapply Forall_impl; [|exact H]. intros x [H1 H2]. split; [exact H1|]. intros y Ey. eapply anchored_incl; [exact HI|auto]. Qed.
  Lemma tiles_kept_snoc instants ts mm o st : tiles_kept instants ts st -> length mm = instants ->
    (forall y, o = Some y -> anchored st (NMM (mb_data y))) -> tiles_kept instants (ts ++ [(mm, o)]) st.
  Proof. intros H1 H2 H3. apply Forall_app. split; [exact H1|]. constructor; [split; assumption|constructor]. Qed.

  Lemma mono_tile rec sub g instants rows cols bits cs ts rc : (forall g h w b, mono (rec g h w b)) ->
    mono (tile_op E k lc rec sub g instants rows cols bits cs ts rc).
  Proof.
    intros M. unfold tile_op. destruct (_ || _); [apply mono_ret|].
    apply mono_bind; [apply mono_lift|]. intros mm. destruct (forallb _ mm); [apply mono_ret|].
    apply mono_bind; [apply mono_lift|]. intros lf. apply mono_bind; [apply mono_lift|]. intros b.
    apply mono_bind; [destruct lf; [apply mono_lift|apply M]|]. intros; apply mono_ret.
  Qed.

  Lemma mono_finish level instants rows cols sidelen bits cs ss ts mx mn :
    mono (finish_op hash E level instants rows cols sidelen bits cs ss ts mx mn).
  Proof.
    intros st. unfold finish_op, save. eapply extends_trans; [apply (save_tiles_extends hash ts (mkSave st [] [] 0 0 0 0))|].
    eapply extends_trans; [eexists; reflexivity|].
    apply (mono_bind (olift (dac_of mx))); [apply mono_lift|]. intros d1. apply mono_bind; [apply mono_lift|]. intros d2. apply mono_ret.
  Qed.

  Lemma keeps_finish level total instants rows cols bits ts mx mn st : 0 < instants -> 0 < rows -> 0 < cols ->
    total = lc (Nat.max rows cols) -> level <= total -> sizes_ok k lc instants (Nat.max rows cols) -> fits8 bits ->
    tiles_kept instants ts st -> length ts = k ^ level * k ^ level ->
    by_instant instants (map fst ts) snd = Ok mx -> by_instant instants (map fst ts) fst = Ok mn ->
    keeps (finish_op hash E level instants rows cols (k ^ total) bits (k ^ (total - level)) (k ^ level) ts mx mn) st
      (fun b st' => anchored st' (NMM (mb_data b)) /\ mm_shape (mb_data b) = Ok (instants, rows, cols)).
  Proof.
    intros H0 Hr Hc -> Hlev HS Hb HT Hlen Emx Emn _. set (total := lc (Nat.max rows cols)) in *.
    destruct (HS (Nat.max rows cols) ltac:(clear -Hr; lia)) as [Hle Hfit]. fold total in Hle, Hfit.
    set (ss := k ^ level) in *. set (cs := k ^ (total - level)) in *.
    assert (Hsc : k ^ total = ss * cs). { unfold ss, cs. rewrite <- Nat.pow_add_r. f_equal. clear -Hlev. lia. }
    assert (Hcs : 0 < cs) by (assert (cs <> 0) by (apply Nat.pow_nonzero; clear -Hk; lia); clear -H; lia).
    assert (Hss : 0 < ss) by (assert (ss <> 0) by (apply Nat.pow_nonzero; clear -Hk; lia); clear -H; lia).
    assert (HRr : rows <= ss * cs) by (rewrite <- Hsc; clear -Hle; lia).
    assert (HC : cols <= ss * cs) by (rewrite <- Hsc; clear -Hle; lia).
    assert (Hssl : ss <= ss * cs) by (clear -Hcs; nia).
    assert (Hcsl : cs <= ss * cs) by (clear -Hss; nia).
    assert (Hbig : ss * cs <= 2 * (k ^ total * k ^ total) * instants).
    { rewrite Hsc. apply big_le; [clear -Hss Hcs; nia|exact H0]. }
    assert (Hbig2 : ss * ss * instants <= 2 * (k ^ total * k ^ total) * instants).
    { rewrite Hsc. apply Nat.mul_le_mono_r. transitivity (ss * cs * (ss * cs)); [apply Nat.mul_le_mono; exact Hssl|clear; lia]. }
    assert (F32 : forall x, x <= ss * cs -> fits32 x).
    { intros x Hx. eapply fits32_le; [|exact Hfit]. clear -Hx Hbig. lia. }
    assert (FD : fits32 (instants * (ss * ss))) by (eapply fits32_le; [|exact Hfit]; clear -Hbig2; lia).
    assert (HL' : Forall (fun mm : list (Z * Z) => length mm = instants) (map fst ts)).
    { apply Forall_map. eapply Forall_impl; [|exact HT]. intros x [Hx _]. exact Hx. }
    rewrite by_instant_ok in Emx, Emn by exact HL'. injection Emx as <-. injection Emn as <-.
    unfold finish_op. pose proof (save_all_ok hash st ts) as SV.
    pose proof (fun L => save_tiles_laid hash ts (mkSave st [] [] 0 0 0 0) L) as SL. cbn [ss_store ss_links] in SL.
    set (s := fold_left (save_tile hash) ts (mkSave st [] [] 0 0 0 0)) in *.
    assert (HA : Forall (fun x : tile => forall y, snd x = Some y -> anchored st (NMM (mb_data y))) ts).
    { eapply Forall_impl; [|exact HT]. intros x [_ Hx]. exact Hx. }
    assert (Hnl : length (ss_links s) <= length ts).
    { etransitivity; [apply (sv_count _ _ _ _ SV)|]. pose proof (sv_elided _ _ _ _ SV) as X. clear -X. lia. }
    assert (HWl : plain (NLinks (ss_links s))).
    { split; [|exact I]. split.
      - eapply fits32_le; [|exact Hfit]. rewrite Hlen in Hnl. clear -Hnl Hbig2 H0. nia.
      - apply Forall_forall. intros c Hx. destruct (sv_links _ _ _ _ SV c Hx) as (o & _ & Ho).
        destruct o as [y|]; [|discriminate]. injection Ho as <-. apply Hhash. }
    assert (HG : grown st (snd (save hash (ss_store s) (NLinks (ss_links s))))).
    { split.
      - intros HW1. apply written_save; [exact HWl|].
        unfold written in *. rewrite Forall_forall in *. intros p Hp. apply (sv_added _ _ _ _ SV) in Hp. destruct Hp as [Hp|(y & Hy & ->)]; [exact (HW1 p Hp)|].
        apply in_map_iff in Hy. destruct Hy as (x & Ex & Hx). exists (NMM (mb_data y)). split; [|reflexivity]. exact (proj1 (HA x Hx y Ex)).
      - intros HL. destruct (SL HL HA) as [L1 L2]; [intros c []|]. apply laid_save; [|exact L1]. split; [exact HWl|exact L2]. }
    unfold save in *. cbn [snd] in HG.
    destruct (dac_of_ok (flat_map (fun t => map (fun mm => snd (nth t mm (0, 0)%Z)) (map fst ts)) (range 0 instants))) as (d1 & E1 & R1).
    destruct (dac_of_ok (flat_map (fun t => map (fun mm => fst (nth t mm (0, 0)%Z)) (map fst ts)) (range 0 instants))) as (d2 & E2 & R2).
    unfold obind, olift, oret. rewrite E1, E2. cbn [fst snd]. split; [exact HG|]. intros b Eb. injection Eb as <-. cbn [mb_data mm_shape].
    split; [|reflexivity]. split.
    - split; [|reflexivity]. cbn [wf_node wf_mm]. split; [|split; [reflexivity|exact I]].
      constructor; cbn [su_instants su_rows su_cols su_sidelen su_levels su_chunks_sidelen su_subsidelen su_fbits su_refs su_external su_max su_min].
      + eapply fits32_le; [|exact FD]. assert (1 <= ss * ss) by (clear -Hss; nia). clear -H. nia.
      + apply F32. exact HRr.
      + apply F32. exact HC.
      + apply F32. rewrite Hsc. clear. lia.
      + eapply (fits8_levels k Hk). apply F32. exact Hssl.
      + apply F32. exact Hcsl.
      + apply F32. exact Hssl.
      + exact Hb.
      + rewrite <- (Forall2_length _ _ _ (sv_refs _ _ _ _ SV)), Hlen. eapply fits32_le; [|exact FD]. clear -H0. nia.
      + apply Forall_forall. intros r Hx. apply In_nth_error in Hx. destruct Hx as (n & En).
        destruct (Forall2_nth_error _ _ _ _ _ (sv_refs _ _ _ _ SV) En) as (x & _ & Hx). unfold ref_ok in Hx.
        destruct (snd x) as [y|].
        * destruct Hx as (m & -> & Em & _). cbn [wf_ref]. assert (m < length (ss_links s)) by (apply nth_error_Some; congruence).
          destruct HWl as [[HWl _] _]. eapply fits32_le; [|exact HWl]. clear -H. lia.
        * subst r. exact I.
      + apply Hhash.
      + eapply dac_rel_wf; [exact R1|]. rewrite map_length, by_instant_length, map_length, Hlen. exact FD.
      + eapply dac_rel_wf; [exact R2|]. rewrite map_length, by_instant_length, map_length, Hlen. exact FD.
    - cbn [refs mm_refs su_external flat_map]. intros x [<-|[]]. eexists. apply in_or_app. right. left. reflexivity.
  Qed.

  Lemma keeps_super levels : forall g instants rows cols bits st, functional st -> 0 < instants -> 0 < rows -> 0 < cols ->
    sizes_ok k lc instants (Nat.max rows cols) -> fits8 bits -> all_ok g instants rows cols ->
    keeps (super_op hash E k lc levels g instants rows cols bits) st
      (fun b st' => anchored st' (NMM (mb_data b)) /\ mm_shape (mb_data b) = Ok (instants, rows, cols)).
  Proof.
    induction levels as [|level sub IH]; intros g instants rows cols bits st HF H0 Hr Hc HS Hb HA; cbn [super_op];
      destruct (Nat.eqb_spec (sum_nat (level :: sub)) (lc (Nat.max rows cols))) as [Hsum|_] || destruct (negb _);
      cbn [negb]; try (apply keeps_lift; intros; discriminate).
    set (total := lc (Nat.max rows cols)) in *.
    assert (Hlev : level <= total). { rewrite <- Hsum. unfold sum_nat. cbn [fold_right]. clear. lia. }
    assert (Hss : k ^ level <> 0) by (apply Nat.pow_nonzero; clear -Hk; lia).
    assert (Ecs : k ^ total / k ^ level = k ^ (total - level)).
    { replace total with (total - level + level) at 1 by (clear -Hlev; lia). rewrite Nat.pow_add_r. apply Nat.div_mul. exact Hss. }
    apply keeps_lift_bind. intros cs Ecs'. rewrite udiv_ok in Ecs' by exact Hss. injection Ecs' as <-. rewrite Ecs.
    set (cs := k ^ (total - level)) in *.
    assert (Hcs : 0 < cs) by (assert (cs <> 0) by (apply Nat.pow_nonzero; clear -Hk; lia); clear -H; lia).
    assert (MT : forall ts rc, mono (tile_op E k lc (fun g' h w b => super_op hash E k lc sub g' instants h w b) sub g instants rows cols bits cs ts rc)).
    { intros ts rc. apply mono_tile. intros. apply mono_super_op. }
    assert (MR : forall ts, mono (obind (olift (by_instant instants (map fst ts) snd)) (fun max =>
       obind (olift (by_instant instants (map fst ts) fst)) (fun min => finish_op hash E level instants rows cols (k ^ total) bits cs (k ^ level) ts max min)))).
    { intros ts. apply mono_bind; [apply mono_lift|]. intros mx. apply mono_bind; [apply mono_lift|]. intros mn. apply mono_finish. }
    eapply keeps_bind; [apply mono_ofold; exact MT|exact MR| |].
    - apply (keeps_fold _ (fun ts l st' => tiles_kept instants ts st' /\ length ts + length l = k ^ level * k ^ level) MT);
        [|exact HF|split; [constructor|rewrite length_grid; reflexivity]].
      intros ts [i j] l st1 HF1 [HT Hl]. unfold tile_op. cbn [fst snd].
      assert (Hl' : forall x : tile, length (ts ++ [x]) + length l = k ^ level * k ^ level).
      { intros x. rewrite app_length. cbn [length] in *. clear -Hl. lia. }
      destruct (Nat.leb_spec rows (i * cs)) as [Hi|Hi]; cbn [orb].
      { apply keeps_ret. split; [|apply Hl']. apply tiles_kept_snoc; [exact HT|apply repeat_length|intros; discriminate]. }
      destruct (Nat.leb_spec cols (j * cs)) as [Hj|Hj].
      { apply keeps_ret. split; [|apply Hl']. apply tiles_kept_snoc; [exact HT|apply repeat_length|intros; discriminate]. }
      set (h := Nat.min (i * cs + cs) rows - i * cs). set (w := Nat.min (j * cs + cs) cols - j * cs).
      assert (Hh : 0 < h <= rows) by (unfold h; clear -Hi Hcs; lia). assert (Hw : 0 < w <= cols) by (unfold w; clear -Hj Hcs; lia).
      assert (HSt : sizes_ok k lc instants (Nat.max h w)) by (eapply sizes_ok_le; [|exact HS]; clear -Hh Hw; lia).
      assert (HAt : all_ok (tile_of g (i * cs) (j * cs)) instants h w).
      { intros t r c Ht Hr' Hc'. unfold tile_of. apply HA; [exact Ht|unfold h in Hr'; clear -Hr'; lia|unfold w in Hc'; clear -Hc'; lia]. }
      apply keeps_lift_bind. intros mm Em. destruct (minmax_of_nth _ _ _ _ _ _ _ Em) as [HLm _].
      destruct (forallb _ mm).
      { apply keeps_ret. split; [|apply Hl']. apply tiles_kept_snoc; [exact HT|exact HLm|intros; discriminate]. }
      apply keeps_lift_bind. intros lf _. apply keeps_lift_bind. intros b' Eb'. pose proof (eo_bits _ _ HE _ _ _ Hb Eb') as Hb'.
      eapply (keeps_bind _ _ _ (fun y st' => anchored st' (NMM (mb_data y)))); [destruct lf; [apply mono_lift|apply mono_super_op]|intros; apply mono_ret| |].
      + destruct lf.
        * apply keeps_lift. intros y Ey. exact (leaf_anchored _ instants h w b' y st1 H0 (proj1 Hh) (proj1 Hw) HSt HAt Hb' Ey).
        * eapply keeps_post; [apply mono_super_op|apply (IH _ instants h w b' st1 HF1 H0 (proj1 Hh) (proj1 Hw) HSt Hb' HAt)|]. intros y st' _ _ [X _]. exact X.
      + intros y st2 HI2 _ HY. apply keeps_ret. split; [|apply Hl']. apply tiles_kept_snoc; [eapply tiles_kept_incl; eassumption|exact HLm|].
        intros z Ez. injection Ez as <-. exact HY.
    - intros ts st1 HI1 HF1 [HT Hl]. apply keeps_lift_bind. intros mx Emx. apply keeps_lift_bind. intros mn Emn.
      apply keeps_finish; auto. cbn [length] in Hl. clear -Hl. lia.
  Qed.
End Building.

(** ** Appending to a tree *)
Section KeepTree.
  Variables (hash : bytes -> cid) (rows cols cs ss : nat) (enc : encoding).
  (** Nothing is asked of the contents of chunks. *)
  Definition any_leaf (_ : store) (_ _ : nat) (_ : mmstruct) : Prop := True.
  Hypothesis Hhash : forall b, wf_cid (hash b).
  Hypothesis Hcs : 1 <= cs.
  Hypothesis Hss : 2 <= ss.
  Hypothesis Fr : fits32 rows.
  Hypothesis Fc : fits32 cols.
  Hypothesis Fcs : fits32 cs.
  Hypothesis Fss : fits32 ss.
  Variable N : nat.
  Hypothesis FN : fits32 N.
  Notation leaf := (leaf rows cols any_leaf).
  Notation node := (node rows cols cs ss enc any_leaf).
  Notation tree := (tree rows cols cs ss enc any_leaf).
  Notation rest_ok := (rest_ok rows cols cs ss enc any_leaf).
  Notation ready := (ready rows cols cs ss enc any_leaf).
  Notation filled := (filled rows cols cs ss enc any_leaf).

  Section KeepSteps.
    Variables (v : variable) (build : nat -> nat -> op mmstruct) (base instants : nat).
    Hypothesis Hvc : va_chunk_size v = cs.
    Hypothesis Hvs : va_span_size v = ss.
    Hypothesis Hve : va_enc v = enc.
    Hypothesis Hbm : forall a b, mono (build a b).
    Hypothesis HN : base + instants <= N.
    Hypothesis Hbuild : forall st start len, functional st -> start < instants -> len = Nat.min cs (instants - start) ->
      keeps (build start len) st (fun m st' => leaf st' (base + start) len m).

    Lemma keeps_step st root spans upd start : functional st -> start < instants -> ready upd st (base + start) spans ->
      keeps (append_step hash build v instants rows cols (root, spans, upd) start) st
        (fun x st' => exists r sp, x = (r, sp, false) /\
           filled st' (base + Nat.min (start + cs) instants) sp /\
           (start + cs <= instants -> ready false st' (base + (start + cs)) sp)).
    Proof.
      intros HF Hst HR.
      set (len := Nat.min (start + va_chunk_size v) instants - start).
      change (append_step hash build v instants rows cols (root, spans, upd) start) with
        (obind (build start len) (fun chunk => append_step hash (fun _ _ => oret chunk) v instants rows cols (root, spans, upd) start)).
      assert (Hlen : len = Nat.min cs (instants - start)) by (unfold len; rewrite Hvc; clear -Hst; lia).
      eapply keeps_bind; [apply Hbm|intros chunk; apply mono_append_step; intros; apply mono_ret|apply (Hbuild st start len HF Hst Hlen)|].
      intros chunk st1 HI HF1 HL. apply ok_keeps.
      eapply ok_post; [apply mono_append_step; intros; apply mono_ret| |].
      - apply (ok_step hash rows cols cs ss enc any_leaf Hhash Hcs Hss Fr Fc Fcs Fss N FN v (fun _ _ => oret chunk) base instants Hvc Hvs Hve); [|exact HN|exact HF1|exact Hst| |].
        + intros a b. apply mono_ret.
        + eapply ready_incl; [exact HI|exact HF1|exact HR].
        + intros len' E. subst len'. apply ok_ret. rewrite <- Hlen. exact HL.
      - intros x st2 _ _ (r & sp & E & HA & HB). exists r, sp. split; [exact E|]. split; [apply added_filled; exact HA|exact HB].
    Qed.

    Lemma keeps_steps : forall n i st root spans upd, functional st -> i + n = (instants + cs - 1) / cs ->
      ready upd st (base + i * cs) spans -> (n = 0 -> filled st (base + instants) spans) ->
      keeps (ofold (append_step hash build v instants rows cols) (root, spans, upd) (map (fun i => i * cs) (seq i n))) st
        (fun x st' => exists r sp u, x = (r, sp, u) /\ filled st' (base + instants) sp).
    Proof.
      induction n as [|n IH]; intros i st root spans upd HF Hin HR H0; cbn [seq map ofold].
      - apply keeps_ret. exists root, spans, upd. split; [reflexivity|]. apply H0. reflexivity.
      - assert (Hi : i * cs < instants). { clear -Hin Hcs. assert (S i <= (instants + cs - 1) / cs) by lia.
          assert (cs * S i <= cs * ((instants + cs - 1) / cs)) by (apply Nat.mul_le_mono_l; assumption).
          pose proof (Nat.mul_div_le (instants + cs - 1) cs ltac:(lia)). lia. }
        eapply keeps_bind; [apply mono_append_step; exact Hbm|intros; apply mono_ofold; intros; apply mono_append_step; exact Hbm|eapply (keeps_step st root spans upd (i * cs) HF Hi HR)|].
        intros x st1 HI HF1 (r & sp & -> & Hfil & Hrdy).
        destruct (Nat.eq_dec n 0) as [->|Nn].
        + cbn [seq map ofold]. apply keeps_ret. exists r, sp, false. split; [reflexivity|].
          replace (Nat.min (i * cs + cs) instants) with instants in Hfil; [exact Hfil|].
          assert ((instants + cs - 1) / cs <= S i) by (clear -Hin; lia).
          assert (instants <= cs * ((instants + cs - 1) / cs)).
          { clear -Hcs. pose proof (Nat.mod_upper_bound (instants + cs - 1) cs ltac:(lia)). pose proof (Nat.div_mod (instants + cs - 1) cs ltac:(lia)). lia. }
          clear -H H1. nia.
        + assert (Hi' : S i * cs < instants). { clear -Hin Hcs Nn. assert (S (S i) <= (instants + cs - 1) / cs) by lia.
            assert (cs * S (S i) <= cs * ((instants + cs - 1) / cs)) by (apply Nat.mul_le_mono_l; assumption).
            pose proof (Nat.mul_div_le (instants + cs - 1) cs ltac:(lia)). lia. }
          apply IH; auto; [clear -Hin; lia| |intros; contradiction].
          replace (S i * cs) with (i * cs + cs) by (clear; lia). apply Hrdy. clear -Hi'. lia.
    Qed.

    (** The spans to go on with. *)
    Lemma tree_ready st T e m0 rest lo (upd : bool) : T = base + (if upd then e mod cs else 0) ->
      (if upd then e mod cs <> 0 /\ e mod cs <= instants else e mod cs = 0) ->
      node 0 st lo e e m0 -> rest_ok (Some (e, e)) st 0 lo rest -> lo + e = T -> ready upd st base (m0 :: rest).
    Proof.
      intros Hbase Hupd HN0 HR E. destruct (node_span _ _ _ _ _ _ _ _ _ _ _ _ HN0) as (s & -> & HS & Hi).
      exists s, rest, lo, (e / cs). split; [reflexivity|]. split; [eapply rest_none; exact HR|].
      pose proof (Nat.div_mod e cs ltac:(clear -Hcs; lia)) as Hdm. pose proof (Nat.mod_upper_bound e cs ltac:(clear -Hcs; lia)) as Hm.
      split; [destruct upd; lia|].
      destruct upd.
      - destruct HN0 as (s' & Es & _ & Hn & _ & H1 & H2 & H3 & H4). injection Es as <-.
        set (q := e / cs) in *. set (p := e mod cs) in *. clearbody p q. destruct Hupd as (Hp & Hp').
        assert (El : length (sp_spans s) = S q) by (clear -H2 H3 Hdm Hm Hp Hcs; nia).
        split; [exact HS|]. split; [clear -El H1; lia|]. split; [exact El|]. split; [clear -Hi Hdm Hm El H1 Hcs; nia|]. intros i Hi'.
        specialize (H4 i ltac:(clear -El Hi'; lia)). replace (sub_instants e cs i) with cs in H4; [exact H4|].
        unfold sub_instants. clear -Hdm Hi' Hcs. nia.
      - replace (e / cs * cs) with e by lia. exact HN0.
    Qed.

    Lemma keeps_var_append st T e : functional st -> tree st (va_cid v) T e ->
      forall upd : bool, T = base + (if upd then e mod cs else 0) -> (if upd then e mod cs <> 0 /\ e mod cs <= instants else e mod cs = 0) ->
      keeps (var_append hash build v instants rows cols upd) st (fun c st' => exists e', tree st' c (base + instants) e').
    Proof.
      intros HF HT upd Hbase Hupd. unfold var_append. rewrite Hvc.
      eapply keeps_bind; [apply mono_tail_spans| |apply ok_keeps; apply (ok_tail_spans rows cols cs ss enc any_leaf Hcs Hss st HF _ _ _ HT)|].
      { intros spans. apply mono_bind; [apply mono_lift|]. intros l.
        apply mono_bind; [apply mono_ofold; intros s x; apply mono_append_step; exact Hbm|]. intros [[r sp] u]. apply mono_save_spans. }
      intros l st1 _ _ (-> & m0 & rest & lo & -> & HN0 & HR & E).
      pose proof (tree_ready st T e m0 rest lo upd Hbase Hupd HN0 HR E) as HRd.
      apply keeps_lift_bind. intros starts Est. unfold step_starts in Est. destruct (Nat.eqb_spec cs 0); [discriminate|]. injection Est as <-.
      eapply keeps_bind; [apply mono_ofold; intros s x; apply mono_append_step; exact Hbm|intros [[r sp] u]; apply mono_save_spans| |].
      - apply (keeps_steps ((instants + cs - 1) / cs) 0 st (va_cid v) (m0 :: rest) upd HF); [reflexivity| |].
        + rewrite Nat.mul_0_l, Nat.add_0_r. exact HRd.
        + intros H0. assert (instants = 0) as Hz.
          { clear -H0 Hcs. pose proof (Nat.mod_upper_bound (instants + cs - 1) cs ltac:(lia)). pose proof (Nat.div_mod (instants + cs - 1) cs ltac:(lia)) as D. rewrite H0 in D. lia. }
          exists m0, rest, lo, e. split; [reflexivity|]. split; [eapply rest_none; exact HR|]. split; [exact HN0|].
          destruct upd; [exfalso; clear -Hupd Hz; lia|]. clear -E Hbase Hz. lia.
      - intros x st1 HI HF1 (r & sp & u & -> & m & rest1 & lo1 & n' & -> & HR1 & HN1 & E1).
        eapply keeps_post; [apply mono_save_spans|apply ok_keeps; apply (ok_save_spans hash rows cols cs ss enc any_leaf Hhash Hcs Hss Fr Fc N FN m rest1 lo1 n' st1 HN1 HR1); [clear -E1 HN; lia|exact HF1]|].
        intros c st' _ _ HT'. exists n'. rewrite <- E1. exact HT'.
    Qed.
  End KeepSteps.

  (** *** Data of another shape *)
  Variables rows' cols' : nat.
  Hypothesis Hdiff : (rows', cols') <> (rows, cols).
  Hypothesis Fr' : fits32 rows'.
  Hypothesis Fc' : fits32 cols'.

  Lemma bad_append s m n r c st post : mm_shape m = Ok (n, r, c) -> (r, c) <> (sp_rows s, sp_cols s) ->
    keeps (span_append hash s m) st post.
  Proof.
    intros Sm Hd. unfold span_append.
    eapply (keeps_bind _ _ _ (fun _ _ => True)); [mono_auto|intros _; mono_auto| |].
    - destruct (0 <? length (sp_spans s)); [|apply keeps_ret; exact I].
      apply keeps_lift_bind. intros x _. unfold keeps, obind, oload. destruct (get_mm st x) as [y| | |]; cbn [fst snd];
        try (intros _; split; [apply grown_refl|intros; discriminate]).
      unfold olift. destruct (instants_of y) as [z| | |]; cbn [fst snd];
        try (intros _; split; [apply grown_refl|intros; discriminate]).
      destruct (z =? sp_stride s); cbn [fst snd oret]; intros _; (split; [apply grown_refl|auto]).
    - intros _ st1 _ _ _. apply keeps_lift_bind. intros x Ex. rewrite Sm in Ex. injection Ex as <-.
      destruct (Nat.eqb_spec r (sp_rows s)) as [E1|]; cbn [negb orb]; [|apply keeps_lift; intros; discriminate].
      destruct (Nat.eqb_spec c (sp_cols s)) as [E2|]; cbn [negb orb]; [|apply keeps_lift; intros; discriminate].
      exfalso. apply Hd. congruence.
  Qed.

  Notation bad_span := (span_of rows' cols' cs ss enc).
  Lemma bad_open_loop : forall rest h lo0 e s lh st n post, functional st ->
    bad_span h s -> sp_instants s = 0 -> anchored st (NMM (MSpan s)) ->
    mm_shape lh = Ok (n, rows, cols) -> lo0 + strd cs ss (S h) <= N ->
    rest_ok (Some (strd cs ss (S h), e)) st h lo0 rest ->
    keeps (open_loop hash ss rows' cols' enc s lh rest) st post.
  Proof.
    induction rest as [|p rest IH]; intros h lo0 e s lh st n post HF HS Hi HA Hl HL HR; cbn [open_loop].
    all: assert (Ys : ss * sp_stride s = strd cs ss (S h)) by (rewrite (so_stride _ _ _ _ _ _ _ HS), strd_S; reflexivity).
    all: assert (Fst : fits32 (strd cs ss (S h))) by (eapply fits32_le; [|exact FN]; clear -HL; lia).
    all: rewrite ?Ys.
    - eapply (keeps_bind _ _ _ (fun _ _ => False)); [apply mono_span_append|intros; mono_auto| |intros ? ? _ _ []].
      apply (bad_append _ lh n rows cols); [exact Hl|]. cbn [span_new sp_rows sp_cols]. intros X. apply Hdiff. congruence.
    - cbn [DatasetProofs.rest_ok] in HR. destruct HR as (sp & k & lo' & -> & HSp & Hk & Hlen & Hl0 & Hfull & HNp & _ & HR).
      apply keeps_lift_bind. intros x Ex. injection Ex as <-. rewrite Hlen.
      destruct (Nat.eqb_spec (S k) ss) as [Ek|Nk].
      + eapply keeps_bind; [apply mono_span_append|intros; apply mono_open_loop| |].
        * apply ok_keeps. apply (ok_append hash rows' cols' cs ss enc any_leaf Hhash Hcs Hss Fr' Fc' (S h) (span_new rows' cols' (strd cs ss (S h)) enc) (MSpan s) 0 st
            (fun s' st' => functional st' /\ bad_span (S h) s' /\ sp_instants s' = 0 /\ anchored st' (NMM (MSpan s')))).
          -- apply span_new_of; assumption.
          -- cbn. intros X. clear -X. lia.
          -- exact HA.
          -- cbn [mm_shape]. rewrite Hi, (so_rows _ _ _ _ _ _ _ HS), (so_cols _ _ _ _ _ _ _ HS). reflexivity.
          -- apply Nat.le_0_l.
          -- cbn. eapply fits32_le; [|exact FN]. apply Nat.le_0_l.
          -- cbn. eapply fits32_le; [|exact Fss]. clear -Hss. lia.
          -- intros c st' _ HF' G HS'. cbn [span_new sp_spans sp_instants app] in *. split; [exact HF'|]. split; [exact HS'|]. split; [reflexivity|].
             split; [split; [exact (so_wf _ _ _ _ _ _ _ HS')|exact I]|]. cbn [refs mm_refs sp_spans]. intros y [<-|[]]. eapply has_get_mm, G.
        * intros s' st1 HI _ (HF1 & HS1 & Hi1 & HA1).
          replace (k * strd cs ss (S h) + strd cs ss (S h)) with (strd cs ss (S (S h))) in HNp, HR by (rewrite (strd_S cs ss (S h)), <- Ek; clear; lia).
          apply (IH (S h) lo' e s' (MSpan sp) st1 (strd cs ss (S (S h)))); auto.
          -- eapply node_shape. exact HNp.
          -- pose proof (strd_S cs ss (S h)) as Y. rewrite <- Ek in Y at 2. clear -Hl0 HL Y. lia.
          -- eapply rest_incl; [exact HI|exact HF1|exact HR].
      + eapply (keeps_bind _ _ _ (fun _ _ => False)); [apply mono_span_append|intros; mono_auto| |intros ? ? _ _ []].
        eapply (bad_append sp (MSpan s)); [cbn [mm_shape]; reflexivity|].
        rewrite (so_rows _ _ _ _ _ _ _ HS), (so_cols _ _ _ _ _ _ _ HS), (so_rows _ _ _ _ _ _ _ HSp), (so_cols _ _ _ _ _ _ _ HSp). exact Hdiff.
  Qed.

  Lemma bad_create_open_span st root T post : functional st -> tree st root T (strd cs ss 1) -> T <= N ->
    keeps (create_open_span hash ss cs rows' cols' enc root) st post.
  Proof.
    intros HF HT HL. unfold create_open_span.
    eapply keeps_bind; [apply mono_tail_spans| |apply ok_keeps; eapply (ok_tail_spans rows cols cs ss enc any_leaf Hcs Hss st HF root T _ HT)|].
    { intros [|lh rest]; [apply mono_lift|]. apply mono_bind; [apply mono_open_loop|]. intros [s' anc].
      apply mono_bind; [apply mono_update_up|intros; apply mono_save]. }
    intros l st1 _ _ (-> & lh & rest & lo & -> & HN & HR & HT').
    eapply (keeps_bind _ _ _ (fun _ _ => False)); [apply mono_open_loop| | |intros ? ? _ _ []].
    { intros [s' anc]. apply mono_bind; [apply mono_update_up|intros; apply mono_save]. }
    assert (HS : bad_span 0 (span_new rows' cols' cs enc)).
    { rewrite <- (strd_0 cs ss) at 2. apply span_new_of; [assumption|assumption|]. rewrite strd_0. exact Fcs. }
    apply (bad_open_loop rest 0 lo (strd cs ss 1) _ lh st (strd cs ss 1) _ HF HS eq_refl).
    - split; [split; [exact (so_wf _ _ _ _ _ _ _ HS)|exact I]|]. intros x [].
    - eapply node_shape. exact HN.
    - clear -HT' HL. lia.
    - exact HR.
  Qed.

  Lemma bad_var_append v (build : nat -> nat -> op mmstruct) n st T e : va_chunk_size v = cs -> va_span_size v = ss -> va_enc v = enc ->
    (forall a b, mono (build a b)) -> T + n <= N ->
    (forall st start len, functional st -> start < n -> len = Nat.min cs (n - start) ->
       keeps (build start len) st (fun m _ => mm_shape m = Ok (len, rows', cols'))) ->
    functional st -> tree st (va_cid v) T e -> e mod cs = 0 ->
    keeps (var_append hash build v n rows' cols' false) st (fun c st' => exists e', tree st' c (T + n) e').
  Proof.
    intros Hvc Hvs Hve Hbm HN Hbuild HF HT He. unfold var_append. rewrite Hvc.
    eapply keeps_bind; [apply mono_tail_spans| |apply ok_keeps; apply (ok_tail_spans rows cols cs ss enc any_leaf Hcs Hss st HF _ _ _ HT)|].
    { intros spans. apply mono_bind; [apply mono_lift|]. intros l.
      apply mono_bind; [apply mono_ofold; intros s x; apply mono_append_step; exact Hbm|]. intros [[r sp] u]. apply mono_save_spans. }
    intros l st1 _ _ (-> & m0 & rest & lo & -> & HN0 & HR & E).
    apply keeps_lift_bind. intros starts Est. unfold step_starts in Est. destruct (Nat.eqb_spec cs 0) as [|Ncs]; [discriminate|]. injection Est as <-.
    destruct (Nat.eq_dec n 0) as [->|Nn].
    - replace ((0 + cs - 1) / cs) with 0 by (symmetry; apply Nat.div_small; clear -Hcs; lia). cbn [seq map ofold].
      change (keeps (save_spans hash (m0 :: rest)) st (fun c st' => exists e', tree st' c (T + 0) e')).
      eapply keeps_post; [apply mono_save_spans|apply ok_keeps; apply (ok_save_spans hash rows cols cs ss enc any_leaf Hhash Hcs Hss Fr Fc N FN m0 rest lo e st HN0); [eapply rest_none; exact HR|clear -E HN; lia|exact HF]|].
      intros c st' _ _ HT'. exists e. rewrite Nat.add_0_r, <- E. exact HT'.
    - destruct ((n + cs - 1) / cs) as [|q] eqn:Eq.
      { exfalso. clear -Eq Nn Hcs. pose proof (Nat.mod_upper_bound (n + cs - 1) cs ltac:(lia)). pose proof (Nat.div_mod (n + cs - 1) cs ltac:(lia)) as D. rewrite Eq in D. lia. }
      eapply (keeps_bind _ _ _ (fun _ _ => False)); [apply mono_ofold; intros s x; apply mono_append_step; exact Hbm|intros [[r sp] u]; apply mono_save_spans| |intros ? ? _ _ []].
      cbn [seq map ofold].
      eapply (keeps_bind _ _ _ (fun _ _ => False)); [apply mono_append_step; exact Hbm|intros; apply mono_ofold; intros; apply mono_append_step; exact Hbm| |intros ? ? _ _ []].
      unfold append_step. rewrite Hvc, Hvs, Hve. rewrite Nat.mul_0_l, Nat.add_0_l, Nat.sub_0_r.
      eapply keeps_bind; [apply Hbm| |apply (Hbuild st 0 (Nat.min cs n) HF); [clear -Nn; lia|rewrite Nat.sub_0_r; reflexivity]|].
      { intros chunk. apply mono_bind; [apply mono_lift|]. intros s. apply mono_bind.
        - apply mono_if; [|apply mono_ret]. apply mono_bind; [apply mono_save_spans|]. intros r1.
          apply mono_bind; [apply mono_create_open_span|]. intros r2. apply mono_bind; [apply mono_tail_spans|].
          intros [|m' rest']; mono_auto.
        - intros [[r s'] rest']. apply mono_bind; [apply mono_span_append|intros; apply mono_ret]. }
      intros chunk st1 HI HF1 Sch. apply (node_incl _ _ _ _ _ _ _ _ HI HF1) in HN0. apply (rest_incl _ _ _ _ _ _ _ _ HI HF1) in HR.
      destruct (node_span _ _ _ _ _ _ _ _ _ _ _ _ HN0) as (s & -> & HS & Hi).
      apply keeps_lift_bind. intros x Ex. injection Ex as <-.
      eapply (keeps_bind _ _ _ (fun y _ => exists r rest', y = (r, s, rest'))).
      { apply mono_if; [|apply mono_ret]. apply mono_bind; [apply mono_save_spans|]. intros r1.
        apply mono_bind; [apply mono_create_open_span|]. intros r2. apply mono_bind; [apply mono_tail_spans|].
        intros [|m' rest']; mono_auto. }
      { intros [[r s'] rest']. apply mono_bind; [apply mono_span_append|intros; apply mono_ret]. }
      + destruct (Nat.eqb_spec (sp_instants s) (ss * sp_stride s)) as [Ef|Nf]; [|apply keeps_ret; eexists; eexists; reflexivity].
        assert (Ee : e = strd cs ss 1). { rewrite <- Hi, Ef, (so_stride _ _ _ _ _ _ _ HS), strd_S. reflexivity. }
        eapply keeps_bind; [apply mono_save_spans| |apply ok_keeps; apply (ok_save_spans hash rows cols cs ss enc any_leaf Hhash Hcs Hss Fr Fc N FN (MSpan s) rest lo e st1 HN0); [eapply rest_none; exact HR|clear -E HN; lia|exact HF1]|].
        { intros r1. apply mono_bind; [apply mono_create_open_span|]. intros r2. apply mono_bind; [apply mono_tail_spans|]. intros [|m' rest']; mono_auto. }
        intros r1 st2 HI2 HF2 HT2. rewrite Ee in HT2.
        eapply (keeps_bind _ _ _ (fun _ _ => False)); [apply mono_create_open_span| | |intros ? ? _ _ []].
        { intros r2. apply mono_bind; [apply mono_tail_spans|]. intros [|m' rest']; mono_auto. }
        eapply bad_create_open_span; [exact HF2|exact HT2|rewrite <- Ee; clear -E HN; lia].
      + intros y st2 _ _ (r & rest' & ->).
        eapply (keeps_bind _ _ _ (fun _ _ => False)); [apply mono_span_append|intros; apply mono_ret| |intros ? ? _ _ []].
        eapply bad_append; [exact Sch|]. rewrite (so_rows _ _ _ _ _ _ _ HS), (so_cols _ _ _ _ _ _ _ HS). exact Hdiff.
  Qed.
End KeepTree.

(** ** Appending to a dataset *)

(** Values read back, and values of the element types. *)
Lemma run3_all {A} (R : reader A) (P : A -> Prop) : forall l a a' n h w, a3_shape a = (n, h, w) -> (forall t r c, P (a3_at a t r c)) ->
  Forall (fun x : call => P (rd_set R (snd (snd x)) (fst (snd x)))) l -> run3 R a l = Ok a' ->
  a3_shape a' = (n, h, w) /\ forall t r c, P (a3_at a' t r c).
Proof.
  unfold run3. induction l as [|[[[t r] c] [v b]] l IH]; intros a a' n h w HS HP HL H; cbn [foldM] in H; [injection H as <-; auto|].
  apply bind_inv in H. destruct H as (a1 & E & H). inversion_clear HL as [|? ? H1 HL']. cbn [fst snd] in H1.
  unfold write3 in E. rewrite HS in E. destruct (_ && _); [|discriminate]. injection E as <-.
  eapply (fun X Y => IH _ a' n h w X Y HL' H); [reflexivity|]. cbn [a3_at]. intros t' r' c'. destruct (_ && _); [exact H1|apply HP].
Qed.
