(** * Superchunks of integers: when building succeeds, and searching. *)
From Verif Require Import Base BaseFacts Spec GeomModel GeomProofs BitmapModel DacModel DacProofs StreamModel
  StreamProofs SnapshotModel SnapshotProofs ChunkModel ChunkProofs ChunkReads ChunkStream NodeModel NodeProofs SuperModel SuperViews SuperProofs.
Ltac Zify.zify_post_hook ::= Z.div_mod_to_equations.
Arguments Nat.pow : simpl never.

(** ** Minimum and maximum *)

Lemma minmax_fold l : forall a b : Z,
  let r := fold_left (fun '(mn, mx) x => (if x <? mn then x else mn, if mx <? x then x else mx)%Z) l (a, b) in
  (fst r <= a)%Z /\ (b <= snd r)%Z /\ (forall x, In x l -> fst r <= x <= snd r)%Z /\
  (fst r = a \/ In (fst r) l) /\ (snd r = b \/ In (snd r) l).
Proof.
  induction l as [|x l IH]; intros a b; cbn [fold_left].
  - cbn. repeat split; try lia; auto; destruct H.
  - destruct (IH (if (x <? a)%Z then x else a) (if (b <? x)%Z then x else b)) as (H1 & H2 & H3 & H4 & H5).
    set (r := fold_left _ l _) in *. cbv zeta.
    assert (A1 : ((if (x <? a)%Z then x else a) <= a /\ (if (x <? a)%Z then x else a) <= x)%Z) by (destruct (Z.ltb_spec x a); lia).
    assert (A2 : (b <= (if (b <? x)%Z then x else b) /\ x <= (if (b <? x)%Z then x else b))%Z) by (destruct (Z.ltb_spec b x); lia).
    split; [lia|]. split; [lia|]. split.
    { intros y [<-|Hy]; [lia|]. specialize (H3 y Hy). lia. }
    split.
    + destruct H4 as [H4|H4]; [|right; right; exact H4]. rewrite H4. destruct (x <? a)%Z; [right; left|left]; reflexivity.
    + destruct H5 as [H5|H5]; [|right; right; exact H5]. rewrite H5. destruct (b <? x)%Z; [right; left|left]; reflexivity.
Qed.

Lemma int_minmax_spec l mn mx : int_minmax l = Ok (mn, mx) ->
  In mn l /\ In mx l /\ forall x, In x l -> (mn <= x <= mx)%Z.
Proof.
  destruct l as [|v l]; [discriminate|]. unfold int_minmax.
  pose proof (minmax_fold (v :: l) v v) as H. cbv zeta in H.
  destruct (fold_left _ (v :: l) (v, v)) as [a b]. cbn [fst snd] in H. intros E. injection E as <- <-.
  destruct H as (_ & _ & H3 & H4 & H5).
  split; [destruct H4 as [->|H4]; [left; reflexivity|exact H4]|]. split; [destruct H5 as [->|H5]; [left; reflexivity|exact H5]|]. exact H3.
Qed.

Lemma int_minmax_some l : l <> [] -> exists p, int_minmax l = Ok p.
Proof. destruct l as [|v l]; [congruence|]. intros _. unfold int_minmax. eauto. Qed.

Lemma in_instant_inv {A} (g : nat -> nat -> nat -> A) t h w x : In x (instant_values g t h w) ->
  exists r c, r < h /\ c < w /\ x = g t r c.
Proof.
  unfold instant_values. intros H. apply in_map_iff in H. destruct H as ([r c] & <- & Hrc). apply in_prod_iff in Hrc.
  rewrite !in_seq in Hrc. exists r, c. cbn [fst snd]. repeat split; lia.
Qed.

Lemma int_single enc : single_ok (int_elem enc).
Proof.
  intros b x a a' H. apply int_minmax_spec in H. destruct H as ([->|[]] & [->|[]] & _). reflexivity.
Qed.

Lemma diffs_fit_tile g instants rows cols top lft h w : top + h <= rows -> lft + w <= cols ->
  diffs_fit g instants rows cols -> diffs_fit (tile_of g top lft) instants h w.
Proof. intros Ht Hl Hd s t Hst Htt r c Hr Hc. unfold tile_of. apply (Hd s t Hst Htt); lia. Qed.
Lemma series_tile g instants rows cols top lft h w : top + h <= rows -> lft + w <= cols ->
  i64_series g instants rows cols -> i64_series (tile_of g top lft) instants h w.
Proof. intros Ht Hl Hd t r c Htt Hr Hc. unfold tile_of. apply Hd; lia. Qed.

Definition int_good (b : nat) (x : Z) : Prop := bits_ok b.
Lemma int_good_ok b x : int_good b x -> bits_ok b.
Proof. exact (fun H => H). Qed.
Lemma int_all_good b g instants rows cols : bits_ok b -> all_good int_good b g instants rows cols.
Proof. intros H t r c _ _ _. exact H. Qed.

Lemma int_tile_ok enc g instants h w : i64_series g instants h w -> diffs_fit g instants h w ->
  tile_ok (int_elem enc) int_good g instants h w.
Proof.
  intros Hi Hd. constructor.
  - intros b t mn mx _ Htt H. apply int_minmax_spec in H. destruct H as (H1 & H2 & H3).
    assert (R : forall x, In x (instant_values g t h w) -> i64_range x).
    { intros x Hx. apply in_instant_inv in Hx. destruct Hx as (r & c & Hr & Hc & ->). apply Hi; lia. }
    split; auto.
  - intros b m _ H t r c Ht Hr Hc. cbn [int_elem el_fixed]. f_equal.
    specialize (H t Ht). apply int_minmax_spec in H. destruct H as (_ & _ & H3).
    specialize (H3 _ (in_instant_values g t h w r c Hr Hc)). lia.
  - intros b0 b Hb H. cbn in H. injection H as <-. split; [exact Hb|]. intros _. split.
    + intros t r c Htt Hr Hc. cbn. apply Hi; lia.
    + intros s t Hst Htt r c Hr Hc. cbn. apply (Hd s t Hst Htt); lia.
Qed.

Lemma int_tiles_ok enc k lc levels : forall g instants rows cols, i64_series g instants rows cols -> diffs_fit g instants rows cols ->
  tiles_ok (int_elem enc) int_good k lc levels g instants rows cols.
Proof.
  induction levels as [|level sub IH]; intros g instants rows cols Hi Hd; cbn [tiles_ok]; [exact I|].
  intros i j Hir Hjc.
  pose proof (series_tile g instants rows cols _ _ _ _ (tile_h_in _ _ _ Hir) (tile_h_in _ _ _ Hjc) Hi) as Hit.
  pose proof (diffs_fit_tile g instants rows cols _ _ _ _ (tile_h_in _ _ _ Hir) (tile_h_in _ _ _ Hjc) Hd) as Hdt.
  split; [apply int_tile_ok; assumption|]. intros _. apply IH; assumption.
Qed.

(** ** Searching *)

(** The sub-arrays that the tree stores as chunks can be searched (C06, C09). *)
Definition constant (g : nat -> nat -> nat -> Z) (instants h w : nat) : Prop :=
  forall t, t < instants -> exists v, forall r c, r < h -> c < w -> g t r c = v.
Fixpoint leaves_searchable (k : nat) (lc : nat -> nat) (levels : list nat) (g : nat -> nat -> nat -> Z)
  (instants rows cols : nat) : Prop :=
  match levels with
  | [] => True
  | level :: sub =>
      let side := k ^ (lc (Nat.max rows cols) - level) in
      forall i j, i * side < rows -> j * side < cols ->
        let h := Nat.min side (rows - i * side) in let w := Nat.min side (cols - j * side) in
        let tile := fun t r c => g t (i * side + r) (j * side + c) in
        constant tile instants h w \/
        (if is_leaf lc sub h w then searchable_series tile instants h w
         else leaves_searchable k lc sub tile instants h w)
  end.

Section Search.
  Variables (hash : bytes -> cid) (enc : encoding) (k : nat) (lc : nat -> nat).
  Hypothesis Hhash : forall b, wf_cid (hash b).
  Hypothesis Hk : 2 <= k.
  Hypothesis Hk8 : fits8 k.
  Notation E := (int_elem enc).

  Theorem super_build_sview levels : Nat.Even k -> forall g instants rows cols bits st st2 b,
    0 < instants -> 0 < rows -> 0 < cols -> sizes_ok k lc instants (Nat.max rows cols) -> bits_ok bits ->
    i64_series g instants rows cols -> diffs_fit g instants rows cols ->
    leaves_searchable k lc levels g instants rows cols ->
    super_build hash E k lc levels g instants rows cols bits st = Ok (st2, b) ->
    forall st', incl st2 st' -> functional st' -> sview st' (S (length levels)) (mb_data b) instants rows cols g.
  Proof using Hhash Hk Hk8.
    intros Hev. induction levels as [|level sub IH]; intros g instants rows cols bits st st2 b H0 Hrows Hcols HS Hbits Hi Hd Hsr H st' HI HF.
    { cbn [super_build] in H. destruct (negb _) in H; discriminate. }
    destruct (super_build_view hash E k lc Hhash Hk Hk8 (int_single enc) int_good int_good_ok (level :: sub) Hev g instants rows cols bits st st2 b
      H0 Hrows Hcols HS (int_all_good _ _ _ _ _ Hbits) (int_tiles_ok enc k lc _ g instants rows cols Hi Hd) H) as (HWb & _).
    apply super_build_inv in H; [|exact Hk|intros; eapply super_build_incl; eassumption].
    destruct H as (Hlev & _ & st1 & tiles & s & max & min & I1 & F & SV & -> & RM & Rm & HL & Eb).
    cbn [leaves_searchable] in Hsr.
    set (total := lc (Nat.max rows cols)) in *. set (ss := k ^ level) in *. set (cs := k ^ (total - level)) in *.
    destruct (HS (Nat.max rows cols) ltac:(clear -Hrows; lia)) as [Hle Hfit]. fold total in Hle, Hfit.
    assert (Hsc : k ^ total = ss * cs). { unfold ss, cs. rewrite <- Nat.pow_add_r. f_equal. clear -Hlev. lia. }
    assert (Hcs : 0 < cs) by (assert (cs <> 0) by (apply Nat.pow_nonzero; clear -Hk; lia); clear -H; lia).
    assert (Hss : 0 < ss) by (assert (ss <> 0) by (apply Nat.pow_nonzero; clear -Hk; lia); clear -H; lia).
    assert (HR : rows <= ss * cs) by (rewrite <- Hsc; clear -Hle; lia).
    assert (HC : cols <= ss * cs) by (rewrite <- Hsc; clear -Hle; lia).
    assert (Hlen : length tiles = ss * ss) by (rewrite <- (Forall2_length _ _ _ F); apply length_grid).
    assert (HP : Forall (i64_pairs instants) tiles).
    { clear -F Hcs H0 Hi Hd Hbits. induction F as [|rc x l xs (a & b & _ & _ & T) F IH]; constructor; [|exact IH].
      eapply (tile_pairs hash E k lc int_good); try eassumption; intros Hir Hjc; [apply int_all_good; exact Hbits|].
      apply int_tile_ok; [eapply series_tile|eapply diffs_fit_tile]; try eassumption; apply tile_h_in; assumption. }
    set (S0 := mkSuper instants rows cols (k ^ total) level (ss_refs s) max min
            (hash (node_bytes (NLinks (ss_links s)))) bits (el_enc E) cs ss) in *.
    set (st2 := ss_store s ++ [(hash (node_bytes (NLinks (ss_links s))), node_bytes (NLinks (ss_links s)))]) in *.
    assert (HWl : wf_node (NLinks (ss_links s))).
    { split.
      - assert (Hnl : length (ss_links s) <= length tiles).
        { etransitivity; [apply (sv_count _ _ _ _ SV)|]. pose proof (sv_elided _ _ _ _ SV) as X. clear -X. lia. }
        rewrite Eb in HWb. destruct HWb as [HWb _]. pose proof (wsu_nrefs _ HWb) as X. cbn [S0 su_refs] in X.
        rewrite <- (Forall2_length _ _ _ (sv_refs _ _ _ _ SV)) in X. eapply fits32_le; eassumption.
      - apply Forall_forall. intros c Hc. destruct (sv_links _ _ _ _ SV c Hc) as (o & _ & Ho).
        destruct o as [y|]; [|discriminate]. injection Ho as <-. apply Hhash. }
    rewrite Eb. cbn [mb_data length].
    apply (super_sview st' (S (length sub)) S0 [] g Hcs Hss).
    cbn [S0 su_chunks_sidelen su_subsidelen su_rows su_cols su_instants]. intros i j Hir Hjc.
    assert (Hi' : i < ss) by (clear -Hir HR Hcs; nia). assert (Hj' : j < ss) by (clear -Hjc HC Hcs; nia).
    destruct (Forall2_nth_error_l _ _ _ _ _ F (nth_error_grid ss i j Hi' Hj')) as (x & Ex & sa & sb & Ia & Ib & T).
    destruct (Forall2_nth_error_l _ _ _ _ _ (sv_refs _ _ _ _ SV) Ex) as (r & Er & Hr).
    specialize (Hsr i j Hir Hjc). cbv zeta in Hsr.
    change (Nat.min cs (rows - i * cs)) with (tile_h rows cs i) in Hsr.
    change (Nat.min cs (cols - j * cs)) with (tile_h cols cs j) in Hsr.
    change (fun t r c => g t (i * cs + r) (j * cs + c)) with (tile_of g (i * cs) (j * cs)) in Hsr.
    assert (HSt : sizes_ok k lc instants (Nat.max (tile_h rows cs i) (tile_h cols cs j))).
    { eapply sizes_ok_le; [|exact HS]. pose proof (tile_h_le rows cs i). pose proof (tile_h_le cols cs j). clear -H H1. lia. }
    pose proof (series_tile g instants rows cols _ _ _ _ (tile_h_in _ _ _ Hir) (tile_h_in _ _ _ Hjc) Hi) as Hit.
    pose proof (diffs_fit_tile g instants rows cols _ _ _ _ (tile_h_in _ _ _ Hir) (tile_h_in _ _ _ Hjc) Hd) as Hdt.
    assert (Eref : nth_res (su_refs S0) (i * ss + j) = Ok r) by (apply nth_res_ok; exact Er).
    set (h := tile_h rows cs i) in *. set (w := tile_h cols cs j) in *. set (g' := tile_of g (i * cs) (j * cs)) in *.
    assert (Hh : 0 < h) by (apply tile_h_pos; assumption). assert (Hw : 0 < w) by (apply tile_h_pos; assumption).
    assert (HMM : exists mm o, x = (mm, o) /\ minmax_of E bits g' instants h w = Ok mm).
    { destruct T; cbn [fst snd] in *; subst x; eauto. exfalso. clear -H Hir Hjc. lia. }
    destruct HMM as (mm & o & -> & Em). destruct (minmax_of_nth _ _ _ _ _ _ _ Em) as [HLm Hn].
    assert (DM : forall t, t < instants -> dac_get (su_max S0) (i * ss + j + t * (ss * ss)) = Ok (snd (nth t mm (0, 0)%Z))).
    { intros t Ht. cbn [S0 su_max]. rewrite <- Hlen. apply (tile_dac tiles snd instants max (i * ss + j) (mm, o) t); auto. intros p [_ X]; exact X. }
    assert (Dm : forall t, t < instants -> dac_get (su_min S0) (i * ss + j + t * (ss * ss)) = Ok (fst (nth t mm (0, 0)%Z))).
    { intros t Ht. cbn [S0 su_min]. rewrite <- Hlen. apply (tile_dac tiles fst instants min (i * ss + j) (mm, o) t); auto. intros p [X _]; exact X. }
    assert (Hrng : forall t, t < instants -> forall r c, r < h -> c < w -> (fst (nth t mm (0, 0)%Z) <= g' t r c <= snd (nth t mm (0, 0)%Z))%Z).
    { intros t Ht r' c Hr' Hc. specialize (Hn t Ht). destruct (nth t mm (0, 0)%Z) as [mn mx]. cbn [fst snd].
      apply int_minmax_spec in Hn. destruct Hn as (_ & _ & Hn). apply Hn. apply in_instant_values; assumption. }
    (* a stored subchunk *)
    assert (G : forall y n, r = RExternal n -> nth_error (ss_links s) n = Some (mm_cid hash (mb_data y)) ->
      In (mm_cid hash (mb_data y), node_bytes (NMM (mb_data y))) (ss_store s) -> wf_mm (mb_data y) ->
      super_external st' S0 n = Ok (mb_data y)).
    { intros y n -> En Hin HW. unfold super_external. cbn [su_external S0].
      assert (EL : get_links st' (hash (node_bytes (NLinks (ss_links s)))) = Ok (ss_links s)).
      { unfold get_links. rewrite (retrieve_saved st' hash (NLinks (ss_links s)) HWl HF).
        - reflexivity.
        - apply HI. unfold st2. apply in_or_app. right. left. reflexivity. }
      rewrite EL. cbn [bind]. rewrite (nth_res_ok _ _ _ En). cbn [bind].
      unfold get_mm, mm_cid. rewrite (retrieve_saved st' hash (NMM (mb_data y)) HW HF).
      + reflexivity.
      + apply HI. unfold st2. apply in_or_app. left. exact Hin. }
    constructor.
    { intros t Ht. cbn [S0 su_instants su_subsidelen] in Ht |- *. exists (fst (nth t mm (0, 0)%Z)), (snd (nth t mm (0, 0)%Z)).
      split; [apply Dm; exact Ht|]. split; [apply DM; exact Ht|]. apply Hrng. exact Ht. }
    destruct T as [Ho _ _|mm' _ _ Em' Hu Ex' _|mm' b' y _ _ Em' Hu El Eb' Ey Ex' _|mm' b' y _ _ Em' Hu El Eb' Ey Ex']; cbn [fst snd] in *.
    - exfalso. clear -Ho Hir Hjc. lia.
    - injection Ex' as <- ->. left. unfold ref_ok in Hr. cbn [snd] in Hr. subst r. split; [exact Eref|].
      intros t Ht. cbn [S0 su_instants su_subsidelen] in Ht |- *. exists (snd (nth t mm (0, 0)%Z)). split; [apply DM; exact Ht|].
      intros r' c Hr' Hc. specialize (Hrng t Ht r' c Hr' Hc).
      assert (fst (nth t mm (0, 0)%Z) = snd (nth t mm (0, 0)%Z)).
      { rewrite Forall_forall in Hu. apply Hu, nth_In. rewrite HLm. exact Ht. }
      clear -H Hrng. lia.
    - injection Ex' as <- ->. right. right. unfold ref_ok in Hr. cbn [snd] in Hr. destruct Hr as (n & -> & En & Hin).
      pose proof (tile_two E (int_single enc) _ _ _ _ _ _ Hh Hw Em Hu) as H2.
      destruct (leaf_ok E k lc Hk Hk8 int_good int_good_ok _ instants _ _ bits b' y Hev H0 H2 HSt
        (int_tile_ok enc _ _ _ _ Hit Hdt) (int_all_good _ _ _ _ _ Hbits) Hh Hw Eb' Ey) as (HW & _).
      exists n, (mb_data y). split; [exact Eref|]. split; [apply G; auto|].
      cbn [S0 su_instants].
      destruct Hsr as [Hc|Hsr].
      { exfalso. apply Hu. apply Forall_forall. intros p Hp. apply In_nth with (d := (0, 0)%Z) in Hp. destruct Hp as (t & Ht & <-).
        rewrite HLm in Ht. specialize (Hn t Ht). destruct (nth t mm (0, 0)%Z) as [mn mx]. cbn [fst snd].
        apply int_minmax_spec in Hn. destruct Hn as (N1 & N2 & _). apply in_instant_inv in N1, N2.
        destruct N1 as (r1 & c1 & ? & ? & ->). destruct N2 as (r2 & c2 & ? & ? & ->). destruct (Hc t Ht) as (v & Hv).
        rewrite !Hv by assumption. reflexivity. }
      apply build_subchunk_leaf in El. fold h w in El. rewrite El in Hsr.
      eapply sview_le; [apply le_n_S, Nat.le_0_l|].
      cbn in Eb'. injection Eb' as <-.
      destruct (HSt (Nat.max h w) ltac:(clear -H2; lia)) as [Hle' _].
      set (e := lc (Nat.max h w)) in *.
      assert (He : 1 <= e) by (apply (pow_one_lt k); clear -H2 Hle'; lia).
      unfold leaf_build in Ey. apply bind_inv in Ey. destruct Ey as (zs & _ & Ey).
      apply bind_inv in Ey. destruct Ey as (cb & Ec & Ey). injection Ey as <-. cbn [mb_data].
      assert (Ec1 : chunk_build_e g' instants h w k e (el_enc E) bits = Ok cb) by exact Ec. clear Ec.
      destruct (chunk_build_ok g' h w k e Hk instants (el_enc E) bits H0 Hit) as (blocks & ns & nl & Ec' & HB & HT & _).
      rewrite Ec1 in Ec'. injection Ec' as ->. cbn [cb_data].
      exact (chunk_sview g' instants h w k e (el_enc E) bits blocks st' Hk He Hle' H0 Hit Hdt Hsr HB HT).
    - injection Ex' as <- ->. right. right. unfold ref_ok in Hr. cbn [snd] in Hr. destruct Hr as (n & -> & En & Hin).
      destruct (to_bits _ _ _ _ _ _ (int_tile_ok enc _ _ _ _ Hit Hdt) bits b' (int_all_good _ _ _ _ _ Hbits) Eb') as [Hb _].
      pose proof (Hb 0 0 0 H0 Hh Hw : bits_ok b') as Hb'.
      destruct (super_build_view hash E k lc Hhash Hk Hk8 (int_single enc) int_good int_good_ok sub Hev _ instants _ _ b' sa sb y H0 Hh Hw HSt (int_all_good _ _ _ _ _ Hb')
        (int_tiles_ok enc k lc _ _ _ _ _ Hit Hdt) Ey) as (HW & _).
      exists n, (mb_data y). split; [exact Eref|]. split; [apply G; auto|].
      cbn [S0 su_instants].
      destruct Hsr as [Hc|Hsr].
      { exfalso. apply Hu. apply Forall_forall. intros p Hp. apply In_nth with (d := (0, 0)%Z) in Hp. destruct Hp as (t & Ht & <-).
        rewrite HLm in Ht. specialize (Hn t Ht). destruct (nth t mm (0, 0)%Z) as [mn mx]. cbn [fst snd].
        apply int_minmax_spec in Hn. destruct Hn as (N1 & N2 & _). apply in_instant_inv in N1, N2.
        destruct N1 as (r1 & c1 & ? & ? & ->). destruct N2 as (r2 & c2 & ? & ? & ->). destruct (Hc t Ht) as (v & Hv).
        rewrite !Hv by assumption. reflexivity. }
      apply build_subchunk_leaf in El. fold h w in El. rewrite El in Hsr.
      apply (IH g' instants h w b' sa sb y H0 Hh Hw HSt Hb' Hit Hdt Hsr Ey st'); [|exact HF].
      eapply incl_tran; [exact Ib|]. eapply incl_tran; [|exact HI]. unfold st2. apply incl_appl, (sv_store _ _ _ _ SV).
  Qed.
End Search.

(** ** Building *)

(** Every sub-array that the tree splits further has levels that add up to its own depth. *)
Fixpoint levels_fit (k : nat) (lc : nat -> nat) (levels : list nat) (rows cols : nat) : Prop :=
  match levels with
  | [] => False
  | level :: sub =>
      sum_nat levels = lc (Nat.max rows cols) /\
      let side := k ^ (lc (Nat.max rows cols) - level) in
      forall i j, i * side < rows -> j * side < cols ->
        let h := Nat.min side (rows - i * side) in let w := Nat.min side (cols - j * side) in
        2 <= Nat.max h w -> is_leaf lc sub h w = true \/ levels_fit k lc sub h w
  end.

Section AnySuccess.
  Context {A : Type}.
  Variables (hash : bytes -> cid) (E : elem A) (k : nat) (lc : nat -> nat) (good : nat -> A -> Prop).
  Hypothesis Hk : 2 <= k.
  Hypothesis Hsingle : single_ok E.
  Hypothesis Hfix : forall b x, good b x -> exists z, el_fixed E b x = Ok z /\ i64_range z.
  Hypothesis Hmm : forall b l, l <> [] -> (forall x, In x l -> good b x) -> exists p, el_minmax E b l = Ok p.
  (** What an array must satisfy for the bits of its sub-arrays to be good. *)
  Variable KT : list nat -> (nat -> nat -> nat -> A) -> nat -> nat -> nat -> Prop.
  Hypothesis Hsub : forall level sub g instants rows cols, KT (level :: sub) g instants rows cols ->
    let side := k ^ (lc (Nat.max rows cols) - level) in
    forall i j, i * side < rows -> j * side < cols ->
      KT sub (tile_of g (i * side) (j * side)) instants (tile_h rows side i) (tile_h cols side j).
  Hypothesis Hbits : forall levels g instants h w b0, KT levels g instants h w -> 0 < instants -> 0 < h -> 0 < w ->
    all_good good b0 g instants h w ->
    exists b, el_bits E b0 (all_values g instants h w) = Ok b /\ all_good good b g instants h w.

  Lemma foldM_exists {S X} (f : S -> X -> res S) (l : list X) : (forall x s, In x l -> exists s', f s x = Ok s') ->
    forall s, exists s', foldM f s l = Ok s'.
  Proof using.
    clear. intros H. induction l as [|x l IH]; intros s; cbn [foldM]; [eauto|].
    destruct (H x s (or_introl eq_refl)) as (s' & ->). cbn [bind]. apply IH. intros y s2 Hy. apply H. right. exact Hy.
  Qed.

  Lemma in_all_inv (g : nat -> nat -> nat -> A) instants h w v : In v (all_values g instants h w) ->
    exists t r c, t < instants /\ r < h /\ c < w /\ v = g t r c.
  Proof using.
    clear. intros Iv. unfold all_values in Iv. apply in_flat_map in Iv. destruct Iv as (t & It & Iv). apply in_range in It.
    apply in_instant_inv in Iv. destruct Iv as (r & c & Hr & Hc & ->). exists t, r, c. repeat split; lia.
  Qed.

  Lemma gen_minmax_of bits g instants h w : 0 < h -> 0 < w -> all_good good bits g instants h w ->
    exists mm, minmax_of E bits g instants h w = Ok mm.
  Proof using Hmm.
    clear -Hmm. intros Hh Hw HG. unfold minmax_of.
    destruct (mapM_exists (fun _ _ => True) (fun t => el_minmax E bits (instant_values g t h w)) (range 0 instants)) as (mm & Em & _).
    - intros t Ht. apply in_range in Ht. destruct (Hmm bits (instant_values g t h w)) as (p & Hp); [| |exists p; auto].
      + intros C. pose proof (in_instant_values g t h w 0 0 Hh Hw) as Hin. rewrite C in Hin. destruct Hin.
      + intros x Hx. apply in_instant_inv in Hx. destruct Hx as (r & c & Hr & Hc & ->). apply HG; lia.
    - exists mm. exact Em.
  Qed.

  Lemma gen_leaf_builds g instants h w e bits : 0 < instants -> all_good good bits g instants h w ->
    exists y, leaf_build E k e g instants h w bits = Ok y.
  Proof using Hk Hfix.
    clear -Hk Hfix. intros H0 HG. unfold leaf_build.
    destruct (mapM_exists (fun _ _ => True) (el_fixed E bits) (all_values g instants h w)) as (zs & Ez & _).
    { intros x Hx. apply in_all_inv in Hx. destruct Hx as (t & r & c & Ht & Hr & Hc & ->).
      destruct (Hfix bits _ (HG t r c Ht Hr Hc)) as (z & Ez & _). exists z. auto. }
    rewrite Ez. cbn [bind].
    destruct (chunk_build_ok (fun t r c => raw_of E bits (g t r c)) h w k e Hk instants (el_enc E) bits H0) as (blocks & ns & nl & Ec & _).
    { intros t r c Ht Hr Hc. destruct (Hfix bits _ (HG t r c Ht Hr Hc)) as (z & Ez' & Hz). unfold raw_of. rewrite Ez'. exact Hz. }
    assert (Ec1 : chunk_build_e (fun t r c => raw_of E bits (g t r c)) instants h w k e (el_enc E) bits =
      Ok (mkBuilt (chunk_new blocks (el_enc E) bits) ns nl)) by exact Ec.
    rewrite Ec1. cbn [bind]. eauto.
  Qed.

  Theorem super_builds_gen levels : forall g instants rows cols bits st,
    0 < instants -> levels_fit k lc levels rows cols -> KT levels g instants rows cols -> all_good good bits g instants rows cols ->
    exists st2 b, super_build hash E k lc levels g instants rows cols bits st = Ok (st2, b).
  Proof using Hk Hsingle Hfix Hmm Hsub Hbits.
    induction levels as [|level sub IH]; intros g instants rows cols bits st H0 HF HK HG; [destruct HF|].
    destruct HF as [Hsum HF]. pose proof (Hsub _ _ _ _ _ _ HK) as HKs. cbv zeta in HF, HKs. cbn [super_build].
    set (total := lc (Nat.max rows cols)) in *.
    assert (Hlev : level <= total). { rewrite <- Hsum. unfold sum_nat. cbn [fold_right]. clear. lia. }
    destruct (Nat.eqb_spec (sum_nat (level :: sub)) total) as [_|C]; [|contradiction]. cbn [negb].
    assert (Hss : k ^ level <> 0) by (apply Nat.pow_nonzero; clear -Hk; lia).
    rewrite udiv_ok by exact Hss. cbn [bind].
    assert (Ecs : k ^ total / k ^ level = k ^ (total - level)).
    { replace total with (total - level + level) at 1 by (clear -Hlev; lia). rewrite Nat.pow_add_r. apply Nat.div_mul. exact Hss. }
    rewrite Ecs. set (cs := k ^ (total - level)) in *.
    assert (Hcs : 0 < cs) by (assert (cs <> 0) by (apply Nat.pow_nonzero; clear -Hk; lia); clear -H; lia).
    set (step := build_tile E k lc (fun g' h w b s => super_build hash E k lc sub g' instants h w b s) sub g instants rows cols bits cs).
    destruct (foldM_exists step (grid (k ^ level))) with (s := (st, @nil tile)) as ([st1 tiles] & Ef).
    { intros [i j] [s ts] _. unfold step, build_tile. cbn [fst snd].
      destruct (Nat.leb_spec rows (i * cs)) as [Ho|Hir]; cbn [orb]; [eauto|].
      destruct (Nat.leb_spec cols (j * cs)) as [Ho|Hjc]; [eauto|].
      replace (Nat.min (i * cs + cs) rows - i * cs) with (tile_h rows cs i) by (unfold tile_h; clear -Hir; lia).
      replace (Nat.min (j * cs + cs) cols - j * cs) with (tile_h cols cs j) by (unfold tile_h; clear -Hjc; lia).
      specialize (HF i j Hir Hjc). specialize (HKs i j Hir Hjc). fold (tile_h rows cs i) (tile_h cols cs j) in HF.
      pose proof (tile_h_in _ _ _ Hir) as Bi. pose proof (tile_h_in _ _ _ Hjc) as Bj. fold cs in Bi, Bj.
      set (h := tile_h rows cs i) in *. set (w := tile_h cols cs j) in *.
      assert (Hh : 0 < h) by (apply tile_h_pos; assumption). assert (Hw : 0 < w) by (apply tile_h_pos; assumption).
      set (g' := tile_of g (i * cs) (j * cs)).
      assert (HGt : all_good good bits g' instants h w).
      { intros t r c Ht Hr Hc. apply HG; [exact Ht|clear -Hr Bi; lia|clear -Hc Bj; lia]. }
      destruct (gen_minmax_of bits g' instants h w Hh Hw HGt) as (mm & Em). rewrite Em. cbn [bind].
      destruct (forallb _ mm) eqn:Eu; [eauto|].
      assert (H2 : 2 <= Nat.max h w).
      { apply (tile_two E Hsingle bits _ instants h w mm Hh Hw Em). intros C. apply forallb_uniform in C. congruence. }
      specialize (HF H2).
      assert (Hl : exists lf, build_subchunk lc sub h w = Ok lf).
      { unfold build_subchunk. destruct (length sub =? 1); [eauto|].
        destruct sub as [|x sub']; [|cbn [nth_res nth_error bind]; unfold nth_res; cbn [nth_error bind]; eauto].
        exfalso. unfold cs in *. unfold sum_nat in Hsum. cbn [fold_right] in Hsum.
        assert (X : total - level = 0) by (clear -Hsum; lia). unfold h, w, tile_h in H2. rewrite X in H2.
        change (k ^ 0) with 1 in H2. clear -H2. lia. }
      destruct Hl as (lf & El). rewrite El. cbn [bind].
      destruct (Hbits sub g' instants h w bits HKs H0 Hh Hw HGt) as (b' & Eb & HGb). rewrite Eb. cbn [bind].
      destruct lf.
      - destruct (gen_leaf_builds g' instants h w (lc (Nat.max h w)) b' H0 HGb) as (y & Ey).
        rewrite Ey. cbn [bind]. eauto.
      - apply build_subchunk_leaf in El. destruct HF as [HF|HF]; [congruence|].
        destruct (IH g' instants h w b' s H0 HF HKs HGb) as (s2 & y & Ey). rewrite Ey. cbn [bind]. eauto. }
    rewrite Ef. cbn [bind]. unfold step in Ef.
    apply (build_fold_inv hash E k lc sub g instants rows cols bits cs) in Ef.
    2:{ intros. eapply (super_build_incl hash E k lc Hk sub); eassumption. }
    destruct Ef as (xs & Et & I1 & F). cbn [app] in Et. subst tiles.
    assert (HL' : Forall (fun mm => length mm = instants) (map fst xs)).
    { apply Forall_map. clear -F. induction F as [|rc x l xs (a & b & _ & _ & T) F IH]; constructor; [|exact IH].
      destruct T; subst x; cbn [fst].
      - apply repeat_length.
      - eapply (minmax_of_nth E); eassumption.
      - eapply (minmax_of_nth E); eassumption.
      - eapply (minmax_of_nth E); eassumption. }
    rewrite !(by_instant_ok instants (map fst xs)) by exact HL'. cbn [bind]. unfold save. cbn [fst snd].
    edestruct dac_of_ok as (d1 & E1 & _). rewrite E1. cbn [bind].
    edestruct dac_of_ok as (d2 & E2 & _). rewrite E2. cbn [bind]. eauto.
  Qed.
End AnySuccess.

Section Success.
  Variables (hash : bytes -> cid) (enc : encoding) (k : nat) (lc : nat -> nat).
  Hypothesis Hk : 2 <= k.
  Notation E := (int_elem enc).

  Theorem super_builds levels : forall g instants rows cols bits st,
    0 < instants -> levels_fit k lc levels rows cols -> i64_series g instants rows cols ->
    exists st2 b, super_build hash E k lc levels g instants rows cols bits st = Ok (st2, b).
  Proof using Hk.
    intros g instants rows cols bits st H0 HF Hi.
    apply (super_builds_gen hash E k lc (fun _ x => i64_range x) Hk (int_single enc)) with (KT := fun _ _ _ _ _ => True); try assumption.
    - intros b x Hx. exists x. exact (conj eq_refl Hx).
    - intros b l Hl _. exact (int_minmax_some l Hl).
    - intros. exact I.
    - intros levels' g' n h w b0 _ _ _ _ Hl. exists b0. exact (conj eq_refl Hl).
    - exact I.
  Qed.

  (** One level: every sub-array is one cell. *)
  Lemma one_level_fits level rows cols : lc (Nat.max rows cols) = level -> levels_fit k lc [level] rows cols.
  Proof using.
    clear. intros H. cbn [levels_fit]. rewrite H. split; [unfold sum_nat; cbn [fold_right]; lia|].
    intros i j _ _. rewrite Nat.sub_diag. change (k ^ 0) with 1. lia.
  Qed.

  (** Two levels: every sub-array is a chunk. *)
  Lemma two_levels_fit a b rows cols : a + b = lc (Nat.max rows cols) -> levels_fit k lc [a; b] rows cols.
  Proof using.
    clear. intros H. cbn [levels_fit]. split; [unfold sum_nat; cbn [fold_right]; lia|].
    intros i j _ _ _. left. reflexivity.
  Qed.

  (** Squares whose side is a power of the arity: any levels. *)
  Lemma square_levels_fit levels : (forall n, lc (k ^ n) = n) -> levels <> [] ->
    levels_fit k lc levels (k ^ sum_nat levels) (k ^ sum_nat levels).
  Proof using Hk.
    intros Hlc. induction levels as [|level sub IH]; intros Hne; [congruence|].
    cbn [levels_fit]. rewrite Nat.max_id, Hlc. split; [reflexivity|].
    assert (Es : sum_nat (level :: sub) = level + sum_nat sub) by reflexivity. rewrite Es.
    replace (level + sum_nat sub - level) with (sum_nat sub) by (clear; lia).
    rewrite Nat.pow_add_r. set (cs := k ^ sum_nat sub) in *.
    intros i j Hi Hj. assert (Hcs : 0 < cs) by (clear -Hi; nia).
    assert (G : forall i, i * cs < k ^ level * cs -> Nat.min cs (k ^ level * cs - i * cs) = cs).
    { intros i' Hi'. rewrite <- Nat.mul_sub_distr_r. assert (1 <= k ^ level - i') by (clear -Hi' Hcs; nia). clear -H. nia. }
    rewrite !G by assumption. intros H2. destruct sub as [|x sub'].
    - exfalso. unfold cs in H2. change (k ^ sum_nat []) with 1 in H2. clear -H2. lia.
    - right. apply IH. discriminate.
  Qed.
End Success.

(** The depths computed by the code, for a power of two cells that fits the format. *)
Lemma log_ceil_sizes k instants n : 2 <= k -> fits32 (2 * ((n * k) * (n * k)) * instants) ->
  sizes_ok k (log_ceil k) instants n.
Proof.
  intros Hk Hf m Hm. split.
  - apply log_ceil_ok. exact Hk.
  - eapply fits32_le; [|exact Hf].
    assert (Hb : k ^ log_ceil k m <= n * k).
    { destruct (Nat.eq_dec (log_ceil k m) 0) as [E|E]; [rewrite E; change (k ^ 0) with 1; nia|].
      destruct (log_ceil k m) as [|e] eqn:El; [congruence|].
      assert (k ^ e < m) by (apply log_ceil_least; [exact Hk|lia]).
      rewrite Nat.pow_succ_r'. nia. }
    assert (k ^ log_ceil k m * k ^ log_ceil k m <= n * k * (n * k)) by nia. nia.
Qed.

Lemma log_ceil_pow k n : 2 <= k -> log_ceil k (k ^ n) = n.
Proof.
  intros Hk. pose proof (log_ceil_ok k (k ^ n) Hk) as H.
  destruct (Nat.lt_trichotomy (log_ceil k (k ^ n)) n) as [C|[C|C]]; [|exact C|].
  - apply (Nat.pow_lt_mono_r k) in C; [|lia]. lia.
  - apply log_ceil_least in C; [|exact Hk]. lia.
Qed.
