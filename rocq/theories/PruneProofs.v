(** * A search does not go into sub-arrays that cannot hold a match *)
From Verif Require Import Base BaseFacts Spec GeomModel GeomProofs BitmapModel DacModel StreamModel StreamProofs ChunkModel ChunkStream ChunkReads
  NodeModel NodeProofs SuperModel SuperViews SuperProofs SuperInt RequestModel RequestProofs RequestReach.
Ltac Zify.zify_post_hook ::= Z.div_mod_to_equations.
Arguments Nat.pow : simpl never.

(** An object that a search asks for holds, at one of the instants searched, a cell that is
    not above the bounds and a cell that is not below them. *)
Definition prunes (st : store) (m : mmstruct) (n rows cols : nat) (f : nat -> nat -> nat -> Z) : Prop :=
  forall fuel b lower upper x, cells_in b -> c_end b <= n -> c_bottom b <= rows -> c_right b <= cols ->
    In x (asked st (ask_search fuel m b lower upper)) ->
    exists t r1 c1 r2 c2, c_start b <= t < c_end b /\ (r1 < rows /\ c1 < cols) /\ (r2 < rows /\ c2 < cols) /\
      (f t r1 c1 <= Z.max lower upper)%Z /\ (Z.min lower upper <= f t r2 c2)%Z /\
      forall bits, In x (asked st (ask_get fuel m t r1 c1 bits)) /\ In x (asked st (ask_get fuel m t r2 c2 bits)).

Lemma prunes_ext st m n rows cols f g : (forall t r c, t < n -> r < rows -> c < cols -> f t r c = g t r c) ->
  prunes st m n rows cols f -> prunes st m n rows cols g.
Proof.
  intros HE HP fuel b lower upper x HB B1 B2 B3 H. destruct (HP fuel b lower upper x HB B1 B2 B3 H) as (t & r1 & c1 & r2 & c2 & Ht & [R1 C1] & [R2 C2] & L1 & L2 & HA).
  exists t, r1, c1, r2, c2. rewrite <- !HE by (assumption || lia). auto 8.
Qed.
Lemma prunes_chunk st c n rows cols f : prunes st (MSub c) n rows cols f.
Proof. intros fuel b lower upper x _ _ _ _ H. destruct fuel; destruct H. Qed.

Lemma has_cells_true s idx lower upper : forall n start,
  has_cells s (idx + start * (su_subsidelen s * su_subsidelen s)) n lower upper = Ok true ->
  exists t mn mx, start <= t < start + n /\
    dac_get (su_min s) (idx + t * (su_subsidelen s * su_subsidelen s)) = Ok mn /\
    dac_get (su_max s) (idx + t * (su_subsidelen s * su_subsidelen s)) = Ok mx /\ (mn <= upper /\ lower <= mx)%Z.
Proof.
  induction n as [|n IH]; intros start H; cbn [has_cells] in H; [discriminate|].
  apply bind_inv in H. destruct H as (mn & E1 & H). apply bind_inv in H. destruct H as (mx & E2 & H).
  destruct ((mn <=? upper) && (lower <=? mx))%Z eqn:Eb.
  - apply andb_true_iff in Eb. destruct Eb as [Eb1 Eb2]. exists start, mn, mx. split; [lia|]. split; [exact E1|]. split; [exact E2|]. lia.
  - replace (idx + start * (su_subsidelen s * su_subsidelen s) + su_subsidelen s * su_subsidelen s)
      with (idx + S start * (su_subsidelen s * su_subsidelen s)) in H by (cbn [Nat.mul]; lia).
    destruct (IH _ H) as (t & mn' & mx' & Ht & R). exists t, mn', mx'. split; [lia|exact R].
Qed.

Record tile_prunes (st : store) (s : super) (local : list mmstruct) (idx h w : nat) (f : nat -> nat -> nat -> Z) : Prop :=
  { tp_range : forall t, t < su_instants s -> exists r1 c1 r2 c2, (r1 < h /\ c1 < w) /\ (r2 < h /\ c2 < w) /\
      dac_get (su_min s) (idx + t * (su_subsidelen s * su_subsidelen s)) = Ok (f t r1 c1) /\
      dac_get (su_max s) (idx + t * (su_subsidelen s * su_subsidelen s)) = Ok (f t r2 c2);
    tp_local : forall k m, nth_res (su_refs s) idx = Ok (RLocal k) -> nth_res local k = Ok m -> prunes st m (su_instants s) h w f;
    tp_external : forall k m, nth_res (su_refs s) idx = Ok (RExternal k) -> super_external st s k = Ok m -> prunes st m (su_instants s) h w f }.

Section Super.
  Variables (st : store) (s : super) (local : list mmstruct) (f : nat -> nat -> nat -> Z).
  Notation cs := (su_chunks_sidelen s).
  Notation ss := (su_subsidelen s).
  Notation n := (su_instants s).
  Notation rows := (su_rows s).
  Notation cols := (su_cols s).
  Hypothesis Htiles : forall i j, i * cs < rows -> j * cs < cols ->
    tile_prunes st s local (i * ss + j) (tile_h rows cs i) (tile_h cols cs j) (tile_of f (i * cs) (j * cs)).

  Lemma in_tile cells side i x : i * side < cells -> x < tile_h cells side i -> x < side /\ i * side + x < cells.
  Proof using. unfold tile_h. generalize (i * side). clear. intros y. lia. Qed.
  Lemma local_within side b i cells : b <= cells -> Nat.min side (b - i * side) <= tile_h cells side i.
  Proof using. unfold tile_h. generalize (i * side). clear. intros y. lia. Qed.

  Lemma super_prunes : prunes st (MSuper s local) n rows cols f.
  Proof using Htiles.
    intros fuel b lower upper x (B1 & B2 & B3) N1 N2 N3 H. destruct fuel as [|fuel]; [destruct H|]. cbn [ask_search] in H. rewrite rearrangeZ_spec in H.
    set (lo := Z.min lower upper) in *. set (up := Z.max lower upper) in *.
    assert (Hlu : (Z.min lo up = lo /\ Z.max lo up = up)%Z) by (unfold lo, up; clear; lia). destruct Hlu as [Hlo Hup].
    apply asked_pure in H. destruct H as (subs & Es & H). unfold cube_rect in Es. rewrite rect_new_ordered in Es by lia.
    apply subs_in in Es; [|lia|lia]. destruct Es as (Hs & HP). apply asked_one in H. destruct H as (sw & Hin & H). apply HP in Hin.
    destruct Hin as (i & j & -> & I1 & I2 & J1 & J2). cbv zeta in H. apply asked_pure in H. destruct H as (some & Eh & H). destruct some; [|destruct H].
    unfold sub_at in H, Eh. cbn [sw_local sw_index sw_slice sw_chunk r_top r_bottom r_left r_right] in H, Eh.
    set (side := su_chunks_sidelen s) in *. pose proof (local_some side _ _ i Hs B2 I1 I2) as S1. pose proof (local_some side _ _ j Hs B3 J1 J2) as S2.
    rewrite cube_new_ordered in H by (first [exact (Nat.lt_le_incl _ _ B1)|exact (Nat.lt_le_incl _ _ S1)|exact (Nat.lt_le_incl _ _ S2)]).
    rewrite asked_asked_map in H. apply asked_pure in H. destruct H as (ref & E' & H).
    assert (Hir : i * side < rows) by (revert I1 N2; clear; lia). assert (Hjc : j * side < cols) by (revert J1 N3; clear; lia).
    destruct (Htiles i j Hir Hjc) as [TR TL TE]. fold side in TR, TL, TE.
    set (h := tile_h rows side i) in *. set (w := tile_h cols side j) in *.
    set (lb := mkCube _ _ _ _ _ _) in H.
    assert (K : forall m', prunes st m' n h w (tile_of f (i * side) (j * side)) -> In x (asked st (ask_search fuel m' lb lo up)) ->
      exists t r1 c1 r2 c2, c_start b <= t < c_end b /\ (r1 < h /\ c1 < w) /\ (r2 < h /\ c2 < w) /\
        (f t (i * side + r1) (j * side + c1) <= up)%Z /\ (lo <= f t (i * side + r2) (j * side + c2))%Z /\
        forall bits, In x (asked st (ask_get fuel m' t r1 c1 bits)) /\ In x (asked st (ask_get fuel m' t r2 c2 bits))).
    { intros m' Hm Hx. apply Hm in Hx.
      - rewrite Hlo, Hup in Hx. exact Hx.
      - split; [exact B1|split; [exact S1|exact S2]].
      - exact N1.
      - cbn [lb c_bottom]. apply local_within. exact N2.
      - cbn [lb c_right]. apply local_within. exact N3. }
    (* from the tile to the array *)
    assert (U : forall t r1 c1 r2 c2, c_start b <= t < c_end b -> r1 < h /\ c1 < w -> r2 < h /\ c2 < w ->
      (f t (i * side + r1) (j * side + c1) <= up)%Z -> (lo <= f t (i * side + r2) (j * side + c2))%Z ->
      (forall r c bits, r < h -> c < w -> (r, c) = (r1, c1) \/ (r, c) = (r2, c2) -> In x (asked st (ask_get (S fuel) (MSuper s local) t (i * side + r) (j * side + c) bits))) ->
      exists t r1 c1 r2 c2, c_start b <= t < c_end b /\ (r1 < rows /\ c1 < cols) /\ (r2 < rows /\ c2 < cols) /\
        (f t r1 c1 <= up)%Z /\ (lo <= f t r2 c2)%Z /\
        forall bits, In x (asked st (ask_get (S fuel) (MSuper s local) t r1 c1 bits)) /\ In x (asked st (ask_get (S fuel) (MSuper s local) t r2 c2 bits))).
    { intros t r1 c1 r2 c2 Ht [R1 C1] [R2 C2] L1 L2 HA. exists t, (i * side + r1), (j * side + c1), (i * side + r2), (j * side + c2).
      split; [exact Ht|]. split; [split; [apply (in_tile rows side i r1 Hir R1)|apply (in_tile cols side j c1 Hjc C1)]|].
      split; [split; [apply (in_tile rows side i r2 Hir R2)|apply (in_tile cols side j c2 Hjc C2)]|]. split; [exact L1|]. split; [exact L2|].
      intros bits. split; apply HA; auto. }
    assert (Q : forall r c, r < h -> c < w -> r < side /\ c < side).
    { intros r c Hr Hc. split; [apply (in_tile rows side i r Hir Hr)|apply (in_tile cols side j c Hjc Hc)]. }
    destruct ref as [|k|k]; [destruct H| |].
    - apply asked_pure in H. destruct H as (m' & G & H). apply asked_then in H. destruct H as [H|(l & _ & H)]; [|destruct H].
      apply (K m' (TL k m' E' G)) in H. destruct H as (t & r1 & c1 & r2 & c2 & Ht & H1 & H2 & L1 & L2 & HA).
      apply (U t r1 c1 r2 c2 Ht H1 H2 L1 L2). intros r c bits Hr Hc Hrc. destruct (Q r c Hr Hc) as [Qr Qc].
      eapply get_super; [exact Hs|reflexivity|reflexivity|exact Qr|exact Qc|exact E'|]. exists m'. split; [exact G|].
      destruct Hrc as [Hrc|Hrc]; injection Hrc as -> ->; apply HA.
    - apply asked_then in H. destruct H as [H|(m' & G & H)].
      + apply has_cells_true in Eh. destruct Eh as (t & mn & mx & Ht & E1 & E2 & L1 & L2).
        destruct (TR t ltac:(lia)) as (r1 & c1 & r2 & c2 & H1 & H2 & D1 & D2). rewrite D1 in E1. rewrite D2 in E2. injection E1 as <-. injection E2 as <-.
        apply (U t r1 c1 r2 c2 ltac:(lia) H1 H2 L1 L2). intros r c bits Hr Hc _. destruct (Q r c Hr Hc) as [Qr Qc].
        eapply get_super; [exact Hs|reflexivity|reflexivity|exact Qr|exact Qc|exact E'|]. left. exact H.
      + rewrite store_external in G. apply asked_then in H. destruct H as [H|(l & _ & H)]; [|destruct H].
        apply (K m' (TE k m' E' G)) in H. destruct H as (t & r1 & c1 & r2 & c2 & Ht & H1 & H2 & L1 & L2 & HA).
        apply (U t r1 c1 r2 c2 Ht H1 H2 L1 L2). intros r c bits Hr Hc Hrc. destruct (Q r c Hr Hc) as [Qr Qc].
        eapply get_super; [exact Hs|reflexivity|reflexivity|exact Qr|exact Qc|exact E'|]. right. exists m'. split; [exact G|].
        destruct Hrc as [Hrc|Hrc]; injection Hrc as -> ->; apply HA.
  Qed.
End Super.

(** ** Built superchunks *)
Section Build.
  Variables (hash : bytes -> cid) (enc : encoding) (k : nat) (lc : nat -> nat).
  Hypothesis Hhash : forall b, wf_cid (hash b).
  Hypothesis Hk : 2 <= k.
  Hypothesis Hk8 : fits8 k.
  Notation E := (int_elem enc).

  Theorem super_build_prunes levels : Nat.Even k -> forall g instants rows cols bits st st2 b,
    0 < instants -> 0 < rows -> 0 < cols -> sizes_ok k lc instants (Nat.max rows cols) -> bits_ok bits ->
    i64_series g instants rows cols -> diffs_fit g instants rows cols ->
    super_build hash E k lc levels g instants rows cols bits st = Ok (st2, b) ->
    forall st', incl st2 st' -> functional st' -> prunes st' (mb_data b) instants rows cols g.
  Proof using Hhash Hk Hk8.
    intros Hev. induction levels as [|level sub IH]; intros g instants rows cols bits st st2 b H0 Hrows Hcols HS Hbits Hi Hd H st' HI HF.
    { cbn [super_build] in H. destruct (negb _) in H; discriminate. }
    destruct (super_build_view hash E k lc Hhash Hk Hk8 (int_single enc) int_good int_good_ok (level :: sub) Hev g instants rows cols bits st st2 b
      H0 Hrows Hcols HS (int_all_good _ _ _ _ _ Hbits) (int_tiles_ok enc k lc _ g instants rows cols Hi Hd) H) as (HWb & _).
    apply super_build_inv in H; [|exact Hk|intros; eapply super_build_incl; eassumption].
    destruct H as (Hlev & _ & st1 & tiles & s & max & min & I1 & F & SV & -> & RM & Rm & HL & Eb).
    set (total := lc (Nat.max rows cols)) in *. set (ss := k ^ level) in *. set (cs := k ^ (total - level)) in *.
    destruct (HS (Nat.max rows cols) ltac:(clear -Hrows; lia)) as [Hle Hfit]. fold total in Hle, Hfit.
    assert (Hsc : k ^ total = ss * cs). { unfold ss, cs. rewrite <- Nat.pow_add_r. f_equal. clear -Hlev. lia. }
    assert (Hcs : 0 < cs) by (assert (cs <> 0) by (apply Nat.pow_nonzero; clear -Hk; lia); clear -H; lia).
    assert (HR : rows <= ss * cs) by (rewrite <- Hsc; clear -Hle; lia).
    assert (HC : cols <= ss * cs) by (rewrite <- Hsc; clear -Hle; lia).
    assert (Hlen : length tiles = ss * ss) by (rewrite <- (Forall2_length _ _ _ F); apply length_grid).
    assert (HP : Forall (i64_pairs instants) tiles).
    { clear -F Hcs H0 Hi Hd Hbits. induction F as [|rc x l xs (a & b & _ & _ & T) F IH]; constructor; [|exact IH].
      eapply (tile_pairs hash E k lc int_good); try eassumption; intros Hir Hjc; [apply int_all_good; exact Hbits|].
      apply int_tile_ok; [eapply series_tile|eapply diffs_fit_tile]; try eassumption; apply tile_h_in; assumption. }
    set (S0 := mkSuper instants rows cols (k ^ total) level (ss_refs s) max min
            (hash (node_bytes (NLinks (ss_links s)))) bits (el_enc E) cs ss) in *.
    set (st2 := ss_store s ++ [(hash (node_bytes (NLinks (ss_links s))), node_bytes (NLinks (ss_links s)))]) in *.
    assert (HWl : wf_node (NLinks (ss_links s))).
    { split.
      - assert (Hnl : length (ss_links s) <= length tiles).
        { etransitivity; [apply (sv_count _ _ _ _ SV)|]. pose proof (sv_elided _ _ _ _ SV) as X. clear -X. lia. }
        rewrite Eb in HWb. destruct HWb as [HWb _]. pose proof (wsu_nrefs _ HWb) as X. cbn [S0 su_refs] in X.
        rewrite <- (Forall2_length _ _ _ (sv_refs _ _ _ _ SV)) in X. eapply fits32_le; eassumption.
      - apply Forall_forall. intros c Hc. destruct (sv_links _ _ _ _ SV c Hc) as (o & _ & Ho).
        destruct o as [y|]; [|discriminate]. injection Ho as <-. apply Hhash. }
    rewrite Eb. cbn [mb_data length].
    apply (super_prunes st' S0 [] g).
    cbn [S0 su_chunks_sidelen su_subsidelen su_rows su_cols su_instants]. intros i j Hir Hjc.
    assert (Hi' : i < ss) by (clear -Hir HR Hcs; nia). assert (Hj' : j < ss) by (clear -Hjc HC Hcs; nia).
    destruct (Forall2_nth_error_l _ _ _ _ _ F (nth_error_grid ss i j Hi' Hj')) as (x & Ex & sa & sb & Ia & Ib & T).
    destruct (Forall2_nth_error_l _ _ _ _ _ (sv_refs _ _ _ _ SV) Ex) as (r & Er & Hr).
    assert (HSt : sizes_ok k lc instants (Nat.max (tile_h rows cs i) (tile_h cols cs j))).
    { eapply sizes_ok_le; [|exact HS]. pose proof (tile_h_le rows cs i). pose proof (tile_h_le cols cs j). clear -H H1. lia. }
    pose proof (series_tile g instants rows cols _ _ _ _ (tile_h_in _ _ _ Hir) (tile_h_in _ _ _ Hjc) Hi) as Hit.
    pose proof (diffs_fit_tile g instants rows cols _ _ _ _ (tile_h_in _ _ _ Hir) (tile_h_in _ _ _ Hjc) Hd) as Hdt.
    assert (Eref : nth_res (su_refs S0) (i * ss + j) = Ok r) by (apply nth_res_ok; exact Er).
    set (h := tile_h rows cs i) in *. set (w := tile_h cols cs j) in *. set (g' := tile_of g (i * cs) (j * cs)) in *.
    assert (Hh : 0 < h) by (apply tile_h_pos; assumption). assert (Hw : 0 < w) by (apply tile_h_pos; assumption).
    assert (HMM : exists mm o, x = (mm, o) /\ minmax_of E bits g' instants h w = Ok mm).
    { destruct T; cbn [fst snd] in *; subst x; eauto. exfalso. clear -H Hir Hjc. lia. }
    destruct HMM as (mm & o & -> & Em). destruct (minmax_of_nth _ _ _ _ _ _ _ Em) as [HLm Hn].
    assert (DM : forall t, t < instants -> dac_get (su_max S0) (i * ss + j + t * (ss * ss)) = Ok (snd (nth t mm (0, 0)%Z))).
    { intros t Ht. cbn [S0 su_max]. rewrite <- Hlen. apply (tile_dac tiles snd instants max (i * ss + j) (mm, o) t); auto. intros p [_ X]; exact X. }
    assert (Dm : forall t, t < instants -> dac_get (su_min S0) (i * ss + j + t * (ss * ss)) = Ok (fst (nth t mm (0, 0)%Z))).
    { intros t Ht. cbn [S0 su_min]. rewrite <- Hlen. apply (tile_dac tiles fst instants min (i * ss + j) (mm, o) t); auto. intros p [X _]; exact X. }
    (* a stored subchunk *)
    assert (G : forall y n, nth_error (ss_links s) n = Some (mm_cid hash (mb_data y)) ->
      In (mm_cid hash (mb_data y), node_bytes (NMM (mb_data y))) (ss_store s) -> wf_mm (mb_data y) ->
      super_external st' S0 n = Ok (mb_data y)).
    { intros y n En Hin HW. unfold super_external. cbn [su_external S0].
      assert (EL : get_links st' (hash (node_bytes (NLinks (ss_links s)))) = Ok (ss_links s)).
      { unfold get_links. rewrite (retrieve_saved st' hash (NLinks (ss_links s)) HWl HF).
        - reflexivity.
        - apply HI. unfold st2. apply in_or_app. right. left. reflexivity. }
      rewrite EL. cbn [bind]. rewrite (nth_res_ok _ _ _ En). cbn [bind].
      unfold get_mm, mm_cid. rewrite (retrieve_saved st' hash (NMM (mb_data y)) HW HF).
      + reflexivity.
      + apply HI. unfold st2. apply in_or_app. left. exact Hin. }
    constructor.
    { intros t Ht. cbn [S0 su_instants su_subsidelen] in Ht |- *. specialize (Hn t Ht). rewrite (Dm t Ht), (DM t Ht).
      destruct (nth t mm (0, 0)%Z) as [mn mx]. cbn [fst snd]. apply int_minmax_spec in Hn. destruct Hn as (N1 & N2 & _).
      apply in_instant_inv in N1, N2. destruct N1 as (r1 & c1 & A1 & A2 & ->). destruct N2 as (r2 & c2 & A3 & A4 & ->).
      exists r1, c1, r2, c2. auto. }
    { intros kk m El. rewrite Eref in El. injection El as ->. exfalso. unfold ref_ok in Hr. cbn [snd] in Hr. destruct o as [y|]; [destruct Hr as (n & Hr & _)|]; discriminate. }
    intros kk m El Gm. rewrite Eref in El. injection El as ->. cbn [S0 su_instants] in *.
    destruct T as [Ho _ _|mm' _ _ Em' Hu Ex' _|mm' b' y _ _ Em' Hu El Eb' Ey Ex' _|mm' b' y _ _ Em' Hu El Eb' Ey Ex']; cbn [fst snd] in *.
    - exfalso. clear -Ho Hir Hjc. lia.
    - exfalso. injection Ex' as <- ->. unfold ref_ok in Hr. cbn [snd] in Hr. discriminate.
    - injection Ex' as <- ->. unfold ref_ok in Hr. cbn [snd] in Hr. destruct Hr as (n & En' & En & Hin). injection En' as ->.
      pose proof (tile_two E (int_single enc) _ _ _ _ _ _ Hh Hw Em Hu) as H2.
      destruct (leaf_ok E k lc Hk Hk8 int_good int_good_ok _ instants _ _ bits b' y Hev H0 H2 HSt
        (int_tile_ok enc _ _ _ _ Hit Hdt) (int_all_good _ _ _ _ _ Hbits) Hh Hw Eb' Ey) as (HW & _).
      rewrite (G y n En Hin HW) in Gm. injection Gm as <-.
      unfold leaf_build in Ey. apply bind_inv in Ey. destruct Ey as (zs & _ & Ey).
      apply bind_inv in Ey. destruct Ey as (cb & Ec & Ey). injection Ey as <-. cbn [mb_data]. apply prunes_chunk.
    - injection Ex' as <- ->. unfold ref_ok in Hr. cbn [snd] in Hr. destruct Hr as (n & En' & En & Hin). injection En' as ->.
      destruct (to_bits _ _ _ _ _ _ (int_tile_ok enc _ _ _ _ Hit Hdt) bits b' (int_all_good _ _ _ _ _ Hbits) Eb') as [Hb _].
      pose proof (Hb 0 0 0 H0 Hh Hw : bits_ok b') as Hb'.
      destruct (super_build_view hash E k lc Hhash Hk Hk8 (int_single enc) int_good int_good_ok sub Hev _ instants _ _ b' sa sb y H0 Hh Hw HSt (int_all_good _ _ _ _ _ Hb')
        (int_tiles_ok enc k lc _ _ _ _ _ Hit Hdt) Ey) as (HW & _).
      rewrite (G y n En Hin HW) in Gm. injection Gm as <-.
      apply (IH g' instants h w b' sa sb y H0 Hh Hw HSt Hb' Hit Hdt Ey st'); [|exact HF].
      eapply incl_tran; [exact Ib|]. eapply incl_tran; [|exact HI]. unfold st2. apply incl_appl, (sv_store _ _ _ _ SV).
  Qed.
End Build.
