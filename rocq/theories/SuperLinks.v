(** * The links of a superchunk. *)
From Verif Require Import Base BaseFacts Spec GeomModel GeomProofs BitmapModel DacModel DacProofs StreamModel
  StreamProofs ChunkModel ChunkProofs ChunkReads ChunkStream NodeModel NodeProofs SuperModel SuperViews SuperProofs.
Ltac Zify.zify_post_hook ::= Z.div_mod_to_equations.
Arguments Nat.pow : simpl never.

Section Links.
  Context {A : Type}.
  Variables (hash : bytes -> cid) (E : elem A) (k : nat) (lc : nat -> nat).
  Hypothesis Hhash : forall b, wf_cid (hash b).
  Hypothesis Hk : 2 <= k.
  Hypothesis Hk8 : fits8 k.
  Hypothesis Hsingle : single_ok E.
  Variable good : nat -> A -> Prop.
  Hypothesis Hgood : forall b x, good b x -> bits_ok b.

  Theorem super_build_links levels : Nat.Even k -> forall g instants rows cols bits st st2 b,
    0 < instants -> 0 < rows -> 0 < cols -> sizes_ok k lc instants (Nat.max rows cols) -> all_good good bits g instants rows cols ->
    tiles_ok E good k lc levels g instants rows cols ->
    super_build hash E k lc levels g instants rows cols bits st = Ok (st2, b) ->
    exists s links, mb_data b = MSuper s [] /\ mb_external b = length links /\ NoDup links /\
      (forall i n, nth_error (su_refs s) i = Some (RExternal n) -> n < length links) /\
      (forall i n, nth_error (su_refs s) i <> Some (RLocal n)) /\
      length (su_refs s) = su_subsidelen s * su_subsidelen s /\
      (forall n, n < length links -> exists m, nth_error links n = Some (mm_cid hash m) /\
         forall st', incl st2 st' -> functional st' -> super_external st' s n = Ok m) /\
      forall st', incl st2 st' -> functional st' -> get_links st' (su_external s) = Ok links.
  Proof using Hhash Hk Hk8 Hsingle Hgood.
    intros Hev g instants rows cols bits st st2 b H0 Hrows Hcols HS Hbits TO H.
    destruct levels as [|level sub]; [cbn [super_build] in H; destruct (negb _) in H; discriminate|].
    destruct (super_build_view hash E k lc Hhash Hk Hk8 Hsingle good Hgood (level :: sub) Hev g instants rows cols bits st st2 b
      H0 Hrows Hcols HS Hbits TO H) as (HWb & _).
    apply super_build_inv in H; [|exact Hk|intros; eapply super_build_incl; eassumption].
    destruct H as (Hlev & _ & st1 & tiles & s & max & min & I1 & F & SV & -> & RM & Rm & HL & Eb).
    cbn [tiles_ok] in TO. cbv zeta in TO.
    set (total := lc (Nat.max rows cols)) in *. set (ss := k ^ level) in *. set (cs := k ^ (total - level)) in *.
    assert (Hcs : 0 < cs) by (assert (cs <> 0) by (apply Nat.pow_nonzero; clear -Hk; lia); clear -H; lia).
    set (S0 := mkSuper instants rows cols (k ^ total) level (ss_refs s) max min
            (hash (node_bytes (NLinks (ss_links s)))) bits (el_enc E) cs ss) in *.
    set (st2 := ss_store s ++ [(hash (node_bytes (NLinks (ss_links s))), node_bytes (NLinks (ss_links s)))]) in *.
    assert (HWl : wf_node (NLinks (ss_links s))).
    { split.
      - assert (Hnl : length (ss_links s) <= length tiles).
        { etransitivity; [apply (sv_count _ _ _ _ SV)|]. pose proof (sv_elided _ _ _ _ SV) as X. clear -X. lia. }
        rewrite Eb in HWb. destruct HWb as [HWb _]. pose proof (wsu_nrefs _ HWb) as X. cbn [S0 su_refs] in X.
        rewrite <- (Forall2_length _ _ _ (sv_refs _ _ _ _ SV)) in X. eapply fits32_le; eassumption.
      - apply Forall_forall. intros c Hc. destruct (sv_links _ _ _ _ SV c Hc) as (o & _ & Ho).
        destruct o as [y|]; [|discriminate]. injection Ho as <-. apply Hhash. }
    assert (EL : forall st', incl st2 st' -> functional st' -> get_links st' (su_external S0) = Ok (ss_links s)).
    { intros st' HI HF. unfold get_links. cbn [S0 su_external]. rewrite (retrieve_saved st' hash (NLinks (ss_links s)) HWl HF).
      - reflexivity.
      - apply HI. unfold st2. apply in_or_app. right. left. reflexivity. }
    exists S0, (ss_links s). rewrite Eb. cbn [mb_data mb_external].
    split; [reflexivity|]. split; [reflexivity|]. split; [apply (sv_nodup _ _ _ _ SV)|].
    split; [|split; [|split; [|split]]].
    - intros i n Hn. cbn [S0 su_refs] in Hn.
      destruct (Forall2_nth_error _ _ _ _ _ (sv_refs _ _ _ _ SV) Hn) as (x & _ & Hx). unfold ref_ok in Hx.
      destruct (snd x) as [y|]; [|discriminate]. destruct Hx as (n' & Heq & En & _). injection Heq as <-.
      apply nth_error_Some. congruence.
    - intros i n Hn. cbn [S0 su_refs] in Hn.
      destruct (Forall2_nth_error _ _ _ _ _ (sv_refs _ _ _ _ SV) Hn) as (x & _ & Hx). unfold ref_ok in Hx.
      destruct (snd x) as [y|]; [|discriminate]. destruct Hx as (n' & Heq & _). discriminate.
    - cbn [S0 su_refs su_subsidelen]. rewrite <- (Forall2_length _ _ _ (sv_refs _ _ _ _ SV)), <- (Forall2_length _ _ _ F). apply length_grid.
    - intros n Hn. destruct (nth_error (ss_links s) n) as [c|] eqn:En; [|apply nth_error_None in En; clear -En Hn; lia].
      destruct (sv_links _ _ _ _ SV c (nth_error_In _ _ En)) as (o & Ho & Hc). destruct o as [y|]; [|discriminate]. injection Hc as <-.
      exists (mb_data y). split; [reflexivity|]. intros st' HI HF.
      apply in_map_iff in Ho. destruct Ho as (x & Ex & Hx). apply In_nth_error in Hx. destruct Hx as (idx & Hidx).
      destruct (Forall2_nth_error_l _ _ _ _ _ (sv_refs _ _ _ _ SV) Hidx) as (r & _ & Hr). unfold ref_ok in Hr. rewrite Ex in Hr.
      destruct Hr as (n' & _ & _ & Hin).
      assert (HW : wf_mm (mb_data y)).
      { destruct (Forall2_nth_error _ _ _ _ _ F Hidx) as ([i j] & _ & sa & sb & _ & _ & T).
        assert (HSt : sizes_ok k lc instants (Nat.max (tile_h rows cs i) (tile_h cols cs j))).
        { eapply sizes_ok_le; [|exact HS]. pose proof (tile_h_le rows cs i). pose proof (tile_h_le cols cs j). clear -H H1. lia. }
        destruct T as [_ -> _|mm _ _ Em Hu -> _|mm b' y' Hi Hj Em Hu El Eb' Ey -> _|mm b' y' Hi Hj Em Hu El Eb' Ey ->];
          cbn [fst snd] in *; try discriminate; injection Ex as ->;
          destruct (TO i j Hi Hj) as [TT TS];
          pose proof (all_good_tile good bits g instants rows cols cs i j Hi Hj Hbits) as HbT.
        - pose proof (tile_two E Hsingle _ _ _ _ _ _ (tile_h_pos _ _ _ Hcs Hi) (tile_h_pos _ _ _ Hcs Hj) Em Hu) as H2.
          destruct (leaf_ok E k lc Hk Hk8 good Hgood _ instants _ _ bits b' y Hev H0 H2 HSt TT HbT (tile_h_pos _ _ _ Hcs Hi) (tile_h_pos _ _ _ Hcs Hj) Eb' Ey) as (HW & _). exact HW.
        - destruct (to_bits _ _ _ _ _ _ TT bits b' HbT Eb') as [Hb' _].
          destruct (super_build_view hash E k lc Hhash Hk Hk8 Hsingle good Hgood sub Hev _ instants _ _ b' sa sb y H0
            (tile_h_pos _ _ _ Hcs Hi) (tile_h_pos _ _ _ Hcs Hj) HSt Hb'
            (TS (build_subchunk_leaf _ _ _ _ _ El)) Ey) as (HW & _). exact HW. }
      unfold super_external. rewrite EL by assumption. cbn [bind]. rewrite (nth_res_ok _ _ _ En). cbn [bind].
      unfold get_mm, mm_cid. rewrite (retrieve_saved st' hash (NMM (mb_data y)) HW HF); [reflexivity|].
      apply HI. unfold st2. apply in_or_app. left. exact Hin.
    - exact EL.
  Qed.

  (** Saving nodes whose references are there. *)
  Lemma save_tiles_laid : forall tiles s, laid (ss_store s) ->
    Forall (fun x => forall y, snd x = Some y -> anchored (ss_store s) (NMM (mb_data y))) tiles ->
    (forall c, In c (ss_links s) -> has (ss_store s) c) ->
    laid (ss_store (fold_left (save_tile hash) tiles s)) /\
    forall c, In c (ss_links (fold_left (save_tile hash) tiles s)) -> has (ss_store (fold_left (save_tile hash) tiles s)) c.
  Proof.
    induction tiles as [|x tiles IH]; intros s HL HA HR; cbn [fold_left]; [auto|].
    inversion HA as [|? ? Hx HA' EqA]; subst. apply IH.
    - unfold save_tile. destruct (snd x) as [y|]; [|exact HL]. cbn [save]. pose proof (laid_save hash _ _ (Hx y eq_refl) HL) as L.
      destruct (link_index _ _); exact L.
    - assert (HI : incl (ss_store s) (ss_store (save_tile hash s x))).
      { unfold save_tile. destruct (snd x); [|apply incl_refl]. cbn [save]. destruct (link_index _ _); cbn [ss_store]; apply incl_appl, incl_refl. }
      eapply Forall_impl; [|exact HA']. intros a Ha y Ey. exact (anchored_incl _ _ _ HI (Ha y Ey)).
    - intros c. unfold save_tile. destruct (snd x) as [y|]; [|exact (HR c)]. cbn [save].
      destruct (link_index _ _); cbn [ss_store ss_links]; intros Hc.
      + apply has_incl with (ss_store s); [apply incl_appl, incl_refl|auto].
      + apply in_app_or in Hc. destruct Hc as [Hc|[<-|[]]].
        * apply has_incl with (ss_store s); [apply incl_appl, incl_refl|auto].
        * eexists. apply in_or_app. right. left. reflexivity.
  Qed.

  (** Everything that building adds to the store is a node without local subchunks
      that refers only to what was added before. *)
  Theorem super_build_written levels : Nat.Even k -> forall g instants rows cols bits st st2 b,
    0 < instants -> 0 < rows -> 0 < cols -> sizes_ok k lc instants (Nat.max rows cols) -> all_good good bits g instants rows cols ->
    tiles_ok E good k lc levels g instants rows cols ->
    super_build hash E k lc levels g instants rows cols bits st = Ok (st2, b) ->
    anchored st2 (NMM (mb_data b)) /\ grown st st2.
  Proof using Hhash Hk Hk8 Hsingle Hgood.
    intros Hev. induction levels as [|level sub IH]; intros g instants rows cols bits st st2 b H0 Hrows Hcols HS Hbits TO H.
    { cbn [super_build] in H. destruct (negb _) in H; discriminate. }
    destruct (super_build_view hash E k lc Hhash Hk Hk8 Hsingle good Hgood (level :: sub) Hev g instants rows cols bits st st2 b
      H0 Hrows Hcols HS Hbits TO H) as (HWb & _).
    cbn [tiles_ok] in TO. cbv zeta in TO.
    set (total := lc (Nat.max rows cols)) in *. set (cs := k ^ (total - level)) in *.
    assert (Hcs : 0 < cs) by (assert (cs <> 0) by (apply Nat.pow_nonzero; clear -Hk; lia); clear -H1; lia).
    pose proof H as HB. apply super_build_inv in HB; [|exact Hk|intros; eapply super_build_incl; eassumption].
    destruct HB as (Hlev & _ & st1 & tiles & s & max & min & _ & _ & _ & E0 & _ & _ & _ & Eb). fold total in Hlev.
    split.
    { split; [split; [exact HWb|rewrite Eb; reflexivity]|]. rewrite Eb, E0. cbn [mb_data refs mm_refs su_external flat_map].
      intros x [<-|[]]. eexists. apply in_or_app. right. left. reflexivity. }
    clear E0 Eb st1 tiles s max min.
    (* the state of the store when the tiles are built *)
    cbn [super_build] in H. fold total in H.
    destruct (Nat.eqb_spec (sum_nat (level :: sub)) total) as [_|]; cbn [negb] in H; [|discriminate].
    assert (Hss : k ^ level <> 0) by (apply Nat.pow_nonzero; clear -Hk; lia).
    rewrite udiv_ok in H by exact Hss. cbn [bind] in H.
    assert (Ecs : k ^ total / k ^ level = cs).
    { unfold cs. replace total with (total - level + level) at 1 by (clear -Hlev; lia). rewrite Nat.pow_add_r. apply Nat.div_mul. exact Hss. }
    rewrite Ecs in H. apply bind_inv in H. destruct H as ([st1' tiles'] & Ef & H).
    assert (HW1 : grown st st1' /\ Forall (fun x => forall y, snd x = Some y -> anchored st1' (NMM (mb_data y))) tiles').
    { assert (G : forall l s0 ts, Forall (fun x => forall y, snd x = Some y -> anchored s0 (NMM (mb_data y))) ts ->
        forall s1 ts', foldM (build_tile E k lc (fun g' h w b s => super_build hash E k lc sub g' instants h w b s) sub g instants rows cols bits cs) (s0, ts) l
          = Ok (s1, ts') -> grown s0 s1 /\ Forall (fun x => forall y, snd x = Some y -> anchored s1 (NMM (mb_data y))) ts').
      { clear -IH TO Hcs HS Hbits H0 Hev Hhash Hk Hk8 Hsingle Hgood.
        induction l as [|[i j] l IHl]; intros s0 ts P s1 ts' H; cbn [foldM] in H; [injection H as <- <-; split; [apply grown_refl|exact P]|].
        apply bind_inv in H. destruct H as ([s2 ts2] & E2 & H). apply build_tile_inv in E2. destruct E2 as (x & -> & T).
        assert (HSt : sizes_ok k lc instants (Nat.max (tile_h rows cs i) (tile_h cols cs j))).
        { eapply sizes_ok_le; [|exact HS]. pose proof (tile_h_le rows cs i). pose proof (tile_h_le cols cs j). clear -H1 H2. lia. }
        assert (ST : grown s0 s2 /\ incl s0 s2 /\ forall y, snd x = Some y -> anchored s2 (NMM (mb_data y))).
        { destruct T as [_ -> ->|mm _ _ Em Hu -> ->|mm b' y' Hi Hj Em Hu El Eb' Ey -> ->|mm b' y' Hi Hj Em Hu El Eb' Ey ->]; cbn [fst snd] in *;
            try (split; [apply grown_refl|]; split; [apply incl_refl|]; intros y Ex; discriminate).
          - split; [apply grown_refl|]. split; [apply incl_refl|]. intros y Ex. injection Ex as <-. destruct (TO i j Hi Hj) as [TT TS].
            pose proof (all_good_tile good bits g instants rows cols cs i j Hi Hj Hbits) as HbT.
            pose proof (tile_two E Hsingle _ _ _ _ _ _ (tile_h_pos _ _ _ Hcs Hi) (tile_h_pos _ _ _ Hcs Hj) Em Hu) as H2.
            destruct (leaf_ok E k lc Hk Hk8 good Hgood _ instants _ _ bits b' y' Hev H0 H2 HSt TT HbT (tile_h_pos _ _ _ Hcs Hi) (tile_h_pos _ _ _ Hcs Hj) Eb' Ey) as (HW & _).
            unfold leaf_build in Ey. apply bind_inv in Ey. destruct Ey as (lf & _ & Ey). apply bind_inv in Ey.
            destruct Ey as (c & _ & Ey). injection Ey as <-. split; [split; [exact HW|exact I]|]. intros z [].
          - destruct (TO i j Hi Hj) as [TT TS].
            pose proof (all_good_tile good bits g instants rows cols cs i j Hi Hj Hbits) as HbT.
            destruct (to_bits _ _ _ _ _ _ TT bits b' HbT Eb') as [Hb' _].
            destruct (IH _ instants _ _ b' s0 s2 y' H0 (tile_h_pos _ _ _ Hcs Hi) (tile_h_pos _ _ _ Hcs Hj) HSt Hb' (TS (build_subchunk_leaf _ _ _ _ _ El)) Ey) as (HA & HK).
            split; [exact HK|]. split; [eapply super_build_incl; eassumption|]. intros y Ex. injection Ex as <-. exact HA. }
        destruct ST as (K1 & I1 & A1). apply IHl in H.
        - destruct H as (K2 & A2). split; [exact (grown_trans _ _ _ K1 K2)|exact A2].
        - apply Forall_app. split; [|constructor; [exact A1|constructor]].
          eapply Forall_impl; [|exact P]. intros a Ha y Ey. exact (anchored_incl s0 s2 _ I1 (Ha y Ey)). }
      exact (G _ _ _ (Forall_nil _) _ _ Ef). }
    destruct HW1 as [HK HPl'].
    apply bind_inv in H. destruct H as (mx & _ & H). apply bind_inv in H. destruct H as (mn & _ & H).
    pose proof (save_all_ok hash st1' tiles') as SV'.
    pose proof (fun L => save_tiles_laid tiles' (mkSave st1' [] [] 0 0 0 0) L HPl' (fun c (Hc : In c []) => match Hc with end)) as SL.
    set (s' := fold_left (save_tile hash) tiles' (mkSave st1' [] [] 0 0 0 0)) in *.
    assert (HWl : plain (NLinks (ss_links s'))).
    { split; [|exact I]. unfold save in H. apply bind_inv in H. destruct H as (d1 & _ & H). apply bind_inv in H. destruct H as (d2 & _ & H).
      injection H as E2 E3. split.
      + assert (Hnl : length (ss_links s') <= length tiles').
        { etransitivity; [apply (sv_count _ _ _ _ SV')|]. pose proof (sv_elided _ _ _ _ SV') as X. clear -X. lia. }
        rewrite <- E3 in HWb. cbn [mb_data] in HWb. destruct HWb as [HWb _]. pose proof (wsu_nrefs _ HWb) as X. cbn [su_refs] in X.
        rewrite <- (Forall2_length _ _ _ (sv_refs _ _ _ _ SV')) in X. eapply fits32_le; eassumption.
      + apply Forall_forall. intros c Hc. destruct (sv_links _ _ _ _ SV' c Hc) as (o & _ & Ho).
        destruct o as [y|]; [|discriminate]. injection Ho as <-. apply Hhash. }
    eapply grown_trans; [exact HK|].
    assert (E2 : st2 = snd (save hash (ss_store s') (NLinks (ss_links s')))).
    { unfold save in H |- *. apply bind_inv in H. destruct H as (d1 & _ & H). apply bind_inv in H. destruct H as (d2 & _ & H).
      injection H as E2 E3. symmetry. exact E2. }
    rewrite E2. split.
    - intros HW1. apply written_save; [exact HWl|].
      unfold written in *. rewrite Forall_forall in *. intros p Hp. apply (sv_added _ _ _ _ SV') in Hp. destruct Hp as [Hp|(y & Hy & ->)]; [exact (HW1 p Hp)|].
      apply in_map_iff in Hy. destruct Hy as (x & Ex & Hx). exists (NMM (mb_data y)). split; [|reflexivity]. exact (proj1 (HPl' x Hx y Ex)).
    - intros HL. destruct (SL HL) as [L1 L2]. apply laid_save; [|exact L1]. split; [exact HWl|exact L2].
  Qed.
End Links.
