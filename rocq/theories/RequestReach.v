(** * What reads ask for: lemmas *)
From Verif Require Import Base BaseFacts CacheModel GeomModel GeomProofs BitmapModel DacModel StreamModel ChunkModel NodeModel NodeProofs SuperModel ArrayModel SuperProofs SuperViews RequestModel RequestProofs.
Arguments Nat.pow : simpl never.
Ltac Zify.zify_post_hook ::= Z.div_mod_to_equations.

Section Reach.
  Variable st : store.

  Lemma asked_pure {A B} (x : res A) (f : A -> ask B) c : In c (asked st (abind (Answer x) f)) -> exists a, x = Ok a /\ In c (asked st (f a)).
  Proof. rewrite asked_bind. cbn [asked ask_store app]. destruct x as [a|e| |]; [eauto|intros []..]. Qed.
  Lemma asked_then {A B} (p : ask A) (f : A -> ask B) c : In c (asked st (abind p f)) ->
    In c (asked st p) \/ exists a, ask_store st p = Ok a /\ In c (asked st (f a)).
  Proof. rewrite asked_bind. intros H. apply in_app_or in H. destruct H as [H|H]; [auto|]. destruct (ask_store st p) as [a|e| |]; [eauto|destruct H..]. Qed.
  Lemma asked_left {A B} (p : ask A) (f : A -> ask B) c : In c (asked st p) -> In c (asked st (abind p f)).
  Proof. intros H. rewrite asked_bind. apply in_or_app. auto. Qed.
  Lemma asked_right {A B} (p : ask A) (f : A -> ask B) c a : ask_store st p = Ok a -> In c (asked st (f a)) -> In c (asked st (abind p f)).
  Proof. intros E H. rewrite asked_bind, E. apply in_or_app. auto. Qed.
  Lemma asked_one {X Y} (f : X -> ask (list Y)) l c : In c (asked st (gather f l)) -> exists x, In x l /\ In c (asked st (f x)).
  Proof. rewrite asked_gather. intros H. apply in_flat_map in H. exact H. Qed.

  (** What a get of one cell asks for, step by step. *)
  Lemma get_span fuel s t r c bits sp i ci x : 0 < sp_stride s -> t = sp * sp_stride s + i -> i < sp_stride s -> nth_res (sp_spans s) sp = Ok ci ->
    (x = ci \/ exists m', get_mm st ci = Ok m' /\ In x (asked st (ask_get fuel m' i r c (mm_fbits m')))) ->
    In x (asked st (ask_get (S fuel) (MSpan s) t r c bits)).
  Proof.
    intros Hs -> Hi E H. cbn [ask_get].
    assert (F : find_span s (sp * sp_stride s + i) = Ok (sp, i)).
    { unfold find_span. rewrite udiv_ok, umod_ok by lia. cbn [bind]. do 2 f_equal.
      - rewrite Nat.div_add_l by lia. rewrite Nat.div_small by lia. lia.
      - rewrite Nat.add_comm, Nat.mod_add by lia. apply Nat.mod_small. lia. }
    eapply asked_right; [exact F|]. cbn [fst snd]. eapply asked_right; [exact E|]. destruct H as [->|(m' & G & H)]; [apply asked_left; left; reflexivity|].
    eapply asked_right; [exact G|exact H].
  Qed.
  Lemma get_super fuel s local t r c bits i j r' c' x ref : let cs := su_chunks_sidelen s in 0 < cs -> r = i * cs + r' -> c = j * cs + c' -> r' < cs -> c' < cs ->
    nth_res (su_refs s) (i * su_subsidelen s + j) = Ok ref ->
    match ref with
    | RElided => False
    | RLocal k => exists m', nth_res local k = Ok m' /\ In x (asked st (ask_get fuel m' t r' c' (mm_fbits m')))
    | RExternal k => In x (asked st (ask_external s k)) \/ exists m', super_external st s k = Ok m' /\ In x (asked st (ask_get fuel m' t r' c' (mm_fbits m')))
    end -> In x (asked st (ask_get (S fuel) (MSuper s local) t r c bits)).
  Proof.
    intros cs Hs -> -> Hr Hc E H. cbn [ask_get]. fold cs.
    assert (D : forall a b, b < cs -> (a * cs + b) / cs = a /\ (a * cs + b) mod cs = b).
    { clear -Hs. intros a b Hb. split; [rewrite Nat.div_add_l by lia; rewrite Nat.div_small by lia; lia|]. rewrite Nat.add_comm, Nat.mod_add by lia. apply Nat.mod_small. lia. }
    rewrite (udiv_ok (i * cs + r') cs), (udiv_ok (j * cs + c') cs), (umod_ok (i * cs + r') cs), (umod_ok (j * cs + c') cs) by lia.
    destruct (D i r' Hr) as [-> ->]. destruct (D j c' Hc) as [-> ->].
    do 4 (eapply asked_right; [reflexivity|]). cbv zeta. eapply asked_right; [exact E|]. destruct ref as [|k|k]; [destruct H| |].
    - destruct H as (m' & G & H). eapply asked_right; [exact G|exact H].
    - destruct H as [H|(m' & G & H)]; [apply asked_left; exact H|]. eapply asked_right; [rewrite store_external; exact G|exact H].
  Qed.

  (** The cells of a cube. *)
  Definition in_cube (b : cube) (t r c : nat) : Prop := c_start b <= t < c_end b /\ c_top b <= r < c_bottom b /\ c_left b <= c < c_right b.
  Definition cells_in (b : cube) : Prop := c_start b < c_end b /\ c_top b < c_bottom b /\ c_left b < c_right b.

  Lemma cube_new_ordered a b c d e f : a <= b -> c <= d -> e <= f -> cube_new a b c d e f = mkCube a b c d e f.
  Proof.
    intros H1 H2 H3. unfold cube_new. repeat match goal with |- context [rearrange ?x ?y] => unfold rearrange end.
    repeat match goal with |- context [?x <? ?y] => destruct (Nat.ltb_spec x y); try lia | |- context [?x <=? ?y] => destruct (Nat.leb_spec x y); try lia end; try reflexivity.
  Qed.

  Lemma rect_new_ordered t b l r : t <= b -> l <= r -> rect_new t b l r = mkRect t b l r.
  Proof. intros H1 H2. rewrite GeomProofs.rect_new_spec, !Nat.min_l, !Nat.max_r by assumption. reflexivity. Qed.

  Lemma pieces_in s start n pieces : span_pieces_for s start n = Ok pieces -> 0 < sp_stride s /\
    forall sp i len off, In (sp, i, len, off) pieces -> 0 < len /\ i + len <= sp_stride s /\ off + len <= n /\ sp * sp_stride s + i = start + off.
  Proof.
    unfold span_pieces_for. intros H. apply bind_inv in H. destruct H as ((a & b) & F & H). unfold find_span in F.
    apply bind_inv in F. destruct F as (q & F1 & F). apply bind_inv in F. destruct F as (q' & F2 & F). injection F as <- <-.
    assert (Hs : sp_stride s <> 0) by (intros Z; rewrite Z in F1; discriminate F1). rewrite udiv_ok in F1 by exact Hs. rewrite umod_ok in F2 by exact Hs.
    injection F1 as <-. injection F2 as <-. cbn [fst snd] in H. split; [lia|].
    pose proof (Nat.mod_upper_bound start (sp_stride s) Hs) as Hm. pose proof (Nat.div_mod start (sp_stride s) Hs) as Hd.
    destruct (span_pieces_ok (fun _ : nat => @nil unit) (sp_stride s) n (S n) (start / sp_stride s) (start mod sp_stride s) 0) as (l & E & _ & HP); [lia|exact Hm|lia|].
    rewrite E in H. injection H as <-. intros sp i len off Hin. destruct (HP _ _ _ _ Hin) as (H1 & H2 & H3 & H4 & H5).
    repeat (split; [assumption|]). rewrite (Nat.mul_comm (sp_stride s)) in Hd.
    revert H4 Hd. generalize (start / sp_stride s * sp_stride s) (start mod sp_stride s) (sp * sp_stride s). clear. intros a b x. lia.
  Qed.
  Lemma subs_in s top bottom lft rgt subs : subchunks_for s (mkRect top bottom lft rgt) = Ok subs -> top < bottom -> lft < rgt -> 0 < su_chunks_sidelen s /\
    forall sw, In sw subs -> exists i j, sw = sub_at s top bottom lft rgt i j /\
      i * su_chunks_sidelen s < bottom /\ top < i * su_chunks_sidelen s + su_chunks_sidelen s /\
      j * su_chunks_sidelen s < rgt /\ lft < j * su_chunks_sidelen s + su_chunks_sidelen s.
  Proof.
    intros H Ht Hl. assert (Hs : 0 < su_chunks_sidelen s).
    { destruct (su_chunks_sidelen s) as [|n] eqn:E; [|lia]. unfold subchunks_for in H. cbn [r_top r_bottom r_left r_right] in H. rewrite E in H.
      rewrite !usub_ok in H by lia. cbn [bind] in H. discriminate H. }
    split; [exact Hs|]. rewrite subchunks_for_ok in H by assumption. injection H as <-. intros sw Hin. apply in_flat_map in Hin. destruct Hin as (i & Hi & Hin).
    apply in_map_iff in Hin. destruct Hin as (j & <- & Hj). apply in_range_incl in Hi, Hj. exists i, j. split; [reflexivity|].
    destruct (tile_bounds top bottom _ i Hs Ht Hi). destruct (tile_bounds lft rgt _ j Hs Hl Hj). auto.
  Qed.

  (** A cell of the part of a window that lies in a tile. *)
  Lemma local_cell cs a b i x : i * cs < b -> a < i * cs + cs -> a - i * cs <= x < Nat.min cs (b - i * cs) -> x < cs /\ a <= i * cs + x < b.
  Proof. generalize (i * cs). clear. intros y. lia. Qed.
  Lemma local_some cs a b i : 0 < cs -> a < b -> i * cs < b -> a < i * cs + cs -> a - i * cs < Nat.min cs (b - i * cs).
  Proof. generalize (i * cs). clear. intros y. lia. Qed.

  Lemma window_like fuel : forall m b bits x, cells_in b -> In x (asked st (ask_window fuel m b bits)) ->
    exists t r c, in_cube b t r c /\ forall bits', In x (asked st (ask_get fuel m t r c bits')).
  Proof.
    induction fuel as [|fuel IH]; intros m b bits x (B1 & B2 & B3) H; [destruct H|]. cbn [ask_window] in H. destruct m as [s|ch|s local]; [|destruct H|].
    - apply asked_pure in H. destruct H as (n & E & H). unfold cube_instants in E. rewrite usub_ok in E by lia. injection E as <-.
      apply asked_pure in H. destruct H as (pieces & E & H). apply pieces_in in E. destruct E as (Hs & HP).
      apply asked_one in H. destruct H as ([[[sp i] len] off] & Hin & H). apply HP in Hin. destruct Hin as (H1 & H2 & H3 & H4).
      apply asked_pure in H. destruct H as (ci & E & H). apply asked_then in H. destruct H as [H|(m' & G & H)].
      + exists (sp * sp_stride s + i), (c_top b), (c_left b). split; [unfold in_cube; lia|]. intros bits'. eapply get_span; [exact Hs|reflexivity| |exact E|]; [lia|].
        left. destruct H as [->|[]]. reflexivity.
      + apply asked_then in H. destruct H as [H|(l & _ & H)]; [|destruct H]. rewrite cube_new_ordered in H by lia.
        apply IH in H; [|unfold cells_in; cbn; lia]. destruct H as (t & r & c & (C1 & C2 & C3) & H). cbn [c_start c_end c_top c_bottom c_left c_right] in C1, C2, C3.
        exists (sp * sp_stride s + t), r, c. split; [unfold in_cube; lia|]. intros bits'. eapply get_span; [exact Hs|reflexivity| |exact E|]; [lia|].
        right. exists m'. split; [exact G|apply H].
    - apply asked_pure in H. destruct H as (n & E & H). apply asked_pure in H. destruct H as (subs & Es & H). unfold cube_rect in Es. rewrite rect_new_ordered in Es by lia.
      apply subs_in in Es; [|lia|lia]. destruct Es as (Hs & HP). apply asked_one in H. destruct H as (sw & Hin & H). apply HP in Hin.
      destruct Hin as (i & j & -> & I1 & I2 & J1 & J2). unfold sub_at in H. cbn [sw_local sw_index sw_slice r_top r_bottom r_left r_right] in H.
      set (cs := su_chunks_sidelen s) in *. pose proof (local_some cs _ _ i Hs B2 I1 I2) as S1. pose proof (local_some cs _ _ j Hs B3 J1 J2) as S2.
      rewrite cube_new_ordered in H by (first [exact (Nat.lt_le_incl _ _ B1)|exact (Nat.lt_le_incl _ _ S1)|exact (Nat.lt_le_incl _ _ S2)]).
      apply asked_then in H. destruct H as [H|(l & _ & H)]; [|destruct H]. rewrite asked_asked_map in H. apply asked_pure in H. destruct H as (ref & E' & H).
      set (lb := mkCube _ _ _ _ _ _) in H.
      assert (K : forall m', In x (asked st (ask_window fuel m' lb (mm_fbits m'))) ->
        exists t r c, in_cube b t (i * cs + r) (j * cs + c) /\ r < cs /\ c < cs /\ In x (asked st (ask_get fuel m' t r c (mm_fbits m')))).
      { intros m' Hm. apply IH in Hm; [|split; [exact B1|split; [exact S1|exact S2]]]. destruct Hm as (t & r & c & (C1 & C2 & C3) & Hm).
        cbn [lb c_start c_end c_top c_bottom c_left c_right] in C1, C2, C3. exists t, r, c.
        destruct (local_cell cs _ _ i r I1 I2 C2). destruct (local_cell cs _ _ j c J1 J2 C3). unfold in_cube. auto. }
      destruct ref as [|k|k]; [destruct H| |].
      + apply asked_pure in H. destruct H as (m' & G & H). apply K in H. destruct H as (t & r & c & HC & Hr & Hc & H).
        exists t, (i * cs + r), (j * cs + c). split; [exact HC|]. intros bits'. eapply get_super; [exact Hs|reflexivity|reflexivity|exact Hr|exact Hc|exact E'|]. exists m'. auto.
      + apply asked_then in H. destruct H as [H|(m' & G & H)].
        * destruct (local_cell cs (c_top b) (c_bottom b) i (c_top b - i * cs) I1 I2) as [Q1 Q2]; [split; [apply le_n|exact S1]|].
          destruct (local_cell cs (c_left b) (c_right b) j (c_left b - j * cs) J1 J2) as [Q3 Q4]; [split; [apply le_n|exact S2]|].
          eexists (c_start b), _, _. split; [split; [split; [apply le_n|exact B1]|split; [exact Q2|exact Q4]]|]. intros bits'.
          eapply get_super; [exact Hs|reflexivity|reflexivity|exact Q1|exact Q3|exact E'|]. left. exact H.
        * rewrite store_external in G. apply K in H. destruct H as (t & r & c & HC & Hr & Hc & H).
          exists t, (i * cs + r), (j * cs + c). split; [exact HC|]. intros bits'. eapply get_super; [exact Hs|reflexivity|reflexivity|exact Hr|exact Hc|exact E'|]. right. exists m'. auto.
  Qed.

  Lemma cell_like fuel : forall m a b r c bits x, a < b -> In x (asked st (ask_cell fuel m a b r c bits)) ->
    exists t, a <= t < b /\ forall bits', In x (asked st (ask_get fuel m t r c bits')).
  Proof.
    induction fuel as [|fuel IH]; intros m a b r c bits x Hab H; [destruct H|]. cbn [ask_cell] in H. destruct m as [s|ch|s local]; [|destruct H|].
    - apply asked_pure in H. destruct H as (n & E & H). rewrite usub_ok in E by lia. injection E as <-.
      apply asked_pure in H. destruct H as (pieces & E & H). apply pieces_in in E. destruct E as (Hs & HP).
      apply asked_one in H. destruct H as ([[[sp i] len] off] & Hin & H). apply HP in Hin. destruct Hin as (H1 & H2 & H3 & H4).
      apply asked_pure in H. destruct H as (ci & E & H). apply asked_then in H. destruct H as [H|(m' & G & H)].
      + exists (sp * sp_stride s + i). split; [lia|]. intros bits'. eapply get_span; [exact Hs|reflexivity| |exact E|]; [lia|].
        left. destruct H as [->|[]]. reflexivity.
      + apply asked_then in H. destruct H as [H|(l & _ & H)]; [|destruct H]. apply IH in H; [|lia]. destruct H as (t & Ht & H).
        exists (sp * sp_stride s + t). split; [lia|]. intros bits'. eapply get_span; [exact Hs|reflexivity| |exact E|]; [lia|]. right. exists m'. split; [exact G|apply H].
    - set (cs := su_chunks_sidelen s) in *.
      apply asked_pure in H. destruct H as (i & E1 & H). apply asked_pure in H. destruct H as (r' & E2 & H).
      apply asked_pure in H. destruct H as (j & E3 & H). apply asked_pure in H. destruct H as (c' & E4 & H).
      assert (Hs : cs <> 0) by (intros Z; rewrite Z in E1; discriminate E1).
      rewrite udiv_ok in E1, E3 by exact Hs. rewrite umod_ok in E2, E4 by exact Hs. injection E1 as <-. injection E2 as <-. injection E3 as <-. injection E4 as <-.
      pose proof (Nat.mod_upper_bound r cs Hs) as Hr. pose proof (Nat.mod_upper_bound c cs Hs) as Hc.
      pose proof (Nat.div_mod r cs Hs) as Dr. pose proof (Nat.div_mod c cs Hs) as Dc. rewrite (Nat.mul_comm cs) in Dr, Dc.
      cbv zeta in H. apply asked_pure in H. destruct H as (ref & E & H). assert (Hs' : 0 < cs) by lia.
      destruct ref as [|k|k]; [destruct H| |].
      + apply asked_pure in H. destruct H as (m' & G & H). apply IH in H; [|exact Hab]. destruct H as (t & Ht & H). exists t. split; [exact Ht|]. intros bits'.
        eapply get_super; [exact Hs'|exact Dr|exact Dc|exact Hr|exact Hc|exact E|]. exists m'. auto.
      + apply asked_then in H. destruct H as [H|(m' & G & H)].
        * exists a. split; [lia|]. intros bits'. eapply get_super; [exact Hs'|exact Dr|exact Dc|exact Hr|exact Hc|exact E|]. left. exact H.
        * apply IH in H; [|exact Hab]. destruct H as (t & Ht & H). exists t. split; [exact Ht|]. intros bits'. rewrite store_external in G.
          eapply get_super; [exact Hs'|exact Dr|exact Dc|exact Hr|exact Hc|exact E|]. right. exists m'. auto.
  Qed.

  Lemma search_like fuel : forall m b lower upper x, cells_in b -> In x (asked st (ask_search fuel m b lower upper)) ->
    exists t r c, in_cube b t r c /\ forall bits', In x (asked st (ask_get fuel m t r c bits')).
  Proof.
    induction fuel as [|fuel IH]; intros m b lower upper x (B1 & B2 & B3) H; [destruct H|]. cbn [ask_search] in H. destruct m as [s|ch|s local]; [|destruct H|].
    - apply asked_pure in H. destruct H as (n & E & H). unfold cube_instants in E. rewrite usub_ok in E by lia. injection E as <-.
      apply asked_pure in H. destruct H as (pieces & E & H). apply pieces_in in E. destruct E as (Hs & HP).
      apply asked_one in H. destruct H as ([[[sp i] len] off] & Hin & H). apply HP in Hin. destruct Hin as (H1 & H2 & H3 & H4).
      apply asked_pure in H. destruct H as (ci & E & H). rewrite asked_asked_map in H. apply asked_then in H. destruct H as [H|(m' & G & H)].
      + exists (sp * sp_stride s + i), (c_top b), (c_left b). split; [unfold in_cube; lia|]. intros bits'. eapply get_span; [exact Hs|reflexivity| |exact E|]; [lia|].
        left. destruct H as [->|[]]. reflexivity.
      + apply asked_then in H. destruct H as [H|(l & _ & H)]; [|destruct H]. rewrite cube_new_ordered in H by lia.
        apply IH in H; [|unfold cells_in; cbn; lia]. destruct H as (t & r & c & (C1 & C2 & C3) & H). cbn [c_start c_end c_top c_bottom c_left c_right] in C1, C2, C3.
        exists (sp * sp_stride s + t), r, c. split; [unfold in_cube; lia|]. intros bits'. eapply get_span; [exact Hs|reflexivity| |exact E|]; [lia|].
        right. exists m'. split; [exact G|apply H].
    - destruct (rearrangeZ lower upper) as [lo up]. apply asked_pure in H. destruct H as (subs & Es & H). unfold cube_rect in Es. rewrite rect_new_ordered in Es by lia.
      apply subs_in in Es; [|lia|lia]. destruct Es as (Hs & HP). apply asked_one in H. destruct H as (sw & Hin & H). apply HP in Hin.
      destruct Hin as (i & j & -> & I1 & I2 & J1 & J2). cbv zeta in H. apply asked_pure in H. destruct H as (some & _ & H). destruct some; [|destruct H].
      unfold sub_at in H. cbn [sw_local sw_index sw_slice sw_chunk r_top r_bottom r_left r_right] in H.
      set (cs := su_chunks_sidelen s) in *. pose proof (local_some cs _ _ i Hs B2 I1 I2) as S1. pose proof (local_some cs _ _ j Hs B3 J1 J2) as S2.
      rewrite cube_new_ordered in H by (first [exact (Nat.lt_le_incl _ _ B1)|exact (Nat.lt_le_incl _ _ S1)|exact (Nat.lt_le_incl _ _ S2)]).
      rewrite asked_asked_map in H. apply asked_pure in H. destruct H as (ref & E' & H).
      set (lb := mkCube _ _ _ _ _ _) in H.
      assert (K : forall m', In x (asked st (ask_search fuel m' lb lo up)) ->
        exists t r c, in_cube b t (i * cs + r) (j * cs + c) /\ r < cs /\ c < cs /\ In x (asked st (ask_get fuel m' t r c (mm_fbits m')))).
      { intros m' Hm. apply IH in Hm; [|split; [exact B1|split; [exact S1|exact S2]]]. destruct Hm as (t & r & c & (C1 & C2 & C3) & Hm).
        cbn [lb c_start c_end c_top c_bottom c_left c_right] in C1, C2, C3. exists t, r, c.
        destruct (local_cell cs _ _ i r I1 I2 C2). destruct (local_cell cs _ _ j c J1 J2 C3). unfold in_cube. auto. }
      destruct ref as [|k|k]; [destruct H| |].
      + apply asked_pure in H. destruct H as (m' & G & H). apply asked_then in H. destruct H as [H|(l & _ & H)]; [|destruct H].
        apply K in H. destruct H as (t & r & c & HC & Hr & Hc & H).
        exists t, (i * cs + r), (j * cs + c). split; [exact HC|]. intros bits'. eapply get_super; [exact Hs|reflexivity|reflexivity|exact Hr|exact Hc|exact E'|]. exists m'. auto.
      + apply asked_then in H. destruct H as [H|(m' & G & H)].
        * destruct (local_cell cs (c_top b) (c_bottom b) i (c_top b - i * cs) I1 I2) as [Q1 Q2]; [split; [apply le_n|exact S1]|].
          destruct (local_cell cs (c_left b) (c_right b) j (c_left b - j * cs) J1 J2) as [Q3 Q4]; [split; [apply le_n|exact S2]|].
          eexists (c_start b), _, _. split; [split; [split; [apply le_n|exact B1]|split; [exact Q2|exact Q4]]|]. intros bits'.
          eapply get_super; [exact Hs|reflexivity|reflexivity|exact Q1|exact Q3|exact E'|]. left. exact H.
        * rewrite store_external in G. apply asked_then in H. destruct H as [H|(l & _ & H)]; [|destruct H].
          apply K in H. destruct H as (t & r & c & HC & Hr & Hc & H).
          exists t, (i * cs + r), (j * cs + c). split; [exact HC|]. intros bits'. eapply get_super; [exact Hs|reflexivity|reflexivity|exact Hr|exact Hc|exact E'|]. right. exists m'. auto.
  Qed.

  (** A get at depth [d] of a structure without spans asks for two objects at each level but the last. *)
  Lemma get_few : forall d m t r c bits v, mm_get st d m t r c bits = Ok v -> length (asked st (ask_get d m t r c bits)) <= 2 * (d - 1).
  Proof.
    induction d as [|d IH]; intros m t r c bits v H; [discriminate|]. cbn [mm_get] in H. cbn [ask_get].
    assert (H0 : forall m' t' r' c', mm_get st d m' t' r' c' (mm_fbits m') = Ok v -> 2 + length (asked st (ask_get d m' t' r' c' (mm_fbits m'))) <= 2 * (S d - 1)).
    { intros m' t' r' c' Hm. destruct d as [|d]; [discriminate|]. apply IH in Hm. lia. }
    destruct m as [s|ch|s local].
    - apply bind_inv in H. destruct H as (x & E & H). apply bind_inv in H. destruct H as (ci & E1 & H). apply bind_inv in H. destruct H as (m' & E2 & H).
      rewrite E, asked_bind. cbn [asked ask_store app]. rewrite E1, asked_bind. cbn [asked ask_store app]. rewrite asked_bind, store_mm, E2, app_length. cbn [ask_mm asked length].
      apply H0 in H. lia.
    - cbn [asked length]. lia.
    - apply bind_inv in H. destruct H as (a1 & E1 & H). apply bind_inv in H. destruct H as (a2 & E2 & H). apply bind_inv in H. destruct H as (a3 & E3 & H).
      apply bind_inv in H. destruct H as (a4 & E4 & H). cbv zeta in H |- *. apply bind_inv in H. destruct H as (ref & E5 & H).
      rewrite E1, asked_bind. cbn [asked ask_store app]. rewrite E2, asked_bind. cbn [asked ask_store app]. rewrite E3, asked_bind. cbn [asked ask_store app].
      rewrite E4, asked_bind. cbn [asked ask_store app]. rewrite E5, asked_bind. cbn [asked ask_store app].
      destruct ref as [|k|k]; [cbn [asked length]; lia| |]; apply bind_inv in H; destruct H as (m' & E6 & H); apply H0 in H.
      + rewrite asked_bind. cbn [asked ask_store app]. rewrite E6. lia.
      + rewrite asked_bind, store_external, E6, app_length.
        assert (length (asked st (ask_external s k)) <= 2).
        { unfold ask_external. rewrite asked_bind, app_length. cbn [ask_links asked length]. destruct (ask_store st (ask_links (su_external s))) as [l| | |]; cbn [length]; try lia.
          rewrite asked_bind. cbn [asked ask_store app]. destruct (nth_res l k); cbn [ask_mm asked length]; lia. }
        lia.
  Qed.
  (** With more fuel the same objects are asked for. *)
  Lemma get_fuel : forall d d' m t r c bits v, mm_get st d m t r c bits = Ok v -> d <= d' -> asked st (ask_get d' m t r c bits) = asked st (ask_get d m t r c bits).
  Proof.
    induction d as [|d IH]; intros d' m t r c bits v H Hd; [discriminate|]. destruct d' as [|d']; [lia|]. cbn [mm_get] in H. cbn [ask_get].
    destruct m as [s|ch|s local].
    - apply bind_inv in H. destruct H as (x & E & H). apply bind_inv in H. destruct H as (ci & E1 & H). apply bind_inv in H. destruct H as (m' & E2 & H).
      rewrite E, !asked_bind. cbn [asked ask_store app]. rewrite E1, !asked_bind. cbn [asked ask_store app]. rewrite !asked_bind, store_mm, E2. f_equal. apply (IH d' m' _ _ _ _ v H). lia.
    - reflexivity.
    - apply bind_inv in H. destruct H as (a1 & E1 & H). apply bind_inv in H. destruct H as (a2 & E2 & H). apply bind_inv in H. destruct H as (a3 & E3 & H).
      apply bind_inv in H. destruct H as (a4 & E4 & H). cbv zeta in H |- *. apply bind_inv in H. destruct H as (ref & E5 & H).
      rewrite E1, !asked_bind. cbn [asked ask_store app]. rewrite E2, !asked_bind. cbn [asked ask_store app]. rewrite E3, !asked_bind. cbn [asked ask_store app].
      rewrite E4, !asked_bind. cbn [asked ask_store app]. rewrite E5, !asked_bind. cbn [asked ask_store app].
      destruct ref as [|k|k]; [reflexivity| |]; apply bind_inv in H; destruct H as (m' & E6 & H); rewrite !asked_bind.
      + cbn [asked ask_store app]. rewrite E6. apply (IH d' m' _ _ _ _ v H). lia.
      + rewrite !store_external, E6. f_equal. apply (IH d' m' _ _ _ _ v H). lia.
  Qed.
End Reach.
