(** * Properties C20-C23, C34, C37 and C38: failed loads, concurrent reads, elided
    and shared sub-arrays, spans, bounds and element types. *)
From Verif Require Import Base BaseFacts Spec GeomModel GeomProofs BitmapModel DacModel DacProofs StreamModel StreamProofs
  SnapshotModel SnapshotProofs ChunkModel ChunkProofs ChunkReads ChunkStream NodeModel NodeProofs SuperModel SuperViews SuperProofs
  SuperInt SuperLinks ArrayModel ArrayProofs MissingProofs PropertiesNode PropertiesChunk PropertiesSuper.
Ltac Zify.zify_post_hook ::= Z.div_mod_to_equations.
Arguments Nat.pow : simpl never.

(** Integer data of one of the two integer types: how they are stored ([enc])
    and read ([R]). The differences of 32 bit integers always fit 64 bits. *)
Definition int_data (enc : encoding) (R : reader Z) (g : nat -> nat -> nat -> Z) (instants rows cols : nat) : Prop :=
  (enc = EncI64 /\ R = reader_i64 /\ i64_series g instants rows cols /\ diffs_fit g instants rows cols) \/
  (enc = EncI32 /\ R = reader_i32 /\ i32_series g instants rows cols).

Lemma int_data_wide enc R g instants rows cols : int_data enc R g instants rows cols ->
  i64_series g instants rows cols /\ diffs_fit g instants rows cols /\ rd_enc R = enc /\
  forall t r c b, t < instants -> r < rows -> c < cols -> rd_set R b (g t r c) = g t r c.
Proof.
  intros [(-> & -> & Hi & Hd)|(-> & -> & H32)].
  - split; [exact Hi|]. split; [exact Hd|]. split; reflexivity.
  - split; [|split; [|split]].
    + intros t r c Ht Hr' Hc'. specialize (H32 t r c Ht Hr' Hc'). unfold i32_range, i64_range, two63 in *. lia.
    + intros s t Hst Ht r c Hr' Hc'. pose proof (H32 s r c ltac:(lia) Hr' Hc'). pose proof (H32 t r c Ht Hr' Hc').
      unfold i32_range, i64_range, two63 in *. lia.
    + reflexivity.
    + intros t r c b Ht Hr Hc. cbn. apply as_i32_id. auto.
Qed.

Lemma int_view hash enc R k lc levels g instants rows cols st st2 b :
  (forall b, wf_cid (hash b)) -> 2 <= k -> Nat.Even k -> fits8 k ->
  0 < instants -> 0 < rows -> 0 < cols -> sizes_ok k lc instants (Nat.max rows cols) ->
  int_data enc R g instants rows cols ->
  super_build hash (int_elem enc) k lc levels g instants rows cols 0 st = Ok (st2, b) ->
  wf_mm (mb_data b) /\ mm_encoding (mb_data b) = rd_enc R /\
  exists f, (forall t r c, t < instants -> r < rows -> c < cols -> fst (f t r c) = g t r c) /\
    (forall t r c, t < instants -> r < rows -> c < cols -> rd_set R (snd (f t r c)) (fst (f t r c)) = g t r c) /\
    forall st', incl st2 st' -> functional st' -> view st' (S (length levels)) (mb_data b) instants rows cols f.
Proof.
  intros Hh Hk Hev Hk8 H0 Hr Hc HS HD E. destruct (int_data_wide _ _ _ _ _ _ HD) as (Hi & Hd & He & Hset).
  destruct (super_build_view hash (int_elem enc) k lc Hh Hk Hk8 (int_single enc) int_good int_good_ok levels Hev g instants rows cols 0 st st2 b
    H0 Hr Hc HS (int_all_good 0 _ _ _ _ eq_refl) (int_tiles_ok enc k lc _ g instants rows cols Hi Hd) E) as (HW & _ & He' & f & Hf & HV).
  split; [exact HW|]. split; [rewrite He; exact He'|]. exists f.
  assert (Hfg : forall t r c, t < instants -> r < rows -> c < cols -> fst (f t r c) = g t r c).
  { intros t r c Ht Hr' Hc'. specialize (Hf t r c Ht Hr' Hc'). destruct Hf as [Hf _]. cbn in Hf. injection Hf as Hf. symmetry. exact Hf. }
  split; [exact Hfg|]. split; [|exact HV]. intros t r c Ht Hr' Hc'. rewrite Hfg by assumption. apply Hset; assumption.
Qed.

(** ** C20: failed loads *)

(** A window read of a superchunk whose parts cannot be loaded succeeds, with
    zeros in their place; [get] at the same place reports the error. *)
Theorem C20_window_hides_failure_refuted : exists st2 b a,
  super_build ex_hash elem_i32 2 (log_ceil 2) [2; 2] ex_super 3 9 10 0 [] = Ok (st2, b) /\
  arr_window reader_i32 [] 3 (fun l => l) (mb_data b) (cube_new 1 3 2 6 3 9) = Ok a /\
  arr_get reader_i32 [] 3 (mb_data b) 2 5 6 = Err ENotFound /\
  ex_super 2 5 6 = 7%Z /\ a3_at a 1 3 3 = 0%Z.
Proof.
  do 3 eexists. split; [vm_compute; reflexivity|]. split; [vm_compute; reflexivity|].
  split; [vm_compute; reflexivity|]. split; vm_compute; reflexivity.
Qed.

(** The other reads report the failure: [get] and [cell] return the error that
    loading gives, and a search delivers it. *)
Lemma flat_mapM_in_inv {A B} (f : A -> res (list B)) l : forall out x, flat_mapM f l = Ok out -> In x l ->
  exists y, f x = Ok y /\ incl y out.
Proof.
  induction l as [|a l IH]; intros out x H Hx; [destruct Hx|]. cbn [flat_mapM] in H.
  apply bind_inv in H. destruct H as (y & Ey & H). apply bind_inv in H. destruct H as (ys & Eys & H). injection H as <-.
  destruct Hx as [<-|Hx].
  - exists y. split; [exact Ey|]. apply incl_appl, incl_refl.
  - destruct (IH ys x Eys Hx) as (z & Ez & Iz). exists z. split; [exact Ez|]. apply incl_appr. exact Iz.
Qed.

Theorem C20_get_cell_report_partial : forall st fuel s local t r c bits i e,
  0 < su_chunks_sidelen s ->
  nth_res (su_refs s) (r / su_chunks_sidelen s * su_subsidelen s + c / su_chunks_sidelen s) = Ok (RExternal i) ->
  super_external st s i = Err e ->
  mm_get st (S fuel) (MSuper s local) t r c bits = Err e /\
  forall start end_, mm_fill_cell st (S fuel) (MSuper s local) start end_ r c bits = Err e.
Proof.
  intros st fuel s local t r c bits i e Hcs Hn He. split; [|intros start end_]; cbn [mm_get mm_fill_cell];
    rewrite !udiv_ok, !umod_ok by lia; cbn [bind]; rewrite Hn; cbn [bind]; rewrite He; reflexivity.
Qed.

Theorem C20_search_reports_partial : forall st fuel s local b lower upper out subs sw i e,
  mm_search st (S fuel) (MSuper s local) b lower upper = Ok out ->
  subchunks_for s (cube_rect b) = Ok subs -> In sw subs ->
  has_cells s (sw_index sw + c_start b * (su_subsidelen s * su_subsidelen s)) (c_end b - c_start b)
    (Z.min lower upper) (Z.max lower upper) = Ok true ->
  nth_res (su_refs s) (sw_index sw) = Ok (RExternal i) -> super_external st s i = Err e -> In (inl e) out.
Proof.
  intros st fuel s local b lower upper out subs sw i e H Hs Hin Hc Hn He. cbn [mm_search] in H.
  rewrite rearrangeZ_spec in H. rewrite Hs in H. cbn [bind] in H.
  destruct (flat_mapM_in_inv _ _ _ _ H Hin) as (y & Ey & Iy).
  rewrite Hc in Ey. cbn [bind] in Ey. rewrite Hn in Ey. cbn [bind] in Ey. rewrite He in Ey. cbn [bind or_error] in Ey.
  injection Ey as <-. apply Iy. left. reflexivity.
Qed.

(** Whatever part [part] of the stored objects can be loaded: reads of single
    cells and cell histories give the right data or report that an object is not
    found; a search ends, finds no cell that it should not, reports the objects that are
    not found, finds every match that can be read on its own, and finds all when it
    reports none; a window gives an error, or holds the
    right data at the cells that can be read one by one, and zeros at the others. What
    is missing from C20 is an error for those: [C20_window_hides_failure_refuted]. *)
Theorem C20_missing_objects_partial : forall hash enc R k lc levels g instants rows cols st,
  (forall b, wf_cid (hash b)) -> 2 <= k -> Nat.Even k -> fits8 k ->
  0 < instants -> 0 < rows -> 0 < cols -> sizes_ok k lc instants (Nat.max rows cols) ->
  levels_fit k lc levels rows cols -> int_data enc R g instants rows cols ->
  exists st2 b, super_build hash (int_elem enc) k lc levels g instants rows cols 0 st = Ok (st2, b) /\
    forall st' part fuel, incl st2 st' -> functional st' -> incl part st' -> S (length levels) <= fuel ->
      reads_if_there R part fuel (mb_data b) instants rows cols g /\
      (leaves_searchable k lc levels g instants rows cols -> searches_if_there part fuel (mb_data b) instants rows cols g).
Proof.
  intros hash enc R k lc levels g instants rows cols st Hh Hk Hev Hk8 H0 Hr Hc HS HL HD.
  destruct (int_data_wide _ _ _ _ _ _ HD) as (Hi & Hd & _).
  destruct (super_builds hash enc k lc Hk levels g instants rows cols 0 st H0 HL Hi) as (st2 & b & E).
  exists st2, b. split; [exact E|]. intros st' part fuel HI HF HP Hfuel.
  destruct (int_view hash enc R k lc levels g instants rows cols st st2 b Hh Hk Hev Hk8 H0 Hr Hc HS HD E)
    as (_ & He & f & Hf & Hset & HV). split.
  - apply (view_reads_if_there R part st' (S (length levels)) fuel _ _ _ _ f); auto.
  - intros Hs. apply (sview_searches_if_there part st' (S (length levels)) fuel); auto.
    + apply (v_shape _ _ _ _ _ _ _ (HV st' HI HF)).
    + exact (super_build_sview hash enc k lc Hh Hk Hk8 levels Hev g instants rows cols 0 st st2 b H0 Hr Hc HS ltac:(reflexivity) Hi Hd Hs E st' HI HF).
Qed.

(** Spans report failures in every read: success means that each sub-span that
    the request meets has been loaded. *)
Lemma pieces_meet stride instants start pieces t : 0 < stride ->
  span_pieces (S instants) stride instants (start / stride) (start mod stride) 0 = Ok pieces ->
  start <= t < start + instants ->
  exists i len off, In (t / stride, i, len, off) pieces.
Proof.
  intros Hs E Ht.
  pose proof (Nat.div_mod start stride ltac:(lia)) as Et. pose proof (Nat.mod_upper_bound start stride ltac:(lia)) as Bt.
  destruct (span_pieces_ok (fun t => [t]) stride instants (S instants) (start / stride) (start mod stride) 0)
    as (ps & E' & F & HP); [lia|exact Bt|lia|]. rewrite E in E'. injection E' as <-.
  replace (start / stride * stride + start mod stride) with start in F by (clear - Et; lia).
  assert (Hin : In t (flat_map (fun x => [x]) (range start (start + (instants - 0))))).
  { apply in_flat_map. exists t. split; [apply in_range; clear -Ht; lia|left; reflexivity]. }
  rewrite <- F in Hin. apply in_flat_map in Hin. destruct Hin as ([[[sp i] len] off] & Hp & Hin).
  apply in_flat_map in Hin. destruct Hin as (x & Hx & [<-|[]]). apply in_range in Hx.
  destruct (HP _ _ _ _ Hp) as (_ & Hl & _). exists i, len, off.
  replace ((sp * stride + x) / stride) with sp; [exact Hp|].
  rewrite Nat.add_comm, Nat.div_add by lia. rewrite Nat.div_small by lia. reflexivity.
Qed.

Theorem C20_span_reports : forall st fuel s, 0 < sp_stride s ->
  (forall b bits out, mm_fill_window st fuel (MSpan s) b bits = Ok out ->
     forall t, c_start b <= t < c_end b ->
     exists c m, nth_res (sp_spans s) (t / sp_stride s) = Ok c /\ get_mm st c = Ok m) /\
  (forall start end_ r c bits out, mm_fill_cell st fuel (MSpan s) start end_ r c bits = Ok out ->
     forall t, start <= t < end_ ->
     exists c m, nth_res (sp_spans s) (t / sp_stride s) = Ok c /\ get_mm st c = Ok m) /\
  (forall t r c bits out, mm_get st fuel (MSpan s) t r c bits = Ok out ->
     exists c m, nth_res (sp_spans s) (t / sp_stride s) = Ok c /\ get_mm st c = Ok m).
Proof.
  intros st [|fuel] s Hs; [split; [|split]; discriminate|]. split; [|split].
  - intros b bits out H t Ht. cbn [mm_fill_window] in H. unfold cube_instants, span_pieces_for, find_span in H.
    rewrite usub_ok in H by lia. rewrite udiv_ok, umod_ok in H by lia. cbn [bind fst snd] in H.
    apply bind_inv in H. destruct H as (pieces & E & H).
    destruct (pieces_meet _ _ _ _ t Hs E) as (i & len & off & Hp); [lia|].
    destruct (flat_mapM_in_inv _ _ _ _ H Hp) as (y & Ey & _). cbn beta iota in Ey.
    apply bind_inv in Ey. destruct Ey as (c & Ec & Ey). apply bind_inv in Ey. destruct Ey as (m & Em & _). eauto.
  - intros start end_ r c bits out H t Ht. cbn [mm_fill_cell] in H. unfold span_pieces_for, find_span in H.
    rewrite usub_ok in H by lia. rewrite udiv_ok, umod_ok in H by lia. cbn [bind fst snd] in H.
    apply bind_inv in H. destruct H as (pieces & E & H).
    destruct (pieces_meet _ _ _ _ t Hs E) as (i & len & off & Hp); [lia|].
    destruct (flat_mapM_in_inv _ _ _ _ H Hp) as (y & Ey & _). cbn beta iota in Ey.
    apply bind_inv in Ey. destruct Ey as (c' & Ec & Ey). apply bind_inv in Ey. destruct Ey as (m & Em & _). eauto.
  - intros t r c bits out H. cbn [mm_get] in H. unfold find_span in H. rewrite udiv_ok, umod_ok in H by lia. cbn [bind fst snd] in H.
    apply bind_inv in H. destruct H as (c' & Ec & Ey). apply bind_inv in Ey. destruct Ey as (m & Em & _). eauto.
Qed.

(** ** C21: concurrent sub-reads *)

(** The positions of the output that a sub-read owns. *)
Definition owns (sw : subwindow) (r c : nat) : bool :=
  ((r_top (sw_slice sw) <=? r) && (r <? r_bottom (sw_slice sw)) &&
   (r_left (sw_slice sw) <=? c) && (c <? r_right (sw_slice sw)))%bool.

Lemma filter_one {A} (p : A -> bool) l x : NoDup l -> In x l -> (forall y, In y l -> p y = true <-> y = x) -> filter p l = [x].
Proof.
  intros HN Hin Hp. induction l as [|a l IH]; [destruct Hin|]. inversion_clear HN as [|? ? Ha HN']. cbn [filter].
  destruct (p a) eqn:Ea.
  - apply Hp in Ea; [|left; reflexivity]. subst a. f_equal.
    assert (Hn : forall y, In y l -> p y = false).
    { intros y Hy. destruct (p y) eqn:Ey; [|reflexivity]. apply Hp in Ey; [|right; exact Hy]. subst. contradiction. }
    clear -Hn. induction l as [|y l IH]; [reflexivity|]. cbn [filter]. rewrite (Hn y) by (left; reflexivity). apply IH.
    intros z Hz. apply Hn. right. exact Hz.
  - destruct Hin as [->|Hin]; [exfalso; rewrite (proj2 (Hp x (or_introl eq_refl)) eq_refl) in Ea; discriminate|].
    apply IH; [exact HN'|exact Hin|]. intros y Hy. apply Hp. right. exact Hy.
Qed.

(** Every position of the output belongs to exactly one sub-read, which reads
    the right cell for it; sub-reads stay inside the output. *)
Theorem C21_subreads_partition : forall s top bottom left right, 0 < su_chunks_sidelen s ->
  top < bottom -> left < right -> right <= su_subsidelen s * su_chunks_sidelen s ->
  exists subs, subchunks_for s (rect_new top bottom left right) = Ok subs /\
    (forall sw, In sw subs -> r_bottom (sw_slice sw) <= bottom - top /\ r_right (sw_slice sw) <= right - left) /\
    forall r c, r < bottom - top -> c < right - left ->
    exists sw, filter (fun sw => owns sw r c) subs = [sw] /\
      sw_index sw = (top + r) / su_chunks_sidelen s * su_subsidelen s + (left + c) / su_chunks_sidelen s /\
      r_top (sw_local sw) + (r - r_top (sw_slice sw)) = (top + r) mod su_chunks_sidelen s /\
      r_left (sw_local sw) + (c - r_left (sw_slice sw)) = (left + c) mod su_chunks_sidelen s.
Proof.
  intros s top bottom left right Hcs Ht Hl Hb. rewrite rect_new_spec.
  rewrite !Nat.min_l, !Nat.max_r by lia. rewrite subchunks_for_ok by assumption.
  set (cs := su_chunks_sidelen s) in *. set (ss := su_subsidelen s) in *.
  eexists. split; [reflexivity|]. split.
  - intros sw Hsw. apply in_flat_map in Hsw. destruct Hsw as (i & _ & Hsw). apply in_map_iff in Hsw. destruct Hsw as (j & <- & _).
    unfold sub_at. cbn [sw_slice r_bottom r_right]. split; [clear; lia|clear; lia].
  - intros r c Hr Hc.
    pose proof (Nat.div_mod (top + r) cs ltac:(lia)) as Er. pose proof (Nat.mod_upper_bound (top + r) cs ltac:(lia)) as Br.
    pose proof (Nat.div_mod (left + c) cs ltac:(lia)) as Ec. pose proof (Nat.mod_upper_bound (left + c) cs ltac:(lia)) as Bc.
    assert (Hi : top / cs <= (top + r) / cs <= (bottom - 1) / cs) by (split; apply Nat.div_le_mono; lia).
    assert (Hj : left / cs <= (left + c) / cs <= (right - 1) / cs) by (split; apply Nat.div_le_mono; lia).
    assert (Hss : forall j, left / cs <= j <= (right - 1) / cs -> j < ss).
    { intros j Hjj. destruct (tile_bounds left right cs j Hcs Hl Hjj) as [X _]. clear -X Hb Hcs. nia. }
    assert (Own : forall i j, owns (sub_at s top bottom left right i j) r c = true <->
      i = (top + r) / cs /\ j = (left + c) / cs).
    { intros i j. unfold owns, sub_at. cbn [sw_slice r_top r_bottom r_left r_right]. fold cs.
      assert (D : forall a n : nat, a * cs <= n < a * cs + cs <-> a = n / cs).
      { intros a n. split.
        - intros [H1 H2]. apply (Nat.div_unique n cs a (n - a * cs)); lia.
        - intros ->. pose proof (Nat.div_mod n cs ltac:(lia)). pose proof (Nat.mod_upper_bound n cs ltac:(lia)). lia. }
      rewrite <- (D i (top + r)), <- (D j (left + c)). clear D Er Ec Br Bc Hi Hj Hss.
      rewrite !andb_true_iff, !Nat.leb_le, !Nat.ltb_lt. generalize (i * cs) (j * cs). intros a b. clear -Hr Hc. lia. }
    exists (sub_at s top bottom left right ((top + r) / cs) ((left + c) / cs)). split.
    + apply filter_one.
      * apply nodup_flat_map.
        -- apply seq_NoDup.
        -- intros i Hii. apply NoDup_map_inj_in; [|apply seq_NoDup]. intros x y Hx Hy E. apply in_range_incl in Hx, Hy.
           apply Hss in Hx, Hy. unfold sub_at in E. injection E as E _. fold ss in E. clear -E. lia.
        -- intros i i' y Hii Hii' H1 H2. apply in_map_iff in H1, H2. destruct H1 as (j1 & <- & J1). destruct H2 as (j2 & E & J2).
           apply in_range_incl in J1, J2. apply Hss in J1, J2. unfold sub_at in E. injection E as E _. fold ss in E.
           clear -E J1 J2. nia.
      * apply in_flat_map. exists ((top + r) / cs). split; [apply in_range_incl; exact Hi|].
        apply in_map. apply in_range_incl. exact Hj.
      * intros y Hy. apply in_flat_map in Hy. destruct Hy as (i & Hii & Hy). apply in_map_iff in Hy. destruct Hy as (j & <- & Hjj).
        apply in_range_incl in Hii, Hjj. rewrite Own. split.
        -- intros [-> ->]. reflexivity.
        -- intros E. assert (Ei : i * cs = (top + r) / cs * cs) by (unfold sub_at in E; injection E; intros; assumption).
           assert (Ej : j * cs = (left + c) / cs * cs) by (unfold sub_at in E; injection E; intros; assumption).
           split; [clear -Ei Hcs; nia|clear -Ej Hcs; nia].
    + unfold sub_at. cbn [sw_index sw_local sw_slice r_top r_left]. fold cs ss. split; [reflexivity|].
      split; [clear -Er Br; lia|clear -Ec Bc; lia].
Qed.

(** The calls that the sub-reads of a window make on the output: every position
    once, none outside. *)
Theorem C21_positions_once : forall hash enc R k lc levels g instants rows cols st,
  (forall b, wf_cid (hash b)) -> 2 <= k -> Nat.Even k -> fits8 k ->
  0 < instants -> 0 < rows -> 0 < cols -> sizes_ok k lc instants (Nat.max rows cols) ->
  levels_fit k lc levels rows cols -> int_data enc R g instants rows cols ->
  exists st2 b, super_build hash (int_elem enc) k lc levels g instants rows cols 0 st = Ok (st2, b) /\
    forall st' fuel start end_ top bottom left right, incl st2 st' -> functional st' -> S (length levels) <= fuel ->
      start <= end_ -> end_ <= instants -> top < bottom <= rows -> left < right <= cols ->
      exists calls, mm_fill_window st' fuel (mb_data b) (cube_new start end_ top bottom left right) 0 = Ok calls /\
        NoDup (map fst calls) /\
        forall t r c, In (t, r, c) (map fst calls) <-> t < end_ - start /\ r < bottom - top /\ c < right - left.
Proof.
  intros hash enc R k lc levels g instants rows cols st Hh Hk Hev Hk8 H0 Hr Hc HS HL HD.
  destruct (int_data_wide _ _ _ _ _ _ HD) as (Hi & Hd & _).
  destruct (super_builds hash enc k lc Hk levels g instants rows cols 0 st H0 HL Hi) as (st2 & b & E).
  exists st2, b. split; [exact E|]. intros st' fuel start end_ top bottom left right HI HF Hfuel H1 H2 H3 H4.
  destruct (int_view hash enc R k lc levels g instants rows cols st st2 b Hh Hk Hev Hk8 H0 Hr Hc HS HD E)
    as (_ & _ & f & _ & _ & HV).
  destruct (super_build_view hash (int_elem enc) k lc Hh Hk Hk8 (int_single enc) int_good int_good_ok levels Hev g instants rows cols 0 st st2 b
    H0 Hr Hc HS (int_all_good 0 _ _ _ _ eq_refl) (int_tiles_ok enc k lc _ g instants rows cols Hi Hd) E) as (_ & Hb & _).
  destruct (v_window _ _ _ _ _ _ _ (HV st' HI HF) fuel start end_ top bottom left right Hfuel H1 H2) as (l & El & P);
    [unfold window_in; lia|]. rewrite Hb in El. exists l. split; [exact El|]. split.
  - apply (Permutation_NoDup (Permutation_sym (Permutation_map fst P))). apply window3_nodup.
  - intros t r c. split.
    + intros Hin. apply in_map_iff in Hin. destruct Hin as ([[[t' r'] c'] v] & Eq & Hin). cbn [fst] in Eq. injection Eq as -> -> ->.
      apply (Permutation_in _ P) in Hin. apply window3_in in Hin. clear -Hin. lia.
    + intros Hin. apply in_map_iff. exists (t, r, c, f (start + t) (top + r) (left + c)). split; [reflexivity|].
      apply (Permutation_in _ (Permutation_sym P)). apply window3_in. clear -Hin H1 H3 H4. split; [lia|]. split; [lia|]. split; [lia|reflexivity].
Qed.

(** Calls on different positions give the same array in any order. *)
Theorem C21_any_order : forall A (R : reader A) a l l' a1, NoDup (map fst l) -> Permutation l l' -> run3 R a l = Ok a1 ->
  exists a2, run3 R a l' = Ok a2 /\ a3_shape a2 = a3_shape a1 /\ forall t r c, a3_at a2 t r c = a3_at a1 t r c.
Proof.
  intros A R a l l' a1 HN HP H. destruct (a3_shape a) as [[n h] w] eqn:Es.
  assert (HB : forall t r c v, In (t, r, c, v) l -> t < n /\ r < h /\ c < w).
  { clear HN HP l'. revert a a1 H Es. induction l as [|[[[t0 r0] c0] [v0 b0]] l IH]; intros a a1 H Es t r c v Hin; [destruct Hin|].
    change (bind (write3 a t0 r0 c0 (rd_set R b0 v0)) (fun a' => run3 R a' l) = Ok a1) in H.
    apply bind_inv in H. destruct H as (a' & Ea & H). unfold write3 in Ea. rewrite Es in Ea.
    destruct ((t0 <? n) && (r0 <? h) && (c0 <? w)) eqn:Eb; [|discriminate]. injection Ea as <-.
    destruct Hin as [Hin|Hin].
    - injection Hin as <- <- <- <-. apply andb_true_iff in Eb. destruct Eb as [Eb E3]. apply andb_true_iff in Eb. destruct Eb as [E1 E2].
      apply Nat.ltb_lt in E1, E2, E3. auto.
    - eapply IH; [exact H|exact eq_refl|exact Hin]. }
  destruct (run3_spec R l a n h w Es HN HB) as (x & Ex & Sx & Vx & Ox). rewrite H in Ex. injection Ex as <-.
  destruct (run3_spec R l' a n h w Es (Permutation_NoDup (Permutation_map fst HP) HN)) as (y & Ey & Sy & Vy & Oy).
  { intros t r c v Hin. apply (HB t r c v). apply (Permutation_in _ (Permutation_sym HP)). exact Hin. }
  exists y. split; [exact Ey|]. split; [congruence|]. intros t r c.
  destruct (in_dec (fun x y : nat * nat * nat => ltac:(repeat decide equality)) (t, r, c) (map fst l)) as [Hi|Hi].
  - apply in_map_iff in Hi. destruct Hi as ([[[t' r'] c'] [v b]] & E1 & Hi). cbn [fst] in E1. injection E1 as -> -> ->.
    rewrite (Vx _ _ _ _ _ Hi). apply (Vy _ _ _ _ _ (Permutation_in _ HP Hi)).
  - rewrite (Ox _ _ _ Hi). apply Oy. intros Hi'. apply Hi. apply (Permutation_in _ (Permutation_sym (Permutation_map fst HP))). exact Hi'.
Qed.

Example C21_example : forall max min, let s := mkSuper 3 9 10 16 2 [] max min (ex_cid 0) 0 EncI32 4 4 in
  exists subs, subchunks_for s (rect_new 2 6 3 9) = Ok subs /\ length subs = 6 /\
    map (fun sw => (sw_index sw, r_top (sw_slice sw), r_left (sw_slice sw))) (filter (fun sw => owns sw 2 1) subs) = [(5, 2, 1)].
Proof. intros. eexists. split; [vm_compute; reflexivity|]. split; vm_compute; reflexivity. Qed.

(** ** C22: elided sub-arrays *)

(** For integers the one value that is kept for an elided sub-array at an instant
    is the value of all its cells. For floats the claim is false, because of NaN
    cells (PropertiesFloat.v). *)
Theorem C22_elided_int_partial : forall hash enc R k lc levels g instants rows cols st st2 b s local,
  (forall b, wf_cid (hash b)) -> 2 <= k -> Nat.Even k -> fits8 k ->
  0 < instants -> 0 < rows -> 0 < cols -> sizes_ok k lc instants (Nat.max rows cols) ->
  int_data enc R g instants rows cols ->
  super_build hash (int_elem enc) k lc levels g instants rows cols 0 st = Ok (st2, b) -> functional st2 ->
  mb_data b = MSuper s local -> 0 < su_chunks_sidelen s ->
  forall t r c, t < instants -> r < rows -> c < cols ->
  let part := r / su_chunks_sidelen s * su_subsidelen s + c / su_chunks_sidelen s in
  nth_res (su_refs s) part = Ok RElided ->
  dac_get (su_max s) (part + t * (su_subsidelen s * su_subsidelen s)) = Ok (g t r c).
Proof.
  intros hash enc R k lc levels g instants rows cols st st2 b s local Hh Hk Hev Hk8 H0 Hr Hc HS HD E HF Em Hcs t r c Ht Hr' Hc' part Hp.
  destruct (int_view hash enc R k lc levels g instants rows cols st st2 b Hh Hk Hev Hk8 H0 Hr Hc HS HD E)
    as (_ & _ & f & Hf & _ & HV). specialize (HV st2 (incl_refl _) HF).
  pose proof (v_get _ _ _ _ _ _ _ HV _ t r c (le_n _) Ht Hr' Hc') as G. rewrite Em in G. cbn [mm_get] in G.
  rewrite !udiv_ok, !umod_ok in G by lia. cbn [bind] in G. fold part in G. rewrite Hp in G. cbn [bind] in G.
  apply bind_inv in G. destruct G as (v & Ev & G). rewrite Ev. rewrite <- (Hf t r c Ht Hr' Hc'). injection G as G. rewrite <- G. reflexivity.
Qed.
Example C22_example : exists st2 b s,
  super_build ex_hash elem_i32 2 (log_ceil 2) [2; 2] ex_super 3 9 10 0 [] = Ok (st2, b) /\ functional st2 /\
  mb_data b = MSuper s [] /\ su_chunks_sidelen s = 4 /\ nth_res (su_refs s) (3 / 4 * 4 + 2 / 4) = Ok RElided /\
  dac_get (su_max s) (3 / 4 * 4 + 2 / 4 + 2 * (4 * 4)) = Ok (ex_super 2 3 2).
Proof.
  do 3 eexists. split; [vm_compute; reflexivity|].
  split; [apply functional_checked; vm_compute; reflexivity|].
  split; [reflexivity|]. split; [reflexivity|]. split; vm_compute; reflexivity.
Qed.

(** ** C23: spans *)

Theorem C23_get : forall st fuel s t r c bits ci m, 0 < sp_stride s ->
  nth_error (sp_spans s) (t / sp_stride s) = Some ci -> get_mm st ci = Ok m ->
  mm_get st (S fuel) (MSpan s) t r c bits = mm_get st fuel m (t mod sp_stride s) r c (mm_fbits m).
Proof.
  intros st fuel s t r c bits ci m Hs Hn Hm. cbn [mm_get]. unfold find_span. rewrite udiv_ok, umod_ok by lia. cbn [bind fst snd].
  rewrite (nth_res_ok _ _ _ Hn). cbn [bind]. rewrite Hm. reflexivity.
Qed.

Lemma NoDup_app_split {A} (l1 l2 : list A) : NoDup (l1 ++ l2) -> NoDup l2 /\ forall x, In x l1 -> ~ In x l2.
Proof.
  induction l1 as [|a l1 IH]; cbn [app]; intros H; [split; [exact H|intros x []]|].
  apply NoDup_cons_iff in H. destruct H as [Ha H]. destruct (IH H) as [H1 H2]. split; [exact H1|].
  intros x [->|Hx]; [|auto]. intros Hx. apply Ha. apply in_or_app. right. exact Hx.
Qed.

(** The pieces of a range (sub-span, first instant in it, length, offset in the
    request): each instant of the range is in exactly one piece, at its place. *)
Theorem C23_pieces : forall s start instants, 0 < sp_stride s ->
  exists pieces, span_pieces_for s start instants = Ok pieces /\
    (forall sp i len off, In (sp, i, len, off) pieces -> 0 < len /\ i + len <= sp_stride s /\ off + len <= instants) /\
    forall t, t < instants ->
    exists sp i len off, filter (fun '(_, _, len, off) => (off <=? t) && (t <? off + len)) pieces = [(sp, i, len, off)] /\
      off <= t < off + len /\ sp = (start + t) / sp_stride s /\ i + (t - off) = (start + t) mod sp_stride s.
Proof.
  intros s start instants Hs. unfold span_pieces_for, find_span. rewrite udiv_ok, umod_ok by lia. cbn [bind fst snd].
  set (stride := sp_stride s) in *.
  pose proof (Nat.div_mod start stride ltac:(lia)) as Et. pose proof (Nat.mod_upper_bound start stride ltac:(lia)) as Bt.
  destruct (span_pieces_ok (fun t => [t]) stride instants (S instants) (start / stride) (start mod stride) 0)
    as (ps & E & F & HP); [lia|exact Bt|lia|].
  exists ps. split; [exact E|]. split; [intros sp i len off Hp; specialize (HP _ _ _ _ Hp); clear -HP; lia|].
  intros t Ht.
  replace (start / stride * stride + start mod stride) with start in F by (clear - Et; lia).
  assert (HP' : forall sp i len off, In (sp, i, len, off) ps -> 0 < len /\ i + len <= stride /\ sp * stride + i = start + off).
  { intros sp i len off Hp. specialize (HP _ _ _ _ Hp). clear -HP Et. lia. }
  assert (FN : NoDup (flat_map (fun '(sp', i, len, off) => flat_map (fun t0 => [sp' * stride + t0]) (range i (i + len))) ps)).
  { rewrite F. rewrite (flat_map_single (fun x => x)), map_id. apply seq_NoDup. }
  assert (Hin : In (start + t) (flat_map (fun '(sp', i, len, off) => flat_map (fun t0 => [sp' * stride + t0]) (range i (i + len))) ps)).
  { rewrite F. rewrite (flat_map_single (fun x => x)), map_id. apply in_range. clear -Ht. lia. }
  clear E F HP Et Bt. induction ps as [|[[[sp i] len] off] ps IH]; [destruct Hin|].
  cbn [flat_map] in FN, Hin. cbn [filter].
  assert (Hhere : forall sp i len off, 0 < len /\ i + len <= stride /\ sp * stride + i = start + off ->
     In (start + t) (flat_map (fun t0 => [sp * stride + t0]) (range i (i + len))) <-> off <= t < off + len).
  { clear. intros sp i len off H. rewrite flat_map_single. rewrite in_map_iff. split.
    - intros (x & Hx & Hr). apply in_range in Hr. lia.
    - intros Hx. exists (i + (t - off)). split; [lia|]. apply in_range. lia. }
  pose proof (HP' sp i len off (or_introl eq_refl)) as P0. specialize (Hhere sp i len off P0) as H0.
  assert (Hno : ((off <=? t) && (t <? off + len) = true <-> off <= t < off + len)).
  { rewrite andb_true_iff, Nat.leb_le, Nat.ltb_lt. reflexivity. }
  destruct ((off <=? t) && (t <? off + len)) eqn:Eb.
  - assert (Hb : off <= t < off + len) by (apply Hno; reflexivity). exists sp, i, len, off. split.
    + f_equal. assert (Hout : ~ In (start + t) (flat_map (fun '(sp', i, len, off) => flat_map (fun t0 => [sp' * stride + t0]) (range i (i + len))) ps)).
      { intros Hx. apply NoDup_app_split in FN. apply (proj2 FN (start + t)); [apply H0; exact Hb|exact Hx]. }
      assert (HP2 : forall sp i len off, In (sp, i, len, off) ps -> 0 < len /\ i + len <= stride /\ sp * stride + i = start + off).
      { intros sp' i' len' off' Hp. apply HP'. right. exact Hp. }
      clear -Hout HP2 Hhere. induction ps as [|[[[sp i] len] off] ps IH]; [reflexivity|]. cbn [filter flat_map] in *.
      destruct ((off <=? t) && (t <? off + len)) eqn:Eb.
      * exfalso. apply Hout. apply in_or_app. left. apply Hhere with (off := off); [apply HP2; left; reflexivity|].
        apply andb_true_iff in Eb. destruct Eb as [E1 E2]. apply Nat.leb_le in E1. apply Nat.ltb_lt in E2. auto.
      * apply IH; [intros Hx; apply Hout; apply in_or_app; right; exact Hx|intros; apply HP2; right; assumption].
    + split; [exact Hb|]. clear -P0 Hb Hs. assert (Q : start + t = sp * stride + (i + (t - off))) by lia. rewrite Q.
      assert (i + (t - off) < stride) by lia. split.
      * apply (Nat.div_unique _ stride sp (i + (t - off))); lia.
      * apply (Nat.mod_unique _ stride sp (i + (t - off))); lia.
  - apply IH.
    + intros; apply HP'; right; assumption.
    + apply NoDup_app_split in FN. exact (proj1 FN).
    + apply in_app_iff in Hin. destruct Hin as [Hin|Hin]; [|exact Hin]. apply H0 in Hin. apply Hno in Hin. discriminate.
Qed.

(** A span of arrays reads and searches as their concatenation: sub-span [i] was
    built from the instants of [g] from [i * stride] on. *)
Theorem C23_reads : forall hash enc R k lc levels s g st,
  (forall b, wf_cid (hash b)) -> 2 <= k -> Nat.Even k -> fits8 k ->
  0 < sp_stride s -> sp_enc s = enc -> 0 < sp_rows s -> 0 < sp_cols s ->
  sizes_ok k lc (sp_stride s) (Nat.max (sp_rows s) (sp_cols s)) ->
  int_data enc R g (sp_instants s) (sp_rows s) (sp_cols s) -> functional st ->
  (forall i, i * sp_stride s < sp_instants s ->
     exists c st0 st1 b, nth_error (sp_spans s) i = Some c /\ get_mm st c = Ok (mb_data b) /\ incl st1 st /\
       super_build hash (int_elem enc) k lc levels (fun t => g (i * sp_stride s + t))
         (Nat.min (sp_stride s) (sp_instants s - i * sp_stride s)) (sp_rows s) (sp_cols s) 0 st0 = Ok (st1, b)) ->
  forall fuel, S (S (length levels)) <= fuel ->
  reads_as R st fuel (MSpan s) (sp_instants s) (sp_rows s) (sp_cols s) g /\
  ((forall i, i * sp_stride s < sp_instants s ->
     leaves_searchable k lc levels (fun t => g (i * sp_stride s + t))
         (Nat.min (sp_stride s) (sp_instants s - i * sp_stride s)) (sp_rows s) (sp_cols s)) ->
   searches_as st fuel (MSpan s) (sp_instants s) (sp_rows s) (sp_cols s) g).
Proof.
  intros hash enc R k lc levels s g st Hh Hk Hev Hk8 Hs He Hr Hc HS HD HF H fuel Hfuel.
  assert (HD' : forall i, i * sp_stride s < sp_instants s ->
    int_data enc R (fun t => g (i * sp_stride s + t)) (Nat.min (sp_stride s) (sp_instants s - i * sp_stride s)) (sp_rows s) (sp_cols s)).
  { intros i Hi. destruct HD as [(A1 & A2 & A3 & A4)|(A1 & A2 & A3)]; [left|right]; (split; [exact A1|]); (split; [exact A2|]).
    - split.
      + intros t r c Ht Hr' Hc'. apply A3; clear -Ht Hr' Hc' Hi; lia.
      + intros t1 t2 H12 H2 r c Hr' Hc'. apply (A4 (i * sp_stride s + t1) (i * sp_stride s + t2)); clear -H12 H2 Hr' Hc' Hi; lia.
    - intros t r c Ht Hr' Hc'. apply A3; clear -Ht Hr' Hc' Hi; lia. }
  assert (HS' : forall i, i * sp_stride s < sp_instants s ->
    sizes_ok k lc (Nat.min (sp_stride s) (sp_instants s - i * sp_stride s)) (Nat.max (sp_rows s) (sp_cols s))).
  { intros i Hi m Hm. destruct (HS m Hm) as [B1 B2]. split; [exact B1|]. eapply fits32_le; [|exact B2].
    apply Nat.mul_le_mono_l. apply Nat.le_min_l. }
  split.
  - apply (span_reads_as R st (S (length levels)) fuel s g Hs); [|exact Hfuel|].
    + destruct (int_data_wide _ _ _ _ _ _ HD) as (_ & _ & X & _). congruence.
    + intros i Hi. destruct (H i Hi) as (c & st0 & st1 & b & E1 & E2 & I1 & E3).
      destruct (int_view hash enc R k lc levels (fun t => g (i * sp_stride s + t))
        (Nat.min (sp_stride s) (sp_instants s - i * sp_stride s)) (sp_rows s) (sp_cols s) st0 st1 b Hh Hk Hev Hk8
        ltac:(clear -Hi Hs; lia) Hr Hc (HS' i Hi) (HD' i Hi) E3) as (_ & _ & f & _ & Hset & HV).
      exists c, (mb_data b), f. split; [apply nth_res_ok; exact E1|]. split; [exact E2|]. split; [apply HV; assumption|]. exact Hset.
  - intros HL. apply (sview_searches_as st (S (S (length levels))) fuel); [exact Hfuel|reflexivity|].
    apply span_sview; [exact Hs|]. intros i Hi. destruct (H i Hi) as (c & st0 & st1 & b & E1 & E2 & I1 & E3).
    exists c, (mb_data b). split; [apply nth_res_ok; exact E1|]. split; [exact E2|].
    destruct (int_data_wide _ _ _ _ _ _ (HD' i Hi)) as (Hi64 & Hd & _).
    exact (super_build_sview hash enc k lc Hh Hk Hk8 levels Hev (fun t => g (i * sp_stride s + t))
      (Nat.min (sp_stride s) (sp_instants s - i * sp_stride s)) (sp_rows s) (sp_cols s) 0 st0 st1 b
      ltac:(clear -Hi Hs; lia) Hr Hc (HS' i Hi) ltac:(reflexivity) Hi64 Hd (HL i Hi) E3 st I1 HF).
Qed.

(** ** C34: bounds *)

Theorem C34_bounds_checked : forall A (R : reader A) st fuel order m instants rows cols,
  mm_shape m = Ok (instants, rows, cols) ->
  (forall t r c, instants <= t \/ rows <= r \/ cols <= c -> arr_get R st fuel m t r c = Panic) /\
  (forall start end_ r c, end_ = 0 \/ end_ < start \/ instants < end_ \/ rows <= r \/ cols <= c ->
     arr_cell R st fuel m start end_ r c = Panic) /\
  (forall start end_ top bottom left right,
     instants < Nat.max start end_ \/ rows < Nat.max top bottom \/ cols < Nat.max left right ->
     arr_window R st fuel order m (cube_new start end_ top bottom left right) = Panic /\
     forall lower upper, arr_search st fuel m (cube_new start end_ top bottom left right) lower upper = Panic).
Proof.
  intros A R st fuel order m instants rows cols HS. split; [|split].
  - intros t r c H. unfold arr_get. rewrite (check_refuses _ _ _ _ _ _ _ HS H). reflexivity.
  - intros start end_ r c H. unfold arr_cell. destruct (Nat.eq_dec end_ 0) as [->|H0]; [reflexivity|].
    rewrite usub_ok by lia. cbn [bind].
    destruct (check_bounds m (end_ - 1) r c) as [u|e| |] eqn:E; cbn [bind].
    + destruct (Nat.lt_ge_cases end_ start) as [Hlt|Hge].
      * unfold usub. destruct (Nat.leb_spec start end_); [lia|]. reflexivity.
      * rewrite (check_refuses _ _ _ _ _ _ _ HS) in E by lia. discriminate.
    + unfold check_bounds in E. rewrite HS in E. cbn [bind] in E. destruct (_ || _ || _) in E; discriminate.
    + reflexivity.
    + unfold check_bounds in E. rewrite HS in E. cbn [bind] in E. destruct (_ || _ || _) in E; discriminate.
  - intros start end_ top bottom left right H.
    assert (HC : check_cube m (cube_new start end_ top bottom left right) = Panic).
    { rewrite cube_new_spec. unfold check_cube. cbn [c_end c_bottom c_right].
      destruct (Nat.eq_dec (Nat.max start end_) 0) as [->|H1]; [reflexivity|]. rewrite usub_ok by lia. cbn [bind].
      destruct (Nat.eq_dec (Nat.max top bottom) 0) as [->|H2]; [reflexivity|]. rewrite usub_ok by lia. cbn [bind].
      destruct (Nat.eq_dec (Nat.max left right) 0) as [->|H3]; [reflexivity|]. rewrite usub_ok by lia. cbn [bind].
      apply (check_refuses _ _ _ _ _ _ _ HS). lia. }
    unfold arr_window, arr_search. rewrite HC. split; [reflexivity|]. intros. reflexivity.
Qed.

(** What is returned is the data of the cells asked for. *)
Theorem C34_no_other_cell : forall hash enc R k lc levels g instants rows cols st,
  (forall b, wf_cid (hash b)) -> 2 <= k -> Nat.Even k -> fits8 k ->
  0 < instants -> 0 < rows -> 0 < cols -> sizes_ok k lc instants (Nat.max rows cols) ->
  levels_fit k lc levels rows cols -> int_data enc R g instants rows cols ->
  exists st2 b, super_build hash (int_elem enc) k lc levels g instants rows cols 0 st = Ok (st2, b) /\
    forall st' fuel, incl st2 st' -> functional st' -> S (length levels) <= fuel ->
      (forall t r c v, arr_get R st' fuel (mb_data b) t r c = Ok v <->
         t < instants /\ r < rows /\ c < cols /\ v = g t r c) /\
      (forall start end_ r c a, arr_cell R st' fuel (mb_data b) start end_ r c = Ok a ->
         start <= end_ <= instants /\ r < rows /\ c < cols /\ a1_len a = end_ - start /\
         forall i, i < end_ - start -> a1_at a i = g (start + i) r c).
Proof.
  intros hash enc R k lc levels g instants rows cols st Hh Hk Hev Hk8 H0 Hr Hc HS HL HD.
  destruct (int_data_wide _ _ _ _ _ _ HD) as (Hi & Hd & _).
  destruct (super_builds hash enc k lc Hk levels g instants rows cols 0 st H0 HL Hi) as (st2 & b & E).
  exists st2, b. split; [exact E|]. intros st' fuel HI HF Hfuel.
  destruct (int_view hash enc R k lc levels g instants rows cols st st2 b Hh Hk Hev Hk8 H0 Hr Hc HS HD E)
    as (_ & He & f & _ & Hset & HV).
  pose proof (view_reads_as R st' (S (length levels)) fuel _ _ _ _ f g Hfuel (HV st' HI HF) He Hset) as RA.
  destruct (C34_bounds_checked Z R st' fuel (fun l => l) (mb_data b) instants rows cols (ra_shape _ _ _ _ _ _ _ _ RA)) as (B1 & B2 & _).
  split.
  - intros t r c v. split.
    + intros Hv. destruct (Nat.lt_ge_cases t instants) as [Ht|Ht]; [|rewrite B1 in Hv by auto; discriminate].
      destruct (Nat.lt_ge_cases r rows) as [Hr'|Hr']; [|rewrite B1 in Hv by auto; discriminate].
      destruct (Nat.lt_ge_cases c cols) as [Hc'|Hc']; [|rewrite B1 in Hv by auto; discriminate].
      rewrite (ra_get _ _ _ _ _ _ _ _ RA) in Hv by assumption. injection Hv as <-. auto.
    + intros (Ht & Hr' & Hc' & ->). apply (ra_get _ _ _ _ _ _ _ _ RA); assumption.
  - intros start end_ r c a Ha. specialize (B2 start end_ r c). rewrite Ha in B2.
    destruct (Nat.eq_dec end_ 0) as [Hz|Hz]; [discriminate B2; auto|].
    destruct (Nat.lt_ge_cases end_ start) as [Hlt|Hge]; [discriminate B2; auto|].
    destruct (Nat.lt_ge_cases instants end_) as [Ht|Ht]; [discriminate B2; auto|].
    destruct (Nat.lt_ge_cases r rows) as [Hr'|Hr']; [|discriminate B2; auto].
    destruct (Nat.lt_ge_cases c cols) as [Hc'|Hc']; [|discriminate B2; auto 6].
    destruct (ra_cell _ _ _ _ _ _ _ _ RA start end_ r c Hge ltac:(lia) Hr' Hc') as (a' & Ea & EL & EV).
    rewrite Ha in Ea. injection Ea as <-. auto.
Qed.

Example C34_example : exists st2 b a,
  super_build ex_hash elem_i32 2 (log_ceil 2) [2; 2] ex_super 3 9 10 0 [] = Ok (st2, b) /\
  arr_get reader_i32 st2 3 (mb_data b) 2 9 6 = Panic /\ arr_cell reader_i32 st2 3 (mb_data b) 1 3 8 9 = Ok a /\
  a1_at a 1 = ex_super 2 8 9 /\ arr_window reader_i32 st2 3 (fun l => l) (mb_data b) (cube_new 1 4 2 6 3 9) = Panic.
Proof.
  do 3 eexists. split; [vm_compute; reflexivity|]. split; [vm_compute; reflexivity|].
  split; [vm_compute; reflexivity|]. split; vm_compute; reflexivity.
Qed.

(** A window without rows is answered or not by where it lies: at the edge
    between two sub-arrays reading it panics, elsewhere it gives an empty array. *)
Theorem C19_empty_window_refuted : exists st2 b,
  super_build ex_hash elem_i32 2 (log_ceil 2) [2; 2] ex_super 3 9 10 0 [] = Ok (st2, b) /\
  mm_shape (mb_data b) = Ok (3, 9, 10) /\
  arr_window reader_i32 st2 3 (fun l => l) (mb_data b) (cube_new 0 3 4 4 0 10) = Panic /\
  arr_window reader_i32 st2 3 (fun l => l) (mb_data b) (cube_new 0 3 0 9 8 8) = Panic /\
  arr_search st2 3 (mb_data b) (cube_new 0 3 4 4 0 10) 0%Z 9%Z = Panic /\
  option_map a3_shape (match arr_window reader_i32 st2 3 (fun l => l) (mb_data b) (cube_new 0 3 5 5 0 10) with Ok a => Some a | _ => None end)
    = Some (3, 0, 10) /\
  arr_search st2 3 (mb_data b) (cube_new 0 3 5 5 0 10) 0%Z 9%Z = Ok [].
Proof.
  do 2 eexists. split; [vm_compute; reflexivity|]. split; [vm_compute; reflexivity|].
  split; [vm_compute; reflexivity|]. split; [vm_compute; reflexivity|]. split; [vm_compute; reflexivity|].
  split; vm_compute; reflexivity.
Qed.

(** ** C37: identical sub-arrays *)

(** The links of a built superchunk are all different, there is one for each
    different stored object, and each reference leads to one of them. *)
Theorem C37_stored_once : forall hash enc R k lc levels g instants rows cols st,
  (forall b, wf_cid (hash b)) -> 2 <= k -> Nat.Even k -> fits8 k ->
  0 < instants -> 0 < rows -> 0 < cols -> sizes_ok k lc instants (Nat.max rows cols) ->
  levels_fit k lc levels rows cols -> int_data enc R g instants rows cols ->
  exists st2 b s, super_build hash (int_elem enc) k lc levels g instants rows cols 0 st = Ok (st2, b) /\
    mb_data b = MSuper s [] /\
    forall st' fuel, incl st2 st' -> functional st' -> S (length levels) <= fuel ->
    (exists links, get_links st' (su_external s) = Ok links /\ NoDup links /\ mb_external b = length links /\
       forall i n, nth_error (su_refs s) i = Some (RExternal n) -> n < length links) /\
    (forall i n, nth_error (su_refs s) i = Some (RExternal n) -> exists m, super_external st' s n = Ok m) /\
    (forall n1 n2 m, super_external st' s n1 = Ok m -> super_external st' s n2 = Ok m -> n1 = n2) /\
    reads_as R st' fuel (mb_data b) instants rows cols g.
Proof.
  intros hash enc R k lc levels g instants rows cols st Hh Hk Hev Hk8 H0 Hr Hc HS HL HD.
  destruct (int_data_wide _ _ _ _ _ _ HD) as (Hi & Hd & _).
  destruct (super_builds hash enc k lc Hk levels g instants rows cols 0 st H0 HL Hi) as (st2 & b & E).
  destruct (int_view hash enc R k lc levels g instants rows cols st st2 b Hh Hk Hev Hk8 H0 Hr Hc HS HD E)
    as (_ & He & f & _ & Hset & HV).
  destruct (super_build_links hash (int_elem enc) k lc Hh Hk Hk8 (int_single enc) int_good int_good_ok levels Hev g instants rows cols 0 st st2 b
    H0 Hr Hc HS (int_all_good 0 _ _ _ _ eq_refl) (int_tiles_ok enc k lc _ g instants rows cols Hi Hd) E)
    as (s & links & Es & El & HN & HR & _ & _ & HX & HG).
  exists st2, b, s. split; [exact E|]. split; [exact Es|]. intros st' fuel HI HF Hfuel.
  split; [|split; [|split]].
  - exists links. split; [apply HG; assumption|]. split; [exact HN|]. split; [exact El|exact HR].
  - intros i n Hn. destruct (HX n (HR i n Hn)) as (m & _ & Hm). exists m. apply Hm; assumption.
  - assert (Hin : forall n m, super_external st' s n = Ok m -> nth_error links n = Some (mm_cid hash m)).
    { intros n m Hm. assert (Hn : n < length links).
      { unfold super_external in Hm. rewrite HG in Hm by assumption. cbn [bind] in Hm. apply bind_inv in Hm.
        destruct Hm as (c & Ec & _). apply nth_res_inv in Ec. apply nth_error_Some. congruence. }
      destruct (HX n Hn) as (m' & E1 & E2). rewrite (E2 st' HI HF) in Hm. injection Hm as <-. exact E1. }
    intros n1 n2 m H1 H2. apply Hin in H1, H2. rewrite NoDup_nth_error in HN. apply HN; [|congruence].
    apply nth_error_Some. congruence.
  - apply (view_reads_as R st' (S (length levels)) fuel _ _ _ _ f g Hfuel (HV st' HI HF) He Hset).
Qed.
Example C37_example : exists st2 b s links,
  super_build ex_hash elem_i32 2 (log_ceil 2) [2; 2] ex_super 3 9 10 0 [] = Ok (st2, b) /\
  mb_data b = MSuper s [] /\ get_links st2 (su_external s) = Ok links /\ length links = 5 /\
  nth_error (su_refs s) 4 = Some (RExternal 0) /\ nth_error (su_refs s) 5 = Some (RExternal 0).
Proof.
  do 4 eexists. split; [vm_compute; reflexivity|]. split; [reflexivity|].
  split; [vm_compute; reflexivity|]. split; [reflexivity|]. split; vm_compute; reflexivity.
Qed.

(** ** C38: element types *)

(** Integers of the type are stored in the output unchanged; the 32 bit reader
    gives 32 bit integers whatever it is given. *)
Theorem C38_integers_unchanged : forall b z,
  rd_set reader_i64 b z = z /\ (i32_range z -> rd_set reader_i32 b z = z) /\ i32_range (rd_set reader_i32 b z).
Proof. intros b z. split; [reflexivity|]. split; [apply as_i32_id|apply as_i32_range]. Qed.

(** The type stored with the array, and only it, decides how it may be opened. *)
Theorem C38_type_decides : forall A (R : reader A) hash enc R' k lc levels g instants rows cols st st2 b,
  (forall b, wf_cid (hash b)) -> 2 <= k -> Nat.Even k -> fits8 k ->
  0 < instants -> 0 < rows -> 0 < cols -> sizes_ok k lc instants (Nat.max rows cols) ->
  int_data enc R' g instants rows cols ->
  super_build hash (int_elem enc) k lc levels g instants rows cols 0 st = Ok (st2, b) ->
  forall c st3, save hash st2 (NMM (mb_data b)) = (c, st3) -> functional st3 ->
  exists m, get_mm st3 c = Ok m /\ arr_new R m = if encoding_eqb enc (rd_enc R) then Ok m else Panic.
Proof.
  intros A R hash enc R' k lc levels g instants rows cols st st2 b Hh Hk Hev Hk8 H0 Hr Hc HS HD E c st3 Es HF.
  destruct (int_view hash enc R' k lc levels g instants rows cols st st2 b Hh Hk Hev Hk8 H0 Hr Hc HS HD E)
    as (HW & He & _). destruct (int_data_wide _ _ _ _ _ _ HD) as (_ & _ & He' & _). rewrite He' in He.
  exists (mb_data b). unfold save in Es. injection Es as <- <-. split.
  - unfold get_mm. rewrite (retrieve_saved _ hash (NMM (mb_data b))); [reflexivity|exact HW|exact HF|].
    apply in_or_app. right. left. reflexivity.
  - unfold arr_new. rewrite He. reflexivity.
Qed.
Example C38_example : encoding_eqb EncI32 (rd_enc reader_i64) = false /\ encoding_eqb EncI32 (rd_enc reader_i32) = true /\
  rd_set reader_i32 0 (- 2 ^ 31)%Z = (- 2 ^ 31)%Z /\ rd_set reader_i32 0 (2 ^ 31)%Z = (- 2 ^ 31)%Z.
Proof. repeat split. Qed.

Print Assumptions C20_window_hides_failure_refuted.
Print Assumptions C20_get_cell_report_partial.
Print Assumptions C20_search_reports_partial.
Print Assumptions C20_missing_objects_partial.
Print Assumptions C20_span_reports.
Print Assumptions C21_subreads_partition.
Print Assumptions C21_positions_once.
Print Assumptions C21_any_order.
Print Assumptions C22_elided_int_partial.
Print Assumptions C23_get.
Print Assumptions C23_pieces.
Print Assumptions C23_reads.
Print Assumptions C34_bounds_checked.
Print Assumptions C19_empty_window_refuted.
Print Assumptions C34_no_other_cell.
Print Assumptions C37_stored_once.
Print Assumptions C38_integers_unchanged.
Print Assumptions C38_type_decides.
