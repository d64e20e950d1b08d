(** * Reading arrays: from the calls made on a buffer to what the caller gets. *)
From Verif Require Import Base BaseFacts Spec GeomModel GeomProofs BitmapModel DacModel StreamModel ChunkModel ChunkReads NodeModel NodeProofs
  SuperModel SuperViews SuperProofs SuperInt ArrayModel.
Ltac Zify.zify_post_hook ::= Z.div_mod_to_equations.
Arguments Nat.pow : simpl never.

Lemma as_i32_id z : i32_range z -> as_i32 z = z.
Proof. unfold as_i32, i32_range. lia. Qed.
Lemma as_i32_range z : i32_range (as_i32 z).
Proof. unfold as_i32, i32_range. lia. Qed.

Lemma encoding_eqb_spec a b : encoding_eqb a b = true <-> a = b.
Proof. destruct a, b; cbn; split; congruence. Qed.

(** ** Writing every position of an array once *)

Lemma run1_spec {A} (R : reader A) l : forall (a : array1 A) n, a1_len a = n ->
  NoDup (map fst l) -> (forall x, In x l -> fst x < n) ->
  exists a', run1 R a l = Ok a' /\ a1_len a' = n /\
    (forall i v b, In (i, (v, b)) l -> a1_at a' i = rd_set R b v) /\
    (forall i, ~ In i (map fst l) -> a1_at a' i = a1_at a i).
Proof.
  induction l as [|[i [v b]] l IH]; intros a n HL HN HB.
  - cbn [run1 foldM]. exists a. repeat split; auto. intros i v b [].
  - inversion_clear HN as [|? ? Hni HN'].
    change (run1 R a ((i, (v, b)) :: l)) with (bind (write1 a i (rd_set R b v)) (fun a' => run1 R a' l)). unfold write1.
    destruct (Nat.ltb_spec i (a1_len a)) as [Hi|Hi]; [|exfalso; specialize (HB _ (or_introl eq_refl)); cbn in HB; lia].
    cbn [bind]. destruct (IH (mkArray1 (a1_len a) (fun i' => if i' =? i then rd_set R b v else a1_at a i')) n HL HN') as (a' & E & L & W & K).
    { intros x Hx. apply HB. right. exact Hx. }
    rewrite E. exists a'. split; [reflexivity|]. split; [exact L|]. split.
    + intros i' v' b' [Heq|Hin]; [injection Heq as <- <- <-|apply W; exact Hin].
      rewrite K by exact Hni. cbn [a1_at]. rewrite Nat.eqb_refl. reflexivity.
    + intros i' Hni'. cbn [map fst In] in Hni'. rewrite K by tauto. cbn [a1_at].
      destruct (Nat.eqb_spec i' i); [subst; tauto|reflexivity].
Qed.

Lemma run3_spec {A} (R : reader A) l : forall (a : array3 A) n h w, a3_shape a = (n, h, w) ->
  NoDup (map fst l) -> (forall t r c v, In (t, r, c, v) l -> t < n /\ r < h /\ c < w) ->
  exists a', run3 R a l = Ok a' /\ a3_shape a' = (n, h, w) /\
    (forall t r c v b, In (t, r, c, (v, b)) l -> a3_at a' t r c = rd_set R b v) /\
    (forall t r c, ~ In (t, r, c) (map fst l) -> a3_at a' t r c = a3_at a t r c).
Proof.
  induction l as [|[[[t r] c] [v b]] l IH]; intros a n h w HL HN HB.
  - cbn [run3 foldM]. exists a. repeat split; auto. intros t r c v b [].
  - inversion_clear HN as [|? ? Hni HN'].
    change (run3 R a ((t, r, c, (v, b)) :: l)) with (bind (write3 a t r c (rd_set R b v)) (fun a' => run3 R a' l)). unfold write3. rewrite HL.
    destruct (HB t r c (v, b) (or_introl eq_refl)) as (Ht & Hr & Hc).
    destruct (Nat.ltb_spec t n); [|lia]. destruct (Nat.ltb_spec r h); [|lia]. destruct (Nat.ltb_spec c w); [|lia]. cbn [andb bind].
    destruct (IH (mkArray3 (n, h, w) (fun t' r' c' => if (t' =? t) && (r' =? r) && (c' =? c) then rd_set R b v else a3_at a t' r' c')) n h w eq_refl HN')
      as (a' & E & L & W & K).
    { intros t' r' c' v' Hx. eapply HB. right. exact Hx. }
    rewrite E. exists a'. split; [reflexivity|]. split; [exact L|]. split.
    + intros t' r' c' v' b' [Heq|Hin]; [injection Heq as <- <- <- <- <-|apply W; exact Hin].
      rewrite K by exact Hni. cbn [a3_at]. rewrite !Nat.eqb_refl. reflexivity.
    + intros t' r' c' Hni'. cbn [map fst In] in Hni'. rewrite K by tauto. cbn [a3_at].
      destruct (Nat.eqb_spec t' t); [|reflexivity]. destruct (Nat.eqb_spec r' r); [|reflexivity].
      destruct (Nat.eqb_spec c' c); [|reflexivity]. subst. tauto.
Qed.

(** ** The positions of a window *)

Lemma window3_nodup {V} (f : nat -> nat -> nat -> V) start end_ top bottom left right :
  NoDup (map fst (window3_spec f start end_ top bottom left right)).
Proof.
  unfold window3_spec. rewrite map_map.
  rewrite (map_ext _ (fun x => (fst (fst x) - start, snd (fst x) - top, snd x - left))) by (intros [[t r] c]; reflexivity).
  apply NoDup_map_inj_in.
  - intros [[t r] c] [[t' r'] c'] H1 H2 E. cbn [fst snd] in E. apply in_cells3 in H1, H2. injection E as E1 E2 E3.
    f_equal; [f_equal|]; lia.
  - apply cells3_nodup.
Qed.

(** ** What the user of an array sees

    [reads_as R st fuel m instants rows cols g]: the object [m], opened with the
    array type [R], is the array of shape [instants x rows x cols] whose cells
    are given by [g], through every read of the interface, whatever the order
    [order] in which concurrent reads write to the output. *)
Record reads_as {A} (R : reader A) (st : store) (fuel : nat) (m : mmstruct) (instants rows cols : nat)
  (g : nat -> nat -> nat -> A) : Prop :=
  { ra_new : arr_new R m = Ok m;
    ra_shape : mm_shape m = Ok (instants, rows, cols);
    ra_get : forall t r c, t < instants -> r < rows -> c < cols -> arr_get R st fuel m t r c = Ok (g t r c);
    ra_cell : forall start end_ r c, start <= end_ -> 0 < end_ <= instants -> r < rows -> c < cols ->
      exists a, arr_cell R st fuel m start end_ r c = Ok a /\ a1_len a = end_ - start /\
        forall i, i < end_ - start -> a1_at a i = g (start + i) r c;
    ra_window : forall order start end_ top bottom left right, (forall l, Permutation l (order l)) ->
      start <= end_ -> 0 < end_ <= instants -> top < bottom <= rows -> left < right <= cols ->
      exists a, arr_window R st fuel order m (cube_new start end_ top bottom left right) = Ok a /\
        a3_shape a = (end_ - start, bottom - top, right - left) /\
        forall t r c, t < end_ - start -> r < bottom - top -> c < right - left ->
          a3_at a t r c = g (start + t) (top + r) (left + c) }.

(** [searches_as st fuel m instants rows cols g]: a search lists exactly the
    cells of the region with a value in the closed interval, each once, and
    reports no error. *)
Definition searches_as (st : store) (fuel : nat) (m : mmstruct) (instants rows cols : nat)
  (g : nat -> nat -> nat -> Z) : Prop :=
  forall start end_ top bottom left right lower upper,
    start <= end_ -> 0 < end_ <= instants -> top < bottom <= rows -> left < right <= cols ->
    exists out, arr_search st fuel m (cube_new start end_ top bottom left right) lower upper = Ok (map inr out) /\
      NoDup out /\
      forall t r c, In (t, r, c) out <->
        start <= t < end_ /\ top <= r < bottom /\ left <= c < right /\
        (Z.min lower upper <= g t r c <= Z.max lower upper)%Z.

Lemma check_ok m instants rows cols t r c : mm_shape m = Ok (instants, rows, cols) ->
  t < instants -> r < rows -> c < cols -> check_bounds m t r c = Ok tt.
Proof.
  intros H Ht Hr Hc. unfold check_bounds. rewrite H. cbn [bind].
  destruct (Nat.leb_spec instants t); [lia|]. destruct (Nat.leb_spec rows r); [lia|]. destruct (Nat.leb_spec cols c); [lia|]. reflexivity.
Qed.

Lemma cube_new_le start end_ top bottom left right : start <= end_ -> top <= bottom -> left <= right ->
  cube_new start end_ top bottom left right = mkCube start end_ top bottom left right.
Proof.
  intros H1 H2 H3. unfold cube_new, rearrange. destruct (Nat.ltb_spec end_ start); [lia|].
  destruct (Nat.ltb_spec bottom top); [lia|]. destruct (Nat.ltb_spec right left); [lia|]. reflexivity.
Qed.

Theorem view_reads_as {A} (R : reader A) st d fuel m instants rows cols f (g : nat -> nat -> nat -> A) :
  d <= fuel -> view st d m instants rows cols f -> mm_encoding m = rd_enc R ->
  (forall t r c, t < instants -> r < rows -> c < cols -> rd_set R (snd (f t r c)) (fst (f t r c)) = g t r c) ->
  reads_as R st fuel m instants rows cols g.
Proof.
  intros Hd [V1 V2 V3 V4] He Hg. constructor.
  - unfold arr_new. apply encoding_eqb_spec in He. rewrite He. reflexivity.
  - exact V1.
  - intros t r c Ht Hr Hc. unfold arr_get. rewrite (check_ok _ _ _ _ _ _ _ V1 Ht Hr Hc). cbn [bind].
    rewrite V2 by assumption. cbn [bind]. f_equal. apply Hg; assumption.
  - intros start end_ r c H1 H2 Hr Hc. unfold arr_cell. rewrite usub_ok by lia. cbn [bind].
    rewrite (check_ok _ _ _ _ (end_ - 1) r c V1 ltac:(lia) Hr Hc). cbn [bind]. rewrite usub_ok by lia. cbn [bind].
    rewrite V3 by lia. cbn [bind].
    assert (Hin : forall i v, In (i, v) (cell_spec f start end_ r c) <-> i < end_ - start /\ v = f (start + i) r c).
    { intros i v. unfold cell_spec. rewrite in_map_iff. split.
      - intros (t & E & Ht). apply in_range in Ht. injection E as <- <-. replace (start + (t - start)) with t by lia. split; [lia|reflexivity].
      - intros (Hi & ->). exists (start + i). split; [f_equal; lia|]. apply in_range. lia. }
    destruct (run1_spec R (cell_spec f start end_ r c) (mkArray1 (end_ - start) (fun _ => rd_zero R)) (end_ - start) eq_refl) as (a & E & L & W & _).
    + unfold cell_spec. rewrite map_map. cbn [fst]. apply NoDup_map_inj_in; [|apply seq_NoDup].
      intros x y Hx Hy. apply in_range in Hx, Hy. lia.
    + intros [i v] Hx. apply Hin in Hx. cbn [fst]. lia.
    + exists a. split; [exact E|]. split; [exact L|]. intros i Hi.
      rewrite (W i (fst (f (start + i) r c)) (snd (f (start + i) r c))).
      * apply Hg; lia.
      * apply Hin. split; [exact Hi|]. destruct (f (start + i) r c); reflexivity.
  - intros order start end_ top bottom left right Ho H1 H2 H3 H4. unfold arr_window, check_cube.
    rewrite cube_new_le by lia. cbn [c_start c_end c_top c_bottom c_left c_right].
    rewrite (usub_ok end_ 1) by lia. cbn [bind]. rewrite (usub_ok bottom 1) by lia. cbn [bind]. rewrite (usub_ok right 1) by lia. cbn [bind].
    rewrite (check_ok _ _ _ _ (end_ - 1) (bottom - 1) (right - 1) V1) by lia. cbn [bind].
    rewrite (usub_ok end_ start) by lia. cbn [bind]. rewrite (usub_ok bottom top) by lia. cbn [bind]. rewrite (usub_ok right left) by lia. cbn [bind].
    destruct (V4 fuel start end_ top bottom left right Hd H1 (proj2 H2)) as (out & E & P).
    { unfold window_in. lia. }
    rewrite cube_new_le in E by lia. rewrite E. cbn [bind].
    pose proof (Permutation_trans (Permutation_sym P) (Ho out)) as P2.
    destruct (run3_spec R (order out) (mkArray3 (end_ - start, bottom - top, right - left) (fun _ _ _ => rd_zero R))
      (end_ - start) (bottom - top) (right - left) eq_refl) as (a & Er & L & W & _).
    + eapply Permutation_NoDup; [apply Permutation_map; exact P2|]. apply window3_nodup.
    + intros t r c v Hx. apply (Permutation_in _ (Permutation_sym P2)) in Hx. apply window3_in in Hx. lia.
    + exists a. split; [exact Er|]. split; [exact L|]. intros t r c Ht Hr Hc.
      rewrite (W t r c (fst (f (start + t) (top + r) (left + c))) (snd (f (start + t) (top + r) (left + c)))).
      * apply Hg; lia.
      * apply (Permutation_in _ P2). apply window3_in. repeat split; try lia. destruct (f _ _ _); reflexivity.
Qed.

Theorem sview_searches_as st d fuel m instants rows cols g :
  d <= fuel -> mm_shape m = Ok (instants, rows, cols) -> sview st d m instants rows cols g ->
  searches_as st fuel m instants rows cols g.
Proof.
  intros Hd V1 V start end_ top bottom left right lower upper H1 H2 H3 H4. unfold arr_search, check_cube.
  destruct (sv_all _ _ _ _ _ _ _ V fuel start end_ top bottom left right lower upper Hd H1 (proj2 H2)) as (out & E & P); [unfold window_in; lia|].
  rewrite cube_new_le by lia. cbn [c_start c_end c_top c_bottom c_left c_right].
  rewrite (usub_ok end_ 1) by lia. cbn [bind]. rewrite (usub_ok bottom 1) by lia. cbn [bind]. rewrite (usub_ok right 1) by lia. cbn [bind].
  rewrite (check_ok _ _ _ _ (end_ - 1) (bottom - 1) (right - 1) V1) by lia. cbn [bind].
  rewrite cube_new_le in E by lia. exists out. split; [exact E|]. split.
  - eapply Permutation_NoDup; [apply Permutation_sym; exact P|]. apply search3_spec_nodup.
  - intros t r c. split.
    + intros Hx. apply (Permutation_in _ P) in Hx. unfold search3_spec in Hx. apply filter_In in Hx.
      destruct Hx as [Hx Hb]. apply in_cells3 in Hx. unfold in_bounds in Hb. apply andb_prop in Hb. lia.
    + intros (A1 & A2 & A3 & A4). apply (Permutation_in _ (Permutation_sym P)). apply filter_In. split.
      * apply in_cells3. lia.
      * unfold in_bounds. apply andb_true_intro. lia.
Qed.

(** ** Out of bounds *)
Lemma check_refuses m instants rows cols t r c : mm_shape m = Ok (instants, rows, cols) ->
  instants <= t \/ rows <= r \/ cols <= c -> check_bounds m t r c = Panic.
Proof.
  intros H Ho. unfold check_bounds. rewrite H. cbn [bind].
  destruct (Nat.leb_spec instants t); [reflexivity|]. destruct (Nat.leb_spec rows r); [reflexivity|].
  destruct (Nat.leb_spec cols c); [reflexivity|]. lia.
Qed.

(** ** Spans of objects that read as arrays *)
Lemma span_view_glue st d s (P : nat -> nat -> nat -> Z * nat -> Prop) : 0 < sp_stride s ->
  (forall i, i * sp_stride s < sp_instants s -> exists c m f, nth_res (sp_spans s) i = Ok c /\ get_mm st c = Ok m /\
     view st d m (sub_instants (sp_instants s) (sp_stride s) i) (sp_rows s) (sp_cols s) f /\
     forall t r c, t < sub_instants (sp_instants s) (sp_stride s) i -> r < sp_rows s -> c < sp_cols s ->
       P (i * sp_stride s + t) r c (f t r c)) ->
  exists f, view st (S d) (MSpan s) (sp_instants s) (sp_rows s) (sp_cols s) f /\
    forall t r c, t < sp_instants s -> r < sp_rows s -> c < sp_cols s -> P t r c (f t r c).
Proof.
  intros Hs H. set (stride := sp_stride s) in *.
  set (f := fun t r c => match (ci <- nth_res (sp_spans s) (t / stride) ;; m <- get_mm st ci ;;
                                mm_get st d m (t mod stride) r c (mm_fbits m)) with Ok x => x | _ => (0%Z, 0) end).
  assert (Hf : forall i, i * stride < sp_instants s -> exists c m, nth_res (sp_spans s) i = Ok c /\ get_mm st c = Ok m /\
     view st d m (sub_instants (sp_instants s) stride i) (sp_rows s) (sp_cols s) (later f (i * stride)) /\
     forall t r c, t < sub_instants (sp_instants s) stride i -> r < sp_rows s -> c < sp_cols s ->
       P (i * stride + t) r c (f (i * stride + t) r c)).
  { intros i Hi. destruct (H i Hi) as (c & m & fi & E1 & E2 & V & HP). exists c, m. split; [exact E1|]. split; [exact E2|].
    assert (Heq : forall t r c, t < sub_instants (sp_instants s) stride i -> r < sp_rows s -> c < sp_cols s ->
      fi t r c = later f (i * stride) t r c).
    { intros t r c' Ht Hr Hc. unfold later, f.
      replace ((i * stride + t) / stride) with i.
      2:{ rewrite Nat.add_comm, Nat.div_add by lia. rewrite Nat.div_small by (unfold sub_instants in Ht; lia). reflexivity. }
      replace ((i * stride + t) mod stride) with t.
      2:{ rewrite Nat.add_comm, Nat.mod_add by lia. rewrite Nat.mod_small by (unfold sub_instants in Ht; lia). reflexivity. }
      rewrite E1. cbn [bind]. rewrite E2. cbn [bind]. rewrite (v_get _ _ _ _ _ _ _ V _ t r c' (le_n _) Ht Hr Hc). reflexivity. }
    split; [apply (view_ext _ _ _ _ _ _ fi); [exact Heq|exact V]|].
    intros t r c' Ht Hr Hc. specialize (Heq t r c' Ht Hr Hc). unfold later in Heq. rewrite <- Heq. auto. }
  exists f. split.
  - apply span_view; [exact Hs|]. intros i Hi. destruct (Hf i Hi) as (c & m & E1 & E2 & V & _). exists c, m. auto.
  - intros t r c Ht Hr Hc. pose proof (Nat.div_mod t stride ltac:(lia)) as Et. pose proof (Nat.mod_upper_bound t stride ltac:(lia)) as Bt.
    rewrite (Nat.mul_comm stride) in Et.
    destruct (Hf (t / stride)) as (ci & m & _ & _ & _ & HP); [clear -Et Bt Ht; lia|].
    specialize (HP (t mod stride) r c). rewrite <- Et in HP. apply HP; auto. unfold sub_instants. clear -Et Bt Ht. lia.
Qed.

(** The encoding and bits that a span carries. *)
Lemma span_reads_as {A} (R : reader A) st d fuel s (g : nat -> nat -> nat -> A) : 0 < sp_stride s -> sp_enc s = rd_enc R -> S d <= fuel ->
  (forall i, i * sp_stride s < sp_instants s -> exists c m f, nth_res (sp_spans s) i = Ok c /\ get_mm st c = Ok m /\
     view st d m (sub_instants (sp_instants s) (sp_stride s) i) (sp_rows s) (sp_cols s) f /\
     forall t r c, t < sub_instants (sp_instants s) (sp_stride s) i -> r < sp_rows s -> c < sp_cols s ->
       rd_set R (snd (f t r c)) (fst (f t r c)) = g (i * sp_stride s + t) r c) ->
  reads_as R st fuel (MSpan s) (sp_instants s) (sp_rows s) (sp_cols s) g.
Proof.
  intros Hs He Hf H.
  destruct (span_view_glue st d s (fun t r c x => rd_set R (snd x) (fst x) = g t r c) Hs H) as (f & V & HP).
  apply (view_reads_as R st (S d) fuel _ _ _ _ f); auto.
Qed.
