(** * Whatever is in the store, a window read writes inside its window, and nowhere twice. *)
From Coq Require Import FunctionalExtensionality Permutation.
From Verif Require Import Base BaseFacts GeomModel GeomProofs BitmapModel DacModel StreamModel SnapshotModel LogModel ChunkModel ChunkReads NodeModel SuperModel SuperProofs ArrayModel
  ArrayProofs ReadRange.
Ltac Zify.zify_post_hook ::= Z.div_mod_to_equations.
Arguments Nat.pow : simpl never.

(** [f] writes, for each [x] of [l], to different places, all of them in [P x]. *)
Lemma flat_mapM_places {X B K} (f : X -> res (list B)) (key : B -> K) (P : X -> K -> Prop) : forall l ys, flat_mapM f l = Ok ys -> NoDup l ->
  (forall x y, In x l -> f x = Ok y -> NoDup (map key y) /\ Forall (fun b => P x (key b)) y) ->
  (forall x x' k, In x l -> In x' l -> P x k -> P x' k -> x = x') ->
  NoDup (map key ys) /\ Forall (fun b => exists x, In x l /\ P x (key b)) ys.
Proof.
  induction l as [|x l IH]; intros ys H HN Hf HD; cbn [flat_mapM] in H; [injection H as <-; split; constructor|].
  apply bind_inv in H. destruct H as (y & E1 & H). apply bind_inv in H. destruct H as (zs & E2 & H). injection H as <-.
  inversion_clear HN as [|? ? Hx HN']. destruct (Hf x y (or_introl eq_refl) E1) as [N1 P1].
  destruct (IH zs E2 HN') as [N2 P2]; [intros; apply Hf; [right; assumption|assumption]|intros x1 x2 k H1 H2; apply HD; right; assumption|].
  rewrite Forall_forall in P1, P2. split.
  - rewrite map_app. apply NoDup_app'; [exact N1|exact N2|]. intros k Hk Hk'. apply in_map_iff in Hk. destruct Hk as (b & <- & Hb).
    apply in_map_iff in Hk'. destruct Hk' as (b' & Eb & Hb'). destruct (P2 b' Hb') as (x' & Hx' & Px'). apply Hx.
    rewrite (HD x x' (key b) (or_introl eq_refl) (or_intror Hx') (P1 b Hb)); [exact Hx'|rewrite <- Eb; exact Px'].
  - apply Forall_forall. intros b Hb. apply in_app_or in Hb. destruct Hb as [Hb|Hb]; [exists x; split; [left; reflexivity|apply P1, Hb]|].
    destruct (P2 b Hb) as (x' & Hx' & Px'). exists x'. split; [right; exact Hx'|exact Px'].
Qed.
Lemma nodup_range_incl a b : NoDup (range_incl a b).
Proof. apply seq_NoDup. Qed.
Lemma usub_inv a b c : usub a b = Ok c -> b <= a /\ c = a - b.
Proof. unfold usub. destruct (Nat.leb_spec b a); [|discriminate]. intros E. injection E as <-. auto. Qed.
Lemma udiv_inv a b c : udiv a b = Ok c -> b <> 0 /\ c = a / b.
Proof. unfold udiv. destruct (Nat.eqb_spec b 0); [discriminate|]. intros E. injection E as <-. auto. Qed.

(** The rows and columns of a window, moved: place [k] is in rows [a..b] and columns [c..d]. *)
Definition in_box (wt wl a b c d : nat) (k : nat * nat) : Prop := a <= fst k + wt <= b /\ c <= snd k + wl <= d.

Lemma fill_block_places top bottom lft rgt to lo wt wl v l : fill_block top bottom lft rgt to lo wt wl v = Ok l ->
  NoDup (map fst l) /\ Forall (fun x => in_box wt wl (to + top) (to + bottom) (lo + lft) (lo + rgt) (fst x)) l.
Proof.
  unfold fill_block. intros H.
  destruct (flat_mapM_places _ fst (fun row k => in_box wt wl (to + row) (to + row) (lo + lft) (lo + rgt) k) _ _ H (nodup_range_incl _ _)) as [N P].
  - intros row y _ Hy. cbv beta in Hy.
    assert (G : forall cols ys, NoDup cols -> (forall c, In c cols -> lft <= c <= rgt) ->
      mapM (fun col => a <- usub (to + row) wt ;; b <- usub (lo + col) wl ;; Ok (a, b, v)) cols = Ok ys ->
      NoDup (map fst ys) /\ Forall (fun x => in_box wt wl (to + row) (to + row) (lo + lft) (lo + rgt) (fst x) /\ exists c, In c cols /\ snd (fst x) + wl = lo + c) ys).
    { clear. induction cols as [|c cols IH]; intros ys HN HB H; cbn [mapM] in H; [injection H as <-; split; constructor|].
      apply bind_inv in H. destruct H as (y & E1 & H). apply bind_inv in H. destruct H as (zs & E2 & H). injection H as <-.
      apply bind_inv in E1. destruct E1 as (a & Ea & E1). apply bind_inv in E1. destruct E1 as (b & Eb & E1). injection E1 as <-.
      apply usub_inv in Ea. apply usub_inv in Eb. destruct Ea as [Ha ->], Eb as [Hb ->].
      inversion_clear HN as [|? ? Hc HN']. destruct (IH zs HN') as [N P]; [intros; apply HB; right; assumption|exact E2|].
      pose proof (HB c (or_introl eq_refl)) as Bc. rewrite Forall_forall in P. split.
      - cbn [map fst]. constructor; [|exact N]. intros Hin. apply in_map_iff in Hin. destruct Hin as (x & Ex & Hx).
        destruct (P x Hx) as [_ (c' & Hc' & Ec')]. rewrite Ex in Ec'. cbn [snd] in Ec'. apply Hc. replace c with c' by lia. exact Hc'.
      - constructor.
        + cbn [fst snd]. split; [unfold in_box; cbn [fst snd]; lia|]. exists c. split; [left; reflexivity|lia].
        + apply Forall_forall. intros x Hx. destruct (P x Hx) as [P1 (c' & Hc' & Ec')]. split; [exact P1|]. exists c'. split; [right; exact Hc'|exact Ec']. }
    destruct (G (range_incl lft rgt) y (nodup_range_incl _ _)) as [N P]; [intros c Hc; apply in_range_incl, Hc|exact Hy|].
    split; [exact N|]. eapply Forall_impl; [|exact P]. intros x [Hx _]. exact Hx.
  - intros x x' k _ _ [H1 _] [H2 _]. lia.
  - split; [exact N|]. eapply Forall_impl; [|exact P]. intros x (row & Hr & Hx). apply in_range_incl in Hr. unfold in_box in *. lia.
Qed.

(** The two loops over sub-squares. *)
Lemma squares_places {B} (body : nat -> nat -> nat -> nat -> nat -> nat -> nat -> nat -> res (list (nat * nat * B)))
  sl sl1 top bottom lft rgt to lo wt wl i0 i1 j0 j1 l : sl1 = sl - 1 -> sl <> 0 ->
  (forall i j t b lf rg to' lo' y, body i j t b lf rg to' lo' = Ok y ->
    NoDup (map fst y) /\ Forall (fun x => in_box wt wl (to' + t) (to' + b) (lo' + lf) (lo' + rg) (fst x)) y) ->
  flat_mapM (fun i =>
    bi <- usub bottom (i * sl) ;;
    flat_mapM (fun j =>
      rj <- usub rgt (j * sl) ;;
      body i j (top - i * sl) (Nat.min sl1 bi) (lft - j * sl) (Nat.min sl1 rj) (to + i * sl) (lo + j * sl)) (range_incl j0 j1)) (range_incl i0 i1) = Ok l ->
  NoDup (map fst l) /\ Forall (fun x => in_box wt wl (to + top) (to + bottom) (lo + lft) (lo + rgt) (fst x)) l.
Proof.
  intros -> Hsl Hb H.
  set (R := fun i k => to + i * sl <= fst k + wt < to + i * sl + sl /\ in_box wt wl (to + top) (to + bottom) (lo + lft) (lo + rgt) k).
  destruct (flat_mapM_places _ fst R _ _ H (nodup_range_incl _ _)) as [N P].
  - intros i y _ Hy. cbv beta in Hy. apply bind_inv in Hy. destruct Hy as (bi & Ebi & Hy). apply usub_inv in Ebi. destruct Ebi as [Hbi ->].
    set (C := fun j k => lo + j * sl <= snd k + wl < lo + j * sl + sl /\ R i k).
    destruct (flat_mapM_places _ fst C _ _ Hy (nodup_range_incl _ _)) as [N P].
    + intros j z _ Hz. cbv beta in Hz. apply bind_inv in Hz. destruct Hz as (rj & Erj & Hz). apply usub_inv in Erj. destruct Erj as [Hrj ->].
      destruct (Hb _ _ _ _ _ _ _ _ _ Hz) as [N P]. split; [exact N|]. eapply Forall_impl; [|exact P]. intros [k v] Hk. unfold C, R, in_box in *. cbn [fst] in *.
      clear -Hk Hbi Hrj Hsl. revert Hk Hbi Hrj. generalize (i * sl) (j * sl). intros a b Hk Hbi Hrj. lia.
    + intros x x' k _ _ [H1 _] [H2 _]. clear -H1 H2 Hsl. nia.
    + split; [exact N|]. eapply Forall_impl; [|exact P]. intros x (j & _ & (_ & Hx)). exact Hx.
  - intros x x' k _ _ [H1 _] [H2 _]. clear -H1 H2 Hsl. nia.
  - split; [exact N|]. eapply Forall_impl; [|exact P]. intros x (i & _ & (_ & Hx)). exact Hx.
Qed.

Lemma snap_fill_rec_places s : forall fuel sidelen top bottom lft rgt index m wt wl to lo l,
  snap_fill_rec fuel s sidelen top bottom lft rgt index m wt wl to lo = Ok l ->
  NoDup (map fst l) /\ Forall (fun x => in_box wt wl (to + top) (to + bottom) (lo + lft) (lo + rgt) (fst x)) l.
Proof.
  induction fuel as [|fuel IH]; intros sidelen top bottom lft rgt index m wt wl to lo l H; cbn [snap_fill_rec] in H; [discriminate|].
  apply bind_inv in H. destruct H as (sl & Esl & H). do 4 peel H. peel H. apply bind_inv in H. destruct H as (sl1 & Esl1 & H).
  apply usub_inv in Esl1. destruct Esl1 as [Hsl ->].
  eapply (squares_places (fun i j t b lf rg to' lo' =>
    d <- dac_get (s_max s) (1 + x * s_k s * s_k s + i * s_k s + j) ;;
    leaf <- snap_is_leaf s (1 + x * s_k s * s_k s + i * s_k s + j) ;;
    if leaf : bool then fill_block t b lf rg to' lo' wt wl (i64_sub m d)
    else snap_fill_rec fuel s sl t b lf rg (1 + x * s_k s * s_k s + i * s_k s + j) (i64_sub m d) wt wl to' lo') sl (sl - 1)); [reflexivity|lia| |exact H].
  intros i j t b lf rg to' lo' y Hy. do 2 peel Hy. match type of Hy with (if ?b then _ else _) = _ => destruct b end.
  - eapply fill_block_places, Hy.
  - eapply IH, Hy.
Qed.
Lemma log_fill_rec_places lg s : forall fuel sidelen top bottom lft rgt it is_ mt ms wt wl to lo l,
  log_fill_rec fuel lg s sidelen top bottom lft rgt it is_ mt ms wt wl to lo = Ok l ->
  NoDup (map fst l) /\ Forall (fun x => in_box wt wl (to + top) (to + bottom) (lo + lft) (lo + rgt) (fst x)) l.
Proof.
  induction fuel as [|fuel IH]; intros sidelen top bottom lft rgt it is_ mt ms wt wl to lo l H; cbn [log_fill_rec] in H; [discriminate|].
  apply bind_inv in H. destruct H as (sl & Esl & H). apply bind_inv in H. destruct H as (it' & _ & H). apply bind_inv in H. destruct H as (is' & _ & H).
  do 4 peel H. apply bind_inv in H. destruct H as (sl1 & Esl1 & H). apply usub_inv in Esl1. destruct Esl1 as [Hsl ->].
  eapply (squares_places (fun i j t b lf rg to' lo' =>
          let index_t_ := option_map (fun index => index + i * l_k lg + j) it' in
          max_t_ <- match index_t_ with Some index => dac_get (l_max lg) index | None => Ok mt end ;;
          leaf_t <- opt_leaf leaf_gt (l_nodemap lg) index_t_ ;;
          let index_s_ := option_map (fun index => index + i * l_k lg + j) is' in
          max_s_ <- match index_s_ with
                    | Some index => d <- dac_get (s_max s) index ;; Ok (i64_sub ms d)
                    | None => Ok ms
                    end ;;
          leaf_s <- opt_leaf leaf_gt (s_nodemap s) index_s_ ;;
          if leaf_t && leaf_s then
            fill_block t b lf rg to' lo' wt wl (i64_add max_t_ max_s_)
          else if leaf_s : bool then
            log_fill_rec fuel lg s sl t b lf rg index_t_ None max_t_ max_s_ wt wl to' lo'
          else if leaf_t : bool then
            stop <- match index_t_ with
                    | Some index =>
                        b <- bm_get (l_nodemap lg) index ;;
                        if negb b then eq <- log_equal_at lg index ;; Ok (negb eq) else Ok false
                    | None => Ok false
                    end ;;
            if stop : bool
            then fill_block t b lf rg to' lo' wt wl (i64_add max_t_ max_s_)
            else log_fill_rec fuel lg s sl t b lf rg None index_s_ max_t_ max_s_ wt wl to' lo'
          else log_fill_rec fuel lg s sl t b lf rg index_t_ index_s_ max_t_ max_s_ wt wl to' lo') sl (sl - 1)); [reflexivity|lia| |exact H].
  intros i j t b lf rg to' lo' z Hz. cbv beta zeta in Hz. do 4 peel Hz.
  destruct (_ && _) in Hz; [eapply fill_block_places, Hz|].
  match type of Hz with (if ?b then _ else _) = _ => destruct b end; [eapply IH; exact Hz|].
  match type of Hz with (if ?b then _ else _) = _ => destruct b end; [|eapply IH; exact Hz].
  peel Hz. match type of Hz with (if ?b then _ else _) = _ => destruct b end; [eapply fill_block_places, Hz|eapply IH; exact Hz].
Qed.

Lemma nodup_prod {A B} (l : list A) (m : list B) : NoDup l -> NoDup m -> NoDup (list_prod l m).
Proof.
  intros Hl Hm. induction Hl as [|x l Hx Hl IH]; cbn [list_prod]; [constructor|]. apply NoDup_app'; [|exact IH|].
  - apply FinFun.Injective_map_NoDup; [intros a b E; injection E; auto|exact Hm].
  - intros [a b] H1 H2. apply in_map_iff in H1. destruct H1 as (y & E & _). injection E as <- <-. apply in_prod_iff in H2. apply Hx, H2.
Qed.
(** Places in a window of [h] rows and [w] columns. *)
Definition in_window (h w : nat) (k : nat * nat) : Prop := fst k < h /\ snd k < w.
Lemma rows_places (v : Z) rows cols : let l := flat_map (fun row => map (fun col => (row, col, v)) (range 0 cols)) (range 0 rows) in
  NoDup (map fst l) /\ Forall (fun x => in_window rows cols (fst x)) l.
Proof.
  cbv zeta. split.
  - replace (map fst _) with (list_prod (range 0 rows) (range 0 cols)).
    + apply nodup_prod; apply seq_NoDup.
    + generalize (range 0 rows). induction l as [|r l IH]; [reflexivity|]. cbn [list_prod flat_map]. rewrite map_app, IH, map_map. reflexivity.
  - apply Forall_forall. intros x Hx. apply in_flat_map in Hx. destruct Hx as (r & Hr & Hx). apply in_map_iff in Hx. destruct Hx as (c & <- & Hc).
    unfold range in *. apply in_seq in Hr, Hc. unfold in_window. cbn [fst snd]. lia.
Qed.

Lemma rect_rows_inv b n : rect_rows b = Ok n -> r_top b <= r_bottom b /\ n = r_bottom b - r_top b.
Proof. apply usub_inv. Qed.
Lemma rect_cols_inv b n : rect_cols b = Ok n -> r_left b <= r_right b /\ n = r_right b - r_left b.
Proof. apply usub_inv. Qed.
Lemma snap_fill_window_places s b l : r_top b <= r_bottom b -> r_left b <= r_right b -> snap_fill_window s b = Ok l ->
  NoDup (map fst l) /\ Forall (fun x => in_window (r_bottom b - r_top b) (r_right b - r_left b) (fst x)) l.
Proof.
  intros _ _ H. unfold snap_fill_window in H. apply bind_inv in H. destruct H as (rows & Er & H). apply bind_inv in H. destruct H as (cols & Ec & H).
  apply rect_rows_inv in Er. apply rect_cols_inv in Ec. destruct Er as [Hr ->], Ec as [Hc ->]. peel H. destruct x; cbn [negb] in H.
  - apply bind_inv in H. destruct H as (b1 & E1 & H). apply bind_inv in H. destruct H as (r1 & E2 & H). peel H.
    apply usub_inv in E1. apply usub_inv in E2. apply snap_fill_rec_places in H. destruct H as [N P]. split; [exact N|].
    eapply Forall_impl; [|exact P]. intros x' Hx. unfold in_box, in_window in *. lia.
  - peel H. injection H as <-. apply rows_places.
Qed.
Lemma log_fill_window_places lg s b l : r_top b <= r_bottom b -> r_left b <= r_right b -> log_fill_window lg s b = Ok l ->
  NoDup (map fst l) /\ Forall (fun x => in_window (r_bottom b - r_top b) (r_right b - r_left b) (fst x)) l.
Proof.
  intros Hr Hc H. unfold log_fill_window in H. do 3 peel H. destruct x1.
  - do 2 peel H. apply bind_inv in H. destruct H as (rows & Er & H). apply bind_inv in H. destruct H as (cols & Ec & H).
    apply rect_rows_inv in Er. apply rect_cols_inv in Ec. destruct Er as [_ ->], Ec as [_ ->]. injection H as <-. apply rows_places.
  - apply bind_inv in H. destruct H as (b1 & E1' & H). apply bind_inv in H. destruct H as (r1 & E2 & H). do 2 peel H.
    apply usub_inv in E1'. apply usub_inv in E2. apply log_fill_rec_places in H. destruct H as [N P]. split; [exact N|].
    eapply Forall_impl; [|exact P]. intros x' Hx. unfold in_box, in_window in *. lia.
Qed.
Lemma block_fill_window_places bl i b l : r_top b <= r_bottom b -> r_left b <= r_right b -> block_fill_window bl i b = Ok l ->
  NoDup (map fst l) /\ Forall (fun x => in_window (r_bottom b - r_top b) (r_right b - r_left b) (fst x)) l.
Proof.
  destruct i as [|i]; cbn [block_fill_window]; intros Hr Hc H.
  - eapply snap_fill_window_places; eassumption.
  - peel H. eapply log_fill_window_places; eassumption.
Qed.

(** The loop over the instants of a chunk: the [i]th turn writes to instant [i]. *)
Lemma iter_loop_places {B K} (body : nat -> block -> nat -> res (list B)) (key : B -> K) (at_ : K -> nat) (P : K -> Prop) c :
  (forall i b ii y, body i b ii = Ok y -> NoDup (map key y) /\ Forall (fun x => at_ (key x) = i /\ P (key x)) y) ->
  forall fuel it i l, iter_loop fuel c it i body = Ok l ->
  NoDup (map key l) /\ Forall (fun x => i <= at_ (key x) < i + it_remaining it /\ P (key x)) l.
Proof.
  intros Hb. induction fuel as [|fuel IH]; intros it i l H; cbn [iter_loop] in H; [discriminate|].
  apply bind_inv in H. destruct H as ([o it'] & En & H). cbn [fst snd] in H. destruct o as [[bi ii]|]; [|injection H as <-; split; constructor].
  assert (Er : it_remaining it = S (it_remaining it')).
  { unfold chunk_iter_next in En. destruct (it_remaining it) as [|r]; [discriminate|]. peel En. destruct (_ =? _) in En; injection En as _ _ <-; reflexivity. }
  apply bind_inv in H. destruct H as (b & _ & H). apply bind_inv in H. destruct H as (y & Ey & H). apply bind_inv in H. destruct H as (zs & Ez & H).
  injection H as <-. destruct (Hb _ _ _ _ Ey) as [N1 P1]. destruct (IH _ _ _ Ez) as [N2 P2]. rewrite Forall_forall in P1, P2. split.
  - rewrite map_app. apply NoDup_app'; [exact N1|exact N2|]. intros k H1 H2. apply in_map_iff in H1, H2. destruct H1 as (u & <- & Hu), H2 as (v & Ev & Hv).
    specialize (P1 u Hu). specialize (P2 v Hv). rewrite Ev in P2. lia.
  - apply Forall_forall. intros x Hx. apply in_app_or in Hx. destruct Hx as [Hx|Hx]; [specialize (P1 x Hx)|specialize (P2 x Hx)].
    + destruct P1 as [P1 Q]. split; [lia|exact Q].
    + destruct P2 as [P2 Q]. split; [lia|exact Q].
Qed.

(** Places in a window of [n] instants, [h] rows and [w] columns. *)
Definition in_cube (n h w : nat) (k : nat * nat * nat) : Prop := let '(t, r, c) := k in t < n /\ r < h /\ c < w.
Definition ordered (b : cube) : Prop := c_start b <= c_end b /\ c_top b <= c_bottom b /\ c_left b <= c_right b.

Lemma rearrange_le a b : a <= b -> rearrange a b = (a, b).
Proof. unfold rearrange. intros H. destruct (Nat.ltb_spec b a); [lia|reflexivity]. Qed.
Lemma rect_new_le t b l r : t <= b -> l <= r -> rect_new t b l r = mkRect t b l r.
Proof. intros H1 H2. unfold rect_new. rewrite !rearrange_le by assumption. reflexivity. Qed.
Lemma cube_new_le s e t b l r : s <= e -> t <= b -> l <= r -> cube_new s e t b l r = mkCube s e t b l r.
Proof. intros H1 H2 H3. unfold cube_new. rewrite !rearrange_le by assumption. reflexivity. Qed.

Lemma chunk_fill_window_places c b l : ordered b -> chunk_fill_window c b = Ok l ->
  NoDup (map fst l) /\ Forall (fun x => in_cube (c_end b - c_start b) (c_bottom b - c_top b) (c_right b - c_left b) (fst x)) l.
Proof.
  intros (Hs & Ht & Hl) H. unfold chunk_fill_window in H. apply bind_inv in H. destruct H as (it & Ei & H).
  unfold chunk_iter_new in Ei. peel Ei. apply bind_inv in Ei. destruct Ei as (n & En & Ei). apply usub_inv in En. destruct En as [_ ->]. injection Ei as <-.
  unfold cube_rect in H. rewrite (rect_new_le _ _ _ _ Ht Hl) in H.
  apply (iter_loop_places _ fst (fun k => fst (fst k)) (fun k => in_window (c_bottom b - c_top b) (c_right b - c_left b) (snd (fst k), snd k))) in H.
  - destruct H as [N P]. split; [exact N|]. eapply Forall_impl; [|exact P]. intros [[[t r] cc] v]. cbn [fst snd it_remaining in_cube]. unfold in_window. cbn [fst snd]. lia.
  - clear H. intros i bl ii y Hy. apply bind_inv in Hy. destruct Hy as (out & Eo & Hy). injection Hy as <-.
    apply block_fill_window_places in Eo; cbn [r_top r_bottom r_left r_right] in *; [|assumption|assumption]. destruct Eo as [N P]. split.
    + replace (map fst (map _ out)) with (map (fun k => (i, fst k, snd k)) (map fst out)).
      * apply FinFun.Injective_map_NoDup; [|exact N]. intros [u v] [u' v'] Eq. cbn [fst snd] in Eq. injection Eq as <- <-. reflexivity.
      * rewrite !map_map. apply map_ext. intros [[r cc] v]. reflexivity.
    + apply Forall_map. eapply Forall_impl; [|exact P]. intros [[r cc] v]. cbn [fst snd]. auto.
Qed.

(** ** Pieces of a window: the sub-chunks it meets, and the spans. *)
(** A sub-window: the rows and columns of its slice are those of square ([row], [col]) that are in the window. *)
Definition sub_at (cs : nat) (w : rect) (rc : nat * nat) (x : subwindow) : Prop :=
  let '(row, col) := rc in
  sw_local x = mkRect (Nat.max (row * cs) (r_top w) - row * cs) (Nat.min (row * cs + cs) (r_bottom w) - row * cs)
                      (Nat.max (col * cs) (r_left w) - col * cs) (Nat.min (col * cs + cs) (r_right w) - col * cs) /\
  sw_slice x = mkRect (Nat.max (row * cs) (r_top w) - r_top w) (Nat.min (row * cs + cs) (r_bottom w) - r_top w)
                      (Nat.max (col * cs) (r_left w) - r_left w) (Nat.min (col * cs + cs) (r_right w) - r_left w) /\
  row * cs <= r_bottom w /\ col * cs <= r_right w /\ r_top w <= row * cs + cs /\ r_left w <= col * cs + cs.

Lemma flat_mapM_indexed {X B I} (f : X -> res (list B)) (R : I -> B -> Prop) (own : I -> X) : forall l ys, flat_mapM f l = Ok ys -> NoDup l ->
  (forall x y, In x l -> f x = Ok y -> exists is, NoDup is /\ Forall2 R is y /\ Forall (fun i => own i = x) is) ->
  exists is, NoDup is /\ Forall2 R is ys /\ Forall (fun i => In (own i) l) is.
Proof.
  induction l as [|x l IH]; intros ys H HN Hf; cbn [flat_mapM] in H; [injection H as <-; exists []; repeat split; constructor|].
  apply bind_inv in H. destruct H as (y & E1 & H). apply bind_inv in H. destruct H as (zs & E2 & H). injection H as <-.
  inversion_clear HN as [|? ? Hx HN']. destruct (Hf x y (or_introl eq_refl) E1) as (is1 & N1 & F1 & O1).
  destruct (IH zs E2 HN') as (is2 & N2 & F2 & O2); [intros; apply Hf; [right; assumption|assumption]|].
  exists (is1 ++ is2). rewrite Forall_forall in O1, O2. split; [|split].
  - apply NoDup_app'; [exact N1|exact N2|]. intros i H1 H2. apply Hx. rewrite <- (O1 i H1). apply O2, H2.
  - apply Forall2_app; assumption.
  - apply Forall_forall. intros i Hi. apply in_app_or in Hi. destruct Hi as [Hi|Hi]; [left; symmetry; apply O1, Hi|right; apply O2, Hi].
Qed.
Lemma mapM_Forall2 {X B} (f : X -> res B) : forall l ys, mapM f l = Ok ys -> Forall2 (fun x y => f x = Ok y) l ys.
Proof.
  induction l as [|x l IH]; intros ys H; cbn [mapM] in H; [injection H as <-; constructor|].
  apply bind_inv in H. destruct H as (y & E1 & H). apply bind_inv in H. destruct H as (zs & E2 & H). injection H as <-. constructor; [exact E1|apply IH, E2].
Qed.

Lemma subchunks_at s w subs : r_top w <= r_bottom w -> r_left w <= r_right w -> subchunks_for s w = Ok subs ->
  exists is, NoDup is /\ Forall2 (sub_at (su_chunks_sidelen s) w) is subs.
Proof.
  intros Ht Hl H. unfold subchunks_for in H. cbv zeta in H.
  apply bind_inv in H. destruct H as (b1 & E1 & H). apply bind_inv in H. destruct H as (r1 & E2 & H). apply usub_inv in E1. apply usub_inv in E2.
  apply bind_inv in H. destruct H as (t0 & Et & H). apply bind_inv in H. destruct H as (b0 & Eb & H).
  apply bind_inv in H. destruct H as (l0 & El & H). apply bind_inv in H. destruct H as (r0 & Er & H).
  apply udiv_inv in Et, Eb, El, Er. destruct Et as [Hcs ->], Eb as [_ ->], El as [_ ->], Er as [_ ->]. set (cs := su_chunks_sidelen s) in *.
  assert (Top : forall row, In row (range_incl (r_top (rect_new (r_top w / cs) (b1 / cs) (r_left w / cs) (r1 / cs))) (r_bottom (rect_new (r_top w / cs) (b1 / cs) (r_left w / cs) (r1 / cs)))) ->
    row * cs <= r_bottom w).
  { intros row Hr. apply in_range_incl in Hr. destruct Hr as [_ Hr].
    assert (row <= Nat.max (r_top w / cs) (b1 / cs)).
    { clear -Hr. revert Hr. unfold rect_new, rearrange. destruct (_ <? _), (_ <? _); cbn [r_bottom r_top]; lia. }
    pose proof (Nat.mul_div_le (r_top w) cs Hcs). pose proof (Nat.mul_div_le b1 cs Hcs). clear -H0 H1 H2 E1 Ht. nia. }
  assert (Lft : forall col, In col (range_incl (r_left (rect_new (r_top w / cs) (b1 / cs) (r_left w / cs) (r1 / cs))) (r_right (rect_new (r_top w / cs) (b1 / cs) (r_left w / cs) (r1 / cs)))) ->
    col * cs <= r_right w).
  { intros row Hr. apply in_range_incl in Hr. destruct Hr as [_ Hr].
    assert (row <= Nat.max (r_left w / cs) (r1 / cs)).
    { clear -Hr. revert Hr. unfold rect_new, rearrange. destruct (_ <? _), (_ <? _); cbn [r_left r_right]; lia. }
    pose proof (Nat.mul_div_le (r_left w) cs Hcs). pose proof (Nat.mul_div_le r1 cs Hcs). clear -H0 H1 H2 E2 Hl. nia. }
  destruct (flat_mapM_indexed _ (sub_at cs w) fst _ _ H (nodup_range_incl _ _)) as (is & N & F & _); [|exists is; auto].
  clear H. intros row y Hrow Hy. cbv beta in Hy. specialize (Top row Hrow). clear Hrow.
  apply bind_inv in Hy. destruct Hy as (lb & Elb & Hy). apply bind_inv in Hy. destruct Hy as (sb & Esb & Hy).
  apply usub_inv in Elb. apply usub_inv in Esb. destruct Elb as [Hlb ->], Esb as [Hsb ->].
  apply mapM_Forall2 in Hy. set (cols := range_incl _ _) in *. exists (map (fun col => (row, col)) cols). split; [|split].
  - apply FinFun.Injective_map_NoDup; [intros a b E; injection E; auto|apply nodup_range_incl].
  - clear Hcs. assert (G : forall col, In col cols -> col * cs <= r_right w) by exact Lft. clearbody cols. clear Lft. revert G. induction Hy as [|col z cols ys Hz Hy IH]; intros G; cbn [map]; constructor.
    + clear IH Hy. specialize (G col (or_introl eq_refl)). apply bind_inv in Hz. destruct Hz as (lr & Elr & Hz). apply bind_inv in Hz. destruct Hz as (sr & Esr & Hz).
      apply usub_inv in Elr. apply usub_inv in Esr. destruct Elr as [Hlr ->], Esr as [Hsr ->]. injection Hz as <-.
      unfold sub_at. cbn [sw_local sw_slice]. rewrite !rect_new_le by (clear -Hlb Hsb Hlr Hsr Top G Ht Hl; lia).
      split; [reflexivity|]. split; [reflexivity|]. clear -Hlb Hsb Hlr Hsr Top G Ht Hl. lia.
    + apply IH. intros c Hc. apply G. right. exact Hc.
  - apply Forall_map. apply Forall_forall. reflexivity.
Qed.

(** [flat_mapM_places] for loops over things that have an index. *)
Lemma flat_mapM_places_at {X B K I} (f : X -> res (list B)) (key : B -> K) (R : I -> X -> Prop) (P : I -> K -> Prop) : forall is l ys, flat_mapM f l = Ok ys ->
  NoDup is -> Forall2 R is l ->
  (forall i x y, R i x -> f x = Ok y -> NoDup (map key y) /\ Forall (fun b => P i (key b)) y) ->
  (forall i i' k, P i k -> P i' k -> i = i') ->
  NoDup (map key ys) /\ Forall (fun b => exists i, In i is /\ P i (key b)) ys.
Proof.
  intros is l ys H HN HF Hf HD. revert ys H HN. induction HF as [|i x is l Hx HF IH]; intros ys H HN; cbn [flat_mapM] in H; [injection H as <-; split; constructor|].
  apply bind_inv in H. destruct H as (y & E1 & H). apply bind_inv in H. destruct H as (zs & E2 & H). injection H as <-.
  inversion_clear HN as [|? ? Hi HN']. destruct (Hf i x y Hx E1) as [N1 P1]. destruct (IH zs E2 HN') as [N2 P2]. rewrite Forall_forall in P1, P2. split.
  - rewrite map_app. apply NoDup_app'; [exact N1|exact N2|]. intros k Hk Hk'. apply in_map_iff in Hk. destruct Hk as (b & <- & Hb).
    apply in_map_iff in Hk'. destruct Hk' as (b' & Eb & Hb'). destruct (P2 b' Hb') as (i' & Hi' & Pi'). apply Hi.
    rewrite (HD i i' (key b) (P1 b Hb)); [exact Hi'|rewrite <- Eb; exact Pi'].
  - apply Forall_forall. intros b Hb. apply in_app_or in Hb. destruct Hb as [Hb|Hb]; [exists i; split; [left; reflexivity|apply P1, Hb]|].
    destruct (P2 b Hb) as (i' & Hi' & Pi'). exists i'. split; [right; exact Hi'|exact Pi'].
Qed.

Lemma moved_places dt dr dc (l : list call) : NoDup (map fst l) -> NoDup (map fst (moved dt dr dc l)).
Proof.
  intros H. unfold moved. replace (map fst (map _ l)) with (map (fun k => (dt + fst (fst k), dr + snd (fst k), dc + snd k)) (map fst l)).
  - apply FinFun.Injective_map_NoDup; [|exact H]. intros [[a b] c] [[a' b'] c'] E. cbn [fst snd] in E. injection E as E1 E2 E3.
    f_equal; [f_equal|]; lia.
  - rewrite !map_map. apply map_ext. intros [[[t r] c] v]. reflexivity.
Qed.

Lemma flat_mapM_pairs {X B K} (f : X -> res (list B)) (key : B -> K) (P : X -> K -> Prop) : forall l ys, flat_mapM f l = Ok ys ->
  ForallOrdPairs (fun x y => forall k, P x k -> P y k -> False) l ->
  (forall x y, In x l -> f x = Ok y -> NoDup (map key y) /\ Forall (fun b => P x (key b)) y) ->
  NoDup (map key ys) /\ Forall (fun b => exists x, In x l /\ P x (key b)) ys.
Proof.
  induction l as [|x l IH]; intros ys H HO Hf; cbn [flat_mapM] in H; [injection H as <-; split; constructor|].
  apply bind_inv in H. destruct H as (y & E1 & H). apply bind_inv in H. destruct H as (zs & E2 & H). injection H as <-.
  inversion_clear HO as [|? ? Hx HO']. destruct (Hf x y (or_introl eq_refl) E1) as [N1 P1].
  destruct (IH zs E2 HO') as [N2 P2]; [intros; apply Hf; [right; assumption|assumption]|].
  rewrite Forall_forall in P1, P2, Hx. split.
  - rewrite map_app. apply NoDup_app'; [exact N1|exact N2|]. intros k Hk Hk'. apply in_map_iff in Hk. destruct Hk as (b & <- & Hb).
    apply in_map_iff in Hk'. destruct Hk' as (b' & Eb & Hb'). destruct (P2 b' Hb') as (x' & Hx' & Px').
    apply (Hx x' Hx' (key b) (P1 b Hb)). rewrite <- Eb. exact Px'.
  - apply Forall_forall. intros b Hb. apply in_app_or in Hb. destruct Hb as [Hb|Hb]; [exists x; split; [left; reflexivity|apply P1, Hb]|].
    destruct (P2 b Hb) as (x' & Hx' & Px'). exists x'. split; [right; exact Hx'|exact Px'].
Qed.
Lemma pairs_impl {A} (R R' : A -> A -> Prop) l : (forall x y, R x y -> R' x y) -> ForallOrdPairs R l -> ForallOrdPairs R' l.
Proof. intros H. induction 1 as [|x l Hx Hl IH]; constructor; [|exact IH]. eapply Forall_impl; [|exact Hx]. apply H. Qed.

(** The pieces of a span follow one another. *)
Definition piece := (nat * nat * nat * nat)%type.
Definition piece_len (x : piece) := snd (fst x).
Definition piece_off (x : piece) := snd x.
Lemma span_pieces_at stride instants : forall fuel sp instant start l, span_pieces fuel stride instants sp instant start = Ok l ->
  Forall (fun x => start <= piece_off x /\ piece_off x + piece_len x <= instants) l /\
  ForallOrdPairs (fun x y => piece_off x + piece_len x <= piece_off y) l.
Proof.
  induction fuel as [|fuel IH]; intros sp instant start l H; cbn [span_pieces] in H; (destruct (Nat.ltb_spec start instants); [|injection H as <-; split; constructor]); [discriminate|].
  apply bind_inv in H. destruct H as (li & _ & H). cbv zeta in H. apply bind_inv in H. destruct H as (rest & Er & H). injection H as <-.
  destruct (IH _ _ _ _ Er) as [F O]. unfold piece_len, piece_off in *. split; constructor; try assumption; cbn [fst snd].
  - lia.
  - eapply Forall_impl; [|exact F]. intros x Hx. cbn [fst snd] in *. lia.
  - eapply Forall_impl; [|exact F]. intros x Hx. cbn [fst snd] in *. lia.
Qed.

(** A future whose error is dropped writes nothing. *)
Lemma swallow_places x l (P : nat * nat * nat -> Prop) : swallow x = Ok l ->
  (forall y, x = Ok y -> NoDup (map fst y) /\ Forall (fun c : call => P (fst c)) y) -> NoDup (map fst l) /\ Forall (fun c : call => P (fst c)) l.
Proof. destruct x as [y|e| |]; cbn [swallow]; intros H Hx; [injection H as <-; apply Hx; reflexivity|injection H as <-; split; constructor|discriminate|discriminate]. Qed.
Lemma fill_instant_places i rows cols v : NoDup (map fst (fill_instant i rows cols v)) /\
  Forall (fun c : call => fst (fst (fst c)) = i /\ in_window rows cols (snd (fst (fst c)), snd (fst c))) (fill_instant i rows cols v).
Proof.
  unfold fill_instant. split.
  - rewrite map_map. cbn [fst]. apply FinFun.Injective_map_NoDup; [intros [a b] [a' b'] E; injection E; intros; subst; reflexivity|]. apply nodup_prod; apply seq_NoDup.
  - apply Forall_map, Forall_forall. intros [r c] Hx. apply in_prod_iff in Hx. rewrite !in_seq in Hx. cbn [fst snd]. unfold in_window. cbn [fst snd]. lia.
Qed.

(** One side of a slice. *)
Lemma slice_in R cs t b x : t <= b -> R <= b -> t <= R + cs -> x < Nat.min (R + cs) b - Nat.max R t ->
  Nat.max R t - t + x < b - t /\ R <= Nat.max R t - t + x + t < R + cs.
Proof. lia. Qed.
Lemma slice_side R cs t b : Nat.min (R + cs) b - t - (Nat.max R t - t) = Nat.min (R + cs) b - Nat.max R t.
Proof. lia. Qed.
Lemma local_side R cs t b : Nat.min (R + cs) b - R - (Nat.max R t - R) = Nat.min (R + cs) b - Nat.max R t.
Proof. lia. Qed.
Lemma local_le R cs t b : t <= b -> R <= b -> t <= R + cs -> Nat.max R t - R <= Nat.min (R + cs) b - R.
Proof. lia. Qed.

Lemma mm_fill_window_places st : forall fuel m b bits l, ordered b -> mm_fill_window st fuel m b bits = Ok l ->
  NoDup (map fst l) /\ Forall (fun x => in_cube (c_end b - c_start b) (c_bottom b - c_top b) (c_right b - c_left b) (fst x)) l.
Proof.
  induction fuel as [|fuel IH]; intros m b bits l Hb H; cbn [mm_fill_window] in H; [discriminate|]. destruct m as [s|c|s local].
  - (* a span *)
    pose proof Hb as (Hs & Ht & Hl).
    apply bind_inv in H. destruct H as (n & En & H). apply usub_inv in En. destruct En as [_ ->].
    apply bind_inv in H. destruct H as (pieces & Ep & H). unfold span_pieces_for in Ep. peel Ep.
    apply span_pieces_at in Ep. destruct Ep as [F O]. rewrite Forall_forall in F.
    destruct (flat_mapM_pairs _ fst (fun x k => piece_off x <= fst (fst k) < piece_off x + piece_len x /\ in_window (c_bottom b - c_top b) (c_right b - c_left b) (snd (fst k), snd k)) _ _ H) as [N P].
    + eapply pairs_impl; [|exact O]. intros x1 x2 Hx k [H1 _] [H2 _]. cbv beta in *; lia.
    + intros [[[sp instant] len] off] y Hx Hy. do 2 peel Hy. apply bind_inv in Hy. destruct Hy as (out & Eo & Hy). injection Hy as <-.
      rewrite cube_new_le in Eo by (assumption || lia). apply IH in Eo; [|split; cbn [c_start c_end c_top c_bottom c_left c_right]; lia].
      destruct Eo as [N P]. split; [apply moved_places, N|]. unfold moved. apply Forall_map. eapply Forall_impl; [|exact P].
      intros [[[t r] c] v]. unfold piece_off, piece_len, in_window. cbn [in_cube c_start c_end c_top c_bottom c_left c_right fst snd]. lia.
    + split; [exact N|]. eapply Forall_impl; [|exact P]. intros [[[t r] c] v] (x1 & Hx & Hk). specialize (F x1 Hx). unfold in_window in Hk. cbn [in_cube fst snd] in *. lia.
  - (* a chunk *)
    apply bind_inv in H. destruct H as (out & Eo & H). injection H as <-. apply chunk_fill_window_places in Eo; [|exact Hb]. destruct Eo as [N P]. split.
    + replace (map fst (map _ out)) with (map fst out); [exact N|]. rewrite map_map. apply map_ext. intros [[[t r] cc] v]. reflexivity.
    + apply Forall_map. eapply Forall_impl; [|exact P]. intros [[[t r] cc] v] Hx. exact Hx.
  - (* a superchunk *)
    pose proof Hb as (Hs & Ht & Hl). peel H. apply bind_inv in H. destruct H as (subs & Esub & H). unfold cube_rect in Esub. rewrite (rect_new_le _ _ _ _ Ht Hl) in Esub.
    apply subchunks_at in Esub; [|exact Ht|exact Hl]. destruct Esub as (is & HN & HF). set (cs := su_chunks_sidelen s) in *.
    set (P := fun (rc : nat * nat) (k : nat * nat * nat) => in_cube (c_end b - c_start b) (c_bottom b - c_top b) (c_right b - c_left b) k /\
      fst rc * cs <= snd (fst k) + c_top b < fst rc * cs + cs /\ snd rc * cs <= snd k + c_left b < snd rc * cs + cs).
    destruct (flat_mapM_places_at _ fst (sub_at cs (mkRect (c_top b) (c_bottom b) (c_left b) (c_right b))) P _ _ _ H HN HF) as [N Q].
    + clear H. intros [row col] sw y (El & Esl & H1 & H2 & H3 & H4) Hy. cbn [r_top r_bottom r_left r_right] in *. rewrite El, Esl in Hy. cbn [r_top r_bottom r_left r_right] in Hy.
      clear El Esl. apply bind_inv in Hy. destruct Hy as (calls & Ec & Hy). injection Hy as <-.
      revert H1 H2 H3 H4 Ec. unfold P. cbn [fst snd]. clear P HF. generalize (row * cs) (col * cs). intros R C H1 H2 H3 H4 Ec.
      rewrite cube_new_le in Ec by (assumption || lia). cbn [c_start c_end] in Ec.
      set (h := Nat.min (R + cs) (c_bottom b) - Nat.max R (c_top b)). set (w := Nat.min (C + cs) (c_right b) - Nat.max C (c_left b)).
      apply (swallow_places _ _ (in_cube (c_end b - c_start b) h w)) in Ec.
      * destruct Ec as [N Q]. split; [apply moved_places, N|]. unfold moved. apply Forall_map. eapply Forall_impl; [|exact Q].
        intros [[[t r] c] v] (A1 & A2 & A3). cbn [in_cube fst snd]. destruct (slice_in R cs _ _ r Ht H1 H3 A2) as [B1 B2]. destruct (slice_in C cs _ _ c Hl H2 H4 A3) as [B3 B4].
        split; [split; [exact A1|split; assumption]|split; assumption].
      * clear Ec. intros y Hy. apply bind_inv in Hy. destruct Hy as (rf & _ & Hy). destruct rf as [|i|i].
        { apply bind_inv in Hy. destruct Hy as (n & En & Hy). apply usub_inv in En. cbn [c_start c_end] in En. destruct En as [_ ->].
          destruct (flat_mapM_places _ fst (fun i k => fst (fst k) = i /\ in_window h w (snd (fst k), snd k)) _ _ Hy (seq_NoDup _ _)) as [N Q].
          - intros i z _ Hz. peel Hz. injection Hz as <-.
            rewrite !slice_side. apply fill_instant_places.
          - intros i i' k _ _ [A1 _] [A2 _]. congruence.
          - split; [exact N|]. eapply Forall_impl; [|exact Q]. intros [[[t r] c] v] (i & Hi & Et & Hw). apply in_seq in Hi. cbn [fst snd in_cube] in *. subst t. unfold in_window in Hw. cbn [fst snd] in Hw. lia. }
        all: peel Hy; apply IH in Hy; [|split; [exact Hs|split; apply local_le; assumption]];
          destruct Hy as [N Q]; split; [exact N|]; eapply Forall_impl; [|exact Q]; intros [[[t r] c] v]; cbn [in_cube fst snd c_start c_end c_top c_bottom c_left c_right];
          rewrite !local_side; exact (fun x => x).
    + clear. unfold P. intros [r1 c1] [r2 c2] k (_ & A1 & A2) (_ & B1 & B2). cbn [fst snd] in *. assert (r1 = r2) by nia. assert (c1 = c2) by nia. congruence.
    + split; [exact N|]. eapply Forall_impl; [|exact Q]. intros y (i & _ & Hy & _). exact Hy.
Qed.

(** The same for the values of one cell. *)
Lemma mm_fill_cell_places st : forall fuel m start end_ row col bits l, mm_fill_cell st fuel m start end_ row col bits = Ok l ->
  NoDup (map fst l) /\ Forall (fun x => fst x < end_ - start) l.
Proof.
  induction fuel as [|fuel IH]; intros m start end_ row col bits l H; cbn [mm_fill_cell] in H; [discriminate|]. destruct m as [s|c|s local].
  - apply bind_inv in H. destruct H as (n & En & H). apply usub_inv in En. destruct En as [_ ->].
    apply bind_inv in H. destruct H as (pieces & Ep & H). unfold span_pieces_for in Ep. peel Ep.
    apply span_pieces_at in Ep. destruct Ep as [F O]. rewrite Forall_forall in F.
    destruct (flat_mapM_pairs _ fst (fun x k => piece_off x <= k < piece_off x + piece_len x) _ _ H) as [N P].
    + eapply pairs_impl; [|exact O]. intros x1 x2 Hx k H1 H2. cbv beta in *; lia.
    + intros [[[sp instant] len] off] y Hx Hy. do 2 peel Hy. apply bind_inv in Hy. destruct Hy as (out & Eo & Hy). injection Hy as <-.
      apply IH in Eo. destruct Eo as [N P]. unfold piece_off, piece_len. cbn [fst snd]. split.
      * replace (map fst (map _ out)) with (map (Nat.add off) (map fst out)); [|rewrite !map_map; apply map_ext; intros [i v]; reflexivity].
        apply FinFun.Injective_map_NoDup; [intros a b; lia|exact N].
      * apply Forall_map. eapply Forall_impl; [|exact P]. intros [i v] Hi. cbn [fst] in *. lia.
    + split; [exact N|]. eapply Forall_impl; [|exact P]. intros y (x1 & Hx & Hk). specialize (F x1 Hx). cbv beta in F. lia.
  - apply bind_inv in H. destruct H as (out & Eo & H). injection H as <-. unfold chunk_fill_cell in Eo. apply bind_inv in Eo. destruct Eo as (it & Ei & Eo).
    unfold chunk_iter_new in Ei. peel Ei. apply bind_inv in Ei. destruct Ei as (n & En & Ei). apply usub_inv in En. destruct En as [_ ->]. injection Ei as <-.
    apply (iter_loop_places _ fst (fun k => k) (fun _ => True)) in Eo.
    + destruct Eo as [N P]. split; [rewrite map_map; erewrite map_ext; [exact N|intros [i v]; reflexivity]|].
      apply Forall_map. eapply Forall_impl; [|exact P]. intros [i v] Hi. cbn [fst it_remaining] in *. lia.
    + clear. intros i b ii y Hy. peel Hy. injection Hy as <-. cbn [map fst]. split; [constructor; [intros []|constructor]|constructor; [auto|constructor]].
  - do 4 peel H. apply bind_inv in H. destruct H as (rf & _ & H). destruct rf as [|i|i].
    + apply bind_inv in H. destruct H as (n & En & H). apply usub_inv in En. destruct En as [_ ->]. apply mapM_Forall2 in H.
      assert (G : map fst l = seq 0 (end_ - start)).
      { clear -H. induction H as [|i y is ys Hy H IH]; [reflexivity|]. peel Hy. injection Hy as <-. cbn [map fst]. f_equal. exact IH. }
      rewrite G. split; [apply seq_NoDup|]. apply Forall_forall. intros y Hy. apply (in_map fst) in Hy. rewrite G in Hy. apply in_seq in Hy. lia.
    + peel H. eapply IH, H.
    + peel H. eapply IH, H.
Qed.
