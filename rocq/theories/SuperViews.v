(** * What it means for a stored structure to hold an array, and the three
    constructors that preserve it: chunks, superchunks, spans. *)
From Verif Require Import Base BaseFacts Spec GeomModel GeomProofs BitmapModel DacModel DacProofs StreamModel
  StreamProofs ChunkModel ChunkProofs ChunkReads NodeModel NodeProofs SuperModel.
Ltac Zify.zify_post_hook ::= Z.div_mod_to_equations.
Arguments Nat.pow : simpl never.

(** ** Regions *)

(** A list of pieces for each cell of a region. *)
Definition region {B} (F : nat -> nat -> nat -> list B) (s e t b l r : nat) : list B :=
  flat_map (fun x => flat_map (fun y => flat_map (F x y) (range l r)) (range t b)) (range s e).

Lemma region_ext {B} (F G : nat -> nat -> nat -> list B) s e t b l r :
  (forall x y z, s <= x < e -> t <= y < b -> l <= z < r -> F x y z = G x y z) ->
  region F s e t b l r = region G s e t b l r.
Proof.
  intros H. unfold region. apply flat_map_ext_in. intros x Hx. apply flat_map_ext_in. intros y Hy.
  apply flat_map_ext_in. intros z Hz. apply in_range in Hx, Hy, Hz. auto.
Qed.

Lemma range_shift a b d : range (d + a) (d + b) = map (fun x => d + x) (range a b).
Proof.
  unfold range. replace (d + b - (d + a)) with (b - a) by lia. generalize (b - a) as n. intros n.
  revert a. induction n as [|n IH]; intros a; cbn [seq map]; [reflexivity|].
  f_equal. replace (S (d + a)) with (d + S a) by lia. apply IH.
Qed.

Lemma range_from a b : a <= b -> range a b = map (fun x => a + x) (seq 0 (b - a)).
Proof.
  intros H. pose proof (range_shift 0 (b - a) a) as E. rewrite Nat.add_0_r in E.
  replace (a + (b - a)) with b in E by lia. rewrite E. unfold range. rewrite Nat.sub_0_r. reflexivity.
Qed.

Lemma region_shift {B} (F : nat -> nat -> nat -> list B) s e t b l r ds dt dl :
  region F (ds + s) (ds + e) (dt + t) (dt + b) (dl + l) (dl + r) =
  region (fun x y z => F (ds + x) (dt + y) (dl + z)) s e t b l r.
Proof.
  unfold region. rewrite (range_shift s e ds), flat_map_map. apply flat_map_ext_in. intros x _.
  rewrite (range_shift t b dt), flat_map_map. apply flat_map_ext_in. intros y _.
  rewrite (range_shift l r dl), flat_map_map. reflexivity.
Qed.

Lemma region_nil {B} s e t b l r : region (fun _ _ _ => @nil B) s e t b l r = [].
Proof.
  unfold region. rewrite (flat_map_ext_in _ (fun _ => [])); [apply flat_map_nil|]. intros x _.
  rewrite (flat_map_ext_in _ (fun _ => [])); [apply flat_map_nil|]. intros y _. apply flat_map_nil.
Qed.

Lemma map_region {B C} (h : B -> C) (F : nat -> nat -> nat -> list B) s e t b l r :
  map h (region F s e t b l r) = region (fun x y z => map h (F x y z)) s e t b l r.
Proof.
  unfold region. rewrite map_flat_map. apply flat_map_ext_in. intros x _.
  rewrite map_flat_map. apply flat_map_ext_in. intros y _.
  rewrite map_flat_map. reflexivity.
Qed.

Lemma flat_map_single {A B} (h : A -> B) l : flat_map (fun x => [h x]) l = map h l.
Proof. induction l as [|x l IH]; cbn [flat_map map app]; congruence. Qed.

Lemma window3_region {A} (f : nat -> nat -> nat -> A) s e t b l r :
  window3_spec f s e t b l r = region (fun x y z => [(x - s, y - t, z - l, f x y z)]) s e t b l r.
Proof.
  unfold window3_spec, cells3, cells, region. rewrite map_flat_map. apply flat_map_ext_in. intros x _.
  rewrite map_map, map_flat_map. apply flat_map_ext_in. intros y _.
  rewrite map_map. cbn [fst snd]. rewrite flat_map_single. reflexivity.
Qed.

Lemma search3_region g s e t b l r lo up :
  search3_spec g s e t b l r lo up =
  region (fun x y z => if in_bounds lo up (g x y z) then [(x, y, z)] else []) s e t b l r.
Proof.
  unfold search3_spec, cells3, cells, region. rewrite filter_flat_map. apply flat_map_ext_in. intros x _.
  rewrite map_flat_map, filter_flat_map. apply flat_map_ext_in. intros y _.
  rewrite map_map. cbn [fst snd]. induction (range l r) as [|z zs IH]; cbn [map filter flat_map]; [reflexivity|].
  rewrite IH. destruct (in_bounds lo up (g x y z)); reflexivity.
Qed.

Lemma range_incl_range a b : a < b -> range_incl a (b - 1) = range a b.
Proof. intros H. unfold range_incl, range. f_equal. lia. Qed.

Lemma tiles_3d {B} (F : nat -> nat -> nat -> list B) s e t b l r cs :
  0 < cs -> t < b -> l < r ->
  Permutation
    (flat_map (fun i => flat_map (fun j =>
        region (fun x y z => F x (i * cs + y) (j * cs + z)) s e
               (t - i * cs) (Nat.min cs (b - i * cs)) (l - j * cs) (Nat.min cs (r - j * cs)))
        (range_incl (l / cs) ((r - 1) / cs))) (range_incl (t / cs) ((b - 1) / cs)))
    (region F s e t b l r).
Proof.
  intros Hcs Ht Hl. unfold region at 2.
  rewrite <- (range_incl_range t b Ht), <- (range_incl_range l r Hl).
  transitivity (flat_map (fun x => flat_map (fun i => flat_map (fun j =>
     flat_map (fun y => flat_map (fun z => F x (0 + i * cs + y) (0 + j * cs + z))
        (range_incl (l - j * cs) (Nat.min (cs - 1) (r - 1 - j * cs))))
        (range_incl (t - i * cs) (Nat.min (cs - 1) (b - 1 - i * cs))))
        (range_incl (l / cs) ((r - 1) / cs))) (range_incl (t / cs) ((b - 1) / cs))) (range s e)).
  2:{ apply flat_map_perm_in. intros x _.
      exact (tiles_2d (fun y z => F x y z) t (b - 1) l (r - 1) cs 0 0 Hcs ltac:(lia) ltac:(lia)). }
  rewrite (flat_map_swap (fun x i => flat_map (fun j =>
     flat_map (fun y => flat_map (fun z => F x (0 + i * cs + y) (0 + j * cs + z))
        (range_incl (l - j * cs) (Nat.min (cs - 1) (r - 1 - j * cs))))
        (range_incl (t - i * cs) (Nat.min (cs - 1) (b - 1 - i * cs))))
        (range_incl (l / cs) ((r - 1) / cs)))).
  apply flat_map_perm_in. intros i Hi. apply in_range_incl in Hi.
  rewrite (flat_map_swap (fun x j =>
     flat_map (fun y => flat_map (fun z => F x (0 + i * cs + y) (0 + j * cs + z))
        (range_incl (l - j * cs) (Nat.min (cs - 1) (r - 1 - j * cs))))
        (range_incl (t - i * cs) (Nat.min (cs - 1) (b - 1 - i * cs))))).
  apply flat_map_perm_in. intros j Hj. apply in_range_incl in Hj.
  assert (Hi1 : t - i * cs < Nat.min cs (b - i * cs)).
  { assert (i * cs <= b - 1) by (rewrite Nat.mul_comm; etransitivity; [apply Nat.mul_le_mono_l, Hi|apply Nat.mul_div_le; lia]).
    assert (t < i * cs + cs) by (pose proof (Nat.mod_upper_bound t cs ltac:(lia)); pose proof (Nat.div_mod t cs ltac:(lia));
      assert (cs * (t / cs) <= cs * i) by (apply Nat.mul_le_mono_l; lia); lia). lia. }
  assert (Hj1 : l - j * cs < Nat.min cs (r - j * cs)).
  { assert (j * cs <= r - 1) by (rewrite Nat.mul_comm; etransitivity; [apply Nat.mul_le_mono_l, Hj|apply Nat.mul_div_le; lia]).
    assert (l < j * cs + cs) by (pose proof (Nat.mod_upper_bound l cs ltac:(lia)); pose proof (Nat.div_mod l cs ltac:(lia));
      assert (cs * (l / cs) <= cs * j) by (apply Nat.mul_le_mono_l; lia); lia). lia. }
  unfold region. rewrite <- (range_incl_range _ _ Hi1), <- (range_incl_range _ _ Hj1).
  replace (Nat.min cs (b - i * cs) - 1) with (Nat.min (cs - 1) (b - 1 - i * cs)) by (clear; lia).
  replace (Nat.min cs (r - j * cs) - 1) with (Nat.min (cs - 1) (r - 1 - j * cs)) by (clear; lia).
  reflexivity.
Qed.

(** ** The subchunks of a window *)

Definition sub_at (s : super) (top bottom lft rgt : nat) (i j : nat) : subwindow :=
  let cs := su_chunks_sidelen s in
  mkSub (i * su_subsidelen s + j)
        (mkRect (i * cs) (i * cs + cs) (j * cs) (j * cs + cs))
        (mkRect (top - i * cs) (Nat.min cs (bottom - i * cs)) (lft - j * cs) (Nat.min cs (rgt - j * cs)))
        (mkRect (i * cs - top) (Nat.min (i * cs + cs) bottom - top) (j * cs - lft) (Nat.min (j * cs + cs) rgt - lft)).

(** An index of a tile that a window meets. *)
Lemma tile_bounds a b cs i : 0 < cs -> a < b -> a / cs <= i <= (b - 1) / cs -> i * cs < b /\ a < i * cs + cs.
Proof.
  intros Hcs Hab Hi. split.
  - assert (i * cs <= b - 1) by (rewrite Nat.mul_comm; etransitivity; [apply Nat.mul_le_mono_l, Hi|apply Nat.mul_div_le; lia]). lia.
  - pose proof (Nat.mod_upper_bound a cs ltac:(lia)). pose proof (Nat.div_mod a cs ltac:(lia)).
    assert (cs * (a / cs) <= cs * i) by (apply Nat.mul_le_mono_l; lia). lia.
Qed.

Lemma mkRect_eq a b c d a' b' c' d' : a = a' -> b = b' -> c = c' -> d = d' -> mkRect a b c d = mkRect a' b' c' d'.
Proof. congruence. Qed.

Lemma subchunks_for_ok s top bottom lft rgt : 0 < su_chunks_sidelen s -> top < bottom -> lft < rgt ->
  subchunks_for s (mkRect top bottom lft rgt) =
  Ok (flat_map (fun i => map (sub_at s top bottom lft rgt i)
       (range_incl (lft / su_chunks_sidelen s) ((rgt - 1) / su_chunks_sidelen s)))
       (range_incl (top / su_chunks_sidelen s) ((bottom - 1) / su_chunks_sidelen s))).
Proof.
  intros Hcs Ht Hl. unfold subchunks_for. cbn [r_top r_bottom r_left r_right]. set (cs := su_chunks_sidelen s) in *.
  rewrite !usub_ok by lia. cbn [bind]. rewrite !udiv_ok by lia. cbn [bind].
  assert (Ht' : top / cs <= (bottom - 1) / cs) by (apply Nat.div_le_mono; lia).
  assert (Hl' : lft / cs <= (rgt - 1) / cs) by (apply Nat.div_le_mono; lia).
  rewrite rect_new_spec. cbn [r_top r_bottom r_left r_right].
  rewrite !Nat.min_l, !Nat.max_r by assumption.
  apply flat_mapM_ok. intros i Hi. apply in_range_incl in Hi.
  destruct (tile_bounds top bottom cs i Hcs Ht Hi) as [B1 B2].
  rewrite usub_ok by (clear -B1 B2 Hcs Ht; lia). cbn [bind]. rewrite usub_ok by (clear -B1 B2 Hcs Ht; lia). cbn [bind].
  apply mapM_ok. intros j Hj. apply in_range_incl in Hj.
  destruct (tile_bounds lft rgt cs j Hcs Hl Hj) as [B3 B4].
  rewrite usub_ok by (clear -B3 B4 Hcs Hl; lia). cbn [bind]. rewrite usub_ok by (clear -B3 B4 Hcs Hl; lia). cbn [bind]. unfold sub_at. fold cs.
  rewrite !rect_new_spec. clear -B1 B2 B3 B4 Hcs Ht Hl. f_equal. f_equal; apply mkRect_eq; lia.
Qed.

(** ** Views *)

(** What filling a cell must deliver. *)
Definition cell_spec {A} (f : nat -> nat -> nat -> A) (start end_ row col : nat) : list (nat * A) :=
  map (fun t => (t - start, f t row col)) (range start end_).

(** A structure that, with the given store, reads as the array [f] of raw
    values and fractional bits. *)
Record view (st : store) (d : nat) (m : mmstruct) (instants rows cols : nat) (f : nat -> nat -> nat -> Z * nat) : Prop :=
  { v_shape : mm_shape m = Ok (instants, rows, cols);
    v_get : forall fuel t r c, d <= fuel -> t < instants -> r < rows -> c < cols ->
      mm_get st fuel m t r c (mm_fbits m) = Ok (f t r c);
    v_cell : forall fuel start end_ r c, d <= fuel -> start <= end_ -> end_ <= instants -> r < rows -> c < cols ->
      mm_fill_cell st fuel m start end_ r c (mm_fbits m) = Ok (cell_spec f start end_ r c);
    v_window : forall fuel start end_ top bottom left right, d <= fuel -> start <= end_ -> end_ <= instants ->
      window_in top bottom left right rows cols ->
      exists out, mm_fill_window st fuel m (cube_new start end_ top bottom left right) (mm_fbits m) = Ok out /\
        Permutation out (window3_spec f start end_ top bottom left right);
    (* with some of the objects only: a window that is read holds exactly the cells that can be read one by one *)
    v_part : forall part fuel start end_ top bottom left right out, functional st -> incl part st ->
      d <= fuel -> start <= end_ -> end_ <= instants -> window_in top bottom left right rows cols ->
      mm_fill_window part fuel m (cube_new start end_ top bottom left right) (mm_fbits m) = Ok out ->
      forall t r c v, In (t, r, c, v) out <->
        start + t < end_ /\ top + r < bottom /\ left + c < right /\
        mm_get part fuel m (start + t) (top + r) (left + c) (mm_fbits m) = Ok v;
    v_fails : forall part fuel start end_ top bottom left right, functional st -> incl part st ->
      d <= fuel -> start <= end_ -> end_ <= instants -> window_in top bottom left right rows cols ->
      (exists out, mm_fill_window part fuel m (cube_new start end_ top bottom left right) (mm_fbits m) = Ok out) \/
      mm_fill_window part fuel m (cube_new start end_ top bottom left right) (mm_fbits m) = Err ENotFound }.

(** The same for searches. *)
Definition finds_all (st : store) (d : nat) (m : mmstruct) (instants rows cols : nat) (f : nat -> nat -> nat -> Z) : Prop :=
  forall fuel start end_ top bottom left right lower upper, d <= fuel -> start <= end_ -> end_ <= instants ->
    window_in top bottom left right rows cols ->
    exists out, mm_search st fuel m (cube_new start end_ top bottom left right) lower upper = Ok (map inr out) /\
      Permutation out (search3_spec f start end_ top bottom left right (Z.min lower upper) (Z.max lower upper)).

(** With some of the objects only, a search finds the matches that can be read one by one. *)
Definition finds_part (st : store) (d : nat) (m : mmstruct) (instants rows cols : nat) (f : nat -> nat -> nat -> Z) : Prop :=
  forall part fuel start end_ top bottom left right lower upper, functional st -> incl part st ->
    d <= fuel -> start <= end_ -> end_ <= instants -> window_in top bottom left right rows cols ->
    exists out, mm_search part fuel m (cube_new start end_ top bottom left right) lower upper = Ok out /\
      forall t r c v, start <= t < end_ -> top <= r < bottom -> left <= c < right ->
        mm_get part fuel m t r c (mm_fbits m) = Ok v ->
        in_bounds (Z.min lower upper) (Z.max lower upper) (f t r c) = true -> In (inr (t, r, c)) out.

Record sview (st : store) (d : nat) (m : mmstruct) (instants rows cols : nat) (f : nat -> nat -> nat -> Z) : Prop :=
  { sv_all : finds_all st d m instants rows cols f;
    sv_part : finds_part st d m instants rows cols f }.

Lemma view_ext st d m instants rows cols f f' :
  (forall t r c, t < instants -> r < rows -> c < cols -> f t r c = f' t r c) ->
  view st d m instants rows cols f -> view st d m instants rows cols f'.
Proof.
  intros He [V1 V2 V3 V4 V5 V6]. constructor; [exact V1| | | |exact V5|exact V6].
  - intros. rewrite <- He by assumption. auto.
  - intros fuel start end_ r c Hf H1 H2 Hr Hc. rewrite V3 by assumption. f_equal. unfold cell_spec.
    apply map_ext_in. intros t Ht. apply in_range in Ht. rewrite He by lia. reflexivity.
  - intros fuel start end_ top bottom left right Hf H1 H2 Hw.
    destruct (V4 fuel start end_ top bottom left right Hf H1 H2 Hw) as (out & E & P). exists out. split; [exact E|].
    rewrite P, !window3_region. rewrite (region_ext _ (fun x y z => [(x - start, y - top, z - left, f' x y z)])); [reflexivity|].
    intros x y z Hx Hy Hz. destruct Hw as (? & ? & ? & ?). rewrite He by lia. reflexivity.
Qed.

Lemma sview_ext st d m instants rows cols f f' :
  (forall t r c, t < instants -> r < rows -> c < cols -> f t r c = f' t r c) ->
  sview st d m instants rows cols f -> sview st d m instants rows cols f'.
Proof.
  intros He [V W]. constructor.
  - intros fuel start end_ top bottom left right lower upper Hf H1 H2 Hw.
    destruct (V fuel start end_ top bottom left right lower upper Hf H1 H2 Hw) as (out & E & P). exists out. split; [exact E|].
    rewrite P, !search3_region. erewrite region_ext; [reflexivity|].
    intros x y z Hx Hy Hz. destruct Hw as (? & ? & ? & ?). cbn beta. rewrite He by lia. reflexivity.
  - intros part fuel start end_ top bottom left right lower upper HF HI Hf H1 H2 Hw.
    destruct (W part fuel start end_ top bottom left right lower upper HF HI Hf H1 H2 Hw) as (out & E & P). exists out. split; [exact E|].
    intros t r c v Ht Hr Hc Eg Hb. destruct Hw as (? & ? & ? & ?). rewrite <- He in Hb by lia. exact (P t r c v Ht Hr Hc Eg Hb).
Qed.

Lemma view_le st d d' m instants rows cols f : d <= d' -> view st d m instants rows cols f -> view st d' m instants rows cols f.
Proof.
  intros Hd [V1 V2 V3 V4 V5 V6]. constructor; [exact V1| | | | |].
  1-3: intros; first [apply V2|apply V3|apply V4]; auto; lia.
  - intros part fuel start end_ top bottom left right out HF HI Hf. apply (V5 part); auto. lia.
  - intros part fuel start end_ top bottom left right HF HI Hf. apply V6; auto. lia.
Qed.

Lemma sview_le st d d' m instants rows cols f : d <= d' -> sview st d m instants rows cols f -> sview st d' m instants rows cols f.
Proof.
  intros Hd [V W]. constructor.
  - intros fuel start end_ top bottom left right lower upper Hf. apply V. lia.
  - intros part fuel start end_ top bottom left right lower upper HF HI Hf. apply W; [exact HF|exact HI|lia].
Qed.

(** ** The positions of a window *)
Lemma in_cells3 start end_ top bottom left right t r c :
  In (t, r, c) (cells3 start end_ top bottom left right) <-> start <= t < end_ /\ top <= r < bottom /\ left <= c < right.
Proof.
  unfold cells3. rewrite in_flat_map. split.
  - intros (t' & Ht & H). apply in_map_iff in H. destruct H as ([r' c'] & E & H). injection E as -> -> ->.
    apply in_range in Ht. apply in_cells in H. cbn [fst snd] in *. lia.
  - intros H. exists t. split; [apply in_range; lia|]. apply in_map_iff. exists (r, c). split; [reflexivity|]. apply in_cells. lia.
Qed.

Lemma window3_in {V} (f : nat -> nat -> nat -> V) start end_ top bottom left right t r c v :
  In (t, r, c, v) (window3_spec f start end_ top bottom left right) <->
  start + t < end_ /\ top + r < bottom /\ left + c < right /\ v = f (start + t) (top + r) (left + c).
Proof.
  unfold window3_spec. rewrite in_map_iff. split.
  - intros ([[t' r'] c'] & E & Hin). injection E as <- <- <- <-. apply in_cells3 in Hin.
    destruct Hin as (H1 & H2 & H3).
    replace (start + (t' - start)) with t' by lia. replace (top + (r' - top)) with r' by lia.
    replace (left + (c' - left)) with c' by lia. repeat split; lia.
  - intros (H1 & H2 & H3 & ->). exists (start + t, top + r, left + c). split.
    + replace (start + t - start) with t by lia. replace (top + r - top) with r by lia. replace (left + c - left) with c by lia. reflexivity.
    + apply in_cells3. lia.
Qed.

Lemma in_flat_mapM {A B} (f : A -> res (list B)) : forall l out, flat_mapM f l = Ok out ->
  (forall x, In x l -> exists y, f x = Ok y) /\
  forall z, In z out <-> exists x y, In x l /\ f x = Ok y /\ In z y.
Proof.
  induction l as [|a l IH]; intros out H; cbn [flat_mapM] in H.
  - injection H as <-. split; [intros x []|]. intros z. split; [intros []|]. intros (x & y & [] & _).
  - apply bind_inv in H. destruct H as (y & Ey & H). apply bind_inv in H. destruct H as (ys & Eys & H). injection H as <-.
    destruct (IH ys Eys) as [I1 I2]. split.
    + intros x [<-|Hx]; eauto.
    + intros z. rewrite in_app_iff, I2. split.
      * intros [Hz|(x & w & Hx & Ew & Hz)]; [exists a, y|exists x, w]; split; auto; [left; reflexivity|right; exact Hx].
      * intros (x & w & [<-|Hx] & Ew & Hz); [left; congruence|right; exists x, w; auto].
Qed.

(** ** Chunks *)

Lemma chunk_view g instants rows cols k e enc fb blocks st : 2 <= k -> Nat.Even k -> 1 <= e -> Nat.max rows cols <= k ^ e ->
  0 < instants -> i64_series g instants rows cols -> diffs_fit g instants rows cols ->
  built_blocks g rows cols k e 0 blocks -> total blocks = instants ->
  view st 1 (MSub (chunk_new blocks enc fb)) instants rows cols (fun t r c => (g t r c, fb)).
Proof.
  intros Hk Hev He Hm H0 Hg Hd HB HT.
  constructor.
  - exact (built_shape g instants rows cols k e blocks enc fb Hk H0 Hg HB HT).
  - intros fuel t r c Hf Ht Hr Hc. destruct fuel as [|fuel]; [lia|]. cbn [mm_get mm_fbits].
    rewrite (read_get g instants rows cols k e Hk He Hm Hg Hd blocks HB HT enc fb t r c Hev Ht Hr Hc). reflexivity.
  - intros fuel start end_ r c Hf H1 H2 Hr Hc. destruct fuel as [|fuel]; [lia|]. cbn [mm_fill_cell mm_fbits].
    rewrite (read_cell g instants rows cols k e Hk He Hm Hg Hd blocks HB HT enc fb start end_ r c Hev H1 H2 H0 Hr Hc).
    cbn [bind]. rewrite map_map. reflexivity.
  - intros fuel start end_ top bottom left right Hf H1 H2 Hw. destruct fuel as [|fuel]; [lia|].
    cbn [mm_fill_window mm_fbits].
    destruct (read_window g instants rows cols k e Hk He Hm Hg Hd blocks HB HT enc fb start end_ top bottom left right Hev H1 H2 H0 Hw)
      as (out & E & P).
    rewrite E. cbn [bind]. eexists. split; [reflexivity|].
    rewrite P. unfold window3_spec. rewrite map_map. erewrite map_ext; [reflexivity|]. intros [[x y] z]. reflexivity.
  - intros part fuel start end_ top bottom left right out _ _ Hf H1 H2 Hw. destruct fuel as [|fuel]; [lia|].
    cbn [mm_fill_window mm_get mm_fbits chunk_new ch_fbits].
    destruct (read_window g instants rows cols k e Hk He Hm Hg Hd blocks HB HT enc fb start end_ top bottom left right Hev H1 H2 H0 Hw)
      as (l & E & P).
    rewrite E. cbn [bind]. intros Eo t r c v. injection Eo as <-. rewrite in_map_iff.
    assert (G : (exists x : nat * nat * nat * Z, (let '(a, b, c0, w) := x in (a, b, c0, (w, fb))) = (t, r, c, v) /\ In x l) <->
      start + t < end_ /\ top + r < bottom /\ left + c < right /\ v = (g (start + t) (top + r) (left + c), fb)).
    { split.
      - intros ([[[a b] c0] w] & E1 & Hin). injection E1 as -> -> -> <-. apply (Permutation_in _ P) in Hin.
        apply window3_in in Hin. destruct Hin as (X1 & X2 & X3 & ->). auto.
      - intros (X1 & X2 & X3 & ->). exists (t, r, c, g (start + t) (top + r) (left + c)). split; [reflexivity|].
        apply (Permutation_in _ (Permutation_sym P)). apply window3_in. auto. }
    etransitivity; [exact G|]. destruct Hw as (W1 & W2 & W3 & W4).
    split; intros (X1 & X2 & X3 & X4); (split; [exact X1|]; split; [exact X2|]; split; [exact X3|]).
    + rewrite (read_get g instants rows cols k e Hk He Hm Hg Hd blocks HB HT enc fb (start + t) (top + r) (left + c) Hev) by lia.
      cbn [bind]. rewrite X4. reflexivity.
    + rewrite (read_get g instants rows cols k e Hk He Hm Hg Hd blocks HB HT enc fb (start + t) (top + r) (left + c) Hev) in X4 by lia.
      cbn [bind] in X4. congruence.
  - intros part fuel start end_ top bottom left right _ _ Hf H1 H2 Hw. destruct fuel as [|fuel]; [lia|].
    cbn [mm_fill_window mm_fbits].
    destruct (read_window g instants rows cols k e Hk He Hm Hg Hd blocks HB HT enc fb start end_ top bottom left right Hev H1 H2 H0 Hw)
      as (l & E & P).
    rewrite E. cbn [bind]. eauto.
Qed.

Lemma chunk_sview g instants rows cols k e enc fb blocks st : 2 <= k -> 1 <= e -> Nat.max rows cols <= k ^ e ->
  0 < instants -> i64_series g instants rows cols -> diffs_fit g instants rows cols ->
  searchable_series g instants rows cols ->
  built_blocks g rows cols k e 0 blocks -> total blocks = instants ->
  sview st 1 (MSub (chunk_new blocks enc fb)) instants rows cols g.
Proof.
  intros Hk He Hm H0 Hg Hd HS HB HT. constructor.
  - intros fuel start end_ top bottom left right lower upper Hf H1 H2 Hw.
    destruct fuel as [|fuel]; [lia|]. cbn [mm_search].
    destruct (read_search g instants rows cols k e Hk He Hm Hg Hd blocks HB HT enc fb start end_ top bottom left right lower upper HS H1 H2 H0 Hw)
        as (out & E & P).
    rewrite E. cbn [bind]. eauto.
  - intros part fuel start end_ top bottom left right lower upper _ _ Hf H1 H2 Hw.
    destruct fuel as [|fuel]; [lia|]. cbn [mm_search].
    destruct (read_search g instants rows cols k e Hk He Hm Hg Hd blocks HB HT enc fb start end_ top bottom left right lower upper HS H1 H2 H0 Hw)
        as (out & E & P).
    rewrite E. cbn [bind]. eexists. split; [reflexivity|]. intros t r c v Ht Hr Hc _ Hb. apply in_map.
    apply (Permutation_in _ (Permutation_sym P)). unfold search3_spec. apply filter_In. split; [|exact Hb].
    apply in_cells3. auto.
Qed.

(** ** Superchunks *)

Definition spanless (m : mmstruct) : Prop := match m with MSpan _ => False | _ => True end.

(** What the tile number [idx] of a superchunk, [h] rows by [w] columns, holds. *)
Inductive tile_view (st : store) (d : nat) (s : super) (local : list mmstruct) (idx h w : nat)
  (f : nat -> nat -> nat -> Z * nat) : Prop :=
| tv_elided (v : nat -> Z) :
    nth_res (su_refs s) idx = Ok RElided ->
    (forall t, t < su_instants s ->
       dac_get (su_max s) (idx + t * (su_subsidelen s * su_subsidelen s)) = Ok (v t)) ->
    (forall t r c, t < su_instants s -> r < h -> c < w -> f t r c = (v t, su_fbits s)) ->
    tile_view st d s local idx h w f
| tv_local i m :
    nth_res (su_refs s) idx = Ok (RLocal i) -> nth_res local i = Ok m -> spanless m ->
    view st d m (su_instants s) h w f -> tile_view st d s local idx h w f
| tv_external i m :
    nth_res (su_refs s) idx = Ok (RExternal i) -> super_external st s i = Ok m -> spanless m ->
    view st d m (su_instants s) h w f -> tile_view st d s local idx h w f.

Lemma super_external_incl st st' s i m : incl st st' -> functional st' ->
  super_external st s i = Ok m -> super_external st' s i = Ok m.
Proof.
  intros HI HF. unfold super_external. intros H. apply bind_inv in H. destruct H as (links & El & H).
  apply bind_inv in H. destruct H as (c & Ec & H).
  rewrite (get_links_incl st st' _ _ HI HF El). cbn [bind]. rewrite Ec. cbn [bind]. apply (get_mm_incl st st' _ _ HI HF H).
Qed.

(** Loading an object of part of the store. *)
Lemma retrieve_part part st c n : incl part st -> functional st -> retrieve st c = Ok n ->
  retrieve part c = Ok n \/ retrieve part c = Err ENotFound.
Proof.
  intros HI HF H. unfold retrieve in *. destruct (store_get part c) as [b|] eqn:E; [|right; reflexivity].
  apply store_get_some in E. rewrite (store_get_in st c b HF (HI _ E)) in H. auto.
Qed.
Lemma get_mm_part part st c m : incl part st -> functional st -> get_mm st c = Ok m ->
  get_mm part c = Ok m \/ get_mm part c = Err ENotFound.
Proof.
  intros HI HF H. unfold get_mm in *. apply bind_inv in H. destruct H as (n & E & H).
  destruct (retrieve_part part st c n HI HF E) as [-> | ->]; cbn [bind]; auto.
Qed.
Lemma super_external_part part st s i m : incl part st -> functional st -> super_external st s i = Ok m ->
  super_external part s i = Ok m \/ super_external part s i = Err ENotFound.
Proof.
  intros HI HF H. unfold super_external, get_links in *. apply bind_inv in H. destruct H as (l & El & H).
  apply bind_inv in El. destruct El as (n & E & El). apply bind_inv in H. destruct H as (c & Ec & H).
  destruct (retrieve_part part st _ n HI HF E) as [-> | ->]; cbn [bind]; [|auto]. rewrite El. cbn [bind]. rewrite Ec. cbn [bind].
  exact (get_mm_part part st c m HI HF H).
Qed.

Lemma flat_mapM_all {A B} (f : A -> res (list B)) l : (forall x, In x l -> exists y, f x = Ok y) -> exists out, flat_mapM f l = Ok out.
Proof.
  induction l as [|a l IH]; intros H; cbn [flat_mapM]; [eauto|]. destruct (H a (or_introl eq_refl)) as (y & ->). cbn [bind].
  destruct IH as (ys & ->); [intros x Hx; apply H; right; exact Hx|]. cbn [bind]. eauto.
Qed.
Lemma flat_mapM_fails {A B} (f : A -> res (list B)) e l : (forall x, In x l -> (exists y, f x = Ok y) \/ f x = Err e) ->
  (exists out, flat_mapM f l = Ok out) \/ flat_mapM f l = Err e.
Proof.
  induction l as [|a l IH]; intros H; cbn [flat_mapM]; [eauto|]. destruct (H a (or_introl eq_refl)) as [(y & ->)| ->]; cbn [bind]; [|auto].
  destruct IH as [(ys & ->)| ->]; [intros x Hx; apply H; right; exact Hx| |]; cbn [bind]; eauto.
Qed.

(** A window of something that is not a span is never refused: what cannot be
    loaded is left out. *)
Lemma spanless_window st d m instants rows cols f part fuel start end_ top bottom left right e :
  view st d m instants rows cols f -> spanless m -> d <= fuel -> start <= end_ -> end_ <= instants ->
  window_in top bottom left right rows cols ->
  mm_fill_window part fuel m (cube_new start end_ top bottom left right) (mm_fbits m) <> Err e.
Proof.
  intros V HS Hd H1 H2 Hw. destruct (v_window _ _ _ _ _ _ _ V fuel start end_ top bottom left right Hd H1 H2 Hw) as (out & E & _).
  destruct fuel as [|fuel]; [discriminate|]. destruct m as [sp|ch|s local]; [destruct HS| |]; cbn [mm_fill_window] in *.
  - rewrite E. discriminate.
  - destruct (usub _ _) as [n| | |]; cbn [bind] in *; try discriminate.
    destruct (subchunks_for s _) as [subs| | |]; cbn [bind] in *; try discriminate. clear.
    induction subs as [|sw subs IH]; cbn [flat_mapM]; [discriminate|].
    match goal with |- context [swallow ?x] => destruct x as [l|e'| |] end; cbn [swallow bind]; try discriminate.
    all: match goal with |- context [flat_mapM ?g ?l] => destruct (flat_mapM g l) as [ys|e''| |] end; cbn [bind] in *; try discriminate.
    all: intros X; apply IH; congruence.
Qed.

Definition tile_h (n cs i : nat) : nat := Nat.min cs (n - i * cs).

Lemma cube_new_eq s e t b l r : s <= e -> t <= b -> l <= r -> cube_new s e t b l r = mkCube s e t b l r.
Proof. intros. rewrite cube_new_spec. f_equal; lia. Qed.

Lemma fill_instant_region i h w v : fill_instant i h w v =
  flat_map (fun y => flat_map (fun z => [(i, y, z, v)]) (range 0 w)) (range 0 h).
Proof.
  unfold fill_instant. rewrite list_prod_flat, map_flat_map. unfold range. rewrite !Nat.sub_0_r.
  apply flat_map_ext_in. intros y _. rewrite map_map, flat_map_single. reflexivity.
Qed.

(** A window of a tile that is uniform at every instant. *)
Lemma elided_window (v : nat -> Z) fb (f : nat -> nat -> nat -> Z * nat) s e t b l r : s <= e -> t <= b -> l <= r ->
  (forall x y z, s <= x < e -> t <= y < b -> l <= z < r -> f x y z = (v x, fb)) ->
  flat_map (fun i => fill_instant i (b - t) (r - l) (v (s + i), fb)) (seq 0 (e - s)) = window3_spec f s e t b l r.
Proof.
  intros Hs Ht Hl Hf. rewrite window3_region.
  replace (region (fun x y z => [(x - s, y - t, z - l, f x y z)]) s e t b l r)
    with (region (fun x y z => [(x - s, y - t, z - l, f x y z)]) (s + 0) (s + (e - s)) (t + 0) (t + (b - t)) (l + 0) (l + (r - l)))
    by (f_equal; lia).
  rewrite region_shift. unfold region, range at 3. rewrite Nat.sub_0_r.
  apply flat_map_ext_in. intros x Hx. apply in_seq in Hx. rewrite fill_instant_region.
  apply flat_map_ext_in. intros y Hy. apply flat_map_ext_in. intros z Hz. apply in_range in Hy, Hz.
  rewrite Hf by lia. repeat f_equal; lia.
Qed.

Section Super.
  Variables (st : store) (d : nat) (s : super) (local : list mmstruct) (f : nat -> nat -> nat -> Z * nat).
  Notation cs := (su_chunks_sidelen s).
  Notation ss := (su_subsidelen s).
  Notation n := (su_instants s).
  Notation rows := (su_rows s).
  Notation cols := (su_cols s).
  Hypothesis Hcs : 0 < cs.
  Hypothesis Hrows : rows <= ss * cs.
  Hypothesis Hcols : cols <= ss * cs.
  Hypothesis Htiles : forall i j, i * cs < rows -> j * cs < cols ->
    tile_view st d s local (i * ss + j) (tile_h rows cs i) (tile_h cols cs j) (tile_of f (i * cs) (j * cs)).

  Lemma super_get fuel t r c : S d <= fuel -> t < n -> r < rows -> c < cols ->
    mm_get st fuel (MSuper s local) t r c (su_fbits s) = Ok (f t r c).
  Proof using Hcs Htiles.
    clear Hrows Hcols.
    intros Hf Ht Hr Hc. destruct fuel as [|fuel]; [lia|]. cbn [mm_get].
    rewrite udiv_ok, umod_ok by lia. cbn [bind]. rewrite udiv_ok, umod_ok by lia. cbn [bind].
    pose proof (Nat.div_mod r cs ltac:(lia)) as Er. pose proof (Nat.div_mod c cs ltac:(lia)) as Ec.
    pose proof (Nat.mod_upper_bound r cs ltac:(lia)) as Br. pose proof (Nat.mod_upper_bound c cs ltac:(lia)) as Bc.
    revert Er Ec Br Bc. generalize (r / cs) (c / cs) (r mod cs) (c mod cs). intros i j lr lc Er Ec Br Bc.
    assert (Hlr : lr < tile_h rows cs i) by (unfold tile_h; lia).
    assert (Hlc : lc < tile_h cols cs j) by (unfold tile_h; lia).
    assert (EF : f t r c = tile_of f (i * cs) (j * cs) t lr lc) by (unfold tile_of; f_equal; lia).
    rewrite EF. destruct (Htiles i j ltac:(lia) ltac:(lia)) as [v E V FV|ii m E L SL V|ii m E L SL V]; rewrite E; cbn [bind].
    - rewrite V by assumption. cbn [bind]. rewrite FV by assumption. reflexivity.
    - rewrite L. cbn [bind]. apply (v_get _ _ _ _ _ _ _ V); try assumption. lia.
    - rewrite L. cbn [bind]. apply (v_get _ _ _ _ _ _ _ V); try assumption. lia.
  Qed.

  Lemma super_cell fuel start end_ r c : S d <= fuel -> start <= end_ -> end_ <= n -> r < rows -> c < cols ->
    mm_fill_cell st fuel (MSuper s local) start end_ r c (su_fbits s) = Ok (cell_spec f start end_ r c).
  Proof using Hcs Htiles.
    clear Hrows Hcols.
    intros Hf H1 H2 Hr Hc. destruct fuel as [|fuel]; [lia|]. cbn [mm_fill_cell].
    rewrite udiv_ok, umod_ok by lia. cbn [bind]. rewrite udiv_ok, umod_ok by lia. cbn [bind].
    pose proof (Nat.div_mod r cs ltac:(lia)) as Er. pose proof (Nat.div_mod c cs ltac:(lia)) as Ec.
    pose proof (Nat.mod_upper_bound r cs ltac:(lia)) as Br. pose proof (Nat.mod_upper_bound c cs ltac:(lia)) as Bc.
    revert Er Ec Br Bc. generalize (r / cs) (c / cs) (r mod cs) (c mod cs). intros i j lr lc Er Ec Br Bc.
    assert (Hlr : lr < tile_h rows cs i) by (unfold tile_h; lia).
    assert (Hlc : lc < tile_h cols cs j) by (unfold tile_h; lia).
    assert (EF : cell_spec f start end_ r c = cell_spec (tile_of f (i * cs) (j * cs)) start end_ lr lc).
    { unfold cell_spec, tile_of. replace (i * cs + lr) with r by lia. replace (j * cs + lc) with c by lia. reflexivity. }
    rewrite EF. destruct (Htiles i j ltac:(lia) ltac:(lia)) as [v E V FV|ii m E L SL V|ii m E L SL V]; rewrite E; cbn [bind].
    - rewrite usub_ok by lia. cbn [bind].
      rewrite (mapM_ok _ (fun x => (x, (v (start + x), su_fbits s)))).
      + f_equal. unfold cell_spec, range.
        assert (G : forall len a, a + len <= end_ - start ->
          map (fun x => (x, (v (start + x), su_fbits s))) (seq a len) =
          map (fun t => (t - start, tile_of f (i * cs) (j * cs) t lr lc)) (seq (start + a) len)).
        { induction len as [|len IH]; intros a Ha; cbn [seq map]; [reflexivity|].
          rewrite IH by lia. f_equal.
          - rewrite FV by lia. f_equal. lia.
          - do 2 f_equal. lia. }
        specialize (G (end_ - start) 0 ltac:(lia)). rewrite Nat.add_0_r in G. exact G.
      + intros x Hx. apply in_seq in Hx.
        replace (i * ss + j + start * (ss * ss) + x * (ss * ss)) with (i * ss + j + (start + x) * (ss * ss)) by lia.
        rewrite V by lia. reflexivity.
    - rewrite L. cbn [bind]. apply (v_cell _ _ _ _ _ _ _ V); try assumption. lia.
    - rewrite L. cbn [bind]. apply (v_cell _ _ _ _ _ _ _ V); try assumption. lia.
  Qed.

  (** A window of the array, cut at a tile. *)
  Lemma tile_window_in top bottom left right i j :
    window_in top bottom left right rows cols ->
    top / cs <= i <= (bottom - 1) / cs -> left / cs <= j <= (right - 1) / cs ->
    i * cs < rows /\ j * cs < cols /\
    window_in (top - i * cs) (Nat.min cs (bottom - i * cs)) (left - j * cs) (Nat.min cs (right - j * cs))
              (tile_h rows cs i) (tile_h cols cs j).
  Proof using Hcs.
    clear -Hcs. intros (W1 & W2 & W3 & W4) Hi Hj.
    destruct (tile_bounds top bottom cs i Hcs W1 Hi). destruct (tile_bounds left right cs j Hcs W3 Hj).
    clear Hi Hj. unfold window_in, tile_h. lia.
  Qed.

  Lemma super_window fuel start end_ top bottom left right : S d <= fuel -> start <= end_ -> end_ <= n ->
    window_in top bottom left right rows cols ->
    exists out, mm_fill_window st fuel (MSuper s local) (cube_new start end_ top bottom left right) (su_fbits s) = Ok out /\
      Permutation out (window3_spec f start end_ top bottom left right).
  Proof using Hcs Htiles.
    clear Hrows Hcols.
    intros Hf H1 H2 Hw. destruct fuel as [|fuel]; [lia|]. cbn [mm_fill_window].
    pose proof Hw as (W1 & W2 & W3 & W4).
    rewrite cube_new_eq by lia. cbn [c_start c_end]. rewrite usub_ok by lia. cbn [bind].
    unfold cube_rect. cbn [c_top c_bottom c_left c_right]. rewrite rect_new_spec.
    rewrite !Nat.min_l, !Nat.max_r by lia.
    rewrite subchunks_for_ok by assumption. cbn [bind].
    set (h := fun sw => moved 0 (r_top (sw_slice sw)) (r_left (sw_slice sw))
                (window3_spec (tile_of f (r_top (sw_chunk sw)) (r_left (sw_chunk sw))) start end_
                   (r_top (sw_local sw)) (r_bottom (sw_local sw)) (r_left (sw_local sw)) (r_right (sw_local sw)))).
    eapply ex_perm_trans; [apply (flat_mapM_perm _ h)|].
    2:{ rewrite flat_map_flat_map. rewrite window3_region.
        rewrite <- (tiles_3d (fun x y z => [(x - start, y - top, z - left, f x y z)]) start end_ top bottom left right cs Hcs W1 W3).
        apply flat_map_perm_in. intros i Hi. rewrite flat_map_map. apply flat_map_perm_in. intros j Hj.
        apply in_range_incl in Hi, Hj.
        destruct (tile_bounds top bottom cs i Hcs W1 Hi). destruct (tile_bounds left right cs j Hcs W3 Hj).
        unfold h, sub_at. cbn [sw_slice sw_chunk sw_local r_top r_bottom r_left r_right].
        rewrite window3_region. unfold moved. rewrite map_region. cbn [map].
        erewrite region_ext; [reflexivity|]. intros x y z Hx Hy Hz. cbn beta. unfold tile_of.
        clear - Hy Hz. rewrite Nat.add_0_l. replace (i * cs - top + (y - (top - i * cs))) with (i * cs + y - top) by lia.
        replace (j * cs - left + (z - (left - j * cs))) with (j * cs + z - left) by lia. reflexivity. }
    intros sw Hsw. apply in_flat_map in Hsw. destruct Hsw as (i & Hi & Hsw). apply in_map_iff in Hsw.
    destruct Hsw as (j & <- & Hj). apply in_range_incl in Hi, Hj. unfold h. clear h.
    destruct (tile_window_in top bottom left right i j Hw Hi Hj) as (T1 & T2 & T3).
    unfold sub_at. cbn [sw_slice sw_chunk sw_local sw_index r_top r_bottom r_left r_right].
    pose proof (Htiles i j T1 T2) as TV. clear Htiles.
    pose proof T3 as (U1 & U2 & U3 & U4).
    destruct TV as [v E V FV|ii m E L SL V|ii m E L SL V]; rewrite E; cbn [bind].
    - rewrite cube_new_eq by lia. unfold cube_instants. cbn [c_start c_end]. rewrite usub_ok by lia. cbn [bind].
      erewrite (flat_mapM_ok _ (fun x => fill_instant x (Nat.min cs (bottom - i * cs) - (top - i * cs))
         (Nat.min cs (right - j * cs) - (left - j * cs)) (v (start + x), su_fbits s))).
      + cbn [swallow bind]. eexists. split; [reflexivity|]. apply Permutation_map.
        rewrite (elided_window v (su_fbits s) (tile_of f (i * cs) (j * cs))); [reflexivity|lia..|].
        intros x y z Hx Hy Hz. apply FV; lia.
      + intros x Hx. apply in_seq in Hx.
        replace (i * ss + j + start * (ss * ss) + x * (ss * ss)) with (i * ss + j + (start + x) * (ss * ss)) by lia.
        rewrite V by lia. cbn [bind]. do 2 f_equal.
        * destruct (tile_bounds top bottom cs i Hcs W1 Hi). clear -U1 H H0. lia.
        * destruct (tile_bounds left right cs j Hcs W3 Hj). clear -U3 H H0. lia.
    - rewrite L. cbn [bind].
      destruct (v_window _ _ _ _ _ _ _ V fuel start end_ _ _ _ _ ltac:(lia) H1 H2 T3) as (out & Eo & P).
      rewrite Eo. cbn [swallow bind]. eexists. split; [reflexivity|]. apply Permutation_map. exact P.
    - rewrite L. cbn [bind].
      destruct (v_window _ _ _ _ _ _ _ V fuel start end_ _ _ _ _ ltac:(lia) H1 H2 T3) as (out & Eo & P).
      rewrite Eo. cbn [swallow bind]. eexists. split; [reflexivity|]. apply Permutation_map. exact P.
  Qed.

  (** With some of the objects only. *)
  Lemma super_part part fuel start end_ top bottom left right out : functional st -> incl part st ->
    S d <= fuel -> start <= end_ -> end_ <= n -> window_in top bottom left right rows cols ->
    mm_fill_window part fuel (MSuper s local) (cube_new start end_ top bottom left right) (su_fbits s) = Ok out ->
    forall t r c v, In (t, r, c, v) out <->
      start + t < end_ /\ top + r < bottom /\ left + c < right /\
      mm_get part fuel (MSuper s local) (start + t) (top + r) (left + c) (su_fbits s) = Ok v.
  Proof using Hcs Htiles.
    clear Hrows Hcols.
    intros HF HI Hf H1 H2 Hw. destruct fuel as [|fuel]; [lia|]. cbn [mm_fill_window].
    pose proof Hw as (W1 & W2 & W3 & W4).
    rewrite cube_new_eq by lia. cbn [c_start c_end]. rewrite usub_ok by lia. cbn [bind].
    unfold cube_rect. cbn [c_top c_bottom c_left c_right]. rewrite rect_new_spec.
    rewrite !Nat.min_l, !Nat.max_r by lia.
    rewrite subchunks_for_ok by assumption. cbn [bind].
    set (body := fun sw : subwindow => _). set (subs := flat_map _ _). intros Eo.
    destruct (in_flat_mapM body subs out Eo) as [HB HZ]. clear Eo.
    (* one tile *)
    assert (Htile : forall i j, top / cs <= i <= (bottom - 1) / cs -> left / cs <= j <= (right - 1) / cs ->
      forall calls, body (sub_at s top bottom left right i j) = Ok calls ->
      forall t r c v, In (t, r, c, v) calls <->
        (start + t < end_ /\ (top + r < bottom /\ i * cs <= top + r < i * cs + cs) /\
         (left + c < right /\ j * cs <= left + c < j * cs + cs)) /\
        mm_get part (S fuel) (MSuper s local) (start + t) (top + r) (left + c) (su_fbits s) = Ok v).
    { intros i j Hi Hj calls Ec t r c v.
      destruct (tile_window_in top bottom left right i j Hw Hi Hj) as (T1 & T2 & T3).
      destruct (tile_bounds top bottom cs i Hcs W1 Hi) as [B1 B2]. destruct (tile_bounds left right cs j Hcs W3 Hj) as [B3 B4].
      unfold body, sub_at in Ec. cbn [sw_slice sw_chunk sw_local sw_index r_top r_bottom r_left r_right] in Ec.
      pose proof (Htiles i j T1 T2) as TV. clear Htiles HB HZ body subs.
      pose proof T3 as (U1 & U2 & U3 & U4).
      apply bind_inv in Ec. destruct Ec as (inner & Ei & Ec). injection Ec as <-.
      (* the calls of the tile *)
      assert (K : forall t r c v, In (t, r, c, v) inner <->
        start + t < end_ /\ top - i * cs + r < Nat.min cs (bottom - i * cs) /\ left - j * cs + c < Nat.min cs (right - j * cs) /\
        mm_get part (S fuel) (MSuper s local) (start + t) (i * cs + (top - i * cs + r)) (j * cs + (left - j * cs + c)) (su_fbits s) = Ok v).
      { clear t r c v. intros t r c v.
        assert (EG : forall x y z, y < cs -> z < cs ->
          mm_get part (S fuel) (MSuper s local) x (i * cs + y) (j * cs + z) (su_fbits s) =
          (ref <- nth_res (su_refs s) (i * ss + j) ;;
           match ref with
           | RElided => v <- dac_get (su_max s) (i * ss + j + x * (ss * ss)) ;; Ok (v, su_fbits s)
           | RLocal i => m' <- nth_res local i ;; mm_get part fuel m' x y z (mm_fbits m')
           | RExternal i => m' <- super_external part s i ;; mm_get part fuel m' x y z (mm_fbits m')
           end)).
        { intros x y z Hy Hz. cbn [mm_get]. rewrite !udiv_ok, !umod_ok by lia. cbn [bind].
          rewrite !(Nat.add_comm (_ * cs)), !Nat.div_add, !Nat.mod_add, !Nat.div_small, !Nat.mod_small by lia. reflexivity. }
        destruct TV as [v0 E V FV|ii m E L SL V|ii m E L SL V]; rewrite E in Ei; cbn [bind] in Ei.
        - rewrite cube_new_eq in Ei by lia. unfold cube_instants in Ei. cbn [c_start c_end] in Ei. rewrite usub_ok in Ei by lia. cbn [bind] in Ei.
          rewrite (flat_mapM_ok _ (fun x => fill_instant x (Nat.min cs (bottom - i * cs) - (top - i * cs))
             (Nat.min cs (right - j * cs) - (left - j * cs)) (v0 (start + x), su_fbits s))) in Ei.
          2:{ intros x Hx. apply in_seq in Hx.
              replace (i * ss + j + start * (ss * ss) + x * (ss * ss)) with (i * ss + j + (start + x) * (ss * ss)) by lia.
              rewrite V by lia. cbn [bind]. do 2 f_equal; clear -B1 B2 B3 B4 U1 U3; lia. }
          cbn [swallow] in Ei. injection Ei as <-.
          rewrite (elided_window v0 (su_fbits s) (fun x _ _ => (v0 x, su_fbits s))) by (try reflexivity; lia).
          rewrite window3_in. split; intros (X1 & X2 & X3 & X4); (split; [exact X1|]; split; [exact X2|]; split; [exact X3|]).
          + rewrite EG by (clear -X2 X3; lia). rewrite E. cbn [bind]. rewrite V by lia. cbn [bind]. congruence.
          + rewrite EG in X4 by (clear -X2 X3; lia). rewrite E in X4. cbn [bind] in X4. rewrite V in X4 by lia. cbn [bind] in X4. congruence.
        - rewrite L in Ei. cbn [bind] in Ei.
          assert (Hd' : d <= fuel) by lia.
          destruct (mm_fill_window part fuel m _ _) as [l|e| |] eqn:El; cbn [swallow] in Ei; try discriminate; injection Ei as <-.
          + rewrite (v_part _ _ _ _ _ _ _ V part fuel _ _ _ _ _ _ _ HF HI Hd' H1 H2 T3 El).
            split; intros (X1 & X2 & X3 & X4); (split; [exact X1|]; split; [exact X2|]; split; [exact X3|]).
              1: rewrite EG by (clear -X2 X3; lia); rewrite E; cbn [bind]; rewrite L; exact X4.
              rewrite EG in X4 by (clear -X2 X3; lia). rewrite E in X4. cbn [bind] in X4. rewrite L in X4. exact X4.
          + exfalso. exact (spanless_window _ _ _ _ _ _ _ part fuel _ _ _ _ _ _ e V SL Hd' H1 H2 T3 El).
        - assert (Hd' : d <= fuel) by lia.
          destruct (super_external part s ii) as [m'|e| |] eqn:Em; cbn [bind swallow] in Ei; try discriminate.
          + assert (m' = m) as -> by (apply (super_external_incl part st) in Em; auto; congruence).
            destruct (mm_fill_window part fuel m _ _) as [l|e| |] eqn:El; cbn [swallow] in Ei; try discriminate; injection Ei as <-.
            * rewrite (v_part _ _ _ _ _ _ _ V part fuel _ _ _ _ _ _ _ HF HI Hd' H1 H2 T3 El).
              split; intros (X1 & X2 & X3 & X4); (split; [exact X1|]; split; [exact X2|]; split; [exact X3|]).
                1: rewrite EG by (clear -X2 X3; lia); rewrite E; cbn [bind]; rewrite Em; exact X4.
                rewrite EG in X4 by (clear -X2 X3; lia). rewrite E in X4. cbn [bind] in X4. rewrite Em in X4. exact X4.
            * exfalso. exact (spanless_window _ _ _ _ _ _ _ part fuel _ _ _ _ _ _ e V SL Hd' H1 H2 T3 El).
          + injection Ei as <-. split; [intros []|]. intros (X1 & X2 & X3 & X4). exfalso.
            rewrite EG in X4 by (clear -X2 X3; lia). rewrite E in X4. cbn [bind] in X4. rewrite Em in X4. discriminate. }
      unfold moved. rewrite in_map_iff. split.
      - intros ([[[t' r'] c'] w] & E1 & Hin). injection E1 as <- <- <- <-. apply K in Hin. destruct Hin as (X1 & X2 & X3 & X4).
        replace (top + (i * cs - top + r')) with (i * cs + (top - i * cs + r')) by (clear; lia).
        replace (left + (j * cs - left + c')) with (j * cs + (left - j * cs + c')) by (clear; lia).
        split; [|exact X4]. clear -X1 X2 X3. lia.
      - intros ((X1 & (X2 & X3) & (X4 & X5)) & X6).
        exists (t, r - (i * cs - top), c - (j * cs - left), v). split.
        + clear -X3 X5. repeat f_equal; lia.
        + apply K. split; [exact X1|]. split; [clear -X2 X3; lia|]. split; [clear -X4 X5; lia|].
          replace (i * cs + (top - i * cs + (r - (i * cs - top)))) with (top + r) by (clear -X3; lia).
          replace (j * cs + (left - j * cs + (c - (j * cs - left)))) with (left + c) by (clear -X5; lia). exact X6. }
    intros t r c v. rewrite HZ. split.
    - intros (sw & calls & Hsw & Ec & Hin). apply in_flat_map in Hsw. destruct Hsw as (i & Hi & Hsw). apply in_map_iff in Hsw.
      destruct Hsw as (j & <- & Hj). apply in_range_incl in Hi, Hj. apply (Htile i j Hi Hj calls Ec) in Hin.
      destruct Hin as ((X1 & (X2 & _) & (X3 & _)) & X4). auto.
    - intros (X1 & X2 & X3 & X4).
      pose proof (Nat.div_mod (top + r) cs ltac:(lia)) as Er. pose proof (Nat.div_mod (left + c) cs ltac:(lia)) as Ec.
      pose proof (Nat.mod_upper_bound (top + r) cs ltac:(lia)) as Br. pose proof (Nat.mod_upper_bound (left + c) cs ltac:(lia)) as Bc.
      assert (Hi : top / cs <= (top + r) / cs <= (bottom - 1) / cs) by (split; apply Nat.div_le_mono; lia).
      assert (Hj : left / cs <= (left + c) / cs <= (right - 1) / cs) by (split; apply Nat.div_le_mono; lia).
      set (i := (top + r) / cs) in *. set (j := (left + c) / cs) in *.
      assert (Hsw : In (sub_at s top bottom left right i j) subs).
      { unfold subs. apply in_flat_map. exists i. split; [apply in_range_incl; exact Hi|]. apply in_map. apply in_range_incl. exact Hj. }
      destruct (HB _ Hsw) as (calls & Ecalls). exists (sub_at s top bottom left right i j), calls.
      split; [exact Hsw|]. split; [exact Ecalls|]. apply (Htile i j Hi Hj calls Ecalls). split; [|exact X4].
      clear -X1 X2 X3 Er Ec Br Bc. clearbody i j. lia.
  Qed.

  Lemma super_fails part fuel start end_ top bottom left right : functional st -> incl part st ->
    S d <= fuel -> start <= end_ -> end_ <= n -> window_in top bottom left right rows cols ->
    (exists out, mm_fill_window part fuel (MSuper s local) (cube_new start end_ top bottom left right) (su_fbits s) = Ok out) \/
    mm_fill_window part fuel (MSuper s local) (cube_new start end_ top bottom left right) (su_fbits s) = Err ENotFound.
  Proof using Hcs Htiles.
    clear Hrows Hcols.
    intros HF HI Hf H1 H2 Hw. destruct fuel as [|fuel]; [lia|]. cbn [mm_fill_window]. left.
    pose proof Hw as (W1 & W2 & W3 & W4).
    rewrite cube_new_eq by lia. cbn [c_start c_end]. rewrite usub_ok by lia. cbn [bind].
    unfold cube_rect. cbn [c_top c_bottom c_left c_right]. rewrite rect_new_spec.
    rewrite !Nat.min_l, !Nat.max_r by lia.
    rewrite subchunks_for_ok by assumption. cbn [bind]. apply flat_mapM_all.
    intros sw Hsw. apply in_flat_map in Hsw. destruct Hsw as (i & Hi & Hsw). apply in_map_iff in Hsw.
    destruct Hsw as (j & <- & Hj). apply in_range_incl in Hi, Hj.
    destruct (tile_window_in top bottom left right i j Hw Hi Hj) as (T1 & T2 & T3).
    unfold sub_at. cbn [sw_slice sw_chunk sw_local sw_index r_top r_bottom r_left r_right].
    pose proof (Htiles i j T1 T2) as TV. clear Htiles. assert (Hd' : d <= fuel) by lia.
    pose proof T3 as (U1 & U2 & U3 & U4).
    destruct TV as [v0 E V FV|ii m E L SL V|ii m E L SL V]; rewrite E; cbn [bind].
    - rewrite cube_new_eq by lia. unfold cube_instants. cbn [c_start c_end]. rewrite usub_ok by lia. cbn [bind].
      match goal with |- context [flat_mapM ?g ?l] => destruct (flat_mapM_all g l) as (out & ->) end; [|cbn [swallow bind]; eauto].
      intros x Hx. apply in_seq in Hx.
      replace (i * ss + j + start * (ss * ss) + x * (ss * ss)) with (i * ss + j + (start + x) * (ss * ss)) by lia.
      rewrite V by lia. cbn [bind]. eauto.
    - rewrite L. cbn [bind].
      destruct (v_fails _ _ _ _ _ _ _ V part fuel _ _ _ _ _ _ HF HI Hd' H1 H2 T3) as [(out & ->)| ->]; cbn [swallow bind]; eauto.
    - destruct (super_external_part part st s ii m HI HF L) as [-> | ->]; cbn [swallow bind]; eauto.
      destruct (v_fails _ _ _ _ _ _ _ V part fuel _ _ _ _ _ _ HF HI Hd' H1 H2 T3) as [(out & ->)| ->]; cbn [swallow bind]; eauto.
  Qed.

  Lemma super_view : view st (S d) (MSuper s local) n rows cols f.
  Proof using Hcs Htiles.
    constructor; [reflexivity| | | | |]; cbn [mm_fbits];
      [exact super_get|exact super_cell|exact super_window|exact super_part|exact super_fails].
  Qed.
End Super.

(** *** Searching a superchunk *)

Record tile_sview (st : store) (d : nat) (s : super) (local : list mmstruct) (idx h w : nat)
  (f : nat -> nat -> nat -> Z) : Prop :=
  { ts_range : forall t, t < su_instants s -> exists mn mx,
      dac_get (su_min s) (idx + t * (su_subsidelen s * su_subsidelen s)) = Ok mn /\
      dac_get (su_max s) (idx + t * (su_subsidelen s * su_subsidelen s)) = Ok mx /\
      forall r c, r < h -> c < w -> (mn <= f t r c <= mx)%Z;
    ts_ref : (nth_res (su_refs s) idx = Ok RElided /\
        forall t, t < su_instants s -> exists v,
          dac_get (su_max s) (idx + t * (su_subsidelen s * su_subsidelen s)) = Ok v /\
          forall r c, r < h -> c < w -> f t r c = v) \/
      (exists i m, nth_res (su_refs s) idx = Ok (RLocal i) /\ nth_res local i = Ok m /\
         sview st d m (su_instants s) h w f) \/
      (exists i m, nth_res (su_refs s) idx = Ok (RExternal i) /\ super_external st s i = Ok m /\
         sview st d m (su_instants s) h w f) }.

Lemma has_cells_ok s idx (mn mx : nat -> Z) lower upper : forall n start,
  (forall t, start <= t < start + n ->
     dac_get (su_min s) (idx + t * (su_subsidelen s * su_subsidelen s)) = Ok (mn t) /\
     dac_get (su_max s) (idx + t * (su_subsidelen s * su_subsidelen s)) = Ok (mx t)) ->
  exists b, has_cells s (idx + start * (su_subsidelen s * su_subsidelen s)) n lower upper = Ok b /\
    (b = false -> forall t, start <= t < start + n -> (upper < mn t \/ mx t < lower)%Z).
Proof.
  induction n as [|n IH]; intros start H; cbn [has_cells].
  - exists false. split; [reflexivity|]. intros _ t Ht. lia.
  - destruct (H start ltac:(lia)) as [E1 E2]. rewrite E1, E2. cbn [bind].
    destruct (((mn start <=? upper) && (lower <=? mx start))%Z) eqn:Eb.
    + exists true. split; [reflexivity|discriminate].
    + destruct (IH (S start)) as (b & E & Hb); [intros t Ht; apply H; lia|].
      replace (idx + start * (su_subsidelen s * su_subsidelen s) + su_subsidelen s * su_subsidelen s)
        with (idx + S start * (su_subsidelen s * su_subsidelen s)) by (cbn [Nat.mul]; lia).
      exists b. split; [exact E|]. intros Hf t Ht. destruct (Nat.eq_dec t start) as [->|Hne].
      * apply andb_false_iff in Eb. destruct Eb as [Eb|Eb]; apply Z.leb_gt in Eb; lia.
      * apply Hb; [exact Hf|lia].
Qed.

Lemma tile_choice {P : nat -> Z -> Z -> Prop} n : (forall t, t < n -> exists a b, P t a b) ->
  exists A B, forall t, t < n -> P t (A t) (B t).
Proof.
  induction n as [|n IH]; intros H.
  - exists (fun _ => 0%Z), (fun _ => 0%Z). intros t Ht. lia.
  - destruct IH as (A & B & HAB); [intros t Ht; apply H; lia|]. destruct (H n ltac:(lia)) as (a & b & Hab).
    exists (fun t => if t =? n then a else A t), (fun t => if t =? n then b else B t).
    intros t Ht. destruct (Nat.eqb_spec t n) as [->|Hne]; [exact Hab|]. apply HAB. lia.
Qed.

Section SuperSearch.
  Variables (st : store) (d : nat) (s : super) (local : list mmstruct) (f : nat -> nat -> nat -> Z).
  Notation cs := (su_chunks_sidelen s).
  Notation ss := (su_subsidelen s).
  Notation n := (su_instants s).
  Notation rows := (su_rows s).
  Notation cols := (su_cols s).
  Hypothesis Hcs : 0 < cs.
  Hypothesis Hss : 0 < ss.
  Hypothesis Htiles : forall i j, i * cs < rows -> j * cs < cols ->
    tile_sview st d s local (i * ss + j) (tile_h rows cs i) (tile_h cols cs j) (tile_of f (i * cs) (j * cs)).

  (** The matches in a tile, at their place in the array. *)
  Lemma shifted_matches (g : nat -> nat -> nat -> Z) x0 y0 start end_ t b l r lo up out :
    Permutation out (search3_spec (tile_of g x0 y0) start end_ t b l r lo up) ->
    Permutation (map (fun '(x, y, z) => (x, y + x0, z + y0)) out)
      (region (fun x y z => if in_bounds lo up (g x (x0 + y) (y0 + z)) then [(x, x0 + y, y0 + z)] else []) start end_ t b l r).
  Proof using.
    intros P. rewrite P, search3_region, map_region. erewrite region_ext; [reflexivity|].
    intros x y z _ _ _. cbn beta. unfold tile_of. destruct (in_bounds lo up (g x (x0 + y) (y0 + z))); [|reflexivity].
    cbn [map]. rewrite (Nat.add_comm y), (Nat.add_comm z). reflexivity.
  Qed.

  Lemma shift_items x0 y0 out : map (shift_item 0 x0 y0) (map inr out) = map inr (map (fun '(x, y, z) => (x, y + x0, z + y0)) out).
  Proof using. rewrite !map_map. apply map_ext. intros [[x y] z]. reflexivity. Qed.

  Lemma super_finds_all : finds_all st (S d) (MSuper s local) n rows cols f.
  Proof using Hcs Hss Htiles.
    intros fuel start end_ top bottom left right lower upper Hf H1 H2 Hw.
    destruct fuel as [|fuel]; [lia|]. cbn [mm_search]. rewrite rearrangeZ_spec.
    pose proof Hw as (W1 & W2 & W3 & W4). set (lo := Z.min lower upper). set (up := Z.max lower upper).
    assert (Hlu : (lo <= up)%Z) by (unfold lo, up; clear; lia).
    rewrite cube_new_eq by (clear -H1 W1 W3; lia). unfold cube_rect. cbn [c_start c_end c_top c_bottom c_left c_right].
    rewrite rect_new_spec. rewrite !Nat.min_l, !Nat.max_r by (clear -H1 W1 W3; lia).
    rewrite subchunks_for_ok by assumption. cbn [bind].
    set (body := fun sw : subwindow => _).
    set (h := fun sw =>
      region (fun x y z => if in_bounds lo up (f x (r_top (sw_chunk sw) + y) (r_left (sw_chunk sw) + z))
                           then [(x, r_top (sw_chunk sw) + y, r_left (sw_chunk sw) + z)] else [])
        start end_ (r_top (sw_local sw)) (r_bottom (sw_local sw)) (r_left (sw_local sw)) (r_right (sw_local sw))).
    set (subs := flat_map _ _).
    assert (Hbody : forall sw, In sw subs -> exists out, body sw = Ok (map inr out) /\ Permutation out (h sw)).
    2:{ assert (G : exists out, flat_mapM body subs = Ok (map inr out) /\ Permutation out (flat_map h subs)).
        { clear -Hbody. revert Hbody. generalize subs. clear subs. intros l. induction l as [|sw l IH]; intros Hb; cbn [flat_mapM flat_map].
          - exists []. split; [reflexivity|constructor].
          - destruct (Hb sw (or_introl eq_refl)) as (o1 & E1 & P1).
            destruct IH as (o2 & E2 & P2); [intros x Hx; apply Hb; right; exact Hx|].
            exists (o1 ++ o2). rewrite E1. cbn [bind]. rewrite E2. cbn [bind]. rewrite map_app.
            split; [reflexivity|]. apply Permutation_app; assumption. }
        destruct G as (out & E & P). exists out. split; [exact E|]. rewrite P. clear E P Hbody body.
        unfold subs. rewrite flat_map_flat_map, search3_region.
        rewrite <- (tiles_3d _ start end_ top bottom left right cs Hcs W1 W3).
        apply flat_map_perm_in. intros i Hi. rewrite flat_map_map. apply flat_map_perm_in. intros j Hj. reflexivity. }
    intros sw Hsw. unfold subs in Hsw. clear subs. apply in_flat_map in Hsw. destruct Hsw as (i & Hi & Hsw).
    apply in_map_iff in Hsw. destruct Hsw as (j & <- & Hj). apply in_range_incl in Hi, Hj. unfold h, body. clear h body.
    destruct (tile_window_in s Hcs top bottom left right i j Hw Hi Hj) as (T1 & T2 & T3).
    unfold sub_at. cbn [sw_slice sw_chunk sw_local sw_index r_top r_bottom r_left r_right].
    destruct (Htiles i j T1 T2) as [TR TV]. clear Htiles.
    pose proof T3 as (U1 & U2 & U3 & U4).
    set (idx := i * ss + j) in *. set (T := top - i * cs) in *. set (B := Nat.min cs (bottom - i * cs)) in *.
    set (L := left - j * cs) in *. set (R := Nat.min cs (right - j * cs)) in *.
    clearbody T B L R. clear Hi Hj W1 W2 W3 W4 Hw.
    destruct (tile_choice n TR) as (mn & mx & HM).
    destruct (has_cells_ok s idx mn mx lo up (end_ - start) start) as (b & Eb & Hb).
    { intros t Ht. destruct (HM t ltac:(clear -Ht H2; lia)) as (A1 & A2 & _). auto. }
    rewrite Eb. cbn [bind]. destruct b.
    - (* searched *)
      rewrite cube_new_eq by (clear -H1 U1 U3; lia).
      destruct TV as [(E & HV)|[(ii & m & E & EL & V)|(ii & m & E & EL & V)]]; rewrite E; cbn [bind].
      + unfold cube_instants. cbn [c_start c_end]. rewrite usub_ok by assumption. cbn [bind].
        destruct (Nat.eqb_spec (ss * ss) 0) as [Hz|_]; [clear -Hz Hss; nia|].
        rewrite (flat_mapM_ok _ (fun x => if in_bounds lo up (mx (start + x)) then
           map (fun rc => inr (x + start, fst rc + i * cs, snd rc + j * cs)) (list_prod (range T B) (range L R)) else [])).
        * cbn [or_error]. exists (region (fun x y z => if in_bounds lo up (f x (i * cs + y) (j * cs + z))
                           then [(x, i * cs + y, j * cs + z)] else []) start end_ T B L R).
          split; [|reflexivity]. f_equal. rewrite map_region. unfold region.
          rewrite (range_from start end_), flat_map_map by exact H1. apply flat_map_ext_in. intros x Hx. apply in_seq in Hx.
          destruct (HV (start + x) ltac:(clear -Hx H2; lia)) as (v & EV & HVv).
          destruct (HM (start + x) ltac:(clear -Hx H2; lia)) as (_ & EM & _). rewrite EV in EM. injection EM as ->.
          transitivity (flat_map (fun y => flat_map (fun z => if in_bounds lo up (mx (start + x)) then
             [@inr err _ (x + start, y + i * cs, z + j * cs)] else []) (range L R)) (range T B)).
          { destruct (in_bounds lo up (mx (start + x))).
            - rewrite list_prod_flat, map_flat_map. apply flat_map_ext_in. intros y _.
              rewrite map_map, flat_map_single. reflexivity.
            - rewrite <- (flat_map_nil (range T B)) at 1. apply flat_map_ext_in. intros y _. symmetry. apply flat_map_nil. }
          apply flat_map_ext_in. intros y Hy. apply flat_map_ext_in. intros z Hz. apply in_range in Hy, Hz.
          specialize (HVv y z ltac:(clear -Hy U2; lia) ltac:(clear -Hz U4; lia)). unfold tile_of in HVv. rewrite HVv.
          destruct (in_bounds lo up (mx (start + x))); [|reflexivity]. cbn [map].
          rewrite (Nat.add_comm x), (Nat.add_comm y), (Nat.add_comm z). reflexivity.
        * intros x Hx. apply in_seq in Hx.
          replace (idx + ss * ss * start + x * (ss * ss)) with (idx + (start + x) * (ss * ss)) by (clear; lia).
          destruct (HM (start + x) ltac:(clear -Hx H2; lia)) as (_ & EM & _). rewrite EM. cbn [bind].
          unfold in_bounds. reflexivity.
      + rewrite EL. cbn [bind].
        destruct (sv_all _ _ _ _ _ _ _ V fuel start end_ T B L R lo up ltac:(clear -Hf; lia) H1 H2 T3) as (out & Eo & P).
        rewrite cube_new_eq in Eo by (clear -H1 U1 U3; lia).
        rewrite Eo. cbn [bind or_error]. rewrite shift_items. eexists. split; [reflexivity|].
        apply shifted_matches. rewrite P. rewrite Z.min_l, Z.max_r by exact Hlu. reflexivity.
      + rewrite EL. cbn [bind].
        destruct (sv_all _ _ _ _ _ _ _ V fuel start end_ T B L R lo up ltac:(clear -Hf; lia) H1 H2 T3) as (out & Eo & P).
        rewrite cube_new_eq in Eo by (clear -H1 U1 U3; lia).
        rewrite Eo. cbn [bind or_error]. rewrite shift_items. eexists. split; [reflexivity|].
        apply shifted_matches. rewrite P. rewrite Z.min_l, Z.max_r by exact Hlu. reflexivity.
    - (* skipped: nothing to find *)
      exists []. split; [reflexivity|]. specialize (Hb eq_refl).
      rewrite (region_ext _ (fun _ _ _ => [])).
      + rewrite region_nil. reflexivity.
      + intros x y z Hx Hy Hz. destruct (HM x ltac:(clear -Hx H2; lia)) as (_ & _ & HR).
        specialize (HR y z ltac:(clear -Hy U2; lia) ltac:(clear -Hz U4; lia)). unfold tile_of in HR.
        specialize (Hb x ltac:(clear -Hx H1; lia)).
        unfold in_bounds. destruct (Z.leb_spec lo (f x (i * cs + y) (j * cs + z))); cbn [andb]; [|reflexivity].
        destruct (Z.leb_spec (f x (i * cs + y) (j * cs + z)) up); [|reflexivity]. clear -HR Hb H H0. lia.
  Qed.

  Lemma super_finds_part : finds_part st (S d) (MSuper s local) n rows cols f.
  Proof using Hcs Hss Htiles.
    intros part fuel start end_ top bottom left right lower upper HF HI Hf H1 H2 Hw.
    destruct fuel as [|fuel]; [lia|]. cbn [mm_search]. rewrite rearrangeZ_spec.
    pose proof Hw as (W1 & W2 & W3 & W4). set (lo := Z.min lower upper). set (up := Z.max lower upper).
    assert (Hlu : (lo <= up)%Z) by (unfold lo, up; clear; lia).
    rewrite cube_new_eq by (clear -H1 W1 W3; lia). unfold cube_rect. cbn [c_start c_end c_top c_bottom c_left c_right].
    rewrite rect_new_spec. rewrite !Nat.min_l, !Nat.max_r by (clear -H1 W1 W3; lia).
    rewrite subchunks_for_ok by assumption. cbn [bind].
    set (body := fun sw : subwindow => _). set (subs := flat_map _ _).
    assert (Hbody : forall i j, top / cs <= i <= (bottom - 1) / cs -> left / cs <= j <= (right - 1) / cs ->
      exists y, body (sub_at s top bottom left right i j) = Ok y /\
        forall t r c v, start <= t < end_ -> top <= i * cs + r < bottom -> left <= j * cs + c < right -> r < cs -> c < cs ->
          mm_get part (S fuel) (MSuper s local) t (i * cs + r) (j * cs + c) (su_fbits s) = Ok v ->
          in_bounds lo up (f t (i * cs + r) (j * cs + c)) = true -> In (inr (t, i * cs + r, j * cs + c)) y).
    2:{ destruct (flat_mapM_all body subs) as (out & Eo).
        { intros sw Hsw. unfold subs in Hsw. apply in_flat_map in Hsw. destruct Hsw as (i & Hi & Hsw).
          apply in_map_iff in Hsw. destruct Hsw as (j & <- & Hj). apply in_range_incl in Hi, Hj.
          destruct (Hbody i j Hi Hj) as (y & Ey & _). eauto. }
        exists out. split; [exact Eo|]. destruct (in_flat_mapM body subs out Eo) as [_ HZ]. clear Eo.
        intros t r c v Ht Hr Hc Eg Hb. apply HZ. clear HZ.
        assert (Hi : top / cs <= r / cs <= (bottom - 1) / cs).
        { split; apply Nat.div_le_mono; clear -Hr Hcs; lia. }
        assert (Hj : left / cs <= c / cs <= (right - 1) / cs).
        { split; apply Nat.div_le_mono; clear -Hc Hcs; lia. }
        destruct (Hbody _ _ Hi Hj) as (y & Ey & K). exists (sub_at s top bottom left right (r / cs) (c / cs)), y.
        split; [|split; [exact Ey|]].
        - unfold subs. apply in_flat_map. exists (r / cs). split; [apply in_range_incl; exact Hi|].
          apply in_map. apply in_range_incl. exact Hj.
        - pose proof (Nat.div_mod r cs ltac:(clear -Hcs; lia)) as Er. pose proof (Nat.mod_upper_bound r cs ltac:(clear -Hcs; lia)) as Br.
          pose proof (Nat.div_mod c cs ltac:(clear -Hcs; lia)) as Ec. pose proof (Nat.mod_upper_bound c cs ltac:(clear -Hcs; lia)) as Bc.
          rewrite Nat.mul_comm in Er, Ec. specialize (K t (r mod cs) (c mod cs) v Ht). rewrite <- Er, <- Ec in K. auto. }
    intros i j Hi Hj. clear subs. unfold body. clear body.
    destruct (tile_window_in s Hcs top bottom left right i j Hw Hi Hj) as (T1 & T2 & T3).
    unfold sub_at. cbn [sw_slice sw_chunk sw_local sw_index r_top r_bottom r_left r_right].
    destruct (Htiles i j T1 T2) as [TR TV]. clear Htiles.
    pose proof T3 as (U1 & U2 & U3 & U4).
    assert (EG : forall x y z, y < cs -> z < cs ->
      mm_get part (S fuel) (MSuper s local) x (i * cs + y) (j * cs + z) (su_fbits s) =
      (ref <- nth_res (su_refs s) (i * ss + j) ;;
       match ref with
       | RElided => v <- dac_get (su_max s) (i * ss + j + x * (ss * ss)) ;; Ok (v, su_fbits s)
       | RLocal i => m' <- nth_res local i ;; mm_get part fuel m' x y z (mm_fbits m')
       | RExternal i => m' <- super_external part s i ;; mm_get part fuel m' x y z (mm_fbits m')
       end)).
    { intros x y z Hy Hz. cbn [mm_get]. rewrite !udiv_ok, !umod_ok by (clear -Hcs; lia). cbn [bind].
      rewrite !(Nat.add_comm (_ * cs)), !Nat.div_add, !Nat.mod_add, !Nat.div_small, !Nat.mod_small by (clear -Hcs Hy Hz; lia). reflexivity. }
    assert (HT : forall r, top <= i * cs + r < bottom -> r < cs -> top - i * cs <= r < Nat.min cs (bottom - i * cs)) by (clear; lia).
    assert (HL : forall c, left <= j * cs + c < right -> c < cs -> left - j * cs <= c < Nat.min cs (right - j * cs)) by (clear; lia).
    set (idx := i * ss + j) in *. set (T := top - i * cs) in *. set (B := Nat.min cs (bottom - i * cs)) in *.
    set (L := left - j * cs) in *. set (R := Nat.min cs (right - j * cs)) in *.
    clearbody T B L R. clear Hi Hj W1 W2 W3 W4 Hw.
    destruct (tile_choice n TR) as (mn & mx & HM).
    destruct (has_cells_ok s idx mn mx lo up (end_ - start) start) as (b & Eb & Hb).
    { intros t Ht. destruct (HM t ltac:(clear -Ht H2; lia)) as (A1 & A2 & _). auto. }
    rewrite Eb. cbn [bind]. destruct b.
    - rewrite cube_new_eq by (clear -H1 U1 U3; lia).
      (* a tile held by a sub-array that is there *)
      assert (Hsub : forall m, sview st d m n (tile_h rows cs i) (tile_h cols cs j) (tile_of f (i * cs) (j * cs)) ->
        (forall x y z, y < cs -> z < cs -> mm_get part (S fuel) (MSuper s local) x (i * cs + y) (j * cs + z) (su_fbits s) =
           mm_get part fuel m x y z (mm_fbits m)) ->
        exists y, or_error (l <- mm_search part fuel m (mkCube start end_ T B L R) lo up ;; Ok (map (shift_item 0 (i * cs) (j * cs)) l)) = Ok y /\
        forall t r c v, start <= t < end_ -> top <= i * cs + r < bottom -> left <= j * cs + c < right -> r < cs -> c < cs ->
          mm_get part (S fuel) (MSuper s local) t (i * cs + r) (j * cs + c) (su_fbits s) = Ok v ->
          in_bounds lo up (f t (i * cs + r) (j * cs + c)) = true -> In (inr (t, i * cs + r, j * cs + c)) y).
      { intros m V EGm.
        destruct (sv_part _ _ _ _ _ _ _ V part fuel start end_ T B L R lo up HF HI ltac:(clear -Hf; lia) H1 H2 T3) as (out & Eo & P).
        rewrite cube_new_eq in Eo by (clear -H1 U1 U3; lia). rewrite Eo. cbn [bind or_error]. eexists. split; [reflexivity|].
        intros t r c v Ht Hr Hc Hr' Hc' Eg Hib. rewrite EGm in Eg by assumption.
        rewrite Z.min_l, Z.max_r in P by exact Hlu.
        apply in_map_iff. exists (inr (t, r, c)). split.
        - cbn [shift_item]. rewrite (Nat.add_comm r), (Nat.add_comm c). reflexivity.
        - exact (P t r c v Ht (HT r Hr Hr') (HL c Hc Hc') Eg Hib). }
      destruct TV as [(E & HV)|[(ii & m & E & EL & V)|(ii & m & E & EL & V)]]; rewrite E; cbn [bind].
      + unfold cube_instants. cbn [c_start c_end]. rewrite usub_ok by assumption. cbn [bind].
        destruct (Nat.eqb_spec (ss * ss) 0) as [Hz|_]; [clear -Hz Hss; nia|].
        rewrite (flat_mapM_ok _ (fun x => if in_bounds lo up (mx (start + x)) then
           map (fun rc => inr (x + start, fst rc + i * cs, snd rc + j * cs)) (list_prod (range T B) (range L R)) else [])).
        * cbn [or_error]. eexists. split; [reflexivity|]. intros t r c v Ht Hr Hc Hr' Hc' _ Hib.
          destruct (HV t ltac:(clear -Ht H2; lia)) as (w & EV & HVv).
          destruct (HM t ltac:(clear -Ht H2; lia)) as (_ & EM & _). rewrite EV in EM. injection EM as ->.
          pose proof (HT r Hr Hr') as Hr1. pose proof (HL c Hc Hc') as Hc1.
          specialize (HVv r c ltac:(clear -Hr1 U2; lia) ltac:(clear -Hc1 U4; lia)). unfold tile_of in HVv. rewrite HVv in Hib.
          apply in_flat_map. exists (t - start). split; [apply in_seq; clear -Ht; lia|].
          replace (start + (t - start)) with t by (clear -Ht; lia). rewrite Hib. apply in_map_iff. exists (r, c). cbn [fst snd]. split.
          { replace (t - start + start) with t by (clear -Ht; lia). rewrite (Nat.add_comm r), (Nat.add_comm c). reflexivity. }
          { apply in_prod; apply in_range; assumption. }
        * intros x Hx. apply in_seq in Hx.
          replace (idx + ss * ss * start + x * (ss * ss)) with (idx + (start + x) * (ss * ss)) by (clear; lia).
          destruct (HM (start + x) ltac:(clear -Hx H2; lia)) as (_ & EM & _). rewrite EM. cbn [bind].
          unfold in_bounds. reflexivity.
      + rewrite EL. cbn [bind]. apply (Hsub m V). intros x y z Hy Hz. rewrite EG by assumption. rewrite E. cbn [bind]. rewrite EL. reflexivity.
      + destruct (super_external_part part st s ii m HI HF EL) as [Em|Em]; rewrite Em; cbn [bind].
        * apply (Hsub m V). intros x y z Hy Hz. rewrite EG by assumption. rewrite E. cbn [bind]. rewrite Em. reflexivity.
        * cbn [or_error]. eexists. split; [reflexivity|]. intros t r c v Ht Hr Hc Hr' Hc' Eg _. exfalso.
          rewrite EG in Eg by assumption. rewrite E in Eg. cbn [bind] in Eg. rewrite Em in Eg. discriminate.
    - (* skipped: nothing to find *)
      exists []. split; [reflexivity|]. specialize (Hb eq_refl). intros t r c v Ht Hr Hc Hr' Hc' _ Hib. exfalso.
      pose proof (HT r Hr Hr') as Hr1. pose proof (HL c Hc Hc') as Hc1.
      destruct (HM t ltac:(clear -Ht H2; lia)) as (_ & _ & HR).
      specialize (HR r c ltac:(clear -Hr1 U2; lia) ltac:(clear -Hc1 U4; lia)). unfold tile_of in HR.
      specialize (Hb t ltac:(clear -Ht; lia)). unfold in_bounds in Hib. apply andb_prop in Hib. destruct Hib as [X1 X2].
      apply Z.leb_le in X1, X2. clear -HR Hb X1 X2. lia.
  Qed.

  Lemma super_sview : sview st (S d) (MSuper s local) n rows cols f.
  Proof using Hcs Hss Htiles. constructor; [exact super_finds_all|exact super_finds_part]. Qed.
End SuperSearch.

(** ** Spans *)

(** The pieces of a request cover it, in order and inside the sub-spans. *)
Lemma span_pieces_ok {B} (G : nat -> list B) stride instants : forall fuel sp instant start, instants - start < fuel ->
  instant < stride -> start <= instants ->
  exists pieces, span_pieces fuel stride instants sp instant start = Ok pieces /\
    flat_map (fun '(sp', i, len, off) => flat_map (fun t => G (sp' * stride + t)) (range i (i + len))) pieces =
      flat_map G (range (sp * stride + instant) (sp * stride + instant + (instants - start))) /\
    forall sp' i len off, In (sp', i, len, off) pieces ->
      0 < len /\ i + len <= stride /\ off + len <= instants /\ sp' * stride + i + start = sp * stride + instant + off /\ start <= off.
Proof.
  induction fuel as [|fuel IH]; intros sp instant start Hf Hi Hs; [lia|]. cbn [span_pieces].
  destruct (Nat.ltb_spec start instants) as [Hlt|Hge].
  - rewrite usub_ok by lia. cbn [bind]. set (len := Nat.min (stride - instant) (instants - start)).
    destruct (Nat.le_gt_cases (instants - start) (stride - instant)) as [Hc|Hc].
    + (* the last piece *)
      destruct (IH (sp + 1) 0 (start + len) ltac:(unfold len; lia) ltac:(lia) ltac:(unfold len; lia)) as (pieces & E & F & HP).
      rewrite E. cbn [bind]. eexists. split; [reflexivity|]. split.
      * cbn [flat_map]. rewrite F. clear E F HP IH. assert (El : len = instants - start) by (unfold len; lia). rewrite El.
        replace (instants - (start + (instants - start))) with 0 by lia. unfold range at 2.
        replace ((sp + 1) * stride + 0 + 0 - ((sp + 1) * stride + 0)) with 0 by lia. cbn [seq flat_map]. rewrite app_nil_r.
        rewrite <- Nat.add_assoc, range_shift, flat_map_map. reflexivity.
      * intros sp' i l off [Eq|Hin].
        -- injection Eq as <- <- <- <-. unfold len. lia.
        -- specialize (HP _ _ _ _ Hin). assert (El : start + len = instants) by (unfold len; lia). lia.
    + assert (El : len = stride - instant) by (unfold len; lia). clearbody len.
      destruct (IH (sp + 1) 0 (start + len) ltac:(lia) ltac:(lia) ltac:(lia)) as (pieces & E & F & HP).
      rewrite E. cbn [bind]. eexists. split; [reflexivity|]. split.
      * cbn [flat_map]. rewrite F. clear E F HP IH.
        assert (EA : flat_map (fun t => G (sp * stride + t)) (range instant (instant + len)) =
                     flat_map G (range (sp * stride + instant) (sp * stride + (instant + len))))
          by (rewrite range_shift, flat_map_map; reflexivity).
        rewrite EA, <- flat_map_app. f_equal. unfold range.
        replace (sp * stride + (instant + len) - (sp * stride + instant)) with len by lia.
        replace ((sp + 1) * stride + 0 + (instants - (start + len)) - ((sp + 1) * stride + 0)) with (instants - (start + len)) by lia.
        replace (sp * stride + instant + (instants - start) - (sp * stride + instant)) with (len + (instants - (start + len))) by lia.
        rewrite seq_app. do 2 f_equal. lia.
      * intros sp' i l off [Eq|Hin].
        -- injection Eq as <- <- <- <-. lia.
        -- specialize (HP _ _ _ _ Hin). lia.
  - exists []. split; [reflexivity|]. split; [|intros ? ? ? ? []]. replace (instants - start) with 0 by lia. unfold range.
    replace (sp * stride + instant + 0 - (sp * stride + instant)) with 0 by lia. reflexivity.
Qed.

Definition sub_instants (n stride i : nat) : nat := Nat.min stride (n - i * stride).

(** The array from the instant [t0] on. *)
Definition later {A} (f : nat -> nat -> nat -> A) (t0 : nat) : nat -> nat -> nat -> A := fun t => f (t0 + t).

Section Span.
  Variables (st : store) (d : nat) (s : span) (f : nat -> nat -> nat -> Z * nat).
  Notation stride := (sp_stride s).
  Notation n := (sp_instants s).
  Notation rows := (sp_rows s).
  Notation cols := (sp_cols s).
  Hypothesis Hstride : 0 < stride.
  Hypothesis Hsubs : forall i, i * stride < n -> exists c m,
    nth_res (sp_spans s) i = Ok c /\ get_mm st c = Ok m /\
    view st d m (sub_instants n stride i) rows cols (later f (i * stride)).

  Lemma span_get fuel t r c : S d <= fuel -> t < n -> r < rows -> c < cols ->
    mm_get st fuel (MSpan s) t r c 0 = Ok (f t r c).
  Proof using Hstride Hsubs.
    intros Hf Ht Hr Hc. destruct fuel as [|fuel]; [lia|]. cbn [mm_get]. unfold find_span.
    rewrite udiv_ok, umod_ok by lia. cbn [bind fst snd].
    pose proof (Nat.div_mod t stride ltac:(lia)) as Et. pose proof (Nat.mod_upper_bound t stride ltac:(lia)) as Bt.
    revert Et Bt. generalize (t / stride) (t mod stride). intros i x Et Bt.
    destruct (Hsubs i ltac:(lia)) as (ci & m & E1 & E2 & V). rewrite E1. cbn [bind]. rewrite E2. cbn [bind].
    replace (f t r c) with (later f (i * stride) x r c) by (unfold later; f_equal; lia).
    apply (v_get _ _ _ _ _ _ _ V); try assumption; unfold sub_instants; lia.
  Qed.

  Lemma span_cell fuel start end_ r c : S d <= fuel -> start <= end_ -> end_ <= n -> r < rows -> c < cols ->
    mm_fill_cell st fuel (MSpan s) start end_ r c 0 = Ok (cell_spec f start end_ r c).
  Proof using Hstride Hsubs.
    intros Hf H1 H2 Hr Hc. destruct fuel as [|fuel]; [lia|]. cbn [mm_fill_cell].
    rewrite usub_ok by lia. cbn [bind]. unfold span_pieces_for, find_span.
    rewrite udiv_ok, umod_ok by lia. cbn [bind fst snd].
    pose proof (Nat.div_mod start stride ltac:(lia)) as Et. pose proof (Nat.mod_upper_bound start stride ltac:(lia)) as Bt.
    revert Et Bt. generalize (start / stride) (start mod stride). intros i x Et Bt.
    destruct (span_pieces_ok (fun t => [(t - start, f t r c)]) stride (end_ - start) (S (end_ - start)) i x 0)
      as (pieces & E & F & HP); [lia|lia|lia|].
    rewrite E. cbn [bind]. erewrite flat_mapM_ok.
    - f_equal. unfold cell_spec. rewrite <- flat_map_single.
      replace (range start end_) with (range (i * stride + x) (i * stride + x + (end_ - start - 0))) by (f_equal; lia).
      rewrite <- F. reflexivity.
    - intros [[[sp' i'] len] off] Hin. specialize (HP _ _ _ _ Hin).
      destruct (Hsubs sp' ltac:(lia)) as (ci & m & E1 & E2 & V). rewrite E1. cbn [bind]. rewrite E2. cbn [bind].
      rewrite (v_cell _ _ _ _ _ _ _ V) by (try assumption; unfold sub_instants; lia). cbn [bind]. f_equal.
      unfold cell_spec. rewrite map_map, flat_map_single. apply map_ext_in. intros t Ht. apply in_range in Ht.
      unfold later. f_equal. lia.
  Qed.

  Lemma span_window fuel start end_ top bottom left right : S d <= fuel -> start <= end_ -> end_ <= n ->
    window_in top bottom left right rows cols ->
    exists out, mm_fill_window st fuel (MSpan s) (cube_new start end_ top bottom left right) 0 = Ok out /\
      Permutation out (window3_spec f start end_ top bottom left right).
  Proof using Hstride Hsubs.
    intros Hf H1 H2 Hw. destruct fuel as [|fuel]; [lia|]. cbn [mm_fill_window].
    pose proof Hw as (W1 & W2 & W3 & W4).
    rewrite cube_new_eq by lia. unfold cube_instants. cbn [c_start c_end c_top c_bottom c_left c_right].
    rewrite usub_ok by lia. cbn [bind]. unfold span_pieces_for, find_span.
    rewrite udiv_ok, umod_ok by lia. cbn [bind fst snd].
    pose proof (Nat.div_mod start stride ltac:(lia)) as Et. pose proof (Nat.mod_upper_bound start stride ltac:(lia)) as Bt.
    revert Et Bt. generalize (start / stride) (start mod stride). intros i x Et Bt.
    destruct (span_pieces_ok (fun t => flat_map (fun y => flat_map (fun z => [(t - start, y - top, z - left, f t y z)])
       (range left right)) (range top bottom)) stride (end_ - start) (S (end_ - start)) i x 0)
      as (pieces & E & F & HP); [lia|lia|lia|].
    rewrite E. cbn [bind].
    eapply ex_perm_trans; [apply (flat_mapM_perm _ (fun '(sp', i, len, off) =>
        flat_map (fun t => flat_map (fun y => flat_map (fun z =>
           [(sp' * stride + t - start, y - top, z - left, f (sp' * stride + t) y z)]) (range left right)) (range top bottom))
          (range i (i + len))))|].
    2:{ rewrite F, window3_region. unfold region.
        replace (range start end_) with (range (i * stride + x) (i * stride + x + (end_ - start - 0))) by (f_equal; lia).
        reflexivity. }
    intros [[[sp' i'] len] off] Hin. specialize (HP _ _ _ _ Hin).
    destruct (Hsubs sp' ltac:(lia)) as (ci & m & E1 & E2 & V). rewrite E1. cbn [bind]. rewrite E2. cbn [bind].
    destruct (v_window _ _ _ _ _ _ _ V fuel i' (i' + len) top bottom left right) as (out & Eo & P);
      [lia|lia|unfold sub_instants; lia|exact Hw|].
    rewrite Eo. cbn [bind]. eexists. split; [reflexivity|]. unfold moved. rewrite P, window3_region, map_region.
    unfold region. erewrite flat_map_ext_in; [reflexivity|]. intros t Ht. cbn beta. apply in_range in Ht.
    apply flat_map_ext_in. intros y _. apply flat_map_ext_in. intros z _. cbn [map]. unfold later.
    rewrite !Nat.add_0_l. replace (off + (t - i')) with (sp' * stride + t - start) by lia. reflexivity.
  Qed.

  (** With some of the objects only. *)
  Lemma span_part part fuel start end_ top bottom left right out : functional st -> incl part st ->
    S d <= fuel -> start <= end_ -> end_ <= n -> window_in top bottom left right rows cols ->
    mm_fill_window part fuel (MSpan s) (cube_new start end_ top bottom left right) 0 = Ok out ->
    forall t r c v, In (t, r, c, v) out <->
      start + t < end_ /\ top + r < bottom /\ left + c < right /\
      mm_get part fuel (MSpan s) (start + t) (top + r) (left + c) 0 = Ok v.
  Proof using Hstride Hsubs.
    intros HF HI Hf H1 H2 Hw. destruct fuel as [|fuel]; [lia|]. cbn [mm_fill_window].
    pose proof Hw as (W1 & W2 & W3 & W4).
    rewrite cube_new_eq by lia. unfold cube_instants. cbn [c_start c_end c_top c_bottom c_left c_right].
    rewrite usub_ok by lia. cbn [bind]. unfold span_pieces_for, find_span.
    rewrite udiv_ok, umod_ok by lia. cbn [bind fst snd].
    pose proof (Nat.div_mod start stride ltac:(lia)) as Et. pose proof (Nat.mod_upper_bound start stride ltac:(lia)) as Bt.
    revert Et Bt. generalize (start / stride) (start mod stride). intros i x Et Bt.
    destruct (span_pieces_ok (fun t => [t]) stride (end_ - start) (S (end_ - start)) i x 0)
      as (pieces & E & F & HP); [lia|lia|lia|].
    rewrite E. cbn [bind]. set (body := fun y : nat * nat * nat * nat => let '(sp, instant, len, off) := y in _). intros Eo.
    destruct (in_flat_mapM body pieces out Eo) as [HB HZ]. clear Eo.
    assert (Hpiece : forall sp' i' len off calls, In (sp', i', len, off) pieces -> body (sp', i', len, off) = Ok calls ->
      forall t r c v, In (t, r, c, v) calls <->
        (off <= t < off + len /\ top + r < bottom /\ left + c < right) /\
        mm_get part (S fuel) (MSpan s) (start + t) (top + r) (left + c) 0 = Ok v).
    { intros sp' i' len off calls Hin Ec t r c v. specialize (HP _ _ _ _ Hin).
      destruct (Hsubs sp' ltac:(lia)) as (ci & m & E1 & E2 & V). unfold body in Ec. clear body HB HZ F E Hsubs. rewrite E1 in Ec. cbn [bind] in Ec.
      apply bind_inv in Ec. destruct Ec as (m' & Em & Ec).
      assert (m' = m) as -> by (apply (get_mm_incl part st _ _ HI HF) in Em; congruence).
      apply bind_inv in Ec. destruct Ec as (l & El & Ec). injection Ec as <-.
      assert (Hd' : d <= fuel) by lia.
      pose proof (v_part _ _ _ _ _ _ _ V part fuel i' (i' + len) top bottom left right l HF HI Hd' ltac:(lia) ltac:(unfold sub_instants; lia) Hw El) as K.
      assert (EG : forall y, i' <= y < i' + len -> mm_get part (S fuel) (MSpan s) (sp' * stride + y) (top + r) (left + c) 0 =
        mm_get part fuel m y (top + r) (left + c) (mm_fbits m)).
      { intros y Hy. cbn [mm_get]. unfold find_span. rewrite udiv_ok, umod_ok by lia. cbn [bind fst snd].
        rewrite (Nat.add_comm (sp' * stride)), Nat.div_add, Nat.mod_add, Nat.div_small, Nat.mod_small by lia. cbn [Nat.add].
        rewrite E1. cbn [bind]. rewrite Em. reflexivity. }
      unfold moved. rewrite in_map_iff. split.
      - intros ([[[t' r'] c'] w] & Eq & Hx). injection Eq as <- <- <- <-. apply K in Hx. destruct Hx as (X1 & X2 & X3 & X4).
        split; [lia|]. rewrite <- EG in X4 by lia.
        replace (start + (off + t')) with (sp' * stride + (i' + t')) by lia. exact X4.
      - intros ((X1 & X2 & X3) & X4). exists (t - off, r, c, v). split.
        + repeat f_equal; lia.
        + apply K. split; [lia|]. split; [exact X2|]. split; [exact X3|]. rewrite <- EG by lia.
          replace (sp' * stride + (i' + (t - off))) with (start + t) by lia. exact X4. }
    intros t r c v. rewrite HZ. split.
    - intros ([[[sp' i'] len] off] & calls & Hin & Ec & Hx). apply (Hpiece _ _ _ _ _ Hin Ec) in Hx.
      destruct Hx as ((X1 & X2 & X3) & X4). specialize (HP _ _ _ _ Hin). split; [lia|]. auto.
    - intros (X1 & X2 & X3 & X4).
      assert (Hin : In (start + t) (flat_map (fun x => [x]) (range (i * stride + x) (i * stride + x + (end_ - start - 0))))).
      { apply in_flat_map. exists (start + t). split; [apply in_range; lia|left; reflexivity]. }
      rewrite <- F in Hin. apply in_flat_map in Hin. destruct Hin as ([[[sp' i'] len] off] & Hp & Hin).
      apply in_flat_map in Hin. destruct Hin as (y & Hy & [Ey|[]]). apply in_range in Hy.
      destruct (HB _ Hp) as (calls & Ecalls). exists (sp', i', len, off), calls.
      split; [exact Hp|]. split; [exact Ecalls|]. apply (Hpiece _ _ _ _ _ Hp Ecalls). split; [|exact X4].
      specialize (HP _ _ _ _ Hp). lia.
  Qed.

  Lemma span_fails part fuel start end_ top bottom left right : functional st -> incl part st ->
    S d <= fuel -> start <= end_ -> end_ <= n -> window_in top bottom left right rows cols ->
    (exists out, mm_fill_window part fuel (MSpan s) (cube_new start end_ top bottom left right) 0 = Ok out) \/
    mm_fill_window part fuel (MSpan s) (cube_new start end_ top bottom left right) 0 = Err ENotFound.
  Proof using Hstride Hsubs.
    intros HF HI Hf H1 H2 Hw. destruct fuel as [|fuel]; [lia|]. cbn [mm_fill_window].
    pose proof Hw as (W1 & W2 & W3 & W4).
    rewrite cube_new_eq by lia. unfold cube_instants. cbn [c_start c_end c_top c_bottom c_left c_right].
    rewrite usub_ok by lia. cbn [bind]. unfold span_pieces_for, find_span.
    rewrite udiv_ok, umod_ok by lia. cbn [bind fst snd].
    pose proof (Nat.div_mod start stride ltac:(lia)) as Et. pose proof (Nat.mod_upper_bound start stride ltac:(lia)) as Bt.
    revert Et Bt. generalize (start / stride) (start mod stride). intros i x Et Bt.
    destruct (span_pieces_ok (fun t => [t]) stride (end_ - start) (S (end_ - start)) i x 0)
      as (pieces & E & F & HP); [lia|lia|lia|].
    rewrite E. cbn [bind]. apply flat_mapM_fails. intros [[[sp' i'] len] off] Hin. specialize (HP _ _ _ _ Hin).
    destruct (Hsubs sp' ltac:(lia)) as (ci & m & E1 & E2 & V). rewrite E1. cbn [bind].
    destruct (get_mm_part part st ci m HI HF E2) as [-> | ->]; cbn [bind]; [|auto].
    destruct (v_fails _ _ _ _ _ _ _ V part fuel i' (i' + len) top bottom left right HF HI) as [(out & ->)| ->];
      [lia|lia|unfold sub_instants; lia|exact Hw| |]; cbn [bind]; eauto.
  Qed.

  Lemma span_view : view st (S d) (MSpan s) n rows cols f.
  Proof using Hstride Hsubs.
    constructor; [reflexivity| | | | |]; cbn [mm_fbits];
      [exact span_get|exact span_cell|exact span_window|exact span_part|exact span_fails].
  Qed.
End Span.

Section SpanSearch.
  Variables (st : store) (d : nat) (s : span) (f : nat -> nat -> nat -> Z).
  Notation stride := (sp_stride s).
  Notation n := (sp_instants s).
  Notation rows := (sp_rows s).
  Notation cols := (sp_cols s).
  Hypothesis Hstride : 0 < stride.
  Hypothesis Hsubs : forall i, i * stride < n -> exists c m,
    nth_res (sp_spans s) i = Ok c /\ get_mm st c = Ok m /\
    sview st d m (sub_instants n stride i) rows cols (later f (i * stride)).

  Lemma span_finds_all : finds_all st (S d) (MSpan s) n rows cols f.
  Proof using Hstride Hsubs.
    intros fuel start end_ top bottom left right lower upper Hf H1 H2 Hw.
    destruct fuel as [|fuel]; [lia|]. cbn [mm_search].
    pose proof Hw as (W1 & W2 & W3 & W4). set (lo := Z.min lower upper). set (up := Z.max lower upper).
    rewrite cube_new_eq by lia. unfold cube_instants. cbn [c_start c_end c_top c_bottom c_left c_right].
    rewrite usub_ok by lia. cbn [bind]. unfold span_pieces_for, find_span.
    rewrite udiv_ok, umod_ok by lia. cbn [bind fst snd].
    pose proof (Nat.div_mod start stride ltac:(lia)) as Et. pose proof (Nat.mod_upper_bound start stride ltac:(lia)) as Bt.
    revert Et Bt. generalize (start / stride) (start mod stride). intros i x Et Bt.
    destruct (span_pieces_ok (fun t => flat_map (fun y => flat_map (fun z => if in_bounds lo up (f t y z) then [(t, y, z)] else [])
       (range left right)) (range top bottom)) stride (end_ - start) (S (end_ - start)) i x 0)
      as (pieces & E & F & HP); [lia|lia|lia|].
    rewrite E. cbn [bind].
    set (body := fun y : nat * nat * nat * nat => let '(sp, instant, len, off) := y in _).
    set (h := fun '(sp', i, len, off) => flat_map (fun t => flat_map (fun y => flat_map (fun z =>
        if in_bounds lo up (f (sp' * stride + t) y z) then [(sp' * stride + t, y, z)] else [])
       (range left right)) (range top bottom)) (range i (i + len))) in F.
    assert (Hbody : forall y, In y pieces -> exists out, body y = Ok (map inr out) /\ Permutation out (h y)).
    2:{ assert (G : exists out, flat_mapM body pieces = Ok (map inr out) /\ Permutation out (flat_map h pieces)).
        { clear -Hbody. induction pieces as [|y l IH]; cbn [flat_mapM flat_map].
          - exists []. split; [reflexivity|constructor].
          - destruct (Hbody y (or_introl eq_refl)) as (o1 & E1 & P1).
            destruct IH as (o2 & E2 & P2); [intros x Hx; apply Hbody; right; exact Hx|].
            exists (o1 ++ o2). rewrite E1. cbn [bind]. rewrite E2. cbn [bind]. rewrite map_app.
            split; [reflexivity|]. apply Permutation_app; assumption. }
        destruct G as (out & Eo & P). exists out. split; [exact Eo|]. rewrite P. clear Eo P Hbody body.
        rewrite F, search3_region. unfold region.
        replace (range start end_) with (range (i * stride + x) (i * stride + x + (end_ - start - 0))) by (f_equal; lia).
        reflexivity. }
    intros [[[sp' i'] len] off] Hin. specialize (HP _ _ _ _ Hin). unfold body, h. clear body h F E.
    destruct (Hsubs sp' ltac:(lia)) as (ci & m & E1 & E2 & V). rewrite E1. cbn [bind]. rewrite E2. cbn [bind].
    destruct (sv_all _ _ _ _ _ _ _ V fuel i' (i' + len) top bottom left right lower upper) as (out & Eo & P);
      [lia|lia|unfold sub_instants; lia|exact Hw|].
    rewrite Eo. cbn [bind or_error].
    exists (map (fun '(a, b, c) => (sp' * stride + a, b, c)) out). split.
    - f_equal. rewrite !map_map. apply map_ext. intros [[a b] c]. cbn [shift_item]. rewrite !Nat.add_0_r. reflexivity.
    - rewrite P, search3_region, map_region. unfold region. erewrite flat_map_ext_in; [reflexivity|]. intros t Ht. cbn beta.
      apply flat_map_ext_in. intros y _. apply flat_map_ext_in. intros z _. unfold later. fold lo up.
      destruct (in_bounds lo up (f (sp' * stride + t) y z)); reflexivity.
  Qed.

  Lemma span_finds_part : finds_part st (S d) (MSpan s) n rows cols f.
  Proof using Hstride Hsubs.
    intros part fuel start end_ top bottom left right lower upper HF HI Hf H1 H2 Hw.
    destruct fuel as [|fuel]; [lia|]. cbn [mm_search].
    pose proof Hw as (W1 & W2 & W3 & W4). set (lo := Z.min lower upper). set (up := Z.max lower upper).
    rewrite cube_new_eq by lia. unfold cube_instants. cbn [c_start c_end c_top c_bottom c_left c_right].
    rewrite usub_ok by lia. cbn [bind]. unfold span_pieces_for, find_span.
    rewrite udiv_ok, umod_ok by lia. cbn [bind fst snd].
    pose proof (Nat.div_mod start stride ltac:(lia)) as Et. pose proof (Nat.mod_upper_bound start stride ltac:(lia)) as Bt.
    revert Et Bt. generalize (start / stride) (start mod stride). intros i x Et Bt.
    destruct (span_pieces_ok (fun t => [t]) stride (end_ - start) (S (end_ - start)) i x 0)
      as (pieces & E & F & HP); [lia|lia|lia|].
    rewrite E. cbn [bind].
    set (body := fun y : nat * nat * nat * nat => let '(sp, instant, len, off) := y in _).
    assert (Hbody : forall sp' i' len off, In (sp', i', len, off) pieces -> exists y, body (sp', i', len, off) = Ok y /\
      forall t r c v, i' <= t < i' + len -> top <= r < bottom -> left <= c < right ->
        mm_get part (S fuel) (MSpan s) (sp' * stride + t) r c 0 = Ok v ->
        in_bounds lo up (f (sp' * stride + t) r c) = true -> In (inr (sp' * stride + t, r, c)) y).
    2:{ destruct (flat_mapM_all body pieces) as (out & Eo).
        { intros [[[sp' i'] len] off] Hin. destruct (Hbody _ _ _ _ Hin) as (y & Ey & _). eauto. }
        exists out. split; [exact Eo|]. destruct (in_flat_mapM body pieces out Eo) as [_ HZ]. clear Eo.
        intros t r c v Ht Hr Hc Eg Hb. apply HZ. clear HZ.
        assert (Hin : In t (flat_map (fun t => [t]) (range (i * stride + x) (i * stride + x + (end_ - start - 0))))).
        { apply in_flat_map. exists t. split; [apply in_range; lia|left; reflexivity]. }
        rewrite <- F in Hin. apply in_flat_map in Hin. destruct Hin as ([[[sp' i'] len] off] & Hin & Hx).
        apply in_flat_map in Hx. destruct Hx as (t' & Ht' & [Hx|[]]). apply in_range in Ht'.
        destruct (Hbody _ _ _ _ Hin) as (y & Ey & K). exists (sp', i', len, off), y. split; [exact Hin|]. split; [exact Ey|].
        specialize (K t' r c v Ht' Hr Hc). rewrite Hx in K. apply K; assumption. }
    intros sp' i' len off Hin. specialize (HP _ _ _ _ Hin). unfold body. clear body F E.
    destruct (Hsubs sp' ltac:(lia)) as (ci & m & E1 & E2 & V). rewrite E1. cbn [bind].
    assert (EG : forall y r c, i' <= y < i' + len -> mm_get part (S fuel) (MSpan s) (sp' * stride + y) r c 0 =
      (m' <- get_mm part ci ;; mm_get part fuel m' y r c (mm_fbits m'))).
    { intros y r c Hy. cbn [mm_get]. unfold find_span. rewrite udiv_ok, umod_ok by lia. cbn [bind fst snd].
      rewrite (Nat.add_comm (sp' * stride)), Nat.div_add, Nat.mod_add, Nat.div_small, Nat.mod_small by lia. cbn [Nat.add].
      rewrite E1. reflexivity. }
    destruct (get_mm_part part st ci m HI HF E2) as [Em|Em]; rewrite Em; cbn [bind].
    - destruct (sv_part _ _ _ _ _ _ _ V part fuel i' (i' + len) top bottom left right lower upper HF HI) as (out & Eo & P);
        [lia|lia|unfold sub_instants; lia|exact Hw|].
      rewrite Eo. cbn [bind or_error]. eexists. split; [reflexivity|]. intros t r c v Ht Hr Hc Eg Hb.
      rewrite EG, Em in Eg by exact Ht. cbn [bind] in Eg. apply in_map_iff. exists (inr (t, r, c)). split.
      + cbn [shift_item]. rewrite !Nat.add_0_r. reflexivity.
      + exact (P t r c v Ht Hr Hc Eg Hb).
    - cbn [or_error]. eexists. split; [reflexivity|]. intros t r c v Ht Hr Hc Eg _. exfalso.
      rewrite EG, Em in Eg by exact Ht. discriminate.
  Qed.

  Lemma span_sview : sview st (S d) (MSpan s) n rows cols f.
  Proof using Hstride Hsubs. constructor; [exact span_finds_all|exact span_finds_part]. Qed.
End SpanSearch.
