(** * Proofs about the geometry model, and the tiling lemma used by every
    recursive window walk. *)
From Verif Require Import Base BaseFacts Spec GeomModel.
Ltac Zify.zify_post_hook ::= Z.div_mod_to_equations.

Lemma rearrange_spec a b : rearrange a b = (Nat.min a b, Nat.max a b).
Proof. unfold rearrange. destruct (Nat.ltb_spec b a); f_equal; lia. Qed.

Lemma rearrangeZ_spec a b : rearrangeZ a b = (Z.min a b, Z.max a b).
Proof. unfold rearrangeZ. destruct (Z.ltb_spec b a); f_equal; lia. Qed.

Lemma rect_new_spec t b l r :
  rect_new t b l r = mkRect (Nat.min t b) (Nat.max t b) (Nat.min l r) (Nat.max l r).
Proof. unfold rect_new. rewrite !rearrange_spec. reflexivity. Qed.

Lemma cube_new_spec s e t b l r :
  cube_new s e t b l r =
  mkCube (Nat.min s e) (Nat.max s e) (Nat.min t b) (Nat.max t b) (Nat.min l r) (Nat.max l r).
Proof. unfold cube_new. rewrite !rearrange_spec. reflexivity. Qed.

(** ** Cells *)
Lemma in_cells t b l r x y : In (x, y) (cells t b l r) <-> t <= x < b /\ l <= y < r.
Proof.
  unfold cells. rewrite in_flat_map. split.
  - intros (z & Hz & Hin). apply in_map_iff in Hin. destruct Hin as (c & E & Hc).
    injection E as -> ->. rewrite in_range in Hz, Hc. lia.
  - intros [Hx Hy]. exists x. rewrite in_range. split; [lia|].
    apply in_map. rewrite in_range. lia.
Qed.

Lemma length_cells t b l r : length (cells t b l r) = (b - t) * (r - l).
Proof.
  unfold cells. rewrite <- (length_range t b).
  induction (range t b) as [|x xs IH]; cbn [flat_map length Nat.mul]; [reflexivity|].
  rewrite app_length, map_length, length_range, IH. reflexivity.
Qed.

Lemma NoDup_map_inj_in {A B} (f : A -> B) l :
  (forall x y, In x l -> In y l -> f x = f y -> x = y) -> NoDup l -> NoDup (map f l).
Proof.
  induction l as [|x xs IH]; intros Hf Hn; cbn [map]; [constructor|].
  inversion Hn as [|? ? Hx Hxs]; subst. constructor.
  - intros Hin. apply in_map_iff in Hin. destruct Hin as (y & E & Hy).
    apply Hf in E; [subst; auto|right; exact Hy|left; reflexivity].
  - apply IH; [|exact Hxs]. intros y z Hy Hz. apply Hf; right; assumption.
Qed.

Lemma NoDup_flat_map {A B} (f : A -> list B) l :
  NoDup l -> (forall x, In x l -> NoDup (f x)) ->
  (forall x y z, In x l -> In y l -> In z (f x) -> In z (f y) -> x = y) -> NoDup (flat_map f l).
Proof.
  induction l as [|x xs IH]; intros Hn Hd Hdis; cbn [flat_map]; [constructor|].
  inversion Hn as [|? ? Hx Hxs]; subst.
  assert (H1 : NoDup (flat_map f xs)).
  { apply IH; auto.
    - intros y Hy; apply Hd; right; exact Hy.
    - intros y y' z Hy Hy'. apply Hdis; right; assumption. }
  assert (H0 : NoDup (f x)) by (apply Hd; left; reflexivity).
  revert H0. assert (Hall : forall z, In z (f x) -> ~ In z (flat_map f xs)).
  { intros z Hz Hin. apply in_flat_map in Hin. destruct Hin as (y & Hy & Hzy).
    apply Hx. rewrite (Hdis x y z); auto; [left; reflexivity|right; exact Hy]. }
  clear - H1 Hall. induction (f x) as [|z zs IHz]; intros H0; cbn [app]; [exact H1|].
  inversion H0; subst. constructor.
  - rewrite in_app_iff. intros [Hz|Hz]; [auto|]. apply (Hall z); [left; reflexivity|exact Hz].
  - apply IHz; [|assumption]. intros w Hw; apply Hall; right; exact Hw.
Qed.

Lemma NoDup_cells t b l r : NoDup (cells t b l r).
Proof.
  apply NoDup_flat_map.
  - apply seq_NoDup.
  - intros x _. apply NoDup_map_inj_in; [congruence|apply seq_NoDup].
  - intros x y z _ _ Hx Hy. apply in_map_iff in Hx, Hy.
    destruct Hx as (c & <- & _), Hy as (c' & E & _). congruence.
Qed.

(** ** Iterating a rectangle *)
Lemma seq_snoc_split a n : seq a (S n) = a :: seq (S a) n.
Proof. reflexivity. Qed.

Lemma rect_iter_row fuel row col left bottom right rest :
  row < bottom -> col < right ->
  (exists f', fuel = (right - col) + f' /\
    rect_iter_run f' (mkRectIter (row + 1) left left bottom right) = Ok rest) ->
  rect_iter_run fuel (mkRectIter row col left bottom right) =
  Ok (map (fun c => (row, c)) (range col right) ++ rest).
Proof.
  intros Hr. remember (right - col) as n eqn:En. revert fuel col En.
  induction n as [|n IH]; intros fuel col En Hc (f' & -> & Hrest); [lia|].
  cbn [Nat.add rect_iter_run]. unfold rect_iter_next. cbn [it_row it_col it_left it_bottom it_right].
  destruct (Nat.ltb_spec row bottom); [|lia].
  unfold range. replace (right - col) with (S n) by lia. rewrite seq_snoc_split. cbn [map app].
  destruct (Nat.eqb_spec (col + 1) right) as [E|E].
  - replace n with 0 in * by lia. cbn [Nat.add]. rewrite Hrest. reflexivity.
  - rewrite IH; [|lia|lia|exists f'; auto].
    cbn [bind]. do 3 f_equal. unfold range. f_equal. f_equal; lia.
Qed.

Lemma rect_iter_run_ok n : forall row left bottom right f,
  n = bottom - row -> left < right -> n * (right - left) < f ->
  rect_iter_run f (mkRectIter row left left bottom right) = Ok (cells row bottom left right).
Proof.
  induction n as [|n IH]; intros row left bottom right f Hn Hl Hf.
  - destruct f as [|f]; [lia|]. cbn [rect_iter_run]. unfold rect_iter_next.
    cbn [it_row it_col it_left it_bottom it_right].
    destruct (Nat.ltb_spec row bottom); [lia|].
    unfold cells, range. replace (bottom - row) with 0 by lia. reflexivity.
  - rewrite (rect_iter_row f row left left bottom right (cells (row + 1) bottom left right)); [|lia|lia|].
    + f_equal. unfold cells at 2. unfold range at 3. rewrite <- Hn, seq_snoc_split. cbn [flat_map].
      f_equal. unfold cells, range. f_equal. f_equal; lia.
    + exists (f - (right - left)). split; [nia|]. apply IH; [lia|lia|nia].
Qed.

Lemma rect_cells_ok r : r_left r < r_right r ->
  rect_cells r = Ok (cells (r_top r) (r_bottom r) (r_left r) (r_right r)).
Proof. intros H. apply rect_iter_run_ok with (n := r_bottom r - r_top r); lia. Qed.

(** A rectangle without columns but with rows is never exhausted. *)
Lemma rect_iter_run_diverges fuel row col left bottom right :
  row < bottom -> right <= col ->
  rect_iter_run fuel (mkRectIter row col left bottom right) = Diverge.
Proof.
  revert col. induction fuel as [|fuel IH]; intros col Hr Hc; [reflexivity|].
  cbn [rect_iter_run]. unfold rect_iter_next. cbn [it_row it_col it_left it_bottom it_right].
  destruct (Nat.ltb_spec row bottom); [|lia].
  destruct (Nat.eqb_spec (col + 1) right); [lia|].
  rewrite IH by lia. reflexivity.
Qed.

(** ** Tiling: cutting [a..=b] into tiles of [s] loses and repeats nothing. *)
Lemma tiles_clip a b s m : forall i0,
  flat_map (fun i => seq (Nat.min (S b) (Nat.max a (i * s)))
                         (Nat.min (S b) (Nat.max a (S i * s)) - Nat.min (S b) (Nat.max a (i * s))))
           (seq i0 m)
  = seq (Nat.min (S b) (Nat.max a (i0 * s)))
        (Nat.min (S b) (Nat.max a ((i0 + m) * s)) - Nat.min (S b) (Nat.max a (i0 * s))).
Proof.
  induction m as [|m IH]; intros i0; cbn [seq flat_map].
  - rewrite Nat.add_0_r, Nat.sub_diag. reflexivity.
  - rewrite IH. replace (S i0 + m) with (i0 + S m) by lia.
    set (x := Nat.min (S b) (Nat.max a (i0 * s))).
    set (y := Nat.min (S b) (Nat.max a (S i0 * s))).
    set (z := Nat.min (S b) (Nat.max a ((i0 + S m) * s))).
    assert (x <= y) by (unfold x, y; nia). assert (y <= z) by (unfold y, z; nia).
    replace (z - x) with ((y - x) + (z - y)) by lia. rewrite seq_app.
    replace (x + (y - x)) with y by lia. reflexivity.
Qed.

(** The shape produced by the code: tile [i], relative to its own origin. *)
Lemma tiles_1d a b s off :
  0 < s -> a <= b ->
  flat_map (fun i => map (fun x => off + i * s + x)
                         (range_incl (a - i * s) (Nat.min (s - 1) (b - i * s))))
           (range_incl (a / s) (b / s))
  = map (fun x => off + x) (range_incl a b).
Proof.
  intros Hs Hab.
  transitivity (map (fun x => off + x)
     (flat_map (fun i => seq (Nat.min (S b) (Nat.max a (i * s)))
                         (Nat.min (S b) (Nat.max a (S i * s)) - Nat.min (S b) (Nat.max a (i * s))))
           (range_incl (a / s) (b / s)))).
  - rewrite map_flat_map. apply flat_map_ext_in. intros i Hi. rewrite in_range_incl in Hi.
    assert (Hi1 : i * s <= b) by nia.
    assert (Hi2 : a < S i * s).
    { assert (a / s <= i) by lia. assert (a < s * S (a / s)) by (apply Nat.mul_succ_div_gt; lia). nia. }
    replace (Nat.min (S b) (Nat.max a (i * s))) with (i * s + (a - i * s)) by lia.
    unfold range_incl.
    replace (Nat.min (S b) (Nat.max a (S i * s)) - (i * s + (a - i * s)))
      with (S (Nat.min (s - 1) (b - i * s)) - (a - i * s)) by lia.
    generalize (S (Nat.min (s - 1) (b - i * s)) - (a - i * s)) as n.
    generalize (a - i * s) as x0. intros x0 n. revert x0.
    induction n as [|n IH]; intros x0; cbn [seq map]; [reflexivity|].
    f_equal; [lia|]. rewrite IH. f_equal. f_equal. lia.
  - f_equal. unfold range_incl at 1. rewrite tiles_clip.
    assert (H1 : a / s * s <= a) by (rewrite Nat.mul_comm; apply Nat.mul_div_le; lia).
    assert (H2 : b < s * S (b / s)) by (apply Nat.mul_succ_div_gt; lia).
    assert (H3 : a / s <= b / s) by (apply Nat.div_le_mono; lia).
    replace (a / s + (S (b / s) - a / s)) with (S (b / s)) by lia.
    unfold range_incl. f_equal; nia.
Qed.

(** Two-dimensional version, for any per-cell output. *)
Lemma tiles_2d {A} (f : nat -> nat -> list A) top bottom left right s ro co :
  0 < s -> top <= bottom -> left <= right ->
  Permutation
    (flat_map (fun i => flat_map (fun j =>
        flat_map (fun r => flat_map (fun c => f (ro + i * s + r) (co + j * s + c))
            (range_incl (left - j * s) (Nat.min (s - 1) (right - j * s))))
          (range_incl (top - i * s) (Nat.min (s - 1) (bottom - i * s))))
        (range_incl (left / s) (right / s)))
      (range_incl (top / s) (bottom / s)))
    (flat_map (fun r => flat_map (fun c => f (ro + r) (co + c)) (range_incl left right))
       (range_incl top bottom)).
Proof.
  intros Hs Ht Hl.
  transitivity
    (flat_map (fun r => flat_map (f r) (map (fun c => co + c) (range_incl left right)))
       (map (fun r => ro + r) (range_incl top bottom))).
  2:{ rewrite flat_map_map. apply flat_map_perm_in. intros r _. rewrite flat_map_map. reflexivity. }
  rewrite <- (tiles_1d top bottom s ro) by assumption.
  rewrite <- (tiles_1d left right s co) by assumption.
  rewrite flat_map_flat_map. apply flat_map_perm_in. intros i _.
  rewrite flat_map_swap. rewrite flat_map_map. apply flat_map_perm_in. intros r _.
  rewrite flat_map_flat_map. apply flat_map_perm_in. intros j _.
  rewrite flat_map_map. reflexivity.
Qed.

Lemma cells_flat top bottom left right : top < bottom -> left < right ->
  cells top bottom left right =
  flat_map (fun r => flat_map (fun c => [(r, c)]) (range_incl left (right - 1))) (range_incl top (bottom - 1)).
Proof.
  intros Ht Hl. unfold cells, range, range_incl.
  replace (S (bottom - 1) - top) with (bottom - top) by lia.
  replace (S (right - 1) - left) with (right - left) by lia.
  apply flat_map_ext. intros r. generalize (seq left (right - left)). intros l.
  induction l as [|c l IH]; cbn [map flat_map app]; [reflexivity|]. rewrite IH. reflexivity.
Qed.

Lemma window_spec_nodup g top bottom left right : NoDup (map fst (window_spec g top bottom left right)).
Proof.
  unfold window_spec. rewrite map_map. cbn [fst]. apply NoDup_map_inj_in; [|apply NoDup_cells].
  intros [r c] [r' c'] H1 H2 E. cbn [fst snd] in E. apply in_cells in H1, H2. injection E as E1 E2.
  f_equal; lia.
Qed.
