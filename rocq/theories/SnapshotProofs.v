(** * Proofs about the snapshot model. *)
From Verif Require Import Base BaseFacts BitmapModel BitmapProofs DacModel DacProofs
  Spec GeomModel GeomProofs SnapshotModel Bfs.
Ltac Zify.zify_post_hook ::= Z.div_mod_to_equations.

Arguments Nat.pow : simpl never.

(** ** The temporary tree *)
Definition mx (x : k2node) : Z := or0 (n_max x).
Definition mn (x : k2node) : Z := or0 (n_min x).

Fixpoint krep (g : nat -> nat -> Z) (rows cols k h row col : nat) (x : k2node) : Prop :=
  ((forall r c, row <= r < row + k ^ h -> col <= c < col + k ^ h -> r < rows -> c < cols ->
     exists m M, n_min x = Some m /\ n_max x = Some M /\ (m <= g r c <= M)%Z) /\
   (forall v, n_max x = Some v \/ n_min x = Some v ->
     exists r c, row <= r < row + k ^ h /\ col <= c < col + k ^ h /\ r < rows /\ c < cols /\ g r c = v)) /\
  i64_range (mx x) /\ i64_range (mn x) /\
  match h with
  | 0 => n_children x = [] /\ n_min x = n_max x
  | S h' => length (n_children x) = k * k /\
      forall i j y, i < k -> j < k -> nth_error (n_children x) (i * k + j) = Some y ->
        krep g rows cols k h' (row + i * k ^ h') (col + j * k ^ h') y
  end.

Lemma merge_max_fold l : forall acc,
  let m := fold_left (fun m c => merge_max m (n_max c)) l acc in
  (forall a, acc = Some a -> exists M, m = Some M /\ (a <= M)%Z) /\
  (forall x a, In x l -> n_max x = Some a -> exists M, m = Some M /\ (a <= M)%Z) /\
  (forall M, m = Some M -> acc = Some M \/ exists x, In x l /\ n_max x = Some M).
Proof.
  induction l as [|y l IH]; intros acc; cbn [fold_left].
  - split; [|split].
    + intros a ->. exists a. split; [reflexivity|lia].
    + intros x a [].
    + intros M ->. left; reflexivity.
  - destruct (IH (merge_max acc (n_max y))) as (H1 & H2 & H3). clear IH. split; [|split].
    + intros a ->. unfold merge_max in *. destruct (n_max y) as [c|]; [|apply H1; reflexivity].
      destruct (Z.ltb_spec a c).
      * destruct (H1 c eq_refl) as (M & EM & HM). exists M. split; [exact EM|lia].
      * apply H1. reflexivity.
    + intros x a [->|Hin] Hx; [|eapply H2; eauto].
      unfold merge_max in *. rewrite Hx in *. destruct acc as [b|]; [|apply H1; reflexivity].
      destruct (Z.ltb_spec b a).
      * apply H1. reflexivity.
      * destruct (H1 b eq_refl) as (M & EM & HM). exists M. split; [exact EM|lia].
    + intros M HM. destruct (H3 M HM) as [E|(x & Hin & Hx)].
      * unfold merge_max in E. destruct (n_max y) as [c|] eqn:Ey; [|left; exact E].
        destruct acc as [b|]; [destruct (Z.ltb_spec b c)|].
        -- right. exists y. split; [left; reflexivity|congruence].
        -- left. exact E.
        -- right. exists y. split; [left; reflexivity|congruence].
      * right. exists x. split; [right; exact Hin|exact Hx].
Qed.

Lemma merge_min_fold l : forall acc,
  let m := fold_left (fun m c => merge_min m (n_min c)) l acc in
  (forall a, acc = Some a -> exists M, m = Some M /\ (M <= a)%Z) /\
  (forall x a, In x l -> n_min x = Some a -> exists M, m = Some M /\ (M <= a)%Z) /\
  (forall M, m = Some M -> acc = Some M \/ exists x, In x l /\ n_min x = Some M).
Proof.
  induction l as [|y l IH]; intros acc; cbn [fold_left].
  - split; [|split].
    + intros a ->. exists a. split; [reflexivity|lia].
    + intros x a [].
    + intros M ->. left; reflexivity.
  - destruct (IH (merge_min acc (n_min y))) as (H1 & H2 & H3). clear IH. split; [|split].
    + intros a ->. unfold merge_min in *. destruct (n_min y) as [c|]; [|apply H1; reflexivity].
      destruct (Z.ltb_spec c a).
      * destruct (H1 c eq_refl) as (M & EM & HM). exists M. split; [exact EM|lia].
      * apply H1. reflexivity.
    + intros x a [->|Hin] Hx; [|eapply H2; eauto].
      unfold merge_min in *. rewrite Hx in *. destruct acc as [b|]; [|apply H1; reflexivity].
      destruct (Z.ltb_spec a b).
      * apply H1. reflexivity.
      * destruct (H1 b eq_refl) as (M & EM & HM). exists M. split; [exact EM|lia].
    + intros M HM. destruct (H3 M HM) as [E|(x & Hin & Hx)].
      * unfold merge_min in E. destruct (n_min y) as [c|] eqn:Ey; [|left; exact E].
        destruct acc as [b|]; [destruct (Z.ltb_spec c b)|].
        -- right. exists y. split; [left; reflexivity|congruence].
        -- left. exact E.
        -- right. exists y. split; [left; reflexivity|congruence].
      * right. exists x. split; [right; exact Hin|exact Hx].
Qed.

Lemma pow_pos k h : 2 <= k -> 0 < k ^ h.
Proof. intros H. assert (k ^ h <> 0) by (apply Nat.pow_nonzero; lia). lia. Qed.

Lemma i64_range_0 : i64_range 0.
Proof. unfold i64_range, two63. lia. Qed.

Lemma krep_range g rows cols k h row col x :
  krep g rows cols k h row col x -> i64_range (mx x) /\ i64_range (mn x).
Proof. destruct h; cbn [krep]; intros (_ & H1 & H2 & _); split; assumption. Qed.

Lemma krep_bounds g rows cols k h row col x :
  krep g rows cols k h row col x ->
  forall r c, row <= r < row + k ^ h -> col <= c < col + k ^ h -> r < rows -> c < cols ->
     (mn x <= g r c <= mx x)%Z.
Proof.
  destruct h; cbn [krep]; intros ((HB & _) & _) r c H1 H2 H3 H4;
    destruct (HB r c H1 H2 H3 H4) as (m & M & Em & EM & Hle);
    unfold mx, mn; rewrite Em, EM; exact Hle.
Qed.

(** The extremes are attained. *)
Lemma krep_attained g rows cols k h row col x :
  krep g rows cols k h row col x -> row < rows -> col < cols -> 0 < k ^ h ->
  (exists r c, row <= r < row + k ^ h /\ col <= c < col + k ^ h /\ r < rows /\ c < cols /\ g r c = mx x) /\
  (exists r c, row <= r < row + k ^ h /\ col <= c < col + k ^ h /\ r < rows /\ c < cols /\ g r c = mn x).
Proof.
  intros H Hr Hc Hp.
  assert (HH : (forall r c, row <= r < row + k ^ h -> col <= c < col + k ^ h -> r < rows -> c < cols ->
     exists m M, n_min x = Some m /\ n_max x = Some M /\ (m <= g r c <= M)%Z) /\
   (forall v, n_max x = Some v \/ n_min x = Some v ->
     exists r c, row <= r < row + k ^ h /\ col <= c < col + k ^ h /\ r < rows /\ c < cols /\ g r c = v)).
  { destruct h; apply H. }
  destruct HH as [HB HA].
  destruct (HB row col ltac:(lia) ltac:(lia) Hr Hc) as (m & M & Em & EM & _).
  unfold mx, mn. rewrite Em, EM. cbn [or0]. split; apply HA; auto.
Qed.

(** The sub-square of a cell. *)
Lemma sub_square k s row r :
  0 < s -> row <= r < row + k * s ->
  (r - row) / s < k /\ row + (r - row) / s * s <= r < row + (r - row) / s * s + s.
Proof.
  intros Hs Hr.
  assert (H1 : (r - row) / s < k) by (apply Nat.div_lt_upper_bound; nia).
  pose proof (Nat.div_mod (r - row) s ltac:(lia)) as H2.
  pose proof (Nat.mod_upper_bound (r - row) s ltac:(lia)) as H3.
  split; [exact H1|]. nia.
Qed.

Lemma k2_build_ok g rows cols k : 2 <= k -> i64_raster g rows cols ->
  forall h fuel row col, h <= fuel ->
  exists x, k2_build fuel g rows cols k (k ^ h) row col = Ok x /\ krep g rows cols k h row col x.
Proof.
  intros Hk Hg. induction h as [|h IH]; intros fuel row col Hf.
  - change (k ^ 0) with 1.
    assert (E : k2_build fuel g rows cols k 1 row col =
      Ok (let v := if (row <? rows) && (col <? cols) then Some (g row col) else None in K2Node v v [])).
    { destruct fuel; reflexivity. }
    rewrite E. eexists. split; [reflexivity|].
    change (k ^ 0) with 1. cbn zeta. cbn [krep n_max n_min n_children]. unfold mx, mn. cbn [n_max n_min].
    assert (HR : i64_range (or0 (if (row <? rows) && (col <? cols) then Some (g row col) else None))).
    { destruct (Nat.ltb_spec row rows), (Nat.ltb_spec col cols); cbn [andb or0];
        try apply i64_range_0. apply Hg; assumption. }
    split; [|split; [exact HR|split; [exact HR|split; reflexivity]]].
    change (k ^ 0) with 1.
    split.
    2:{ intros v Hv.
        assert (Hv' : (if (row <? rows) && (col <? cols) then Some (g row col) else None) = Some v)
          by (destruct Hv; assumption).
        destruct (Nat.ltb_spec row rows), (Nat.ltb_spec col cols); cbn [andb] in Hv'; try discriminate.
        injection Hv' as Hv'. exists row, col. repeat split; try lia. }
    intros r c H1 H2 H3 H4. replace r with row in * by lia. replace c with col in * by lia.
    destruct (Nat.ltb_spec row rows); [|lia]. destruct (Nat.ltb_spec col cols); [|lia]. cbn [andb].
    do 2 eexists. split; [reflexivity|]. split; [reflexivity|]. lia.
  - destruct fuel as [|fuel]; [lia|].
    assert (Hp : 0 < k ^ h) by (apply pow_pos; exact Hk).
    rewrite Nat.pow_succ_r'. cbn [k2_build].
    destruct (Nat.eqb_spec (k * k ^ h) 1) as [E1|_]; [nia|].
    rewrite udiv_ok by lia. cbn [bind].
    replace (k * k ^ h / k) with (k ^ h) by (rewrite Nat.mul_comm, Nat.div_mul; lia).
    destruct (mapM_exists
       (fun ij x => krep g rows cols k h (row + fst ij * k ^ h) (col + snd ij * k ^ h) x)
       (fun '(i, j) => k2_build fuel g rows cols k (k ^ h) (row + i * k ^ h) (col + j * k ^ h))
       (grid k)) as (ch & Ech & HF).
    { intros [i j] _. apply IH. lia. }
    rewrite Ech. cbn [bind].
    assert (Hlen : length ch = k * k) by (rewrite <- (Forall2_length _ _ _ HF); apply length_grid).
    destruct ch as [|c0 ch]; [cbn [length] in Hlen; nia|].
    cbn [nth_res nth_error bind tl]. unfold nth_res. cbn [nth_error bind].
    eexists. split; [reflexivity|].
    pose proof (merge_max_fold ch (n_max c0)) as (M1 & M2 & M3).
    pose proof (merge_min_fold ch (n_min c0)) as (N1 & N2 & N3).
    set (M := fold_left (fun m c => merge_max m (n_max c)) ch (n_max c0)) in *.
    set (N := fold_left (fun m c => merge_min m (n_min c)) ch (n_min c0)) in *.
    cbn [krep n_max n_min n_children]. unfold mx, mn. cbn [n_max n_min].
    assert (HFr : forall x, In x (c0 :: ch) -> i64_range (mx x) /\ i64_range (mn x)).
    { intros x Hx. apply In_nth_error in Hx. destruct Hx as (i & Hi).
      destruct (Forall2_nth_error _ _ _ _ _ HF Hi) as ([a b] & _ & Hrep).
      eapply krep_range. exact Hrep. }
    split; [split|split; [|split; [|split]]].
    + intros r c Hr Hc Hr2 Hc2.
      rewrite Nat.pow_succ_r' in Hr, Hc.
      destruct (sub_square k (k ^ h) row r Hp Hr) as (Hi & Hri).
      destruct (sub_square k (k ^ h) col c Hp Hc) as (Hj & Hcj).
      set (i := (r - row) / k ^ h) in *. set (j := (c - col) / k ^ h) in *.
      destruct (Forall2_nth_error_l _ _ _ _ _ HF (nth_error_grid k i j Hi Hj)) as (x & Hx & Hrep).
      cbn [fst snd] in Hrep.
      assert (HB : exists m M, n_min x = Some m /\ n_max x = Some M /\ (m <= g r c <= M)%Z).
      { destruct h; cbn [krep] in Hrep; apply (proj1 (proj1 Hrep)); auto; lia. }
      destruct HB as (m & M' & Em & EM & Hle). apply nth_error_In in Hx.
      assert (A : exists z, M = Some z /\ (M' <= z)%Z).
      { destruct Hx as [<-|Hx]; [apply M1; exact EM|eapply M2; eauto]. }
      assert (B : exists z, N = Some z /\ (z <= m)%Z).
      { destruct Hx as [<-|Hx]; [apply N1; exact Em|eapply N2; eauto]. }
      destruct A as (z1 & A1 & A2), B as (z2 & B1 & B2). exists z2, z1.
      split; [exact B1|]. split; [exact A1|]. lia.
    + intros v Hv.
      assert (HA : exists x, In x (c0 :: ch) /\ (n_max x = Some v \/ n_min x = Some v)).
      { destruct Hv as [Hv|Hv].
        - destruct (M3 v Hv) as [E|(x & Hin & E)]; [exists c0|exists x]; split; auto; [left; reflexivity|right; exact Hin].
        - destruct (N3 v Hv) as [E|(x & Hin & E)]; [exists c0|exists x]; split; auto; [left; reflexivity|right; exact Hin]. }
      destruct HA as (x & Hin & HA). apply In_nth_error in Hin. destruct Hin as (n & Hn).
      destruct (Forall2_nth_error _ _ _ _ _ HF Hn) as ([i j] & Eg & Hrep). cbn [fst snd] in Hrep.
      apply nth_error_In, in_grid in Eg. destruct Eg as [Hi Hj].
      assert (HC : exists r c, row + i * k ^ h <= r < row + i * k ^ h + k ^ h /\
        col + j * k ^ h <= c < col + j * k ^ h + k ^ h /\ r < rows /\ c < cols /\ g r c = v).
      { destruct h; cbn [krep] in Hrep; apply (proj2 (proj1 Hrep)); exact HA. }
      destruct HC as (r & c & R1 & R2 & R3 & R4 & R5). exists r, c.
      rewrite !Nat.pow_succ_r'.
      pose proof (Nat.mul_le_mono_r (S i) k (k ^ h) Hi). pose proof (Nat.mul_le_mono_r (S j) k (k ^ h) Hj).
      repeat split; try assumption; lia.
    + destruct M as [z|]; [|apply i64_range_0]. cbn [or0].
      destruct (M3 z eq_refl) as [E|(x & Hin & E)].
      * destruct (HFr c0 (or_introl eq_refl)) as [H _]. unfold mx in H. rewrite E in H. exact H.
      * destruct (HFr x (or_intror Hin)) as [H _]. unfold mx in H. rewrite E in H. exact H.
    + destruct N as [z|]; [|apply i64_range_0]. cbn [or0].
      destruct (N3 z eq_refl) as [E|(x & Hin & E)].
      * destruct (HFr c0 (or_introl eq_refl)) as [_ H]. unfold mn in H. rewrite E in H. exact H.
      * destruct (HFr x (or_intror Hin)) as [_ H]. unfold mn in H. rewrite E in H. exact H.
    + exact Hlen.
    + intros i j y Hi Hj Hy.
      destruct (Forall2_nth_error _ _ _ _ _ HF Hy) as ([i' j'] & E & Hrep).
      rewrite nth_error_grid in E by assumption. injection E as <- <-. exact Hrep.
Qed.

(** ** The traversal *)
Definition e_node (e : snap_entry) : k2node := snd e.
Definition e_dmax (e : snap_entry) : Z := fst (fst e).
Definition e_dmin (e : snap_entry) : Z := snd (fst e).

Definition has_children (x : k2node) : bool := match n_children x with [] => false | _ => true end.
Definition k_branch (x : k2node) : bool := has_children x && negb (mn x =? mx x)%Z.

Definition s_kids (e : snap_entry) : list snap_entry :=
  if k_branch (e_node e)
  then map (fun d => (i64_sub (mx (e_node e)) (mx d), i64_sub (mn d) (mn (e_node e)), d))
           (n_children (e_node e))
  else [].

Definition s_upd (st : builder * list Z * list Z) (e : snap_entry) : builder * list Z * list Z :=
  let '(nm, mxs, mns) := st in
  (if has_children (e_node e) then builder_push nm (k_branch (e_node e)) else nm,
   mxs ++ [e_dmax e],
   if k_branch (e_node e) then mns ++ [e_dmin e] else mns).

Lemma snap_body_eq st e : snap_body st e = (s_upd st e, s_kids e).
Proof.
  destruct st as [[nm mxs] mns], e as [[dM dm] x].
  unfold snap_body, s_upd, s_kids, k_branch, has_children, e_node, e_dmax, e_dmin, mx, mn. cbn [fst snd].
  destruct (n_children x) as [|c ch]; [reflexivity|]. cbn [andb].
  destruct (or0 (n_min x) =? or0 (n_max x))%Z; reflexivity.
Qed.

Lemma s_upd_fold V : forall nm mxs mns,
  fold_left s_upd V (nm, mxs, mns) =
  (fold_left builder_push (map (fun e => k_branch (e_node e)) (filter (fun e => has_children (e_node e)) V)) nm,
   mxs ++ map e_dmax V,
   mns ++ map e_dmin (filter (fun e => k_branch (e_node e)) V)).
Proof.
  induction V as [|e V IH]; intros nm mxs mns; cbn [fold_left map filter].
  - rewrite !app_nil_r. reflexivity.
  - unfold s_upd at 2. rewrite IH.
    destruct (has_children (e_node e)) eqn:Eh; cbn [map fold_left]; rewrite <- app_assoc; cbn [app].
    + destruct (k_branch (e_node e)) eqn:Eb; cbn [map]; [rewrite <- app_assoc|]; reflexivity.
    + replace (k_branch (e_node e)) with false by (unfold k_branch; rewrite Eh; reflexivity).
      cbn [map]. reflexivity.
Qed.

Section Snap.
  Variables (g : nat -> nat -> Z) (rows cols k : nat).
  Hypothesis Hk : 2 <= k.

  Definition s_at (h : nat) (e : snap_entry) : Prop :=
    exists row col, krep g rows cols k h row col (e_node e).

  Lemma krep_children h row col x : krep g rows cols k h row col x ->
    length (n_children x) = match h with 0 => 0 | _ => k * k end.
  Proof.
    destruct h; cbn [krep]; intros (_ & _ & _ & H & _); [rewrite H; reflexivity|exact H].
  Qed.

  Lemma has_children_len x : has_children x = negb (length (n_children x) =? 0).
  Proof. unfold has_children. destruct (n_children x); reflexivity. Qed.

  Lemma krep_has_children h row col x : krep g rows cols k h row col x ->
    has_children x = match h with 0 => false | _ => true end.
  Proof.
    intros H. rewrite has_children_len, (krep_children _ _ _ _ H). destruct h; [reflexivity|].
    destruct (Nat.eqb_spec (k * k) 0); [nia|reflexivity].
  Qed.

  Lemma s_kids0 e : s_at 0 e -> s_kids e = [].
  Proof.
    intros (r & c & H). unfold s_kids, k_branch. rewrite (krep_has_children _ _ _ _ H). reflexivity.
  Qed.

  Lemma krep_child_in h row col x y : krep g rows cols k (S h) row col x -> In y (n_children x) ->
    exists row' col', krep g rows cols k h row' col' y.
  Proof.
    intros Hx Hy. cbn [krep] in Hx. destruct Hx as (_ & _ & _ & HL & HC).
    apply In_nth_error in Hy. destruct Hy as (n & Hn).
    assert (Hlt : n < k * k) by (rewrite <- HL; apply nth_error_Some; congruence).
    pose proof (Nat.div_mod n k ltac:(lia)) as Hd.
    pose proof (Nat.mod_upper_bound n k ltac:(lia)) as Hm.
    do 2 eexists. apply (HC (n / k) (n mod k)).
    - apply Nat.div_lt_upper_bound; lia.
    - exact Hm.
    - rewrite <- Hn. f_equal. lia.
  Qed.

  Lemma s_kidsS h e : s_at (S h) e -> Forall (s_at h) (s_kids e).
  Proof.
    intros (r & c & H). unfold s_kids. destruct (k_branch (e_node e)); [|constructor].
    apply Forall_forall. intros y Hy. apply in_map_iff in Hy. destruct Hy as (d & <- & Hd).
    unfold s_at, e_node. cbn [snd]. eapply krep_child_in; eauto.
  Qed.

  Lemma s_kids_length h e : s_at h e ->
    length (s_kids e) = if k_branch (e_node e) then k * k else 0.
  Proof.
    intros (r & c & H). unfold s_kids. destruct (k_branch (e_node e)) eqn:E; [|reflexivity].
    rewrite map_length, (krep_children _ _ _ _ H). destruct h; [|reflexivity].
    unfold k_branch in E. rewrite (krep_has_children _ _ _ _ H) in E. discriminate.
  Qed.

  Lemma node_count_eq x : node_count x = S (list_sum (map node_count (n_children x))).
  Proof.
    destruct x as [a b c]. cbn [node_count n_children]. f_equal.
    induction c as [|y c IH]; cbn [fold_right map list_sum]; [reflexivity|].
    rewrite IH. reflexivity.
  Qed.

  Lemma lv_count h : forall L, Forall (s_at h) L ->
    length (lv _ s_kids h L) <= list_sum (map (fun e => node_count (e_node e)) L).
  Proof.
    assert (Hge : forall L : list snap_entry,
              length L + list_sum (map (fun e => list_sum (map node_count (n_children (e_node e)))) L)
              = list_sum (map (fun e => node_count (e_node e)) L)).
    { induction L as [|e L IH]; cbn [length map list_sum fold_right]; [reflexivity|].
      change (fold_right Nat.add 0) with list_sum. rewrite <- IH.
      rewrite (node_count_eq (e_node e)). lia. }
    assert (Hkids : forall L,
              list_sum (map (fun e => node_count (e_node e)) (flat_map s_kids L)) <=
              list_sum (map (fun e => list_sum (map node_count (n_children (e_node e)))) L)).
    { induction L as [|e L IH]; cbn [flat_map map list_sum fold_right]; [lia|].
      change (fold_right Nat.add 0) with list_sum. rewrite map_app, list_sum_app.
      apply Nat.add_le_mono; [|exact IH].
      unfold s_kids. destruct (k_branch (e_node e)); [|apply Nat.le_0_l].
      rewrite map_map. unfold e_node. cbn [snd]. apply Nat.eq_le_incl. f_equal. }
    induction h as [|h IH]; intros L HL; cbn [lv]; rewrite app_length.
    - rewrite <- Hge. cbn [length]. lia.
    - rewrite <- Hge. specialize (IH (flat_map s_kids L)).
      specialize (Hkids L).
      assert (HL' : Forall (s_at h) (flat_map s_kids L)).
      { apply Forall_flat_kids with (at_h := s_at); auto. apply s_kidsS. }
      specialize (IH HL'). lia.
  Qed.

  (** What the built snapshot looks like. *)
  Record snap_ok (s : snapshot) (e : nat) (root : snap_entry) (V V1 V2 : list snap_entry) : Prop := {
    so_nodemap : bitmap_rel (s_nodemap s) (map (fun x => k_branch (e_node x)) V1);
    so_max : dac_rel (s_max s) (map zigzag_encode (map e_dmax V));
    so_min : dac_rel (s_min s) (map zigzag_encode (map e_dmin (filter (fun x => k_branch (e_node x)) V)));
    so_k : s_k s = k;
    so_rows : s_rows s = rows;
    so_cols : s_cols s = cols;
    so_sidelen : s_sidelen s = k ^ e;
    so_V : V = root :: flat_map s_kids V;
    so_len : forall x, In x V -> length (s_kids x) = if k_branch (e_node x) then k * k else 0;
    so_V12 : V = V1 ++ V2;
    so_V2 : Forall (fun x => k_branch (e_node x) = false) V2;
    so_root : krep g rows cols k e 0 0 (e_node root);
    so_rootd : e_dmax root = mx (e_node root) /\ e_dmin root = mn (e_node root);
    so_inner : 0 < e -> exists V1', V1 = root :: V1';
    so_len1 : 0 < e -> exists m, length V1 = 1 + m * (k * k);
    so_leaf : e = 0 -> V1 = [];
    so_single : k_branch (e_node root) = false -> V = [root];
    so_range : Forall i64_range (map e_dmax V) /\ Forall i64_range (map e_dmin V);
    so_count : length V < 2 * (k * k) ^ e
  }.

  Lemma snapshot_build_ok e : i64_raster g rows cols ->
    exists s root V V1 V2, snapshot_build_e g rows cols k e = Ok s /\ snap_ok s e root V V1 V2.
  Proof.
    intros Hg. unfold snapshot_build_e.
    destruct (k2_build_ok g rows cols k Hk Hg e e 0 0 (le_n e)) as (x & Ex & Hx).
    rewrite Ex. cbn [bind].
    set (root := (or0 (n_max x), or0 (n_min x), x) : snap_entry).
    assert (Hroot : Forall (s_at e) [root]).
    { constructor; [|constructor]. exists 0, 0. exact Hx. }
    rewrite (worklist_lv _ _ snap_body s_upd s_kids snap_body_eq s_at s_kids0 s_kidsS e [root]).
    2:{ exact Hroot. }
    2:{ pose proof (lv_count e [root] Hroot) as H. cbn [map list_sum fold_right] in H.
        unfold root at 2, e_node in H. cbn [snd] in H. lia. }
    cbn [bind].
    pose proof (lv_eq _ s_kids s_at s_kids0 s_kidsS e [root] Hroot) as HV.
    destruct (lv_split _ s_kids s_at s_kidsS (fun e => has_children (e_node e))
      (fun y '(ex_intro _ r (ex_intro _ c H)) => krep_has_children _ _ _ _ H)
      (fun h y '(ex_intro _ r (ex_intro _ c H)) => krep_has_children _ _ _ _ H)
      e [root] Hroot) as (V1 & V2 & HV12 & H1 & H2 & H3).
    pose proof (lv_in_h _ s_kids s_at s_kidsS e [root] Hroot) as Hall.
    set (V := lv _ s_kids e [root]) in *.
    assert (Hval : forall y, In y V -> i64_range (mx (e_node y)) /\ i64_range (mn (e_node y))).
    { intros y Hy. rewrite Forall_forall in Hall. destruct (Hall y Hy) as (h & _ & r & c & Hr).
      eapply krep_range; exact Hr. }
    assert (Hrange : Forall i64_range (map e_dmax V) /\ Forall i64_range (map e_dmin V)).
    { assert (Hy : forall y, In y V -> i64_range (e_dmax y) /\ i64_range (e_dmin y)).
      { intros y Hy. rewrite HV in Hy. destruct Hy as [<-|Hy].
        - apply (krep_range _ _ _ _ _ _ _ _ Hx).
        - apply in_flat_map in Hy. destruct Hy as (z & _ & Hy). unfold s_kids in Hy.
          destruct (k_branch (e_node z)); [|destruct Hy].
          apply in_map_iff in Hy. destruct Hy as (d & <- & _). unfold e_dmax, e_dmin. cbn [fst snd].
          split; apply wrap64_range. }
      split; apply Forall_forall; intros z Hz; apply in_map_iff in Hz; destruct Hz as (y & <- & Hin);
        apply Hy; exact Hin. }
    rewrite s_upd_fold. cbn [app].
    replace (filter (fun e0 => has_children (e_node e0)) V) with V1.
    2:{ rewrite HV12, filter_app.
        rewrite (filter_true_in _ V1) by (apply Forall_forall; exact H1).
        rewrite (filter_false_in _ V2) by (apply Forall_forall; exact H2).
        rewrite app_nil_r. reflexivity. }
    destruct (bitmap_of_ok (map (fun e0 => k_branch (e_node e0)) V1)) as (nm & Enm & Rnm).
    unfold bitmap_of in Enm. rewrite Enm. cbn [bind].
    destruct (dac_of_ok (map e_dmax V)) as (dM & EdM & RdM). rewrite EdM. cbn [bind].
    destruct (dac_of_ok (map e_dmin (filter (fun e0 => k_branch (e_node e0)) V))) as (dm & Edm & Rdm).
    rewrite Edm. cbn [bind].
    eexists _, root, V, V1, V2. split; [reflexivity|].
    constructor; cbn [s_nodemap s_max s_min s_k s_rows s_cols s_sidelen]; auto.
    - intros y Hy. rewrite Forall_forall in Hall. destruct (Hall y Hy) as (h & _ & Hh).
      eapply s_kids_length; exact Hh.
    - eapply Forall_impl; [|exact H2]. intros y Hy. unfold k_branch. cbv beta in Hy. rewrite Hy. reflexivity.
    - intros He. destruct V1 as [|y V1'].
      + exfalso. cbn [app] in HV12. rewrite HV in HV12. cbn [app] in HV12. subst V2.
        inversion H2 as [|? ? Hc _]; subst.
        rewrite (krep_has_children _ _ _ _ Hx) in Hc || (unfold e_node, root in Hc; cbn [snd] in Hc;
          rewrite (krep_has_children _ _ _ _ Hx) in Hc).
        destruct e; [lia|discriminate].
      + exists V1'. rewrite HV12 in HV. cbn [app] in HV. injection HV as -> _. reflexivity.
    - intros He.
      assert (HL : forall y, In y V -> length (s_kids y) = if k_branch (e_node y) then k * k else 0).
      { intros y Hy. rewrite Forall_forall in Hall. destruct (Hall y Hy) as (h & _ & Hh).
        eapply s_kids_length; exact Hh. }
      apply (length_V1 _ s_kids (fun y => k_branch (e_node y)) (k * k) root V V1 V2 HV HL HV12).
      + nia.
      + destruct V1 as [|y V1']; [|cbn [length]; lia].
        exfalso. cbn [app] in HV12. rewrite HV in HV12. cbn [app] in HV12. subst V2.
        inversion H2 as [|? ? Hc _]; subst. unfold e_node, root in Hc; cbn [snd] in Hc.
        rewrite (krep_has_children _ _ _ _ Hx) in Hc. destruct e; [lia|discriminate].
      + apply H3; [|exact He]. intros h y Hy. rewrite (s_kids_length _ _ Hy).
        destruct (k_branch (e_node y)); [exists 1|exists 0]; lia.
    - intros ->. destruct V1 as [|y V1']; [reflexivity|]. exfalso.
      rewrite HV12 in HV. cbn [app] in HV. injection HV as Ey _. subst y.
      inversion H1 as [|? ? Hc _]; subst.
      unfold e_node, root in Hc; cbn [snd] in Hc; rewrite (krep_has_children _ _ _ _ Hx) in Hc. discriminate.
    - intros Hs. unfold V.
      assert (Enil : forall h, lv _ s_kids h [] = []) by (induction h; cbn [lv flat_map app]; auto).
      destruct e as [|e']; cbn [lv flat_map app]; [reflexivity|].
      replace (s_kids root) with (@nil snap_entry) by (unfold s_kids; rewrite Hs; reflexivity).
      cbn [app]. rewrite Enil. reflexivity.
    - assert (HK : forall h y, s_at h y -> length (s_kids y) <= k * k).
      { intros h y Hy. rewrite (s_kids_length _ _ Hy). destruct (k_branch (e_node y)); lia. }
      pose proof (lv_length _ s_kids s_at s_kidsS (k * k) ltac:(nia) HK e [root] Hroot) as Hc.
      fold V in Hc. cbn [length] in Hc. lia.
  Qed.

  (** *** Walking the built snapshot *)
  Section Walk.
    Variables (s : snapshot) (e : nat) (root : snap_entry) (V V1 V2 : list snap_entry).
    Hypothesis OK : snap_ok s e root V V1 V2.

    Definition cur (h row col idx : nat) (x : k2node) : Prop :=
      (exists en, nth_error V idx = Some en /\ e_node en = x) /\ krep g rows cols k h row col x.

    Lemma cur_root : cur e 0 0 0 (e_node root).
    Proof.
      split; [|apply (so_root _ _ _ _ _ _ OK)]. exists root. split; [|reflexivity].
      rewrite (so_V _ _ _ _ _ _ OK). reflexivity.
    Qed.

    Lemma max_at idx en : nth_error V idx = Some en -> dac_get (s_max s) idx = Ok (e_dmax en).
    Proof.
      intros H. apply dac_get_ok with (data := map e_dmax V).
      - apply (so_max _ _ _ _ _ _ OK).
      - apply (so_range _ _ _ _ _ _ OK).
      - apply map_nth_error. exact H.
    Qed.

    Lemma leaf_at idx en : nth_error V idx = Some en ->
      snap_is_leaf s idx = Ok (negb (k_branch (e_node en))).
    Proof.
      intros H. unfold snap_is_leaf.
      pose proof (so_nodemap _ _ _ _ _ _ OK) as HB. assert (HL := proj1 HB). rewrite HL.
      destruct (Nat.leb_spec (length (map (fun x => k_branch (e_node x)) V1)) idx) as [Hi|Hi].
      - rewrite (bits_past _ (fun x => k_branch (e_node x)) V V1 V2 (so_V12 _ _ _ _ _ _ OK) (so_V2 _ _ _ _ _ _ OK) idx en H Hi).
        reflexivity.
      - rewrite (bm_get_ok _ _ _ HB) by exact Hi. cbn [bind].
        pose proof (bits_nth _ (fun x => k_branch (e_node x)) V V1 V2 (so_V12 _ _ _ _ _ _ OK) idx en H Hi) as E.
        unfold bits in E. rewrite E. reflexivity.
    Qed.

    Definition rnk (idx : nat) : nat :=
      count_occ Bool.bool_dec (firstn idx (map (fun x => k_branch (e_node x)) V1)) true.

    Lemma rank_at_ok idx en : nth_error V idx = Some en -> k_branch (e_node en) = true ->
      bm_rank (s_nodemap s) idx = Ok (rnk idx).
    Proof.
      intros H Hb. apply bm_rank_ok; [apply (so_nodemap _ _ _ _ _ _ OK)|].
      apply Nat.lt_le_incl.
      apply (branch_inner _ (fun x => k_branch (e_node x)) V V1 V2
        (so_V12 _ _ _ _ _ _ OK) (so_V2 _ _ _ _ _ _ OK) idx en H Hb).
    Qed.

    Lemma min_at idx en : nth_error V idx = Some en -> k_branch (e_node en) = true ->
      dac_get (s_min s) (rnk idx) = Ok (e_dmin en).
    Proof.
      intros H Hb. apply dac_get_ok with (data := map e_dmin (filter (fun x => k_branch (e_node x)) V)).
      - apply (so_min _ _ _ _ _ _ OK).
      - destruct (so_range _ _ _ _ _ _ OK) as [_ HR]. rewrite Forall_forall in *.
        intros z Hz. apply HR. apply in_map_iff in Hz. destruct Hz as (y & <- & Hy).
        apply in_map. apply filter_In in Hy. apply Hy.
      - apply map_nth_error.
        apply (filter_nth _ (fun x => k_branch (e_node x)) V V1 V2
          (so_V12 _ _ _ _ _ _ OK) (so_V2 _ _ _ _ _ _ OK) idx en H Hb).
    Qed.

    (** Root: no branch means a single node. *)
    Lemma root_bit : 0 < e -> bm_get (s_nodemap s) 0 = Ok (k_branch (e_node root)).
    Proof.
      intros He. destruct (so_inner _ _ _ _ _ _ OK He) as (V1' & EV1).
      rewrite (bm_get_ok _ _ _ (so_nodemap _ _ _ _ _ _ OK)); rewrite EV1; [reflexivity|cbn; lia].
    Qed.

    Lemma root_max : dac_get (s_max s) 0 = Ok (mx (e_node root)).
    Proof.
      rewrite (max_at 0 root).
      - rewrite (proj1 (so_rootd _ _ _ _ _ _ OK)). reflexivity.
      - rewrite (so_V _ _ _ _ _ _ OK). reflexivity.
    Qed.

    Lemma root_min : k_branch (e_node root) = true -> dac_get (s_min s) 0 = Ok (mn (e_node root)).
    Proof.
      intros Hb. pose proof (min_at 0 root) as H. unfold rnk in H. cbn [firstn count_occ] in H.
      rewrite H; [|rewrite (so_V _ _ _ _ _ _ OK); reflexivity|exact Hb].
      rewrite (proj2 (so_rootd _ _ _ _ _ _ OK)). reflexivity.
    Qed.

    (** A single-node root has no stored minimum: reading it gives 0. *)
    Lemma root_min_single : k_branch (e_node root) = false -> dac_get (s_min s) 0 = Ok 0%Z.
    Proof.
      intros Hb. pose proof (so_min _ _ _ _ _ _ OK) as HR.
      rewrite (so_single _ _ _ _ _ _ OK Hb) in HR. cbn [filter] in HR. rewrite Hb in HR.
      apply (dac_get_past _ [] 0 HR). cbn [length]. lia.
    Qed.

    (** Moving to a child. *)
    Lemma cur_child h row col idx x : cur (S h) row col idx x -> k_branch x = true ->
      exists r, bm_rank (s_nodemap s) idx = Ok r /\
      forall i j, i < k -> j < k ->
      exists y, let idx' := 1 + r * k * k + i * k + j in
        cur h (row + i * k ^ h) (col + j * k ^ h) idx' y /\
        dac_get (s_max s) idx' = Ok (i64_sub (mx x) (mx y)) /\
        snap_is_leaf s idx' = Ok (negb (k_branch y)) /\
        (k_branch y = true -> exists r', bm_rank (s_nodemap s) idx' = Ok r' /\
             dac_get (s_min s) r' = Ok (i64_sub (mn y) (mn x))).
    Proof.
      intros ((en & Hen & <-) & Hrep) Hb.
      exists (rnk idx). split; [apply rank_at_ok with (en := en); assumption|].
      intros i j Hi Hj. cbn [krep] in Hrep. destruct Hrep as (_ & _ & _ & HL & HC).
      assert (Hc : i * k + j < k * k) by nia.
      destruct (nth_error (n_children (e_node en)) (i * k + j)) as [y|] eqn:Ey.
      2:{ apply nth_error_None in Ey. lia. }
      exists y. cbn zeta.
      set (ye := (i64_sub (mx (e_node en)) (mx y), i64_sub (mn y) (mn (e_node en)), y) : snap_entry).
      assert (Hkid : nth_error (s_kids en) (i * k + j) = Some ye).
      { unfold s_kids. rewrite Hb.
        apply (map_nth_error (fun d => (i64_sub (mx (e_node en)) (mx d), i64_sub (mn d) (mn (e_node en)), d))).
        exact Ey. }
      assert (Hpos : nth_error V (1 + rnk idx * k * k + i * k + j) = Some ye).
      { pose proof (child_pos _ s_kids (fun x => k_branch (e_node x)) (k * k) root V V1 V2
          (so_V _ _ _ _ _ _ OK) (so_len _ _ _ _ _ _ OK) (so_V12 _ _ _ _ _ _ OK)
          (so_V2 _ _ _ _ _ _ OK) idx en (i * k + j) ye Hen Hb Hc Hkid) as Hp.
        rewrite <- Hp. f_equal. unfold rnk, rank_at, bits. lia. }
      split; [|split; [|split]].
      - split; [exists ye; split; [exact Hpos|reflexivity]|]. apply HC; assumption.
      - rewrite (max_at _ ye Hpos). reflexivity.
      - rewrite (leaf_at _ ye Hpos). reflexivity.
      - intros Hby. exists (rnk (1 + rnk idx * k * k + i * k + j)). split.
        + apply rank_at_ok with (en := ye); assumption.
        + rewrite (min_at _ ye Hpos Hby). reflexivity.
    Qed.

    (** Cells of a node that is not subdivided all have its value. *)
    Lemma cur_uniform h row col idx x r c : cur h row col idx x -> k_branch x = false ->
      row <= r < row + k ^ h -> col <= c < col + k ^ h -> r < rows -> c < cols -> g r c = mx x.
    Proof.
      intros [_ Hrep] Hb Hr Hc Hr2 Hc2.
      pose proof (krep_bounds _ _ _ _ _ _ _ _ Hrep r c Hr Hc Hr2 Hc2) as HB.
      unfold k_branch in Hb. rewrite (krep_has_children _ _ _ _ Hrep) in Hb.
      destruct h; cbn [krep] in Hrep.
      - destruct Hrep as (_ & _ & _ & _ & E). unfold mx, mn in *. rewrite E in HB. lia.
      - cbn [andb] in Hb. lia.
    Qed.

    Lemma cur_bounds h row col idx x r c : cur h row col idx x ->
      row <= r < row + k ^ h -> col <= c < col + k ^ h -> r < rows -> c < cols ->
      (mn x <= g r c <= mx x)%Z.
    Proof. intros [_ Hrep]. apply krep_bounds with (1 := Hrep). Qed.

    Lemma cur_range h row col idx x : cur h row col idx x -> i64_range (mx x) /\ i64_range (mn x).
    Proof. intros [_ Hrep]. apply krep_range with (1 := Hrep). Qed.

    Lemma cur_branch_S h row col idx x : cur h row col idx x -> k_branch x = true -> exists h', h = S h'.
    Proof.
      intros [_ Hrep] Hb. destruct h; [|eauto]. unfold k_branch in Hb.
      rewrite (krep_has_children _ _ _ _ Hrep) in Hb. discriminate.
    Qed.

    Lemma div_pow h : k ^ S h / k = k ^ h.
    Proof. rewrite Nat.pow_succ_r', Nat.mul_comm, Nat.div_mul; lia. Qed.

    (** *** get *)
    Lemma snap_get_rec_ok h : forall fuel row0 col0 idx x row col,
      cur (S h) row0 col0 idx x -> k_branch x = true -> h < fuel ->
      row < k ^ S h -> col < k ^ S h -> row0 + row < rows -> col0 + col < cols ->
      snap_get_rec fuel s (k ^ S h) row col idx (mx x) = Ok (g (row0 + row) (col0 + col)).
    Proof.
      induction h as [|h IH]; intros fuel row0 col0 idx x row col Hcur Hb Hf Hrow Hcol Hr Hc;
        (destruct fuel as [|fuel]; [lia|]); cbn [snap_get_rec]; rewrite (so_k _ _ _ _ _ _ OK);
        rewrite udiv_ok by lia; cbn [bind]; rewrite div_pow;
        destruct (cur_child _ _ _ _ _ Hcur Hb) as (r & Er & Hch); rewrite Er; cbn [bind].
      - (* children are single cells *)
        rewrite !udiv_ok by (change (k ^ 0) with 1; lia). cbn [bind].
        change (k ^ 0) with 1. rewrite !Nat.div_1_r.
        rewrite Nat.pow_1_r in Hrow, Hcol.
        destruct (Hch row col Hrow Hcol) as (y & Hy & Ed & El & _).
        rewrite Ed. cbn [bind]. rewrite El. cbn [bind].
        assert (Hby : k_branch y = false).
        { destruct Hy as [_ Hy]. unfold k_branch. rewrite (krep_has_children _ _ _ _ Hy). reflexivity. }
        rewrite Hby. cbn [negb]. rewrite i64_sub_sub by apply (cur_range _ _ _ _ _ Hy).
        f_equal. symmetry. change (k ^ 0) with 1 in Hy. rewrite !Nat.mul_1_r in Hy.
        apply (cur_uniform _ _ _ _ _ _ _ Hy Hby); change (k ^ 0) with 1; lia.
      - assert (Hp : 0 < k ^ S h) by (apply pow_pos; exact Hk).
        rewrite !udiv_ok by lia. cbn [bind].
        assert (Hi : row / k ^ S h < k).
        { apply Nat.div_lt_upper_bound; [lia|]. rewrite Nat.mul_comm. rewrite <- Nat.pow_succ_r'. exact Hrow. }
        assert (Hj : col / k ^ S h < k).
        { apply Nat.div_lt_upper_bound; [lia|]. rewrite Nat.mul_comm. rewrite <- Nat.pow_succ_r'. exact Hcol. }
        destruct (Hch _ _ Hi Hj) as (y & Hy & Ed & El & _).
        rewrite Ed. cbn [bind]. rewrite El. cbn [bind].
        rewrite i64_sub_sub by apply (cur_range _ _ _ _ _ Hy).
        pose proof (Nat.div_mod row (k ^ S h) ltac:(lia)) as Dr.
        pose proof (Nat.div_mod col (k ^ S h) ltac:(lia)) as Dc.
        pose proof (Nat.mod_upper_bound row (k ^ S h) ltac:(lia)) as Mr.
        pose proof (Nat.mod_upper_bound col (k ^ S h) ltac:(lia)) as Mc.
        destruct (k_branch y) eqn:Hby; cbn [negb].
        + rewrite !umod_ok by lia. cbn [bind].
          rewrite (IH fuel _ _ _ _ _ _ Hy Hby); try lia. f_equal. f_equal; lia.
        + f_equal. symmetry. apply (cur_uniform _ _ _ _ _ _ _ Hy Hby); lia.
    Qed.

    Hypothesis He : 0 < e.
    Hypothesis Hrows : rows <= k ^ e.
    Hypothesis Hcols : cols <= k ^ e.

    Lemma snap_get_ok row col : row < rows -> col < cols -> snap_get s row col = Ok (g row col).
    Proof.
      intros Hr Hc. unfold snap_get. rewrite root_bit by exact He. cbn [bind].
      rewrite root_max. cbn [bind].
      destruct (k_branch (e_node root)) eqn:Hb; cbn [negb].
      - rewrite (so_sidelen _ _ _ _ _ _ OK).
        destruct e as [|e'] eqn:Ee; [lia|]. rewrite <- Ee in *.
        pose proof cur_root as Hcur. rewrite Ee in Hcur |- *.
        rewrite (snap_get_rec_ok e' _ 0 0 0 _ row col Hcur Hb); auto.
        + pose proof (Nat.pow_gt_lin_r k (S e') ltac:(lia)). lia.
        + rewrite <- Ee. lia.
        + rewrite <- Ee. lia.
      - f_equal. symmetry. apply (cur_uniform _ _ _ _ _ row col cur_root Hb); lia.
    Qed.

    (** *** fill_window *)
    Definition fill_out (top bottom left right row0 col0 wt wl : nat) : list (nat * nat * Z) :=
      flat_map (fun r => flat_map (fun c => [(row0 + r - wt, col0 + c - wl, g (row0 + r) (col0 + c))])
         (range_incl left right)) (range_incl top bottom).

    Lemma fill_block_ok top bottom left right to lo wt wl v :
      wt <= to + top -> wl <= lo + left ->
      (forall r c, top <= r <= bottom -> left <= c <= right -> g (to + r) (lo + c) = v) ->
      fill_block top bottom left right to lo wt wl v = Ok (fill_out top bottom left right to lo wt wl).
    Proof.
      intros Hwt Hwl Hv. unfold fill_block, fill_out. apply flat_mapM_ok. intros r Hr.
      rewrite in_range_incl in Hr.
      rewrite (mapM_ok _ (fun c => (to + r - wt, lo + c - wl, g (to + r) (lo + c)))).
      - reflexivity.
      - intros c Hc. rewrite in_range_incl in Hc. rewrite !usub_ok by lia. cbn [bind].
        rewrite Hv by lia. reflexivity.
    Qed.

    Lemma tile_in a sl i r : i < a -> r < sl -> i * sl + r < a * sl.
    Proof. clear. intros H1 H2. pose proof (Nat.mul_le_mono_r (S i) a sl H1). lia. Qed.

    (** Facts about one tile of the window. *)
    Lemma tile_facts sl a b i :
      0 < sl -> a <= b -> b < k * sl -> a / sl <= i <= b / sl ->
      i < k /\ i * sl <= b /\ a - i * sl <= Nat.min (sl - 1) (b - i * sl) /\
      Nat.min (sl - 1) (b - i * sl) < sl /\ i * sl + Nat.min (sl - 1) (b - i * sl) <= b /\
      a <= i * sl + (a - i * sl).
    Proof.
      intros Hs Hab Hb Hi.
      assert (H1 : b / sl < k) by (apply Nat.div_lt_upper_bound; nia).
      pose proof (Nat.mul_div_le b sl ltac:(lia)) as H2.
      pose proof (Nat.mul_succ_div_gt a sl ltac:(lia)) as H3.
      assert (H4 : i * sl <= b) by nia. assert (H5 : a < S i * sl) by nia.
      repeat split; try lia.
    Qed.

    Lemma snap_fill_rec_ok h : forall fuel row0 col0 idx x top bottom left right wt wl,
      cur (S h) row0 col0 idx x -> k_branch x = true -> h < fuel ->
      top <= bottom -> bottom < k ^ S h -> left <= right -> right < k ^ S h ->
      row0 + bottom < rows -> col0 + right < cols -> wt <= row0 + top -> wl <= col0 + left ->
      exists out, snap_fill_rec fuel s (k ^ S h) top bottom left right idx (mx x) wt wl row0 col0 = Ok out
        /\ Permutation out (fill_out top bottom left right row0 col0 wt wl).
    Proof.
      induction h as [|h IH]; intros fuel row0 col0 idx x top bottom left right wt wl
        Hcur Hb Hf Htb Hbot Hlr Hright Hr Hc Hwt Hwl;
        (destruct fuel as [|fuel]; [lia|]); cbn [snap_fill_rec]; rewrite (so_k _ _ _ _ _ _ OK);
        rewrite udiv_ok by lia; cbn [bind]; rewrite div_pow;
        destruct (cur_child _ _ _ _ _ Hcur Hb) as (r & Er & Hch); rewrite Er; cbn [bind];
        match goal with |- context [udiv top ?x] => set (sl := x) in * end;
        assert (Hp : 0 < sl) by (apply pow_pos; exact Hk);
        rewrite !udiv_ok by lia; cbn [bind]; rewrite usub_ok by lia; cbn [bind];
        rewrite Nat.pow_succ_r' in Hbot, Hright; fold sl in Hbot, Hright;
        unfold fill_out;
        (eapply ex_perm_trans; [|apply tiles_2d with (s := sl)
          (f := fun r c => [(r - wt, c - wl, g r c)]); assumption]);
        (apply flat_mapM_perm; intros i Hi; rewrite in_range_incl in Hi;
         destruct (tile_facts sl top bottom i Hp Htb Hbot Hi) as (I1 & I2 & I3 & I4 & I5 & I6); clear Hi;
         rewrite usub_ok by lia; cbn [bind];
         apply flat_mapM_perm; intros j Hj; rewrite in_range_incl in Hj;
         destruct (tile_facts sl left right j Hp Hlr Hright Hj) as (J1 & J2 & J3 & J4 & J5 & J6); clear Hj;
         rewrite usub_ok by lia; cbn [bind];
         destruct (Hch i j I1 J1) as (y & Hy & Ed & El & _);
         rewrite Ed; cbn [bind]; rewrite El; cbn [bind];
         rewrite i64_sub_sub by apply (cur_range _ _ _ _ _ Hy)).
      - assert (Hby : k_branch y = false).
        { destruct Hy as [_ Hy]. unfold k_branch. rewrite (krep_has_children _ _ _ _ Hy). reflexivity. }
        rewrite Hby. cbn [negb].
        eexists. split; [|reflexivity].
        rewrite fill_block_ok; [reflexivity|lia|lia|].
        intros r0 c0 Hr0 Hc0. apply (cur_uniform _ _ _ _ _ _ _ Hy Hby); fold sl; lia.
      - destruct (k_branch y) eqn:Hby; cbn [negb].
        + destruct (IH fuel _ _ _ _ (top - i * sl) (Nat.min (sl - 1) (bottom - i * sl))
            (left - j * sl) (Nat.min (sl - 1) (right - j * sl)) wt wl Hy Hby) as (out & Eo & Po);
            try (fold sl; lia).
          exists out. split; [exact Eo|exact Po].
        + eexists. split; [|reflexivity].
          rewrite fill_block_ok; [reflexivity|lia|lia|].
          intros r0 c0 Hr0 Hc0. apply (cur_uniform _ _ _ _ _ _ _ Hy Hby); fold sl; lia.
    Qed.

    Lemma window_spec_flat top bottom left right : top < bottom -> left < right ->
      window_spec g top bottom left right = fill_out top (bottom - 1) left (right - 1) 0 0 top left.
    Proof.
      intros Ht Hl. unfold window_spec, fill_out. rewrite cells_flat by assumption.
      rewrite map_flat_map. apply flat_map_ext. intros r. rewrite map_flat_map. reflexivity.
    Qed.

    Lemma snap_fill_window_ok top bottom left right :
      window_in top bottom left right rows cols ->
      exists out, snap_fill_window s (mkRect top bottom left right) = Ok out /\
        Permutation out (window_spec g top bottom left right).
    Proof.
      intros (Ht & Hb & Hl & Hr). unfold snap_fill_window, rect_rows, rect_cols.
      cbn [r_top r_bottom r_left r_right]. rewrite !usub_ok by lia. cbn [bind].
      rewrite root_bit by exact He. cbn [bind]. rewrite root_max. cbn [bind].
      destruct (k_branch (e_node root)) eqn:Hbr; cbn [negb].
      - rewrite (so_sidelen _ _ _ _ _ _ OK), window_spec_flat by assumption.
        destruct e as [|e'] eqn:Ee; [lia|]. rewrite <- Ee in *.
        pose proof cur_root as Hcur. rewrite Ee in Hcur |- *.
        apply (snap_fill_rec_ok e' _ 0 0 0 _ _ _ _ _ _ _ Hcur Hbr); try lia; rewrite <- Ee; try lia.
        rewrite Ee. pose proof (Nat.pow_gt_lin_r k (S e') ltac:(lia)). lia.
      - eexists. split; [reflexivity|].
        assert (E : window_spec g top bottom left right =
          flat_map (fun row => map (fun col => (row, col, mx (e_node root))) (range 0 (right - left)))
                   (range 0 (bottom - top))).
        { unfold window_spec, cells. rewrite map_flat_map.
          unfold range. rewrite !Nat.sub_0_r.
          assert (Hg : forall n, n <= bottom - top ->
            flat_map (fun x => map (fun rc => (fst rc - top, snd rc - left, g (fst rc) (snd rc)))
                (map (fun c => (x, c)) (seq left (right - left)))) (seq top n) =
            flat_map (fun row => map (fun col => (row, col, mx (e_node root))) (seq 0 (right - left))) (seq 0 n)).
          { induction n as [|n IHn]; intros Hn; [reflexivity|].
            rewrite !seq_S, !flat_map_app, IHn by lia. f_equal. cbn [flat_map Nat.add]. rewrite !app_nil_r.
            rewrite map_map. cbn [fst snd].
            assert (Hin : forall m, m <= right - left ->
              map (fun c => (top + n - top, c - left, g (top + n) c)) (seq left m) =
              map (fun col => (n, col, mx (e_node root))) (seq 0 m)).
            { induction m as [|m IHm]; intros Hm; [reflexivity|].
              rewrite !seq_S, !map_app, IHm by lia. f_equal. cbn [map Nat.add]. f_equal.
              f_equal; [f_equal; lia|]. apply (cur_uniform _ _ _ _ _ _ _ cur_root Hbr); lia. }
            apply Hin. lia. }
          apply Hg. lia. }
        rewrite E. reflexivity.
    Qed.

    (** *** search_window *)
    Definition search_out (lower upper : Z) (top bottom left right row0 col0 : nat) : list (nat * nat) :=
      flat_map (fun r => flat_map (fun c =>
          if in_bounds lower upper (g (row0 + r) (col0 + c)) then [(row0 + r, col0 + c)] else [])
         (range_incl left right)) (range_incl top bottom).

    Lemma push_block_ok lower upper top bottom left right to lo :
      (forall r c, top <= r <= bottom -> left <= c <= right ->
         in_bounds lower upper (g (to + r) (lo + c)) = true) ->
      push_block top bottom left right to lo = search_out lower upper top bottom left right to lo.
    Proof.
      intros H. unfold push_block, search_out. apply flat_map_ext_in. intros r Hr.
      rewrite in_range_incl in Hr. 
      transitivity (flat_map (fun c => [(to + r, lo + c)]) (range_incl left right)).
      - induction (range_incl left right) as [|c l IHl]; cbn [map flat_map app]; [reflexivity|].
        rewrite IHl. reflexivity.
      - apply flat_map_ext_in. intros c Hc. rewrite in_range_incl in Hc. rewrite H by lia. reflexivity.
    Qed.

    Lemma search_out_nil lower upper top bottom left right to lo :
      (forall r c, top <= r <= bottom -> left <= c <= right ->
         in_bounds lower upper (g (to + r) (lo + c)) = false) ->
      search_out lower upper top bottom left right to lo = [].
    Proof.
      intros H. unfold search_out. etransitivity; [|apply (flat_map_nil (range_incl top bottom))].
      apply flat_map_ext_in. intros r Hr. rewrite in_range_incl in Hr.
      etransitivity; [|apply (flat_map_nil (range_incl left right))]. apply flat_map_ext_in.
      intros c Hc. rewrite in_range_incl in Hc. rewrite H by lia. reflexivity.
    Qed.

    (** A tile all of whose cells have the value [v]. *)
    Lemma search_uniform lower upper top bottom left right to lo v :
      (forall r c, top <= r <= bottom -> left <= c <= right -> g (to + r) (lo + c) = v) ->
      (if ((lower <=? v) && (v <=? upper))%Z then push_block top bottom left right to lo else [])
      = search_out lower upper top bottom left right to lo.
    Proof.
      intros H. destruct ((lower <=? v) && (v <=? upper))%Z eqn:E.
      - apply push_block_ok. intros r c Hr Hc. rewrite H by assumption. exact E.
      - symmetry. apply search_out_nil. intros r c Hr Hc. rewrite H by assumption. exact E.
    Qed.

    Lemma snap_search_rec_ok lower upper h : forall fuel row0 col0 idx x top bottom left right,
      cur (S h) row0 col0 idx x -> k_branch x = true -> h < fuel ->
      top <= bottom -> bottom < k ^ S h -> left <= right -> right < k ^ S h ->
      row0 + bottom < rows -> col0 + right < cols ->
      exists out, snap_search_rec fuel s (k ^ S h) top bottom left right lower upper idx (mn x) (mx x)
                    row0 col0 = Ok out
        /\ Permutation out (search_out lower upper top bottom left right row0 col0).
    Proof.
      induction h as [|h IH]; intros fuel row0 col0 idx x top bottom left right
        Hcur Hb Hf Htb Hbot Hlr Hright Hr Hc;
        (destruct fuel as [|fuel]; [lia|]); cbn [snap_search_rec]; rewrite (so_k _ _ _ _ _ _ OK);
        rewrite udiv_ok by lia; cbn [bind]; rewrite div_pow;
        destruct (cur_child _ _ _ _ _ Hcur Hb) as (r & Er & Hch); rewrite Er; cbn [bind];
        match goal with |- context [udiv top ?x] => set (sl := x) in * end;
        assert (Hp : 0 < sl) by (apply pow_pos; exact Hk);
        rewrite !udiv_ok by lia; cbn [bind]; rewrite usub_ok by lia; cbn [bind];
        assert (Hpow := Nat.pow_succ_r'); 
        rewrite Nat.pow_succ_r' in Hbot, Hright; fold sl in Hbot, Hright;
        unfold search_out;
        (eapply ex_perm_trans; [|apply tiles_2d with (s := sl)
          (f := fun r c => if in_bounds lower upper (g r c) then [(r, c)] else []); assumption]);
        (apply flat_mapM_perm; intros i Hi; rewrite in_range_incl in Hi;
         destruct (tile_facts sl top bottom i Hp Htb Hbot Hi) as (I1 & I2 & I3 & I4 & I5 & I6); clear Hi;
         rewrite usub_ok by lia; cbn [bind];
         apply flat_mapM_perm; intros j Hj; rewrite in_range_incl in Hj;
         destruct (tile_facts sl left right j Hp Hlr Hright Hj) as (J1 & J2 & J3 & J4 & J5 & J6); clear Hj;
         rewrite usub_ok by lia; cbn [bind];
         destruct (Hch i j I1 J1) as (y & Hy & Ed & El & Emin);
         rewrite Ed; cbn [bind]; rewrite El; cbn [bind];
         rewrite i64_sub_sub by apply (cur_range _ _ _ _ _ Hy)).
      - assert (Hby : k_branch y = false).
        { destruct Hy as [_ Hy]. unfold k_branch. rewrite (krep_has_children _ _ _ _ Hy). reflexivity. }
        rewrite Hby. cbn [negb].
        eexists. split; [reflexivity|].
        rewrite search_uniform; [reflexivity|].
        intros r0 c0 Hr0 Hc0. apply (cur_uniform _ _ _ _ _ _ _ Hy Hby); fold sl; lia.
      - destruct (k_branch y) eqn:Hby; cbn [negb].
        + destruct (Emin eq_refl) as (r' & Er' & Em). rewrite Er'. cbn [bind]. rewrite Em. cbn [bind].
          rewrite i64_add_sub by apply (cur_range _ _ _ _ _ Hy).
          assert (BB : forall r0 c0, top - i * sl <= r0 <= Nat.min (sl - 1) (bottom - i * sl) ->
            left - j * sl <= c0 <= Nat.min (sl - 1) (right - j * sl) ->
            (mn y <= g (row0 + i * sl + r0) (col0 + j * sl + c0) <= mx y)%Z /\
            (mn x <= g (row0 + i * sl + r0) (col0 + j * sl + c0) <= mx x)%Z).
          { intros r0 c0 Hr0 Hc0.
            pose proof (tile_in k sl i r0 I1 ltac:(lia)) as T1.
            pose proof (tile_in k sl j c0 J1 ltac:(lia)) as T2.
            split; [apply (cur_bounds _ _ _ _ _ _ _ Hy); fold sl; lia|].
            apply (cur_bounds _ _ _ _ _ _ _ Hcur); try lia;
              rewrite (Hpow k (S h)); fold sl; lia. }
          destruct ((lower <=? mn x) && (mx y <=? upper))%Z eqn:E1.
          { eexists. split; [reflexivity|]. rewrite (push_block_ok lower upper); [reflexivity|].
            intros r0 c0 Hr0 Hc0. destruct (BB r0 c0 Hr0 Hc0). unfold in_bounds. clear - E1 H H0. lia. }
          destruct ((mn y <=? upper) && (lower <=? mx y))%Z eqn:E2.
          * destruct (IH fuel _ _ _ _ (top - i * sl) (Nat.min (sl - 1) (bottom - i * sl))
              (left - j * sl) (Nat.min (sl - 1) (right - j * sl)) Hy Hby) as (out & Eo & Po);
              try (fold sl; lia).
            exists out. split; [exact Eo|exact Po].
          * eexists. split; [reflexivity|].
            fold (search_out lower upper (top - i * sl) (Nat.min (sl - 1) (bottom - i * sl))
              (left - j * sl) (Nat.min (sl - 1) (right - j * sl)) (row0 + i * sl) (col0 + j * sl)).
            rewrite search_out_nil; [constructor|].
            intros r0 c0 Hr0 Hc0. destruct (BB r0 c0 Hr0 Hc0). unfold in_bounds. clear - E2 H H0. lia.
        + eexists. split; [reflexivity|].
          rewrite search_uniform; [reflexivity|].
          intros r0 c0 Hr0 Hc0. apply (cur_uniform _ _ _ _ _ _ _ Hy Hby); fold sl; lia.
    Qed.

    Lemma search_spec_flat lower upper top bottom left right : top < bottom -> left < right ->
      search_spec g top bottom left right lower upper =
      search_out lower upper top (bottom - 1) left (right - 1) 0 0.
    Proof.
      intros Ht Hl. unfold search_spec, search_out. rewrite cells_flat by assumption.
      rewrite filter_flat_map. apply flat_map_ext. intros r. rewrite filter_flat_map.
      apply flat_map_ext. intros c. reflexivity.
    Qed.

    Lemma snap_search_window_ok top bottom left right lower upper :
      window_in top bottom left right rows cols ->
      exists out, snap_search_window s (mkRect top bottom left right) lower upper = Ok out /\
        Permutation out (search_spec g top bottom left right lower upper).
    Proof.
      intros (Ht & Hb & Hl & Hr). unfold snap_search_window.
      rewrite root_bit by exact He. cbn [bind]. rewrite root_max. cbn [bind].
      destruct (k_branch (e_node root)) eqn:Hbr; cbn [negb].
      - cbn [r_top r_bottom r_left r_right]. rewrite !usub_ok by lia. cbn [bind].
        rewrite root_min by exact Hbr. cbn [bind].
        rewrite (so_sidelen _ _ _ _ _ _ OK), search_spec_flat by assumption.
        destruct e as [|e'] eqn:Ee; [lia|]. rewrite <- Ee in *.
        pose proof cur_root as Hcur. rewrite Ee in Hcur |- *.
        apply (snap_search_rec_ok lower upper e' _ 0 0 0 _ _ _ _ _ Hcur Hbr); try lia;
          rewrite <- Ee; try lia.
        rewrite Ee. pose proof (Nat.pow_gt_lin_r k (S e') ltac:(lia)). lia.
      - assert (Hv : forall rc, In rc (cells top bottom left right) -> g (fst rc) (snd rc) = mx (e_node root)).
        { intros [r c] Hin. apply in_cells in Hin. cbn [fst snd].
          apply (cur_uniform _ _ _ _ _ _ _ cur_root Hbr); lia. }
        unfold search_spec.
        destruct ((lower <=? mx (e_node root)) && (mx (e_node root) <=? upper))%Z eqn:E.
        + rewrite rect_cells_ok by exact Hl. eexists. split; [reflexivity|]. cbn [r_top r_bottom r_left r_right].
          rewrite filter_true_in; [reflexivity|]. intros rc Hin. rewrite Hv by exact Hin. exact E.
        + eexists. split; [reflexivity|].
          rewrite filter_false_in; [reflexivity|]. intros rc Hin. rewrite Hv by exact Hin. exact E.
    Qed.
  End Walk.
End Snap.

Lemma log_ceil_loop_ok k n : 2 <= k -> forall fuel e, n <= fuel + e -> n <= k ^ log_ceil_loop fuel k n e.
Proof.
  intros Hk. induction fuel as [|fuel IH]; intros e H; cbn [log_ceil_loop].
  - pose proof (Nat.pow_gt_lin_r k e ltac:(lia)). lia.
  - destruct (Nat.leb_spec n (k ^ e)); [assumption|]. apply IH. lia.
Qed.

Lemma log_ceil_ok k n : 2 <= k -> n <= k ^ log_ceil k n.
Proof. intros Hk. apply log_ceil_loop_ok; lia. Qed.

Lemma log_ceil_loop_ge k n : forall fuel e, e <= log_ceil_loop fuel k n e.
Proof.
  induction fuel as [|fuel IH]; intros e; cbn [log_ceil_loop]; [lia|].
  destruct (n <=? k ^ e); [lia|]. specialize (IH (S e)). lia.
Qed.

Lemma log_ceil_pos k n : 2 <= k -> 2 <= n -> 0 < log_ceil k n.
Proof.
  intros Hk Hn. pose proof (log_ceil_ok k n Hk). destruct (log_ceil k n); [|lia].
  rewrite Nat.pow_0_r in H. lia.
Qed.

(** It is the least such exponent. *)
Lemma log_ceil_loop_least k n : 2 <= k -> forall fuel e,
  n <= fuel + e -> (forall e', e' < e -> k ^ e' < n) ->
  forall e', e' < log_ceil_loop fuel k n e -> k ^ e' < n.
Proof.
  intros Hk. induction fuel as [|fuel IH]; intros e H Hl e' He'; cbn [log_ceil_loop] in He'; [auto|].
  destruct (Nat.leb_spec n (k ^ e)); [auto|]. eapply IH; [|intros e2 He2|exact He']; [lia|].
  destruct (Nat.eq_dec e2 e) as [->|]; [assumption|]. apply Hl. lia.
Qed.

Lemma log_ceil_least k n e : 2 <= k -> e < log_ceil k n -> k ^ e < n.
Proof. intros Hk He. eapply (log_ceil_loop_least k n Hk n 0); [lia|lia|exact He]. Qed.
