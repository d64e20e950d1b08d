(** * Proofs about the temporary tree and the traversal of the log model. *)
From Verif Require Import Base BaseFacts BitmapModel BitmapProofs DacModel DacProofs
  Spec GeomModel GeomProofs SnapshotModel Bfs SnapshotProofs LogModel.
Ltac Zify.zify_post_hook ::= Z.div_mod_to_equations.

Arguments Nat.pow : simpl never.

(** Cells of the box of side [k^h] at [(row, col)] that lie in the raster. *)
Definition inbox (rows cols k h row col r c : nat) : Prop :=
  row <= r < row + k ^ h /\ col <= c < col + k ^ h /\ r < rows /\ c < cols.

Definition is_max (g : nat -> nat -> Z) (rows cols k h row col : nat) (m : Z) : Prop :=
  (forall r c, inbox rows cols k h row col r c -> (g r c <= m)%Z) /\
  exists r c, inbox rows cols k h row col r c /\ g r c = m.
Definition is_min (g : nat -> nat -> Z) (rows cols k h row col : nat) (m : Z) : Prop :=
  (forall r c, inbox rows cols k h row col r c -> (m <= g r c)%Z) /\
  exists r c, inbox rows cols k h row col r c /\ g r c = m.

Lemma is_max_uniq g rows cols k h row col a b :
  is_max g rows cols k h row col a -> is_max g rows cols k h row col b -> a = b.
Proof.
  intros (A & r & c & H1 & H2) (B & r' & c' & H3 & H4).
  pose proof (A _ _ H3). pose proof (B _ _ H1). lia.
Qed.
Lemma is_min_uniq g rows cols k h row col a b :
  is_min g rows cols k h row col a -> is_min g rows cols k h row col b -> a = b.
Proof.
  intros (A & r & c & H1 & H2) (B & r' & c' & H3 & H4).
  pose proof (A _ _ H3). pose proof (B _ _ H1). lia.
Qed.

(** ** Folds of optional extremes *)
Lemma up_max_fold {A} (f : A -> option Z) l : forall a,
  exists M, fold_left (fun m c => up_max m (f c)) l (Some a) = Some M /\ (a <= M)%Z /\
    (forall x b, In x l -> f x = Some b -> (b <= M)%Z) /\
    (M = a \/ exists x, In x l /\ f x = Some M).
Proof.
  induction l as [|y l IH]; intros a; cbn [fold_left].
  - exists a. split; [reflexivity|]. split; [lia|]. split; [intros x b []|left; reflexivity].
  - unfold up_max at 2, is_lt. destruct (f y) as [b|] eqn:Ey.
    + destruct (Z.ltb_spec a b) as [Hab|Hab].
      * destruct (IH b) as (M & EM & H1 & H2 & H3). exists M. split; [exact EM|]. split; [lia|]. split.
        -- intros x c [<-|Hin] Hc; [congruence || (rewrite Ey in Hc; injection Hc as <-; lia)|eauto].
        -- right. destruct H3 as [->|(x & Hin & Hx)]; [exists y|exists x]; auto with datatypes.
      * destruct (IH a) as (M & EM & H1 & H2 & H3). exists M. split; [exact EM|]. split; [lia|]. split.
        -- intros x c [<-|Hin] Hc; [rewrite Ey in Hc; injection Hc as <-; lia|eauto].
        -- destruct H3 as [->|(x & Hin & Hx)]; [left; reflexivity|right; exists x; auto with datatypes].
    + destruct (IH a) as (M & EM & H1 & H2 & H3). exists M. split; [exact EM|]. split; [lia|]. split.
      * intros x c [<-|Hin] Hc; [congruence|eauto].
      * destruct H3 as [->|(x & Hin & Hx)]; [left; reflexivity|right; exists x; auto with datatypes].
Qed.

Lemma up_min_fold {A} (f : A -> option Z) l : forall a,
  exists M, fold_left (fun m c => up_min m (f c)) l (Some a) = Some M /\ (M <= a)%Z /\
    (forall x b, In x l -> f x = Some b -> (M <= b)%Z) /\
    (M = a \/ exists x, In x l /\ f x = Some M).
Proof.
  induction l as [|y l IH]; intros a; cbn [fold_left].
  - exists a. split; [reflexivity|]. split; [lia|]. split; [intros x b []|left; reflexivity].
  - unfold up_min at 2, is_lt. destruct (f y) as [b|] eqn:Ey.
    + destruct (Z.ltb_spec b a) as [Hab|Hab].
      * destruct (IH b) as (M & EM & H1 & H2 & H3). exists M. split; [exact EM|]. split; [lia|]. split.
        -- intros x c [<-|Hin] Hc; [rewrite Ey in Hc; injection Hc as <-; lia|eauto].
        -- right. destruct H3 as [->|(x & Hin & Hx)]; [exists y|exists x]; auto with datatypes.
      * destruct (IH a) as (M & EM & H1 & H2 & H3). exists M. split; [exact EM|]. split; [lia|]. split.
        -- intros x c [<-|Hin] Hc; [rewrite Ey in Hc; injection Hc as <-; lia|eauto].
        -- destruct H3 as [->|(x & Hin & Hx)]; [left; reflexivity|right; exists x; auto with datatypes].
    + destruct (IH a) as (M & EM & H1 & H2 & H3). exists M. split; [exact EM|]. split; [lia|]. split.
      * intros x c [<-|Hin] Hc; [congruence|eauto].
      * destruct H3 as [->|(x & Hin & Hx)]; [left; reflexivity|right; exists x; auto with datatypes].
Qed.

Lemma up_max_none {A} (f : A -> option Z) l : fold_left (fun m c => up_max m (f c)) l None = None.
Proof. induction l as [|y l IH]; cbn [fold_left]; [reflexivity|]. exact IH. Qed.
Lemma up_min_none {A} (f : A -> option Z) l : fold_left (fun m c => up_min m (f c)) l None = None.
Proof.
  induction l as [|y l IH]; cbn [fold_left]; [reflexivity|].
  unfold up_min at 2, is_lt. destruct (f y); exact IH.
Qed.

(** ** The temporary tree *)
Section Tree.
  Variables (gs gt : nat -> nat -> Z) (rows cols k : nat).
  Hypothesis Hk : 2 <= k.

  Notation inb := (inbox rows cols k).

  (** [sel] holds the extreme of the node's box, or nothing outside the shape. *)
  Definition holds (P : nat -> nat -> nat -> Z -> Prop) (h row col : nat) (o : option Z) : Prop :=
    match o with
    | Some m => row < rows /\ col < cols /\ P h row col m
    | None => ~ (row < rows /\ col < cols)
    end.

  Fixpoint prep (h row col : nat) (x : pnode) : Prop :=
    (holds (is_max gt rows cols k) h row col (p_max_t x) /\
     holds (is_min gt rows cols k) h row col (p_min_t x) /\
     holds (is_max gs rows cols k) h row col (p_max_s x) /\
     holds (is_min gs rows cols k) h row col (p_min_s x)) /\
    (p_equal x = true -> forall r c, inb h row col r c -> i64_sub (gt r c) (gs r c) = p_diff x) /\
    match h with
    | 0 => p_children x = []
    | S h' => length (p_children x) = k * k /\
        forall i j y, i < k -> j < k -> nth_error (p_children x) (i * k + j) = Some y ->
          prep h' (row + i * k ^ h') (col + j * k ^ h') y
    end.

  Lemma prep_holds h row col x : prep h row col x ->
    holds (is_max gt rows cols k) h row col (p_max_t x) /\
    holds (is_min gt rows cols k) h row col (p_min_t x) /\
    holds (is_max gs rows cols k) h row col (p_max_s x) /\
    holds (is_min gs rows cols k) h row col (p_min_s x).
  Proof. destruct h; intros H; apply H. Qed.

  Lemma inb_child h row col i j r c : i < k -> j < k ->
    inb h (row + i * k ^ h) (col + j * k ^ h) r c -> inb (S h) row col r c.
  Proof using.
    clear.
    intros Hi Hj (H1 & H2 & H3 & H4). unfold inbox. rewrite !Nat.pow_succ_r'.
    pose proof (Nat.mul_le_mono_r (S i) k (k ^ h) Hi). pose proof (Nat.mul_le_mono_r (S j) k (k ^ h) Hj).
    repeat split; try assumption; lia.
  Qed.

  Lemma inb_find h row col r c : inb (S h) row col r c ->
    exists i j, i < k /\ j < k /\ inb h (row + i * k ^ h) (col + j * k ^ h) r c.
  Proof.
    intros (H1 & H2 & H3 & H4). assert (Hp : 0 < k ^ h) by (apply pow_pos; exact Hk).
    rewrite Nat.pow_succ_r' in H1, H2.
    destruct (sub_square k (k ^ h) row r Hp H1) as (Hi & Hri).
    destruct (sub_square k (k ^ h) col c Hp H2) as (Hj & Hcj).
    do 2 eexists. split; [exact Hi|]. split; [exact Hj|]. repeat split; try assumption; apply Hri || apply Hcj.
  Qed.

  Section Fold.
    Variables (h row col : nat) (ch : list pnode) (c0 : pnode).
    Hypothesis Hrep : forall n y, nth_error (c0 :: ch) n = Some y ->
      exists i j, i < k /\ j < k /\ prep h (row + i * k ^ h) (col + j * k ^ h) y.
    Hypothesis Hc0 : prep h row col c0.
    Hypothesis Hall : forall i j, i < k -> j < k ->
      exists y, In y (c0 :: ch) /\ prep h (row + i * k ^ h) (col + j * k ^ h) y.

    Lemma fold_max_ok (sel : pnode -> option Z) (g : nat -> nat -> Z) :
      (forall row col x, prep h row col x -> holds (is_max g rows cols k) h row col (sel x)) ->
      holds (is_max g rows cols k) (S h) row col (fold_left (fun m c => up_max m (sel c)) ch (sel c0)).
    Proof.
      intros Hsel. pose proof (Hsel _ _ _ Hc0) as H0. destruct (sel c0) as [a|] eqn:E0; cbn [holds] in H0.
      2:{ rewrite up_max_none. exact H0. }
      destruct (up_max_fold sel ch a) as (M & EM & H1 & H2 & H3). rewrite EM. cbn [holds].
      destruct H0 as (Hr & Hc & Hm). split; [exact Hr|]. split; [exact Hc|]. split.
      - intros r c Hin. destruct (inb_find _ _ _ _ _ Hin) as (i & j & Hi & Hj & Hb).
        destruct (Hall i j Hi Hj) as (y & Hy & Hp). pose proof (Hsel _ _ _ Hp) as Hs.
        destruct (sel y) as [b|] eqn:Ey; cbn [holds] in Hs.
        + destruct Hs as (_ & _ & Hs & _). specialize (Hs _ _ Hb).
          destruct Hy as [<-|Hy].
          * rewrite E0 in Ey. injection Ey as ->. lia.
          * specialize (H2 _ _ Hy Ey). lia.
        + exfalso. apply Hs. destruct Hb as (B1 & B2 & B3 & B4). split; lia.
      - assert (HA : exists x, In x (c0 :: ch) /\ sel x = Some M).
        { destruct H3 as [->|(x & Hx & Ex)]; [exists c0|exists x]; split; auto with datatypes. }
        destruct HA as (x & Hx & Ex). apply In_nth_error in Hx. destruct Hx as (n & Hn).
        destruct (Hrep n x Hn) as (i & j & Hi & Hj & Hp). pose proof (Hsel _ _ _ Hp) as Hs.
        rewrite Ex in Hs. cbn [holds] in Hs. destruct Hs as (_ & _ & _ & r & c & Hb & Hg).
        exists r, c. split; [|exact Hg]. exact (inb_child _ _ _ _ _ _ _ Hi Hj Hb).
    Qed.

    Lemma fold_min_ok (sel : pnode -> option Z) (g : nat -> nat -> Z) :
      (forall row col x, prep h row col x -> holds (is_min g rows cols k) h row col (sel x)) ->
      holds (is_min g rows cols k) (S h) row col (fold_left (fun m c => up_min m (sel c)) ch (sel c0)).
    Proof.
      intros Hsel. pose proof (Hsel _ _ _ Hc0) as H0. destruct (sel c0) as [a|] eqn:E0; cbn [holds] in H0.
      2:{ rewrite up_min_none. exact H0. }
      destruct (up_min_fold sel ch a) as (M & EM & H1 & H2 & H3). rewrite EM. cbn [holds].
      destruct H0 as (Hr & Hc & Hm). split; [exact Hr|]. split; [exact Hc|]. split.
      - intros r c Hin. destruct (inb_find _ _ _ _ _ Hin) as (i & j & Hi & Hj & Hb).
        destruct (Hall i j Hi Hj) as (y & Hy & Hp). pose proof (Hsel _ _ _ Hp) as Hs.
        destruct (sel y) as [b|] eqn:Ey; cbn [holds] in Hs.
        + destruct Hs as (_ & _ & Hs & _). specialize (Hs _ _ Hb).
          destruct Hy as [<-|Hy].
          * rewrite E0 in Ey. injection Ey as ->. lia.
          * specialize (H2 _ _ Hy Ey). lia.
        + exfalso. apply Hs. destruct Hb as (B1 & B2 & B3 & B4). split; lia.
      - assert (HA : exists x, In x (c0 :: ch) /\ sel x = Some M).
        { destruct H3 as [->|(x & Hx & Ex)]; [exists c0|exists x]; split; auto with datatypes. }
        destruct HA as (x & Hx & Ex). apply In_nth_error in Hx. destruct Hx as (n & Hn).
        destruct (Hrep n x Hn) as (i & j & Hi & Hj & Hp). pose proof (Hsel _ _ _ Hp) as Hs.
        rewrite Ex in Hs. cbn [holds] in Hs. destruct Hs as (_ & _ & _ & r & c & Hb & Hg).
        exists r, c. split; [|exact Hg]. exact (inb_child _ _ _ _ _ _ _ Hi Hj Hb).
    Qed.

  End Fold.

  Lemma fold_diff_ok l d : forall q, fold_left (fun q c => q && (p_diff c =? d)%Z) l q = true ->
    q = true /\ Forall (fun c => p_diff c = d) l.
  Proof.
    induction l as [|y l IH]; intros q Hq; cbn [fold_left] in Hq; [auto|].
    apply IH in Hq. destruct Hq as [Hq HF]. apply andb_prop in Hq. destruct Hq as [-> Hd].
    split; [reflexivity|]. constructor; [lia|exact HF].
  Qed.

  Lemma p_build_ok : i64_raster gs rows cols -> i64_raster gt rows cols ->
    forall h fuel row col, h <= fuel ->
    exists x, p_build fuel gs gt rows cols k (k ^ h) row col = Ok x /\ prep h row col x.
  Proof.
    intros Hgs Hgt. induction h as [|h IH]; intros fuel row col Hf.
    - change (k ^ 0) with 1.
      set (vs := if (row <? rows) && (col <? cols) then Some (gs row col) else None).
      set (vt := if (row <? rows) && (col <? cols) then Some (gt row col) else None).
      assert (E : p_build fuel gs gt rows cols k 1 row col =
        Ok (PNode vt vt vs vs (i64_sub (or0 vt) (or0 vs)) true [])) by (destruct fuel; reflexivity).
      rewrite E. eexists. split; [reflexivity|].
      cbn [prep p_max_t p_min_t p_max_s p_min_s p_equal p_diff p_children].
      assert (H1 : forall (P : nat -> nat -> nat -> Z -> Prop) g,
        (row < rows -> col < cols -> P 0 row col (g row col)) ->
        holds P 0 row col (if (row <? rows) && (col <? cols) then Some (g row col) else None)).
      { intros P g HP. destruct (Nat.ltb_spec row rows), (Nat.ltb_spec col cols); cbn [andb holds]; auto; lia. }
      assert (Hone : forall r c, inb 0 row col r c -> r = row /\ c = col).
      { intros r c (A1 & A2 & _). change (k ^ 0) with 1 in *. lia. }
      assert (Hself : row < rows -> col < cols -> inb 0 row col row col).
      { intros; unfold inbox; change (k ^ 0) with 1; lia. }
      split; [|split; [|reflexivity]].
      + split; [|split; [|split]]; apply H1; intros Hr Hc; (split;
          [intros r c Hb; destruct (Hone r c Hb) as [-> ->]; lia
          |exists row, col; split; [apply Hself; assumption|reflexivity]]).
      + intros _ r c Hb. destruct (Hone r c Hb) as [-> ->]. destruct Hb as (_ & _ & B1 & B2).
        unfold vs, vt. destruct (Nat.ltb_spec row rows); [|lia]. destruct (Nat.ltb_spec col cols); [|lia].
        reflexivity.
    - destruct fuel as [|fuel]; [lia|].
      assert (Hp : 0 < k ^ h) by (apply pow_pos; exact Hk).
      rewrite Nat.pow_succ_r'. cbn [p_build].
      destruct (Nat.eqb_spec (k * k ^ h) 1) as [E1|_]; [nia|].
      rewrite udiv_ok by lia. cbn [bind].
      replace (k * k ^ h / k) with (k ^ h) by (rewrite Nat.mul_comm, Nat.div_mul; lia).
      destruct (mapM_exists
         (fun ij x => prep h (row + fst ij * k ^ h) (col + snd ij * k ^ h) x)
         (fun '(i, j) => p_build fuel gs gt rows cols k (k ^ h) (row + i * k ^ h) (col + j * k ^ h))
         (grid k)) as (ch & Ech & HF).
      { intros [i j] _. apply IH. lia. }
      rewrite Ech. cbn [bind].
      assert (Hlen : length ch = k * k) by (rewrite <- (Forall2_length _ _ _ HF); apply length_grid).
      destruct ch as [|c0 ch]; [cbn [length] in Hlen; nia|].
      unfold nth_res. cbn [nth_error bind tl].
      eexists. split; [reflexivity|].
      assert (Hrep : forall n y, nth_error (c0 :: ch) n = Some y ->
        exists i j, i < k /\ j < k /\ prep h (row + i * k ^ h) (col + j * k ^ h) y).
      { intros n y Hn. destruct (Forall2_nth_error _ _ _ _ _ HF Hn) as ([i j] & Eg & Hy).
        apply nth_error_In, in_grid in Eg. exists i, j. tauto. }
      assert (Hc0 : prep h row col c0).
      { destruct (Forall2_nth_error _ _ _ 0 c0 HF eq_refl) as ([i j] & Eg & Hy).
        pose proof (nth_error_grid k 0 0 ltac:(lia) ltac:(lia)) as E0.
        change (0 * k + 0) with 0 in E0. rewrite E0 in Eg. injection Eg as <- <-.
        cbn [fst snd Nat.mul] in Hy. rewrite !Nat.add_0_r in Hy. exact Hy. }
      assert (Hall : forall i j, i < k -> j < k ->
        exists y, In y (c0 :: ch) /\ prep h (row + i * k ^ h) (col + j * k ^ h) y).
      { intros i j Hi Hj.
        destruct (Forall2_nth_error_l _ _ _ _ _ HF (nth_error_grid k i j Hi Hj)) as (y & Hy & Hyp).
        exists y. split; [eapply nth_error_In; exact Hy|exact Hyp]. }
      cbn [prep p_max_t p_min_t p_max_s p_min_s p_equal p_diff p_children].
      split; [|split; [|split]].
      + split; [|split; [|split]].
        * eapply fold_max_ok; eauto. intros. eapply prep_holds; eassumption.
        * eapply fold_min_ok; eauto. intros. eapply prep_holds; eassumption.
        * eapply fold_max_ok; eauto. intros. eapply prep_holds; eassumption.
        * eapply fold_min_ok; eauto. intros. eapply prep_holds; eassumption.
      + intros Heq r c Hin. apply fold_diff_ok in Heq. destruct Heq as [Heq HD].
        rewrite forallb_forall in Heq. rewrite Forall_forall in HD.
        destruct (inb_find _ _ _ _ _ Hin) as (i & j & Hi & Hj & Hb).
        destruct (Hall i j Hi Hj) as (y & Hy & Hyp).
        assert (Ey : i64_sub (gt r c) (gs r c) = p_diff y).
        { specialize (Heq y Hy). destruct h; cbn [prep] in Hyp; apply (proj1 (proj2 Hyp)); assumption. }
        rewrite Ey. destruct Hy as [<-|Hy]; [reflexivity|]. apply HD. exact Hy.
      + exact Hlen.
      + intros i j y Hi Hj Hy.
        destruct (Forall2_nth_error _ _ _ _ _ HF Hy) as ([i' j'] & E & Hyp).
        rewrite nth_error_grid in E by assumption. injection E as <- <-. exact Hyp.
  Qed.

  (** The difference at a place of the square; 0 outside the raster. *)
  Definition diff_at (r c : nat) : Z :=
    if (r <? rows) && (c <? cols) then i64_sub (gt r c) (gs r c) else 0%Z.
  (** A node says that its differences are equal exactly if they are, with those outside the raster. *)
  Lemma p_build_equal : forall h fuel row col, h <= fuel ->
    exists x, p_build fuel gs gt rows cols k (k ^ h) row col = Ok x /\ p_diff x = diff_at row col /\
      (p_equal x = true <-> forall r c, row <= r < row + k ^ h -> col <= c < col + k ^ h -> diff_at r c = p_diff x).
  Proof.
    induction h as [|h IH]; intros fuel row col Hf.
    - change (k ^ 0) with 1.
      set (vs := if (row <? rows) && (col <? cols) then Some (gs row col) else None).
      set (vt := if (row <? rows) && (col <? cols) then Some (gt row col) else None).
      assert (E : p_build fuel gs gt rows cols k 1 row col =
        Ok (PNode vt vt vs vs (i64_sub (or0 vt) (or0 vs)) true [])) by (destruct fuel; reflexivity).
      rewrite E. eexists. split; [reflexivity|]. cbn [p_diff p_equal].
      assert (D : i64_sub (or0 vt) (or0 vs) = diff_at row col).
      { unfold vs, vt, diff_at. destruct ((row <? rows) && (col <? cols)); reflexivity. }
      split; [exact D|]. split; [|reflexivity]. intros _ r c R C. replace r with row by lia. replace c with col by lia. symmetry. exact D.
    - destruct fuel as [|fuel]; [lia|].
      assert (Hp : 0 < k ^ h) by (apply pow_pos; exact Hk).
      rewrite Nat.pow_succ_r'. cbn [p_build].
      destruct (Nat.eqb_spec (k * k ^ h) 1) as [E1|_]; [nia|].
      rewrite udiv_ok by lia. cbn [bind].
      replace (k * k ^ h / k) with (k ^ h) by (rewrite Nat.mul_comm, Nat.div_mul; lia).
      destruct (mapM_exists
         (fun ij x => p_diff x = diff_at (row + fst ij * k ^ h) (col + snd ij * k ^ h) /\
            (p_equal x = true <-> forall r c, row + fst ij * k ^ h <= r < row + fst ij * k ^ h + k ^ h ->
               col + snd ij * k ^ h <= c < col + snd ij * k ^ h + k ^ h -> diff_at r c = p_diff x))
         (fun '(i, j) => p_build fuel gs gt rows cols k (k ^ h) (row + i * k ^ h) (col + j * k ^ h))
         (grid k)) as (ch & Ech & HF).
      { intros [i j] _. apply IH. lia. }
      rewrite Ech. cbn [bind].
      assert (Hlen : length ch = k * k) by (rewrite <- (Forall2_length _ _ _ HF); apply length_grid).
      destruct ch as [|c0 ch]; [cbn [length] in Hlen; nia|].
      unfold nth_res. cbn [nth_error bind tl].
      eexists. split; [reflexivity|]. cbn [p_diff p_equal].
      destruct (Forall2_nth_error _ _ _ 0 c0 HF eq_refl) as ([i0 j0] & Eg & D0 & Q0).
      pose proof (nth_error_grid k 0 0 ltac:(lia) ltac:(lia)) as E0.
      change (0 * k + 0) with 0 in E0. rewrite E0 in Eg. injection Eg as <- <-.
      cbn [fst snd Nat.mul] in D0, Q0. rewrite !Nat.add_0_r in D0, Q0.
      split; [exact D0|]. split.
      + intros Heq r c R C. apply fold_diff_ok in Heq. destruct Heq as [Heq HD].
        rewrite forallb_forall in Heq. rewrite Forall_forall in HD.
        set (i := (r - row) / k ^ h). set (j := (c - col) / k ^ h).
        assert (Hi : i < k) by (apply Nat.div_lt_upper_bound; lia).
        assert (Hj : j < k) by (apply Nat.div_lt_upper_bound; lia).
        destruct (Forall2_nth_error_l _ _ _ _ _ HF (nth_error_grid k i j Hi Hj)) as (y & Hy & Dy & Qy).
        cbn [fst snd] in *. pose proof (nth_error_In _ _ Hy) as Iy.
        assert (Ey : diff_at r c = p_diff y).
        { pose proof (Nat.div_mod (r - row) (k ^ h) ltac:(lia)) as A. pose proof (Nat.div_mod (c - col) (k ^ h) ltac:(lia)) as B.
          pose proof (Nat.mod_upper_bound (r - row) (k ^ h) ltac:(lia)). pose proof (Nat.mod_upper_bound (c - col) (k ^ h) ltac:(lia)).
          fold i in A. fold j in B. rewrite Nat.mul_comm in A, B.
          apply (proj1 Qy (Heq y Iy)); [clear - A H R|clear - B H0 C]; lia. }
        rewrite Ey. destruct Iy as [<-|Iy]; [reflexivity|]. apply HD. exact Iy.
      + intros Hall.
        assert (Hch : forall y, In y (c0 :: ch) -> p_equal y = true /\ p_diff y = p_diff c0).
        { intros y Hy. apply In_nth_error in Hy. destruct Hy as (n & Hy).
          destruct (Forall2_nth_error _ _ _ _ _ HF Hy) as ([i j] & Eg & Dy & Qy). cbn [fst snd] in *.
          apply nth_error_In, in_grid in Eg. destruct Eg as [Hi Hj].
          assert (Bi : i * k ^ h + k ^ h <= k * k ^ h) by (pose proof (Nat.mul_le_mono_r (S i) k (k ^ h) Hi); lia).
          assert (Bj : j * k ^ h + k ^ h <= k * k ^ h) by (pose proof (Nat.mul_le_mono_r (S j) k (k ^ h) Hj); lia).
          assert (Ey : p_diff y = p_diff c0) by (rewrite Dy; apply Hall; lia).
          split; [|exact Ey]. apply Qy. intros r c R C. rewrite Ey. apply Hall; lia. }
        assert (FO : forall l q, q = true -> (forall y, In y l -> p_diff y = p_diff c0) ->
          fold_left (fun q c => q && (p_diff c =? p_diff c0)%Z) l q = true).
        { induction l as [|y l IHl]; intros q Q Hl; cbn [fold_left]; [exact Q|]. apply IHl; [|intros z Hz; apply Hl; right; exact Hz].
          rewrite Q, (Hl y (or_introl eq_refl)). cbn [andb]. apply Z.eqb_refl. }
        apply FO.
        * apply forallb_forall. intros y Hy. apply (Hch y Hy).
        * intros y Hy. apply (Hch y). right. exact Hy.
  Qed.
End Tree.

(** ** The traversal *)
Definition p_inner (x : pnode) : bool := match p_children x with [] => false | _ => true end.
Definition p_uniform (x : pnode) : bool := opt_eqb (p_min_t x) (p_max_t x).
Definition p_some (x : pnode) : bool :=
  match p_min_t x, p_min_s x with Some _, Some _ => true | _, _ => false end.
Definition p_stop (x : pnode) : bool := p_uniform x || p_equal x.
Definition p_branch (x : pnode) : bool := p_inner x && negb (p_stop x) && p_some x.
Definition p_bad (x : pnode) : bool := p_inner x && negb (p_stop x) && negb (p_some x).
Definition p_dmax (x : pnode) : Z := i64_sub (or0 (p_max_t x)) (or0 (p_max_s x)).
Definition p_dmin (x : pnode) : Z := i64_sub (or0 (p_min_t x)) (or0 (p_min_s x)).
Definition p_kids (x : pnode) : list pnode := if p_branch x then p_children x else [].

Definition p_upd (st : log_state) (x : pnode) : log_state :=
  let '(nm, eq, mxs, mns, bad) := st in
  (if p_inner x && negb (p_bad x) then builder_push nm (p_branch x) else nm,
   if p_inner x && p_stop x then builder_push eq (negb (p_uniform x)) else eq,
   mxs ++ [p_dmax x],
   if p_branch x then mns ++ [p_dmin x] else mns,
   bad || p_bad x).

Lemma log_body_eq st x : log_body st x = (p_upd st x, p_kids x).
Proof.
  destruct st as [[[[nm eq] mxs] mns] bad].
  unfold log_body, p_upd, p_kids, p_branch, p_bad, p_stop, p_uniform, p_inner, p_some, p_dmax, p_dmin.
  destruct x as [maxt mint maxs mins d q ch].
  cbn [p_max_t p_min_t p_max_s p_min_s p_diff p_equal p_children].
  destruct ch as [|c ch]; cbn [andb]; [rewrite Bool.orb_false_r; reflexivity|].
  destruct (opt_eqb mint maxt); cbn [orb negb andb]; [rewrite Bool.orb_false_r; reflexivity|].
  destruct q; cbn [orb negb andb]; [rewrite Bool.orb_false_r; reflexivity|].
  destruct mint, mins; cbn [orb negb andb or0]; rewrite ?Bool.orb_false_r, ?Bool.orb_true_r; reflexivity.
Qed.

Lemma p_upd_fold V : forall nm eq mxs mns, Forall (fun x => p_bad x = false) V ->
  fold_left p_upd V (nm, eq, mxs, mns, false) =
  (fold_left builder_push (map p_branch (filter p_inner V)) nm,
   fold_left builder_push (map (fun x => negb (p_uniform x))
     (filter (fun x => negb (p_branch x)) (filter p_inner V))) eq,
   mxs ++ map p_dmax V,
   mns ++ map p_dmin (filter p_branch V), false).
Proof.
  induction V as [|x V IH]; intros nm eq mxs mns HB; cbn [fold_left map filter].
  - rewrite !app_nil_r. reflexivity.
  - inversion HB as [|? ? Hx HV]; subst. unfold p_upd at 2. rewrite Hx. cbn [negb orb].
    rewrite IH by exact HV. rewrite Bool.andb_true_r.
    assert (Hb : p_inner x = true -> p_branch x = negb (p_stop x)).
    { intros Hi. unfold p_bad, p_branch in *. rewrite Hi in *. cbn [andb] in *.
      destruct (p_stop x); cbn [negb andb] in *; [reflexivity|]. destruct (p_some x); [reflexivity|discriminate]. }
    destruct (p_inner x) eqn:Ei; cbn [andb map filter fold_left]; rewrite <- app_assoc; cbn [app].
    + rewrite (Hb eq_refl). destruct (p_stop x); cbn [negb filter map fold_left]; [reflexivity|].
      rewrite <- app_assoc. reflexivity.
    + replace (p_branch x) with false by (unfold p_branch; rewrite Ei; reflexivity). reflexivity.
Qed.

Section Log.
  Variables (gs gt : nat -> nat -> Z) (rows cols k : nat).
  Hypothesis Hk : 2 <= k.
  Notation prep := (prep gs gt rows cols k).

  Definition p_at (h : nat) (x : pnode) : Prop := exists row col, prep h row col x.

  Lemma prep_children h row col x : prep h row col x ->
    length (p_children x) = match h with 0 => 0 | _ => k * k end.
  Proof. destruct h; cbn [LogTree.prep]; intros (_ & _ & H); [rewrite H; reflexivity|apply H]. Qed.

  Lemma prep_inner h row col x : prep h row col x ->
    p_inner x = match h with 0 => false | _ => true end.
  Proof.
    intros H. pose proof (prep_children _ _ _ _ H) as HL. unfold p_inner.
    destruct (p_children x), h; cbn [length] in HL; try reflexivity; nia.
  Qed.

  Lemma prep_not_bad h row col x : prep h row col x -> p_bad x = false.
  Proof.
    intros H. destruct (prep_holds _ _ _ _ _ _ _ _ _ H) as (H1 & H2 & H3 & H4).
    unfold p_bad, p_stop, p_uniform, p_some.
    destruct (p_max_t x), (p_min_t x), (p_max_s x), (p_min_s x); cbn [holds] in *; try tauto;
      cbn [opt_eqb orb negb andb]; rewrite ?Bool.andb_false_r; reflexivity.
  Qed.

  Lemma p_kids0 x : p_at 0 x -> p_kids x = [].
  Proof. intros (r & c & H). unfold p_kids, p_branch. rewrite (prep_inner _ _ _ _ H). reflexivity. Qed.

  Lemma p_kidsS h x : p_at (S h) x -> Forall (p_at h) (p_kids x).
  Proof.
    intros (r & c & H). unfold p_kids. destruct (p_branch x); [|constructor].
    apply Forall_forall. intros y Hy. cbn [LogTree.prep] in H. destruct H as (_ & _ & HL & HC).
    apply In_nth_error in Hy. destruct Hy as (n & Hn).
    assert (Hlt : n < k * k) by (rewrite <- HL; apply nth_error_Some; congruence).
    pose proof (Nat.div_mod n k ltac:(lia)) as Hd.
    pose proof (Nat.mod_upper_bound n k ltac:(lia)) as Hm.
    do 2 eexists. apply (HC (n / k) (n mod k)).
    - apply Nat.div_lt_upper_bound; lia.
    - exact Hm.
    - rewrite <- Hn. f_equal. lia.
  Qed.

  Lemma p_kids_length h x : p_at h x -> length (p_kids x) = if p_branch x then k * k else 0.
  Proof.
    intros (r & c & H). unfold p_kids. destruct (p_branch x) eqn:E; [|reflexivity].
    rewrite (prep_children _ _ _ _ H). destruct h; [|reflexivity].
    unfold p_branch in E. rewrite (prep_inner _ _ _ _ H) in E. discriminate.
  Qed.

  Lemma p_count_eq x : p_count x = S (list_sum (map p_count (p_children x))).
  Proof.
    destruct x as [a b c d e f ch]. cbn [p_count p_children]. f_equal.
    induction ch as [|y ch IH]; cbn [fold_right map list_sum]; [reflexivity|].
    rewrite IH. reflexivity.
  Qed.

  Lemma p_lv_count h : forall L, Forall (p_at h) L ->
    length (lv _ p_kids h L) <= list_sum (map p_count L).
  Proof.
    assert (Hge : forall L, length L + list_sum (map (fun e => list_sum (map p_count (p_children e))) L)
              = list_sum (map p_count L)).
    { induction L as [|e L IH]; cbn [length map list_sum fold_right]; [reflexivity|].
      change (fold_right Nat.add 0) with list_sum. rewrite <- IH.
      rewrite (p_count_eq e). lia. }
    assert (Hkids : forall L, list_sum (map p_count (flat_map p_kids L)) <=
              list_sum (map (fun e => list_sum (map p_count (p_children e))) L)).
    { induction L as [|e L IH]; cbn [flat_map map list_sum fold_right]; [lia|].
      change (fold_right Nat.add 0) with list_sum. rewrite map_app, list_sum_app.
      apply Nat.add_le_mono; [|exact IH].
      unfold p_kids. destruct (p_branch e); [lia|apply Nat.le_0_l]. }
    induction h as [|h IH]; intros L HL; cbn [lv]; rewrite app_length.
    - rewrite <- Hge. cbn [length]. lia.
    - rewrite <- Hge. specialize (IH (flat_map p_kids L)).
      specialize (Hkids L).
      assert (HL' : Forall (p_at h) (flat_map p_kids L)).
      { apply Forall_flat_kids with (at_h := p_at); auto. apply p_kidsS. }
      specialize (IH HL'). lia.
  Qed.

  (** What the built log looks like. *)
  Record log_ok (l : log) (e : nat) (root : pnode) (V V1 V2 : list pnode) : Prop := {
    lo_nodemap : bitmap_rel (l_nodemap l) (map p_branch V1);
    lo_equal : bitmap_rel (l_equal l)
      (map (fun x => negb (p_uniform x)) (filter (fun x => negb (p_branch x)) V1));
    lo_max : dac_rel (l_max l) (map zigzag_encode (map p_dmax V));
    lo_min : dac_rel (l_min l) (map zigzag_encode (map p_dmin (filter p_branch V)));
    lo_k : l_k l = k;
    lo_rows : l_rows l = rows;
    lo_cols : l_cols l = cols;
    lo_sidelen : l_sidelen l = k ^ e;
    lo_V : V = root :: flat_map p_kids V;
    lo_len : forall x, In x V -> length (p_kids x) = if p_branch x then k * k else 0;
    lo_V12 : V = V1 ++ V2;
    lo_V1 : Forall (fun x => p_inner x = true) V1;
    lo_V2i : Forall (fun x => p_inner x = false) V2;
    lo_V2 : Forall (fun x => p_branch x = false) V2;
    lo_root : prep e 0 0 root;
    lo_built : p_build e gs gt rows cols k (k ^ e) 0 0 = Ok root;
    lo_inner : 0 < e -> exists V1', V1 = root :: V1';
    lo_len1 : 0 < e -> exists m, length V1 = 1 + m * (k * k);
    lo_single : p_branch root = false -> V = [root];
    lo_count : length V < 2 * (k * k) ^ e
  }.

  Lemma log_build_ok e : i64_raster gs rows cols -> i64_raster gt rows cols ->
    exists l root V V1 V2, log_build_e gs gt rows cols k e = Ok l /\ log_ok l e root V V1 V2.
  Proof.
    intros Hgs Hgt. unfold log_build_e.
    destruct (p_build_ok gs gt rows cols k Hk Hgs Hgt e e 0 0 (le_n e)) as (x & Ex & Hx).
    rewrite Ex. cbn [bind].
    assert (Hroot : Forall (p_at e) [x]) by (constructor; [exists 0, 0; exact Hx|constructor]).
    rewrite (worklist_lv _ _ log_body p_upd p_kids log_body_eq p_at p_kids0 p_kidsS e [x]).
    2:{ exact Hroot. }
    2:{ pose proof (p_lv_count e [x] Hroot) as H. cbn [map list_sum fold_right] in H. lia. }
    cbn [bind].
    pose proof (lv_eq _ p_kids p_at p_kids0 p_kidsS e [x] Hroot) as HV.
    destruct (lv_split _ p_kids p_at p_kidsS p_inner
      (fun y '(ex_intro _ r (ex_intro _ c H)) => prep_inner _ _ _ _ H)
      (fun h y '(ex_intro _ r (ex_intro _ c H)) => prep_inner _ _ _ _ H)
      e [x] Hroot) as (V1 & V2 & HV12 & H1 & H2 & H3).
    pose proof (lv_in_h _ p_kids p_at p_kidsS e [x] Hroot) as Hall.
    set (V := lv _ p_kids e [x]) in *.
    rewrite p_upd_fold.
    2:{ eapply Forall_impl; [|exact Hall]. intros y (h & _ & r & c & Hy). eapply prep_not_bad; exact Hy. }
    cbn [app].
    replace (filter p_inner V) with V1.
    2:{ rewrite HV12, filter_app.
        rewrite (filter_true_in _ V1) by (apply Forall_forall; exact H1).
        rewrite (filter_false_in _ V2) by (apply Forall_forall; exact H2).
        rewrite app_nil_r. reflexivity. }
    destruct (bitmap_of_ok (map p_branch V1)) as (nm & Enm & Rnm).
    unfold bitmap_of in Enm. rewrite Enm. cbn [bind].
    destruct (bitmap_of_ok (map (fun x => negb (p_uniform x)) (filter (fun x => negb (p_branch x)) V1)))
      as (em & Eem & Rem).
    unfold bitmap_of in Eem. rewrite Eem. cbn [bind].
    destruct (dac_of_ok (map p_dmax V)) as (dM & EdM & RdM). rewrite EdM. cbn [bind].
    destruct (dac_of_ok (map p_dmin (filter p_branch V))) as (dm & Edm & Rdm).
    rewrite Edm. cbn [bind].
    eexists _, x, V, V1, V2. split; [reflexivity|].
    assert (HL : forall y, In y V -> length (p_kids y) = if p_branch y then k * k else 0).
    { intros y Hy. rewrite Forall_forall in Hall. destruct (Hall y Hy) as (h & _ & Hh).
      eapply p_kids_length; exact Hh. }
    assert (Hhead : 0 < e -> exists V1', V1 = x :: V1').
    { intros He. destruct V1 as [|y V1'].
      + exfalso. cbn [app] in HV12. rewrite HV in HV12. cbn [app] in HV12. subst V2.
        inversion H2 as [|? ? Hc _]; subst. rewrite (prep_inner _ _ _ _ Hx) in Hc.
        destruct e; [lia|discriminate].
      + exists V1'. rewrite HV12 in HV. cbn [app] in HV. injection HV as -> _. reflexivity. }
    constructor; cbn [l_nodemap l_equal l_max l_min l_k l_rows l_cols l_sidelen]; auto.
    - eapply Forall_impl; [|exact H2]. intros y Hy. unfold p_branch. cbv beta in Hy. rewrite Hy. reflexivity.
    - intros He. apply (length_V1 _ p_kids p_branch (k * k) x V V1 V2 HV HL HV12).
      + nia.
      + destruct (Hhead He) as (V1' & ->). cbn [length]. lia.
      + apply H3; [|exact He]. intros h y Hy. rewrite (p_kids_length _ _ Hy).
        destruct (p_branch y); [exists 1|exists 0]; lia.
    - intros Hs. unfold V.
      assert (Enil : forall h, lv _ p_kids h [] = []) by (induction h; cbn [lv flat_map app]; auto).
      destruct e as [|e']; cbn [lv flat_map app]; [reflexivity|].
      replace (p_kids x) with (@nil pnode) by (unfold p_kids; rewrite Hs; reflexivity).
      cbn [app]. rewrite Enil. reflexivity.
    - assert (HK : forall h y, p_at h y -> length (p_kids y) <= k * k).
      { intros h y Hy. rewrite (p_kids_length _ _ Hy). destruct (p_branch y); lia. }
      pose proof (lv_length _ p_kids p_at p_kidsS (k * k) ltac:(nia) HK e [x] Hroot) as Hc.
      fold V in Hc. cbn [length] in Hc. lia.
  Qed.
End Log.
