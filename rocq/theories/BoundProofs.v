(** * How large an encoded array can be. *)
From Verif Require Import Base BaseFacts BitmapModel BitmapProofs DacModel DacProofs SnapshotModel LogModel StreamModel StreamProofs ChunkModel ChunkStream PropertiesSize.
Arguments Nat.pow : simpl never.
Open Scope nat_scope.

(** ** Bit maps and compressed lists *)

Definition pushed (bits : list bool) : builder := fold_left builder_push bits builder_new.
Lemma pushed_app bits b : builder_push (pushed bits) b = pushed (bits ++ [b]).
Proof. unfold pushed. rewrite fold_left_app. reflexivity. Qed.

Lemma rel_size m bits : bitmap_rel m bits -> 32 * bitmap_size m <= 380 + 5 * length bits.
Proof. intros (_ & _ & (HW & _) & (HI & _)). unfold bitmap_size. rewrite HW, HI. pose proof (Nat.div_mod_eq (length bits + 31) 32). pose proof (Nat.div_mod_eq (length bits) 32). pose proof (Nat.div_mod_eq (length bits / 32) 4). lia. Qed.
Lemma pushed_size bits m : builder_finish (pushed bits) = Ok m -> 32 * bitmap_size m <= 380 + 5 * length bits.
Proof. intros E. destruct (bitmap_of_ok bits) as (m' & E' & R). unfold bitmap_of in E'. unfold pushed in E. rewrite E in E'. injection E' as <-. apply rel_size, R. Qed.

Lemma levels_length : forall n D, length (levels_spec n D) = n.
Proof. induction n as [|n IH]; intros D; cbn [levels_spec length]; [reflexivity|]. rewrite IH. reflexivity. Qed.
Lemma filter_le {A} (p : A -> bool) l : length (filter p l) <= length l.
Proof. induction l as [|x l IH]; cbn [filter length]; [lia|]. destruct (p x); cbn [length]; lia. Qed.
Lemma levels_small : forall n D, Forall (fun l : list bool * list N => length (fst l) <= length D /\ length (snd l) <= length D) (levels_spec n D).
Proof.
  induction n as [|n IH]; intros D; cbn [levels_spec]; constructor.
  - cbn [fst snd]. rewrite !map_length. lia.
  - eapply Forall_impl; [|apply IH]. intros l [H1 H2]. rewrite map_length in *. pose proof (filter_le lvl_more D). lia.
Qed.
Lemma take_while_Forall {A} (P : A -> Prop) p l : Forall P l -> Forall P (take_while p l).
Proof. induction 1 as [|x l H1 H2 IH]; cbn [take_while]; [constructor|]. destruct (p x); [constructor; assumption|constructor]. Qed.
Lemma take_while_le {A} p (l : list A) : length (take_while p l) <= length l.
Proof. induction l as [|x l IH]; cbn [take_while length]; [lia|]. destruct (p x); cbn [length]; lia. Qed.
Lemma dac_bound data d : dac_of data = Ok d -> 32 * dac_size d <= 3072 + 296 * length data.
Proof.
  intros E. destruct (dac_of_ok data) as (d' & E' & R). rewrite E in E'. injection E' as <-. unfold dac_rel in R.
  pose proof (take_while_Forall _ nonempty_lvl _ (levels_small 8 (map zigzag_encode data))) as F.
  pose proof (take_while_le nonempty_lvl (levels_spec 8 (map zigzag_encode data))) as L. rewrite levels_length in L. rewrite map_length in F.
  set (n := length data) in *. clearbody n. revert F L R. generalize (take_while nonempty_lvl (levels_spec 8 (map zigzag_encode data))). intros ls F L R.
  assert (S : 32 * sum_nat (map (fun l => bitmap_size (fst l) + length (snd l)) d) <= (380 + 37 * n) * length ls).
  { clear L E. induction R as [|x y d ls H R IH]; [cbn [map length]; change (sum_nat []) with 0; lia|]. inversion F as [|? ? [F1 F2] F3]; subst. specialize (IH F3). cbn [map length]. rewrite sum_cons.
    destruct H as [H1 H2]. pose proof (rel_size _ _ H1). rewrite H2. lia. }
  unfold dac_size. assert ((380 + 37 * n) * length ls <= (380 + 37 * n) * 8) by (apply Nat.mul_le_mono_l; exact L). lia.
Qed.
Lemma dac_nil d : dac_of [] = Ok d -> dac_size d = 1.
Proof. intros E. vm_compute in E. injection E as <-. reflexivity. Qed.

(** ** Trees *)

(** The nodes that have children. *)
Fixpoint inner (n : k2node) : nat := let '(K2Node _ _ c) := n in match c with [] => 0 | _ => S (fold_right (fun x acc => inner x + acc) 0 c) end.
Lemma fold_bound {A} (f : A -> nat) b c l : Forall (fun x => 3 * f x + b <= c) l -> 3 * fold_right (fun x acc => f x + acc) 0 l + b * length l <= c * length l.
Proof. induction 1 as [|x l H1 H2 IH]; cbn [fold_right length]; [lia|]. rewrite !Nat.mul_succ_r. lia. Qed.
Lemma grid_length k : length (grid k) = k * k.
Proof. unfold grid. rewrite prod_length, seq_length. reflexivity. Qed.

Lemma k2_shape g rows cols k : 2 <= k -> forall fuel h row col x, k2_build fuel g rows cols k (k ^ h) row col = Ok x ->
  3 * node_count x + 1 <= 4 * (k ^ h * k ^ h) /\ 3 * inner x + 1 <= k ^ h * k ^ h.
Proof.
  intros Hk. induction fuel as [|fuel IH]; intros h row col x E; cbn [k2_build] in E.
  - destruct (Nat.eqb_spec (k ^ h) 1) as [H1|H1]; [|discriminate]. injection E as <-. rewrite H1. cbn [node_count inner fold_right]. lia.
  - destruct (Nat.eqb_spec (k ^ h) 1) as [H1|H1]; [injection E as <-; rewrite H1; cbn [node_count inner fold_right]; lia|].
    destruct h as [|h]; [exfalso; apply H1; reflexivity|].
    assert (D : k ^ S h / k = k ^ h) by (rewrite Nat.pow_succ_r', Nat.mul_comm; apply Nat.div_mul; lia).
    rewrite udiv_ok in E by lia. cbn [bind] in E. rewrite D in E. apply bind_inv in E. destruct E as (ch & EC & E). apply bind_inv in E. destruct E as (first & _ & E). injection E as <-.
    assert (F : Forall (fun x => 3 * node_count x + 1 <= 4 * (k ^ h * k ^ h) /\ 3 * inner x + 1 <= k ^ h * k ^ h) ch).
    { revert EC. generalize (grid k). intros l. revert ch. induction l as [|[i j] l IHl]; intros ch EC; cbn [mapM] in EC; [injection EC as <-; constructor|].
      apply bind_inv in EC. destruct EC as (y & EY & EC). apply bind_inv in EC. destruct EC as (ys & EYS & EC). injection EC as <-. constructor; [exact (IH _ _ _ _ EY)|]. apply IHl, EYS. }
    pose proof (mapM_len _ _ _ EC) as L. rewrite grid_length in L. cbn [node_count inner].
    assert (F1 : Forall (fun x => 3 * node_count x + 1 <= 4 * (k ^ h * k ^ h)) ch) by (eapply Forall_impl; [|exact F]; intros a Ha; apply Ha).
    assert (F2 : Forall (fun x => 3 * inner x + 1 <= k ^ h * k ^ h) ch) by (eapply Forall_impl; [|exact F]; intros a Ha; apply Ha).
    apply fold_bound in F1. apply fold_bound in F2. rewrite L in *. rewrite Nat.pow_succ_r'. assert (4 <= k * k) by (apply (Nat.mul_le_mono 2 k 2 k); assumption).
    replace (k * k ^ h * (k * k ^ h)) with (k ^ h * k ^ h * (k * k)) by ring. set (q := k * k) in *. set (p := k ^ h * k ^ h) in *.
    revert F1 F2. generalize (fold_right (fun x acc => node_count x + acc) 0 ch). generalize (fold_right (fun x acc => inner x + acc) 0 ch). intros a b F1 F2. clearbody q p. destruct ch; split; lia.
Qed.

(** ** Snapshots *)

Lemma snap_fold (q new : list snap_entry) (f : k2node -> nat) : fold_right (fun e acc => f (snd e) + acc) 0 (q ++ new) = fold_right (fun e acc => f (snd e) + acc) 0 q + fold_right (fun e acc => f (snd e) + acc) 0 new.
Proof. induction q as [|x q IH]; cbn [app fold_right]; lia. Qed.
Notation weight f q := (fold_right (fun e acc => f (@snd (Z * Z) k2node e) + acc) 0 q).
Lemma snap_walk : forall fuel q bits mx mn st, worklist snap_body fuel q (pushed bits, mx, mn) = Ok st ->
  exists bits' mx' mn', st = (pushed bits', mx', mn') /\ length mx' <= length mx + weight node_count q /\
    length bits' <= length bits + weight inner q /\ length mn' <= length mn + weight inner q.
Proof.
  induction fuel as [|fuel IH]; intros q bits mx mn st E; destruct q as [|[[dx dn] x] q]; cbn [worklist] in E; [|discriminate| |].
  - injection E as <-. exists bits, mx, mn. cbn [fold_right]. repeat split; lia.
  - injection E as <-. exists bits, mx, mn. cbn [fold_right]. repeat split; lia.
  - unfold snap_body in E. cbn [fold_right snd]. destruct x as [xm xn ch]. cbn [n_children n_max n_min] in E. destruct ch as [|c0 ch].
    + cbn iota beta in E. rewrite app_nil_r in E. destruct (IH _ _ _ _ _ E) as (b & m1 & m2 & -> & H1 & H2 & H3). exists b, m1, m2. rewrite app_length in *. cbn [length node_count inner fold_right] in *. repeat split; lia.
    + cbv zeta in E. destruct (or0 xn =? or0 xm)%Z.
      * cbn iota beta in E. rewrite app_nil_r, pushed_app in E. destruct (IH _ _ _ _ _ E) as (b & m1 & m2 & -> & H1 & H2 & H3). exists b, m1, m2. rewrite app_length in *. cbn [length node_count inner fold_right] in *. repeat split; lia.
      * cbn iota beta in E. rewrite pushed_app in E. destruct (IH _ _ _ _ _ E) as (b & m1 & m2 & -> & H1 & H2 & H3). exists b, m1, m2. rewrite !snap_fold in *. rewrite !app_length in *.
        set (kids := map _ _) in *.
        assert (K : forall f : k2node -> nat, weight f kids = fold_right (fun x acc => f x + acc) 0 (c0 :: ch)).
        { intros f. unfold kids. generalize (c0 :: ch). intros l. induction l as [|y l IHl]; cbn [map fold_right snd]; [reflexivity|]. rewrite IHl. reflexivity. }
        rewrite !K in *. cbn [length node_count inner] in *. repeat split; lia.
Qed.

Lemma snapshot_bound g rows cols k e s : 2 <= k -> snapshot_build_e g rows cols k e = Ok s -> snapshot_size s <= 217 + 16 * (k ^ e * k ^ e).
Proof.
  intros Hk E. unfold snapshot_build_e in E. apply bind_inv in E. destruct E as (root & ER & E). apply bind_inv in E. destruct E as (st & EW & E).
  destruct (snap_walk _ _ [] _ _ _ EW) as (bits & mx & mn & -> & H1 & H2 & H3). apply bind_inv in E. destruct E as (nm & EN & E). apply bind_inv in E. destruct E as (dx & EX & E). apply bind_inv in E. destruct E as (dn & EM & E). injection E as <-.
  destruct (k2_shape _ _ _ _ Hk _ _ _ _ _ ER) as [N1 N2]. apply pushed_size in EN. apply dac_bound in EX. apply dac_bound in EM. unfold snapshot_size. cbn [s_nodemap s_max s_min]. cbn [length fold_right snd] in *. lia.
Qed.

(** ** Snapshots of one value *)

Lemma merge_same (acc : option Z) v l : (acc = None \/ acc = Some v) -> Forall (fun x : k2node => n_max x = None \/ n_max x = Some v) l ->
  (fold_left (fun m c => merge_max m (n_max c)) l acc = None \/ fold_left (fun m c => merge_max m (n_max c)) l acc = Some v).
Proof.
  intros HA F. revert acc HA. induction F as [|x l H F IH]; intros acc HA; cbn [fold_left]; [exact HA|]. apply IH.
  unfold merge_max. destruct H as [->| ->]; [exact HA|]. destruct HA as [->| ->]; [auto|]. rewrite Z.ltb_irrefl. auto.
Qed.
Lemma merge_same_min : forall (l : list k2node) acc acc', acc = acc' -> (exists v : Z, (acc = None \/ acc = Some v) /\ Forall (fun x => (n_max x = None \/ n_max x = Some v) /\ n_min x = n_max x) l) ->
  fold_left (fun m c => merge_min m (n_min c)) l acc = fold_left (fun m c => merge_max m (n_max c)) l acc'.
Proof.
  induction l as [|x l IH]; intros acc acc' <- (v & HA & F); cbn [fold_left]; [reflexivity|]. inversion F as [|? ? [H1 H2] F']; subst. apply IH.
  - rewrite H2. unfold merge_max, merge_min. destruct H1 as [->| ->]; [reflexivity|]. destruct HA as [->| ->]; [reflexivity|]. rewrite Z.ltb_irrefl. reflexivity.
  - exists v. split; [|exact F']. rewrite H2. unfold merge_min. destruct H1 as [->| ->]; [exact HA|]. destruct HA as [->| ->]; [auto|]. rewrite Z.ltb_irrefl. auto.
Qed.
Lemma k2_one g rows cols k v : 2 <= k -> (forall r c, r < rows -> c < cols -> g r c = v) -> forall fuel h row col x, k2_build fuel g rows cols k (k ^ h) row col = Ok x ->
  (n_max x = None \/ n_max x = Some v) /\ n_min x = n_max x.
Proof.
  intros Hk Hg. induction fuel as [|fuel IH]; intros h row col x E; cbn [k2_build] in E.
  - destruct (k ^ h =? 1); [|discriminate]. injection E as <-. cbn [n_max n_min]. split; [|reflexivity]. destruct (Nat.ltb_spec row rows), (Nat.ltb_spec col cols); cbn [andb]; auto. rewrite Hg by assumption. auto.
  - destruct (Nat.eqb_spec (k ^ h) 1) as [H1|H1].
    { injection E as <-. cbn [n_max n_min]. split; [|reflexivity]. destruct (Nat.ltb_spec row rows), (Nat.ltb_spec col cols); cbn [andb]; auto. rewrite Hg by assumption. auto. }
    destruct h as [|h]; [exfalso; apply H1; reflexivity|].
    assert (D : k ^ S h / k = k ^ h) by (rewrite Nat.pow_succ_r', Nat.mul_comm; apply Nat.div_mul; lia).
    rewrite udiv_ok in E by lia. cbn [bind] in E. rewrite D in E. apply bind_inv in E. destruct E as (ch & EC & E). apply bind_inv in E. destruct E as (first & EF & E). injection E as <-.
    assert (F : Forall (fun x => (n_max x = None \/ n_max x = Some v) /\ n_min x = n_max x) ch).
    { revert EC. generalize (grid k). intros l. clear EF. revert ch. induction l as [|[i j] l IHl]; intros ch EC; cbn [mapM] in EC; [injection EC as <-; constructor|].
      apply bind_inv in EC. destruct EC as (y & EY & EC). apply bind_inv in EC. destruct EC as (ys & EYS & EC). injection EC as <-. constructor; [exact (IH _ _ _ _ EY)|]. apply IHl, EYS. }
    destruct ch as [|c0 ch]; [discriminate|]. injection EF as <-. inversion F as [|? ? [F1 F2] F3]; subst. cbn [tl n_max n_min]. split.
    + apply merge_same; [exact F1|]. eapply Forall_impl; [|exact F3]. intros a Ha. apply Ha.
    + apply merge_same_min; [exact F2|]. exists v. split; [rewrite F2; exact F1|exact F3].
Qed.
Lemma snapshot_one g rows cols k e s v : 2 <= k -> (forall r c, r < rows -> c < cols -> g r c = v) -> snapshot_build_e g rows cols k e = Ok s -> snapshot_size s <= 131.
Proof.
  intros Hk Hg E. unfold snapshot_build_e in E. apply bind_inv in E. destruct E as (root & ER & E). apply bind_inv in E. destruct E as (st & EW & E).
  destruct (k2_one _ _ _ _ _ Hk Hg _ _ _ _ _ ER) as [_ M].
  assert (W : exists bits, st = (pushed bits, [or0 (n_max root)], []) /\ length bits <= 1).
  { destruct root as [rm rn [|c0 ch]]; cbn [node_count] in EW; cbn [worklist snap_body n_children n_max n_min] in EW, M |- *.
    - cbn [app worklist] in EW. injection EW as <-. exists []. split; [reflexivity|cbn; lia].
    - subst rn. cbv zeta in EW. rewrite Z.eqb_refl in EW. cbn [app worklist] in EW. destruct (fold_right _ _ _) in EW; cbn [worklist] in EW; injection EW as <-; exists [false]; (split; [reflexivity|cbn; lia]). }
  destruct W as (bits & -> & LB). apply bind_inv in E. destruct E as (nm & EN & E). apply bind_inv in E. destruct E as (dx & EX & E). apply bind_inv in E. destruct E as (dn & EM & E). injection E as <-.
  apply pushed_size in EN. apply dac_bound in EX. apply dac_nil in EM. unfold snapshot_size. cbn [s_nodemap s_max s_min length] in *. lia.
Qed.

(** ** Logs of what has not changed *)

Lemma sub_same x : i64_sub x x = 0%Z.
Proof. unfold i64_sub. rewrite Z.sub_diag. reflexivity. Qed.
Definition still (x : pnode) : Prop := p_max_t x = p_max_s x /\ p_min_t x = p_min_s x /\ p_diff x = 0%Z /\ p_equal x = true.
Lemma p_still g rows cols k : 2 <= k -> forall fuel h row col x, p_build fuel g g rows cols k (k ^ h) row col = Ok x -> still x.
Proof.
  intros Hk. assert (L : forall h row col x, (let value := if (row <? rows) && (col <? cols) then Some (g row col) else None in
     Ok (PNode value value value value (i64_sub (or0 value) (or0 value)) true [])) = Ok x -> k ^ h = 1 -> still x).
  { intros h row col x E _. injection E as <-. unfold still. cbn [p_max_t p_max_s p_min_t p_min_s p_diff p_equal]. rewrite sub_same. auto. }
  induction fuel as [|fuel IH]; intros h row col x E; cbn [p_build] in E.
  - destruct (Nat.eqb_spec (k ^ h) 1) as [H1|H1]; [|discriminate]. exact (L h row col x E H1).
  - destruct (Nat.eqb_spec (k ^ h) 1) as [H1|H1]; [exact (L h row col x E H1)|].
    destruct h as [|h]; [exfalso; apply H1; reflexivity|].
    assert (D : k ^ S h / k = k ^ h) by (rewrite Nat.pow_succ_r', Nat.mul_comm; apply Nat.div_mul; lia).
    rewrite udiv_ok in E by lia. cbn [bind] in E. rewrite D in E. apply bind_inv in E. destruct E as (ch & EC & E). apply bind_inv in E. destruct E as (first & EF & E). injection E as <-.
    assert (F : Forall still ch).
    { revert EC. generalize (grid k). intros l. clear EF. revert ch. induction l as [|[i j] l IHl]; intros ch EC; cbn [mapM] in EC; [injection EC as <-; constructor|].
      apply bind_inv in EC. destruct EC as (y & EY & EC). apply bind_inv in EC. destruct EC as (ys & EYS & EC). injection EC as <-. constructor; [exact (IH _ _ _ _ EY)|]. apply IHl, EYS. }
    destruct ch as [|c0 ch]; [discriminate|]. injection EF as <-. inversion F as [|? ? F1 F3]; subst. destruct F1 as (A1 & A2 & A3 & A4). unfold still. cbn [tl p_max_t p_max_s p_min_t p_min_s p_diff p_equal].
    rewrite A1, A2, A3. split; [|split; [|split; [reflexivity|]]].
    + generalize (p_max_s c0). clear -F3. induction F3 as [|y l (H1 & H2 & _) F IHF]; intros acc; cbn [fold_left]; [reflexivity|]. rewrite H1. apply IHF.
    + generalize (p_min_s c0). clear -F3. induction F3 as [|y l (H1 & H2 & _) F IHF]; intros acc; cbn [fold_left]; [reflexivity|]. rewrite H2. apply IHF.
    + assert (X : forallb p_equal (c0 :: ch) = true) by (apply forallb_forall; intros y Hy; rewrite Forall_forall in F; apply (F y Hy)). rewrite X.
      clear -F3. induction F3 as [|y l (_ & _ & H3 & _) F IHF]; cbn [fold_left]; [reflexivity|]. rewrite H3. exact IHF.
Qed.
Lemma dac_zero d : dac_of [0%Z] = Ok d -> dac_size d = 14.
Proof. intros E. vm_compute in E. injection E as <-. reflexivity. Qed.
Lemma log_still g rows cols k e l : 2 <= k -> log_build_e g g rows cols k e = Ok l -> log_size l <= 52.
Proof.
  intros Hk E. unfold log_build_e in E. apply bind_inv in E. destruct E as (root & ER & E). apply bind_inv in E. destruct E as (st & EW & E).
  destruct (p_still _ _ _ _ Hk _ _ _ _ _ ER) as (M1 & M2 & _ & M4).
  assert (W : exists b1 b2, st = (pushed b1, pushed b2, [0%Z], [], false) /\ length b1 <= 1 /\ length b2 <= 1).
  { destruct root as [a1 a2 a3 a4 a5 a6 [|c0 ch]]; cbn [p_count] in EW; cbn [worklist log_body p_children p_max_t p_max_s p_min_t p_equal] in EW, M1, M4 |- *; subst a1; rewrite sub_same in EW.
    - cbn [app worklist] in EW. injection EW as <-. exists [], []. split; [reflexivity|cbn; lia].
    - subst a6. destruct (opt_eqb a2 a3); cbn [app worklist] in EW; destruct (fold_right _ _ _) in EW; cbn [worklist] in EW; injection EW as <-; [exists [false], [false]|exists [false], [false]|exists [false], [true]|exists [false], [true]]; (split; [reflexivity|cbn; lia]). }
  destruct W as (b1 & b2 & -> & L1 & L2). cbn iota in E. apply bind_inv in E. destruct E as (nm & EN & E). apply bind_inv in E. destruct E as (eq & EQ & E). apply bind_inv in E. destruct E as (dx & EX & E). apply bind_inv in E. destruct E as (dn & EM & E). injection E as <-.
  apply pushed_size in EN. apply pushed_size in EQ. apply dac_zero in EX. apply dac_nil in EM. unfold log_size. cbn [l_nodemap l_equal l_max l_min] in *. lia.
Qed.
Lemma steps_still g rows cols k e s l : 2 <= k -> snapshot_build_e g rows cols k e = Ok s -> log_build_e g g rows cols k e = Ok l ->
  forall is st st' f j, foldM (chunk_build_step (fun _ => g) rows cols k e) st is = Ok st' ->
    (let '(blocks, snap, _, logs, _, _) := st in 255 * f + length logs <= j) -> state_size st <= (1 + snapshot_size s) * (1 + f) + 53 * j ->
  exists f', 255 * f' <= j + length is /\ state_size st' <= (1 + snapshot_size s) * (1 + f') + 53 * (j + length is).
Proof.
  intros Hk ES EL. pose proof (log_still _ _ _ _ _ _ Hk EL) as LL. induction is as [|i is IH]; intros st st' f j E HI HS; cbn [foldM] in E.
  - injection E as <-. exists f. destruct st as [[[[[blocks snap] si] logs] cs] cl]. cbn [length]. lia.
  - apply bind_inv in E. destruct E as (st1 & E1 & E). destruct st as [[[[[blocks snap] si] logs] cs] cl]. unfold chunk_build_step in E1. rewrite ES, EL in E1. cbn [bind] in E1.
    cbn [length]. rewrite <- Nat.add_succ_comm. cbn [state_size] in HS. destruct (Nat.eqb_spec (length logs) 254) as [L|L]; cbn [orb] in E1.
    + unfold block_new in E1. rewrite L in E1. cbn [Nat.ltb Nat.leb bind] in E1. injection E1 as <-.
      apply (IH _ _ (S f) (S j) E); [cbn [length]; lia|]. cbn [state_size map]. rewrite map_app, sum_nat_app. cbn [map]. rewrite sum_one. unfold block_size at 2. cbn [bl_snapshot bl_logs]. change (sum_nat []) with 0.
      replace (1 + S f) with (S (1 + f)) by lia. rewrite Nat.mul_succ_r. revert HS. generalize ((1 + snapshot_size s) * (1 + f)). intros q HS. lia.
    + destruct (Nat.leb_spec (snapshot_size s) (log_size l)) as [C|C].
      * apply bind_inv in E1. destruct E1 as (b & B & E1). unfold block_new in B. destruct (254 <? length logs); [discriminate|]. injection B as <-. injection E1 as <-.
        apply (IH _ _ f (S j) E); [cbn [length]; lia|]. cbn [state_size map]. rewrite map_app, sum_nat_app. cbn [map]. rewrite sum_one. unfold block_size at 2. cbn [bl_snapshot bl_logs]. change (sum_nat []) with 0. lia.
      * injection E1 as <-. apply (IH _ _ f (S j) E); [rewrite app_length; cbn [length]; lia|]. cbn [state_size]. rewrite map_app, sum_nat_app. cbn [map]. rewrite sum_one. lia.
Qed.
