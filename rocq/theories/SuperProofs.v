(** * Building a superchunk: what is stored, and that it reads back. *)
From Verif Require Import Base BaseFacts Spec GeomModel GeomProofs BitmapModel DacModel DacProofs StreamModel
  StreamProofs ChunkModel ChunkProofs ChunkReads ChunkStream NodeModel NodeProofs SuperModel SuperViews.
Ltac Zify.zify_post_hook ::= Z.div_mod_to_equations.
Arguments Nat.pow : simpl never.

Lemma Forall2_impl {A B} (P Q : A -> B -> Prop) la lb : (forall a b, P a b -> Q a b) -> Forall2 P la lb -> Forall2 Q la lb.
Proof. intros H F. induction F; constructor; auto. Qed.

(** ** Saving the subchunks *)

Lemma link_index_some c l i : link_index c l = Some i -> nth_error l i = Some c.
Proof.
  revert i. induction l as [|x l IH]; intros i H; cbn [link_index] in H; [discriminate|].
  destruct (cid_eqb c x) eqn:E.
  - injection H as <-. apply cid_eqb_spec in E. subst. reflexivity.
  - destruct (link_index c l) as [j|]; [|discriminate]. injection H as <-. cbn [nth_error]. auto.
Qed.

Lemma link_index_none c l : link_index c l = None -> ~ In c l.
Proof.
  induction l as [|x l IH]; intros H; cbn [link_index] in H; [intros []|].
  destruct (cid_eqb c x) eqn:E; [discriminate|]. destruct (link_index c l) as [j|]; [discriminate|].
  intros [->|Hin]; [rewrite cid_eqb_refl in E; discriminate|]. exact (IH eq_refl Hin).
Qed.

Definition mm_cid (hash : bytes -> cid) (m : mmstruct) : cid := hash (node_bytes (NMM m)).

(** What the reference to a tile says. *)
Definition ref_ok (hash : bytes -> cid) (st : store) (links : list cid) (x : tile) (r : reference) : Prop :=
  match snd x with
  | None => r = RElided
  | Some b => exists i, r = RExternal i /\ nth_error links i = Some (mm_cid hash (mb_data b)) /\
      In (mm_cid hash (mb_data b), node_bytes (NMM (mb_data b))) st
  end.

Lemma ref_ok_mono hash st st' links more x r : incl st st' -> ref_ok hash st links x r -> ref_ok hash st' (links ++ more) x r.
Proof.
  intros HI. unfold ref_ok. destruct (snd x) as [b|]; [|trivial]. intros (i & -> & E & Hin).
  exists i. split; [reflexivity|]. split; [|apply HI; exact Hin].
  rewrite nth_error_app1; [exact E|]. apply nth_error_Some. congruence.
Qed.

Lemma NoDup_snoc {A} (l : list A) x : NoDup l -> ~ In x l -> NoDup (l ++ [x]).
Proof.
  intros H1 H2. apply NoDup_app'; [exact H1|constructor; [intros []|constructor]|].
  intros y Hy [<-|[]]. exact (H2 Hy).
Qed.

Definition n_some (l : list tile) : nat := length (filter (fun x => match snd x with Some _ => true | None => false end) l).
Definition sizes_of (l : list tile) : nat :=
  sum_nat (map (fun x => match snd x with Some b => mm_size (mb_data b) | None => 0 end) l).
Definition snaps_of (l : list tile) : nat := sum_nat (map (fun x => match snd x with Some b => mb_snapshots b | None => 0 end) l).
Definition logs_of (l : list tile) : nat := sum_nat (map (fun x => match snd x with Some b => mb_logs b | None => 0 end) l).

Lemma sum_nat_app a b : sum_nat (a ++ b) = sum_nat a + sum_nat b.
Proof. induction a as [|x a IH]; [reflexivity|]. cbn [app]. unfold sum_nat in *. cbn [fold_right]. lia. Qed.

Record saved (hash : bytes -> cid) (st0 : store) (l : list tile) (s : save_state) : Prop :=
  { sv_refs : Forall2 (ref_ok hash (ss_store s) (ss_links s)) l (ss_refs s);
    sv_store : incl st0 (ss_store s);
    sv_nodup : NoDup (ss_links s);
    sv_count : length (ss_links s) <= n_some l;
    sv_links : forall c, In c (ss_links s) -> exists b, In b (map snd l) /\ option_map (fun b => mm_cid hash (mb_data b)) b = Some c;
    sv_elided : ss_elided s + n_some l = length l;
    sv_sizes : ss_sizes s = sizes_of l;
    sv_snaps : ss_snapshots s = snaps_of l;
    sv_logs : ss_logs s = logs_of l;
    sv_added : forall x, In x (ss_store s) -> In x st0 \/ exists b, In (Some b) (map snd l) /\ x = (mm_cid hash (mb_data b), node_bytes (NMM (mb_data b))) }.

Lemma save_all_ok hash st0 l : saved hash st0 l (fold_left (save_tile hash) l (mkSave st0 [] [] 0 0 0 0)).
Proof.
  induction l as [|x l IH] using rev_ind.
  - constructor; cbn; auto; try constructor; try apply incl_refl. intros c [].
  - rewrite fold_left_app. cbn [fold_left].
    destruct IH as [I1 I2 I3 IC I4 I5 I6 I7 I8 I9]. set (s := fold_left (save_tile hash) l (mkSave st0 [] [] 0 0 0 0)) in *.
    clearbody s. unfold save_tile.
    assert (EN : n_some (l ++ [x]) = n_some l + match snd x with Some _ => 1 | None => 0 end).
    { unfold n_some. rewrite filter_app, app_length. cbn [filter]. destruct (snd x); reflexivity. }
    assert (ES : forall F : tile -> nat, sum_nat (map F (l ++ [x])) = sum_nat (map F l) + F x).
    { intros F. rewrite map_app, sum_nat_app. cbn [map]. unfold sum_nat at 2. cbn [fold_right]. lia. }
    unfold sizes_of, snaps_of, logs_of in *.
    destruct (snd x) as [b|] eqn:Ex.
    + unfold save. cbn [fst snd]. fold (mm_cid hash (mb_data b)). set (c := mm_cid hash (mb_data b)).
      assert (HI : incl (ss_store s) (ss_store s ++ [(c, node_bytes (NMM (mb_data b)))])) by (apply incl_appl, incl_refl).
      assert (Hin : In (c, node_bytes (NMM (mb_data b))) (ss_store s ++ [(c, node_bytes (NMM (mb_data b)))]))
        by (apply in_or_app; right; left; reflexivity).
      destruct (link_index c (ss_links s)) as [i|] eqn:EL; cbn [ss_store ss_links ss_refs ss_sizes ss_elided ss_snapshots ss_logs].
      * constructor; cbn [ss_store ss_links ss_refs ss_sizes ss_elided ss_snapshots ss_logs].
        -- apply Forall2_app.
           ++ eapply Forall2_impl; [|exact I1]. intros a r Hr. rewrite <- (app_nil_r (ss_links s)). eapply ref_ok_mono; eassumption.
           ++ constructor; [|constructor]. unfold ref_ok. rewrite Ex. exists i. split; [reflexivity|].
              split; [apply link_index_some; exact EL|exact Hin].
        -- eapply incl_tran; eassumption.
        -- exact I3.
        -- rewrite EN. lia.
        -- intros c' Hc'. destruct (I4 c' Hc') as (b' & H1 & H2). exists b'. split; [|exact H2].
           rewrite map_app. apply in_or_app. left. exact H1.
        -- rewrite EN, app_length. cbn [length]. lia.
        -- unfold sizes_of, snaps_of, logs_of. rewrite ES, Ex, ?I6, ?I7, ?I8, ?Nat.add_0_r. reflexivity.
        -- unfold sizes_of, snaps_of, logs_of. rewrite ES, Ex, ?I6, ?I7, ?I8, ?Nat.add_0_r. reflexivity.
        -- unfold sizes_of, snaps_of, logs_of. rewrite ES, Ex, ?I6, ?I7, ?I8, ?Nat.add_0_r. reflexivity.
        -- intros y Hy. apply in_app_or in Hy. rewrite map_app. destruct Hy as [Hy|[<-|[]]].
           ++ destruct (I9 y Hy) as [?|(b' & H1 & H2)]; [left; assumption|]. right. exists b'.
              split; [apply in_or_app; left; exact H1|exact H2].
           ++ right. exists b. split; [apply in_or_app; right; left; exact Ex|reflexivity].
      * constructor; cbn [ss_store ss_links ss_refs ss_sizes ss_elided ss_snapshots ss_logs].
        -- apply Forall2_app.
           ++ eapply Forall2_impl; [|exact I1]. intros a r Hr. eapply ref_ok_mono; eassumption.
           ++ constructor; [|constructor]. unfold ref_ok. rewrite Ex. exists (length (ss_links s)). split; [reflexivity|].
              split; [|exact Hin]. rewrite nth_error_app2, Nat.sub_diag by lia. reflexivity.
        -- eapply incl_tran; eassumption.
        -- apply NoDup_snoc; [exact I3|]. apply link_index_none. exact EL.
        -- rewrite EN, app_length. cbn [length]. lia.
        -- intros c' Hc'. apply in_app_or in Hc'. rewrite map_app. destruct Hc' as [Hc'|[<-|[]]].
           ++ destruct (I4 c' Hc') as (b' & H1 & H2). exists b'. split; [|exact H2]. apply in_or_app. left. exact H1.
           ++ exists (Some b). split; [|reflexivity]. apply in_or_app. right. left. exact Ex.
        -- rewrite EN, app_length. cbn [length]. lia.
        -- unfold sizes_of, snaps_of, logs_of. rewrite ES, Ex, ?I6, ?I7, ?I8, ?Nat.add_0_r. reflexivity.
        -- unfold sizes_of, snaps_of, logs_of. rewrite ES, Ex, ?I6, ?I7, ?I8, ?Nat.add_0_r. reflexivity.
        -- unfold sizes_of, snaps_of, logs_of. rewrite ES, Ex, ?I6, ?I7, ?I8, ?Nat.add_0_r. reflexivity.
        -- intros y Hy. apply in_app_or in Hy. rewrite map_app. destruct Hy as [Hy|[<-|[]]].
           ++ destruct (I9 y Hy) as [?|(b' & H1 & H2)]; [left; assumption|]. right. exists b'.
              split; [apply in_or_app; left; exact H1|exact H2].
           ++ right. exists b. split; [apply in_or_app; right; left; exact Ex|reflexivity].
    + constructor; cbn [ss_store ss_links ss_refs ss_sizes ss_elided ss_snapshots ss_logs].
      * apply Forall2_app; [exact I1|]. constructor; [|constructor]. unfold ref_ok. rewrite Ex. reflexivity.
      * exact I2.
      * exact I3.
      * rewrite EN. lia.
      * intros c' Hc'. destruct (I4 c' Hc') as (b' & H1 & H2). exists b'. split; [|exact H2].
        rewrite map_app. apply in_or_app. left. exact H1.
      * rewrite EN, app_length. cbn [length]. lia.
      * unfold sizes_of, snaps_of, logs_of. rewrite ES, Ex, ?I6, ?I7, ?I8, ?Nat.add_0_r. reflexivity.
      * unfold sizes_of, snaps_of, logs_of. rewrite ES, Ex, ?I6, ?I7, ?I8, ?Nat.add_0_r. reflexivity.
      * unfold sizes_of, snaps_of, logs_of. rewrite ES, Ex, ?I6, ?I7, ?I8, ?Nat.add_0_r. reflexivity.
      * intros y Hy. destruct (I9 y Hy) as [?|(b' & H1 & H2)]; [left; assumption|]. right. exists b'.
        split; [rewrite map_app; apply in_or_app; left; exact H1|exact H2].
Qed.

(** ** The minima and maxima *)

Lemma by_instant_ok instants l pick : Forall (fun mm => length mm = instants) l ->
  by_instant instants l pick = Ok (flat_map (fun t => map (fun mm => pick (nth t mm (0, 0)%Z)) l) (range 0 instants)).
Proof.
  intros HL. unfold by_instant. apply flat_mapM_ok. intros t Ht. apply in_range in Ht.
  apply mapM_ok. intros mm Hm. rewrite Forall_forall in HL.
  rewrite (nth_res_nth mm t (0, 0)%Z) by (rewrite HL by exact Hm; lia). reflexivity.
Qed.

Lemma by_instant_nth instants (l : list (list (Z * Z))) pick t idx mm : t < instants -> nth_error l idx = Some mm ->
  nth_error (flat_map (fun t => map (fun mm => pick (nth t mm (0, 0)%Z)) l) (range 0 instants)) (idx + t * length l) =
  Some (pick (nth t mm (0, 0)%Z) : Z).
Proof.
  intros Ht Hi. rewrite Nat.add_comm.
  rewrite (nth_error_flat_map_const _ _ (length l) t idx t).
  - rewrite nth_error_map, Hi. reflexivity.
  - intros y _. apply map_length.
  - unfold range. rewrite nth_error_seq by lia. reflexivity.
  - apply nth_error_Some. congruence.
Qed.

Lemma by_instant_length instants (l : list (list (Z * Z))) (pick : Z * Z -> Z) :
  length (flat_map (fun t => map (fun mm => pick (nth t mm (0, 0)%Z)) l) (range 0 instants)) = instants * length l.
Proof.
  unfold range. rewrite Nat.sub_0_r. generalize 0 as a. induction instants as [|n IH]; intros a; cbn [seq flat_map]; [reflexivity|].
  rewrite app_length, map_length, IH. lia.
Qed.

(** ** One level *)

Lemma mapM_inv {A B} (f : A -> res B) l : forall ys, mapM f l = Ok ys -> Forall2 (fun x y => f x = Ok y) l ys.
Proof.
  induction l as [|x l IH]; intros ys H; cbn [mapM] in H.
  - injection H as <-. constructor.
  - apply bind_inv in H. destruct H as (y & E & H). apply bind_inv in H. destruct H as (ys' & E' & H).
    injection H as <-. constructor; auto.
Qed.

Section OneLevel.
  Context {A : Type}.
  Variables (hash : bytes -> cid) (E : elem A) (k : nat) (lc : nat -> nat).

  (** How a tile came about, between two states of the store. *)
  Inductive tile_step (sublevels : list nat) (g : nat -> nat -> nat -> A) (instants rows cols bits cs : nat)
    (s0 : store) (rc : nat * nat) (s1 : store) (x : tile) : Prop :=
  | ts_outside : rows <= fst rc * cs \/ cols <= snd rc * cs -> x = (repeat (0, 0)%Z instants, None) -> s1 = s0 ->
      tile_step sublevels g instants rows cols bits cs s0 rc s1 x
  | ts_elided mm : fst rc * cs < rows -> snd rc * cs < cols ->
      minmax_of E bits (tile_of g (fst rc * cs) (snd rc * cs)) instants (tile_h rows cs (fst rc)) (tile_h cols cs (snd rc)) = Ok mm ->
      Forall (fun p => fst p = snd p) mm -> x = (mm, None) -> s1 = s0 ->
      tile_step sublevels g instants rows cols bits cs s0 rc s1 x
  | ts_leaf mm b y : fst rc * cs < rows -> snd rc * cs < cols ->
      minmax_of E bits (tile_of g (fst rc * cs) (snd rc * cs)) instants (tile_h rows cs (fst rc)) (tile_h cols cs (snd rc)) = Ok mm ->
      ~ Forall (fun p => fst p = snd p) mm ->
      build_subchunk lc sublevels (tile_h rows cs (fst rc)) (tile_h cols cs (snd rc)) = Ok true ->
      el_bits E bits (all_values (tile_of g (fst rc * cs) (snd rc * cs)) instants (tile_h rows cs (fst rc)) (tile_h cols cs (snd rc))) = Ok b ->
      leaf_build E k (lc (Nat.max (tile_h rows cs (fst rc)) (tile_h cols cs (snd rc)))) (tile_of g (fst rc * cs) (snd rc * cs)) instants
        (tile_h rows cs (fst rc)) (tile_h cols cs (snd rc)) b = Ok y ->
      x = (mm, Some y) -> s1 = s0 ->
      tile_step sublevels g instants rows cols bits cs s0 rc s1 x
  | ts_super mm b y : fst rc * cs < rows -> snd rc * cs < cols ->
      minmax_of E bits (tile_of g (fst rc * cs) (snd rc * cs)) instants (tile_h rows cs (fst rc)) (tile_h cols cs (snd rc)) = Ok mm ->
      ~ Forall (fun p => fst p = snd p) mm ->
      build_subchunk lc sublevels (tile_h rows cs (fst rc)) (tile_h cols cs (snd rc)) = Ok false ->
      el_bits E bits (all_values (tile_of g (fst rc * cs) (snd rc * cs)) instants (tile_h rows cs (fst rc)) (tile_h cols cs (snd rc))) = Ok b ->
      super_build hash E k lc sublevels (tile_of g (fst rc * cs) (snd rc * cs)) instants
        (tile_h rows cs (fst rc)) (tile_h cols cs (snd rc)) b s0 = Ok (s1, y) ->
      x = (mm, Some y) ->
      tile_step sublevels g instants rows cols bits cs s0 rc s1 x.

  Lemma forallb_uniform (mm : list (Z * Z)) :
    forallb (fun p => (fst p =? snd p)%Z) mm = true <-> Forall (fun p => fst p = snd p) mm.
  Proof using.
    rewrite forallb_forall, Forall_forall. split; intros H x Hx; specialize (H x Hx); apply Z.eqb_eq; assumption.
  Qed.

  Lemma build_tile_inv sublevels g instants rows cols bits cs s0 ts rc s1 ts' :
    build_tile E k lc (fun g' h w b s => super_build hash E k lc sublevels g' instants h w b s)
      sublevels g instants rows cols bits cs (s0, ts) rc = Ok (s1, ts') ->
    exists x, ts' = ts ++ [x] /\ tile_step sublevels g instants rows cols bits cs s0 rc s1 x.
  Proof using.
    destruct rc as [i j]. unfold build_tile. cbn [fst snd].
    destruct (Nat.leb_spec rows (i * cs)) as [Ho|Hi]; cbn [orb].
    { intros H. injection H as <- <-. eexists. split; [reflexivity|]. apply ts_outside; auto. }
    destruct (Nat.leb_spec cols (j * cs)) as [Ho|Hj].
    { intros H. injection H as <- <-. eexists. split; [reflexivity|]. apply ts_outside; auto. }
    replace (Nat.min (i * cs + cs) rows - i * cs) with (tile_h rows cs i) by (unfold tile_h; clear -Hi; lia).
    replace (Nat.min (j * cs + cs) cols - j * cs) with (tile_h cols cs j) by (unfold tile_h; clear -Hj; lia).
    intros H. apply bind_inv in H. destruct H as (mm & Emm & H).
    destruct (forallb (fun p => (fst p =? snd p)%Z) mm) eqn:Eu.
    { injection H as <- <-. eexists. split; [reflexivity|]. apply forallb_uniform in Eu.
      eapply ts_elided; cbn [fst snd]; eauto. }
    assert (Hu : ~ Forall (fun p => fst p = snd p) mm).
    { intros C. apply forallb_uniform in C. congruence. }
    apply bind_inv in H. destruct H as (leaf & El & H). apply bind_inv in H. destruct H as (b & Eb & H).
    apply bind_inv in H. destruct H as (z & Ez & H). injection H as <- <-.
    eexists. split; [reflexivity|]. destruct leaf.
    - apply bind_inv in Ez. destruct Ez as (y & Ey & Ez). injection Ez as <-. cbn [fst snd].
      eapply ts_leaf; cbn [fst snd]; eauto.
    - destruct z as [s y]. cbn [fst snd]. eapply ts_super; cbn [fst snd]; eauto.
  Qed.

  Lemma build_fold_inv sublevels g instants rows cols bits cs
    (Hgrow : forall g h w b s s' y, super_build hash E k lc sublevels g instants h w b s = Ok (s', y) -> incl s s') :
    forall l s0 ts s1 ts',
    foldM (build_tile E k lc (fun g' h w b s => super_build hash E k lc sublevels g' instants h w b s)
      sublevels g instants rows cols bits cs) (s0, ts) l = Ok (s1, ts') ->
    exists xs, ts' = ts ++ xs /\ incl s0 s1 /\
      Forall2 (fun rc x => exists a b, incl s0 a /\ incl b s1 /\ tile_step sublevels g instants rows cols bits cs a rc b x) l xs.
  Proof using.
    induction l as [|rc l IH]; intros s0 ts s1 ts' H; cbn [foldM] in H.
    - injection H as <- <-. exists []. rewrite app_nil_r. repeat split; [apply incl_refl|constructor].
    - apply bind_inv in H. destruct H as ([s2 ts2] & E1 & H). apply build_tile_inv in E1. destruct E1 as (x & -> & T).
      apply IH in H. destruct H as (xs & -> & I2 & F).
      assert (I1 : incl s0 s2).
      { destruct T; subst; try apply incl_refl. eapply Hgrow; eassumption. }
      exists (x :: xs). rewrite <- app_assoc. split; [reflexivity|]. split; [eapply incl_tran; eassumption|].
      constructor.
      + exists s0, s2. repeat split; auto. apply incl_refl.
      + eapply Forall2_impl; [|exact F]. intros rc' y (a & b & Ia & Ib & T'). exists a, b. repeat split; auto. eapply incl_tran; eassumption.
  Qed.
End OneLevel.

(** ** What the theorems ask of the array *)

(** The depths that the code computes are enough, and what they imply fits the format. *)
Definition sizes_ok (k : nat) (lc : nat -> nat) (instants n : nat) : Prop :=
  forall m, 1 <= m <= n -> m <= k ^ lc m /\ fits32 (2 * (k ^ lc m * k ^ lc m) * instants).

(** A number of fractional bits that the fixed point conversion can use. *)
Definition bits_ok (b : nat) : Prop := (b <=? 61) = true.
Lemma bits_ok_fits8 b : bits_ok b -> fits8 b.
Proof. unfold bits_ok, fits8. intros H. apply Nat.leb_le in H. lia. Qed.

(** What the values of a rectangle must satisfy. *)
(** [good b x]: [b] bits are suitable for the value [x]. *)
Definition all_good {A} (good : nat -> A -> Prop) (b : nat) (g : nat -> nat -> nat -> A) (instants h w : nat) : Prop :=
  forall t r c, t < instants -> r < h -> c < w -> good b (g t r c).
Record tile_ok {A} (E : elem A) (good : nat -> A -> Prop) (g : nat -> nat -> nat -> A) (instants h w : nat) : Prop :=
  { to_range : forall b t mn mx, all_good good b g instants h w -> t < instants -> el_minmax E b (instant_values g t h w) = Ok (mn, mx) ->
      i64_range mn /\ i64_range mx;
    to_elide : forall b m, all_good good b g instants h w ->
      (forall t, t < instants -> el_minmax E b (instant_values g t h w) = Ok (m t, m t)) ->
      forall t r c, t < instants -> r < h -> c < w -> el_fixed E b (g t r c) = Ok (m t);
    to_bits : forall b0 b, all_good good b0 g instants h w -> el_bits E b0 (all_values g instants h w) = Ok b ->
      all_good good b g instants h w /\
      ((forall t r c, t < instants -> r < h -> c < w -> el_fixed E b (g t r c) = Ok (raw_of E b (g t r c))) ->
       i64_series (fun t r c => raw_of E b (g t r c)) instants h w /\
       diffs_fit (fun t r c => raw_of E b (g t r c)) instants h w) }.
Definition is_leaf (lc : nat -> nat) (sub : list nat) (h w : nat) : bool :=
  (length sub =? 1) || (lc (Nat.max h w) <=? nth 0 sub 0).
(** The rectangles of the tree. *)
Fixpoint tiles_ok {A} (E : elem A) (good : nat -> A -> Prop) (k : nat) (lc : nat -> nat) (levels : list nat) (g : nat -> nat -> nat -> A)
  (instants rows cols : nat) : Prop :=
  match levels with
  | [] => True
  | level :: sub =>
      let cs := k ^ (lc (Nat.max rows cols) - level) in
      forall i j, i * cs < rows -> j * cs < cols ->
        tile_ok E good (tile_of g (i * cs) (j * cs)) instants (tile_h rows cs i) (tile_h cols cs j) /\
        (is_leaf lc sub (tile_h rows cs i) (tile_h cols cs j) = false ->
         tiles_ok E good k lc sub (tile_of g (i * cs) (j * cs)) instants (tile_h rows cs i) (tile_h cols cs j))
  end.
Lemma all_good_tile {A} good b (g : nat -> nat -> nat -> A) instants rows cols cs i j : i * cs < rows -> j * cs < cols ->
  all_good good b g instants rows cols ->
  all_good good b (tile_of g (i * cs) (j * cs)) instants (tile_h rows cs i) (tile_h cols cs j).
Proof. intros Hi Hj H t r c Ht Hr Hc. unfold tile_of. unfold tile_h in *. apply H; lia. Qed.
Lemma build_subchunk_leaf lc sub h w b : build_subchunk lc sub h w = Ok b -> is_leaf lc sub h w = b.
Proof.
  unfold build_subchunk, is_leaf. destruct (length sub =? 1); [intros H; injection H as <-; reflexivity|].
  intros H. apply bind_inv in H. destruct H as (x & E & H). injection H as <-. cbn [orb].
  apply nth_res_inv in E. rewrite (nth_error_nth _ _ 0 E). reflexivity.
Qed.

(** One value is its own minimum and maximum. *)
Definition single_ok {A} (E : elem A) : Prop := forall b x a a', el_minmax E b [x] = Ok (a, a') -> a = a'.

Lemma tile_h_pos n cs i : 0 < cs -> i * cs < n -> 0 < tile_h n cs i.
Proof. unfold tile_h. lia. Qed.
Lemma tile_h_in n cs i : i * cs < n -> i * cs + tile_h n cs i <= n.
Proof. unfold tile_h. lia. Qed.
Lemma tile_h_le n cs i : tile_h n cs i <= n.
Proof. unfold tile_h. lia. Qed.

Lemma instant_values_ext {A} (g g' : nat -> nat -> nat -> A) t h w :
  (forall r c, r < h -> c < w -> g t r c = g' t r c) -> instant_values g t h w = instant_values g' t h w.
Proof.
  intros H. unfold instant_values. apply map_ext_in. intros [r c] Hrc. apply in_prod_iff in Hrc.
  rewrite !in_seq in Hrc. cbn [fst snd]. apply H; lia.
Qed.
Lemma all_values_ext {A} (g g' : nat -> nat -> nat -> A) n h w :
  (forall t r c, t < n -> r < h -> c < w -> g t r c = g' t r c) -> all_values g n h w = all_values g' n h w.
Proof.
  intros H. unfold all_values. apply flat_map_ext_in. intros t Ht. apply in_range in Ht. apply instant_values_ext.
  intros r c Hr Hc. apply H; lia || assumption.
Qed.

Lemma in_instant_values {A} (g : nat -> nat -> nat -> A) t h w r c : r < h -> c < w -> In (g t r c) (instant_values g t h w).
Proof.
  intros Hr Hc. unfold instant_values. change (g t r c) with ((fun rc => g t (fst rc) (snd rc)) (r, c)). apply in_map.
  apply in_prod; apply in_seq; lia.
Qed.
Lemma in_all_values {A} (g : nat -> nat -> nat -> A) n t h w r c : t < n -> r < h -> c < w -> In (g t r c) (all_values g n h w).
Proof.
  intros Ht Hr Hc. unfold all_values. apply in_flat_map. exists t. split; [apply in_range; lia|]. apply in_instant_values; assumption.
Qed.

Lemma Forall2_in_l {A B} (R : A -> B -> Prop) la lb x : Forall2 R la lb -> In x la -> exists y, In y lb /\ R x y.
Proof.
  intros F. induction F as [|a b la lb HR F IH]; intros Hin; [destruct Hin|]. destruct Hin as [->|Hin].
  - exists b. split; [left; reflexivity|exact HR].
  - destruct (IH Hin) as (y & H1 & H2). exists y. split; [right; exact H1|exact H2].
Qed.

(** All the cells of a chunk that was built were encoded. *)
Lemma leaf_encoded {A} (E : elem A) k e g instants h w b y : leaf_build E k e g instants h w b = Ok y ->
  forall t r c, t < instants -> r < h -> c < w -> el_fixed E b (g t r c) = Ok (raw_of E b (g t r c)).
Proof.
  intros H t r c Ht Hr Hc. unfold leaf_build in H. apply bind_inv in H. destruct H as (zs & Ez & _).
  apply mapM_inv in Ez. destruct (Forall2_in_l _ _ _ _ Ez (in_all_values g instants t h w r c Ht Hr Hc)) as (z & _ & E').
  unfold raw_of. rewrite E'. reflexivity.
Qed.

Lemma minmax_of_nth {A} (E : elem A) bits g instants h w mm : minmax_of E bits g instants h w = Ok mm ->
  length mm = instants /\
  forall t, t < instants -> el_minmax E bits (instant_values g t h w) = Ok (nth t mm (0, 0)%Z).
Proof.
  intros H. unfold minmax_of in H. apply mapM_inv in H. pose proof (Forall2_length _ _ _ H) as HL.
  rewrite length_range in HL. split; [lia|]. intros t Ht.
  destruct (Forall2_nth_error_l _ _ _ t t H) as (p & Ep & Ef).
  - unfold range. rewrite nth_error_seq by lia. reflexivity.
  - rewrite Ef. f_equal. symmetry. apply nth_error_nth. exact Ep.
Qed.

Lemma fn_choice {B} (P : nat -> B -> Prop) (d : B) n : (forall i, i < n -> exists x, P i x) ->
  exists F, forall i, i < n -> P i (F i).
Proof.
  induction n as [|n IH]; intros H; [exists (fun _ => d); intros; lia|].
  destruct IH as (F & HF); [intros i Hi; apply H; lia|]. destruct (H n ltac:(lia)) as (x & Hx).
  exists (fun i => if i =? n then x else F i). intros i Hi. destruct (Nat.eqb_spec i n) as [->|Hne]; [exact Hx|]. apply HF. lia.
Qed.

Lemma raw_ok {A} (E : elem A) b x z : el_fixed E b x = Ok z -> raw_of E b x = z.
Proof. intros H. unfold raw_of. rewrite H. reflexivity. Qed.

Lemma leaf_spanless {A} (E : elem A) k e g instants rows cols b y :
  leaf_build E k e g instants rows cols b = Ok y -> spanless (mb_data y).
Proof.
  unfold leaf_build. intros H. apply bind_inv in H. destruct H as (u & _ & H). apply bind_inv in H. destruct H as (c & _ & H).
  injection H as <-. exact I.
Qed.

Lemma super_build_spanless {A} hash (E : elem A) k lc levels g instants rows cols bits st st' y :
  super_build hash E k lc levels g instants rows cols bits st = Ok (st', y) -> spanless (mb_data y).
Proof.
  destruct levels as [|level sub]; cbn [super_build]; (destruct (negb _); [discriminate|]); [discriminate|]. intros H.
  apply bind_inv in H. destruct H as (cs & _ & H). apply bind_inv in H. destruct H as ([s tiles] & _ & H).
  apply bind_inv in H. destruct H as (mx & _ & H). apply bind_inv in H. destruct H as (mn & _ & H).
  destruct (save _ _ _) as [ext st2]. apply bind_inv in H. destruct H as (dx & _ & H). apply bind_inv in H. destruct H as (dn & _ & H).
  injection H as <- <-. exact I.
Qed.

Lemma tile_view_ext st d s local idx h w f f' :
  (forall t r c, t < su_instants s -> r < h -> c < w -> f t r c = f' t r c) ->
  tile_view st d s local idx h w f -> tile_view st d s local idx h w f'.
Proof.
  intros He [v E V FV|i m E L SL V|i m E L SL V].
  - eapply tv_elided; [exact E|exact V|]. intros t r c Ht Hr Hc. rewrite <- He by assumption. auto.
  - eapply tv_local; [exact E|exact L|exact SL|]. eapply view_ext; eassumption.
  - eapply tv_external; [exact E|exact L|exact SL|]. eapply view_ext; eassumption.
Qed.

Lemma big_le x n : 1 <= x -> 1 <= n -> x <= 2 * (x * x) * n.
Proof. intros. transitivity (x * x); [nia|]. nia. Qed.

Section Main.
  Context {A : Type}.
  Variables (hash : bytes -> cid) (E : elem A) (k : nat) (lc : nat -> nat).
  Hypothesis Hhash : forall b, wf_cid (hash b).
  Hypothesis Hk : 2 <= k.
  Hypothesis Hk8 : fits8 k.
  Hypothesis Hsingle : single_ok E.

  (** What is known of a superchunk that was built at one level. *)
  Lemma super_build_inv level sublevels g instants rows cols bits st st2 b
    (Hgrow : forall g h w b s s' y, super_build hash E k lc sublevels g instants h w b s = Ok (s', y) -> incl s s') :
    super_build hash E k lc (level :: sublevels) g instants rows cols bits st = Ok (st2, b) ->
    let total := lc (Nat.max rows cols) in
    let ss := k ^ level in let cs := k ^ (total - level) in
    level <= total /\ sum_nat (level :: sublevels) = total /\
    exists st1 tiles s max min,
      incl st st1 /\
      Forall2 (fun rc x => exists a b, incl st a /\ incl b st1 /\
         tile_step hash E k lc sublevels g instants rows cols bits cs a rc b x) (grid ss) tiles /\
      saved hash st1 tiles s /\
      st2 = ss_store s ++ [(hash (node_bytes (NLinks (ss_links s))), node_bytes (NLinks (ss_links s)))] /\
      dac_rel max (map zigzag_encode (flat_map (fun t => map (fun mm => snd (nth t mm (0, 0)%Z)) (map fst tiles)) (range 0 instants))) /\
      dac_rel min (map zigzag_encode (flat_map (fun t => map (fun mm => fst (nth t mm (0, 0)%Z)) (map fst tiles)) (range 0 instants))) /\
      Forall (fun x => length (fst x) = instants) tiles /\
      let data := MSuper (mkSuper instants rows cols (k ^ total) level (ss_refs s) max min
            (hash (node_bytes (NLinks (ss_links s)))) bits (el_enc E) cs ss) [] in
      b = mkMM data (mm_size data - 1 + links_size (ss_links s) + ss_sizes s) (ss_elided s)
            (length (ss_links s)) (ss_snapshots s) (ss_logs s).
  Proof using Hk.
    intros H total ss cs. cbn [super_build] in H. fold total in H.
    destruct (Nat.eqb_spec (sum_nat (level :: sublevels)) total) as [Hsum|]; cbn [negb] in H; [|discriminate].
    assert (Hlev : level <= total). { rewrite <- Hsum. unfold sum_nat. cbn [fold_right]. clear. lia. }
    split; [exact Hlev|]. split; [exact Hsum|].
    assert (Hss : ss <> 0) by (apply Nat.pow_nonzero; clear -Hk; lia).
    fold ss in H. rewrite udiv_ok in H by exact Hss. cbn [bind] in H.
    assert (Ecs : k ^ total / ss = cs).
    { unfold cs, ss. replace total with (total - level + level) at 1 by (clear -Hlev; lia). rewrite Nat.pow_add_r.
      apply Nat.div_mul. exact Hss. }
    rewrite Ecs in H.
    apply bind_inv in H. destruct H as ([st1 tiles] & Ef & H).
    apply (build_fold_inv hash E k lc sublevels g instants rows cols bits cs Hgrow) in Ef.
    destruct Ef as (xs & Et & I1 & F). cbn [app] in Et. subst tiles.
    assert (HL : Forall (fun x => length (fst x) = instants) xs).
    { clear -F. induction F as [|rc x l xs (a & b & _ & _ & T) F IH]; constructor; [|exact IH].
      destruct T; subst x; cbn [fst].
      - apply repeat_length.
      - eapply (minmax_of_nth E); eassumption.
      - eapply (minmax_of_nth E); eassumption.
      - eapply (minmax_of_nth E); eassumption. }
    assert (HL' : Forall (fun mm => length mm = instants) (map fst xs)) by (apply Forall_map; exact HL).
    rewrite !(by_instant_ok instants (map fst xs)) in H by exact HL'. cbn [bind] in H.
    set (s := fold_left (save_tile hash) xs (mkSave st1 [] [] 0 0 0 0)) in H.
    unfold save in H. cbn [fst snd] in H.
    apply bind_inv in H. destruct H as (max & Emax & H). apply bind_inv in H. destruct H as (min & Emin & H).
    injection H as <- <-.
    exists st1, xs, s, max, min. split; [exact I1|]. split; [exact F|]. split; [apply save_all_ok|]. split; [reflexivity|].
    destruct (dac_of_ok (flat_map (fun t => map (fun mm => snd (nth t mm (0, 0)%Z)) (map fst xs)) (range 0 instants))) as (d1 & E1 & R1).
    rewrite E1 in Emax. injection Emax as <-. split; [exact R1|].
    destruct (dac_of_ok (flat_map (fun t => map (fun mm => fst (nth t mm (0, 0)%Z)) (map fst xs)) (range 0 instants))) as (d2 & E2 & R2).
    rewrite E2 in Emin. injection Emin as <-. split; [exact R2|].
    split; [exact HL|]. reflexivity.
  Qed.

  Lemma super_build_incl levels : forall g instants rows cols bits st st2 b,
    super_build hash E k lc levels g instants rows cols bits st = Ok (st2, b) -> incl st st2.
  Proof using Hk.
    induction levels as [|level sub IH]; intros g instants rows cols bits st st2 b H.
    - cbn [super_build] in H. destruct (negb _) in H; discriminate.
    - apply super_build_inv in H; [|intros; eapply IH; eassumption].
      destruct H as (_ & _ & st1 & tiles & s & max & min & I1 & _ & SV & -> & _).
      intros x Hx. apply in_or_app. left. apply (sv_store _ _ _ _ SV), I1, Hx.
  Qed.

  (** A tile that is not uniform at some instant has more than one cell. *)
  Lemma tile_two bits g instants h w mm : 0 < h -> 0 < w ->
    minmax_of E bits g instants h w = Ok mm -> ~ Forall (fun p => fst p = snd p) mm -> 2 <= Nat.max h w.
  Proof using Hsingle.
    clear -Hsingle. intros Hh Hw Em Hu. destruct (Nat.le_gt_cases 2 (Nat.max h w)) as [H|H]; [exact H|]. exfalso. apply Hu.
    assert (h = 1) by lia. assert (w = 1) by lia. subst h w.
    destruct (minmax_of_nth E bits g instants 1 1 mm Em) as [HL Hn].
    apply Forall_forall. intros p Hp. apply In_nth with (d := (0, 0)%Z) in Hp. destruct Hp as (t & Ht & <-).
    specialize (Hn t ltac:(lia)). unfold instant_values in Hn. cbn [seq list_prod map app fst snd] in Hn.
    destruct (nth t mm (0, 0)%Z) as [a a']. exact (Hsingle _ _ _ _ Hn).
  Qed.

  Lemma pow_one_lt e : 2 <= k ^ e -> 1 <= e.
  Proof using. clear. destruct e; [cbn; lia|lia]. Qed.

  (** The bits that the builder works with are suitable. *)
  Variable good : nat -> A -> Prop.
  Hypothesis Hgood : forall b x, good b x -> bits_ok b.

  Definition encodes (g : nat -> nat -> nat -> A) (instants rows cols : nat) (f : nat -> nat -> nat -> Z * nat) : Prop :=
    forall t r c, t < instants -> r < rows -> c < cols ->
      el_fixed E (snd (f t r c)) (g t r c) = Ok (fst (f t r c)) /\ good (snd (f t r c)) (g t r c).

  (** The chunk of a tile. *)
  Lemma leaf_ok g instants h w b0 b y : Nat.Even k -> 0 < instants -> 2 <= Nat.max h w ->
    sizes_ok k lc instants (Nat.max h w) -> tile_ok E good g instants h w -> all_good good b0 g instants h w -> 0 < h -> 0 < w ->
    el_bits E b0 (all_values g instants h w) = Ok b ->
    leaf_build E k (lc (Nat.max h w)) g instants h w b = Ok y ->
    wf_mm (mb_data y) /\ mm_fbits (mb_data y) = b /\ mm_encoding (mb_data y) = el_enc E /\
    exists f, encodes g instants h w f /\ forall st', view st' 1 (mb_data y) instants h w f.
  Proof using Hk Hk8 Hgood.
    intros Hev H0 H2 HS TO Hb0 Hh0 Hw0 Eb El.
    pose proof (leaf_encoded E k _ g instants h w b y El) as Henc.
    destruct (to_bits _ _ _ _ _ _ TO b0 b Hb0 Eb) as [Hgb HV].
    pose proof (bits_ok_fits8 b (Hgood _ _ (Hgb 0 0 0 H0 Hh0 Hw0))) as Hb. destruct (HV Henc) as [Hi Hd].
    destruct (HS (Nat.max h w) ltac:(clear -H2; lia)) as [Hle Hfit].
    set (e := lc (Nat.max h w)) in *.
    assert (He : 1 <= e) by (apply pow_one_lt; clear -H2 Hle; lia).
    assert (Hf1 : fits32 (2 * (k ^ e * k ^ e))).
    { eapply fits32_le; [|exact Hfit]. clear -H0. nia. }
    assert (Hfi : fits32 instants).
    { eapply fits32_le; [|exact Hfit]. assert (1 <= k ^ e * k ^ e) by (clear -H2 Hle; nia). clear -H. nia. }
    unfold leaf_build in El. apply bind_inv in El. destruct El as (zs & _ & El).
    apply bind_inv in El. destruct El as (cb & Ec & El). injection El as <-. cbn [mb_data].
    pose proof (chunk_build_wf _ instants h w k e (el_enc E) b cb Hk (conj Hk8 (conj Hle Hf1)) Hi Hfi Hb Ec) as HW.
    destruct (chunk_build_ok (fun t r c => raw_of E b (g t r c)) h w k e Hk instants (el_enc E) b H0 Hi) as (blocks & ns & nl & Ec' & HB & HT & _).
    rewrite Ec in Ec'. injection Ec' as ->. cbn [cb_data] in *.
    split; [exact HW|]. split; [reflexivity|]. split; [reflexivity|].
    exists (fun t r c => (raw_of E b (g t r c), b)). split.
    - intros t r c Ht Hr Hc. cbn [fst snd]. split; [auto|apply Hgb; assumption].
    - intros st'. exact (chunk_view _ instants h w k e (el_enc E) b blocks st' Hk Hev He Hle H0 Hi Hd HB HT).
  Qed.

  (** The numbers recorded for a tile. *)
  Definition i64_pairs (instants : nat) (x : tile) : Prop :=
    length (fst x) = instants /\ Forall (fun p => i64_range (fst p) /\ i64_range (snd p)) (fst x).

  Lemma tile_dac (tiles : list tile) (pick : Z * Z -> Z) instants (d : dac) idx x t :
    (forall p, i64_range (fst p) /\ i64_range (snd p) -> i64_range (pick p)) ->
    dac_rel d (map zigzag_encode (flat_map (fun t => map (fun mm => pick (nth t mm (0, 0)%Z)) (map fst tiles)) (range 0 instants))) ->
    Forall (i64_pairs instants) tiles ->
    nth_error tiles idx = Some x -> t < instants ->
    dac_get d (idx + t * length tiles) = Ok (pick (nth t (fst x) (0, 0)%Z)).
  Proof using.
    clear. intros Hp HR HI Hx Ht. eapply dac_get_ok; [exact HR| |].
    - apply Forall_forall. intros z Hz. apply in_flat_map in Hz. destruct Hz as (t' & Ht' & Hz). apply in_map_iff in Hz.
      destruct Hz as (mm & <- & Hmm). apply in_map_iff in Hmm. destruct Hmm as (x' & <- & Hx').
      rewrite Forall_forall in HI. destruct (HI x' Hx') as [HL HF]. rewrite Forall_forall in HF.
      apply in_range in Ht'. apply Hp, HF, nth_In. lia.
    - replace (length tiles) with (length (map fst tiles)) by apply map_length. apply by_instant_nth; [exact Ht|]. rewrite nth_error_map, Hx. reflexivity.
  Qed.

  Lemma tile_pairs sublevels g instants rows cols bits cs a rc b x : 0 < cs -> 0 < instants ->
    (fst rc * cs < rows -> snd rc * cs < cols ->
     all_good good bits (tile_of g (fst rc * cs) (snd rc * cs)) instants (tile_h rows cs (fst rc)) (tile_h cols cs (snd rc))) ->
    (fst rc * cs < rows -> snd rc * cs < cols ->
     tile_ok E good (tile_of g (fst rc * cs) (snd rc * cs)) instants (tile_h rows cs (fst rc)) (tile_h cols cs (snd rc))) ->
    tile_step hash E k lc sublevels g instants rows cols bits cs a rc b x ->
    i64_pairs instants x.
  Proof using.
    clear. intros Hcs H0 Hb TO T.
    assert (G : forall mm, fst rc * cs < rows -> snd rc * cs < cols ->
      minmax_of E bits (tile_of g (fst rc * cs) (snd rc * cs)) instants (tile_h rows cs (fst rc)) (tile_h cols cs (snd rc)) = Ok mm ->
      length mm = instants /\ Forall (fun p => i64_range (fst p) /\ i64_range (snd p)) mm).
    { intros mm Hr Hc Em. destruct (minmax_of_nth _ _ _ _ _ _ _ Em) as [HL Hn]. split; [exact HL|].
      apply Forall_forall. intros p Hp. apply In_nth with (d := (0, 0)%Z) in Hp. destruct Hp as (t & Ht & <-).
      rewrite HL in Ht. specialize (Hn t Ht).
      pose proof (TO Hr Hc) as TT.
      destruct (nth t mm (0, 0)%Z) as [mn mx]. destruct (to_range _ _ _ _ _ _ TT bits t mn mx (Hb Hr Hc) Ht Hn) as (A1 & A2).
      cbn [fst snd]. auto. }
    unfold i64_pairs. destruct T; subst x; cbn [fst]; auto.
    split; [apply repeat_length|]. apply Forall_forall. intros p Hp. apply repeat_spec in Hp. subst p.
    cbn [fst snd]. split; apply i64_rangeb_spec; reflexivity.
  Qed.

  Lemma sizes_ok_le instants n n' : n' <= n -> sizes_ok k lc instants n -> sizes_ok k lc instants n'.
  Proof using. clear. intros H HS m Hm. apply HS. lia. Qed.

  Lemma fits8_levels e : fits32 (k ^ e) -> fits8 e.
  Proof using Hk.
    clear -Hk. intros H. unfold fits8. destruct (Nat.le_gt_cases 256 e) as [Hge|Hlt]; [|lia]. exfalso.
    unfold fits32 in H. assert (Hp : 2 ^ 32 <= k ^ e).
    { transitivity (2 ^ e); [apply Nat.pow_le_mono_r; lia|apply Nat.pow_le_mono_l; exact Hk]. }
    assert (N.of_nat (2 ^ 32) <= N.of_nat (k ^ e))%N by lia.
    rewrite Nat2N.inj_pow in H0. change (N.of_nat 2 ^ N.of_nat 32)%N with (2 ^ 32)%N in H0. lia.
  Qed.

  Theorem super_build_view levels : Nat.Even k -> forall g instants rows cols bits st st2 b,
    0 < instants -> 0 < rows -> 0 < cols -> sizes_ok k lc instants (Nat.max rows cols) -> all_good good bits g instants rows cols ->
    tiles_ok E good k lc levels g instants rows cols ->
    super_build hash E k lc levels g instants rows cols bits st = Ok (st2, b) ->
    wf_mm (mb_data b) /\ mm_fbits (mb_data b) = bits /\ mm_encoding (mb_data b) = el_enc E /\
    exists f, encodes g instants rows cols f /\
      forall st', incl st2 st' -> functional st' -> view st' (S (length levels)) (mb_data b) instants rows cols f.
  Proof using Hhash Hk Hk8 Hsingle Hgood.
    intros Hev. induction levels as [|level sub IH]; intros g instants rows cols bits st st2 b H0 Hrows Hcols HS Hbits TO H.
    { cbn [super_build] in H. destruct (negb _) in H; discriminate. }
    apply super_build_inv in H; [|intros; eapply super_build_incl; eassumption].
    destruct H as (Hlev & _ & st1 & tiles & s & max & min & I1 & F & SV & -> & RM & Rm & HL & Eb).
    cbn [tiles_ok] in TO. cbv zeta in TO.
    set (total := lc (Nat.max rows cols)) in *. set (ss := k ^ level) in *. set (cs := k ^ (total - level)) in *.
    destruct (HS (Nat.max rows cols) ltac:(clear -Hrows; lia)) as [Hle Hfit]. fold total in Hle, Hfit.
    assert (Hsc : k ^ total = ss * cs). { unfold ss, cs. rewrite <- Nat.pow_add_r. f_equal. clear -Hlev. lia. }
    assert (Hcs : 0 < cs) by (assert (cs <> 0) by (apply Nat.pow_nonzero; clear -Hk; lia); clear -H; lia).
    assert (Hss : 0 < ss) by (assert (ss <> 0) by (apply Nat.pow_nonzero; clear -Hk; lia); clear -H; lia).
    assert (HR : rows <= ss * cs) by (rewrite <- Hsc; clear -Hle; lia).
    assert (HC : cols <= ss * cs) by (rewrite <- Hsc; clear -Hle; lia).
    assert (Hlen : length tiles = ss * ss) by (rewrite <- (Forall2_length _ _ _ F); apply length_grid).
    assert (HP : Forall (i64_pairs instants) tiles).
    { clear -F Hcs H0 TO Hbits. induction F as [|rc x l xs (a & b & _ & _ & T) F IH]; constructor; [|exact IH].
      eapply tile_pairs; try eassumption; intros Hi Hj; [|apply (TO _ _ Hi Hj)]. apply all_good_tile; assumption. }
    assert (Hssl : ss <= ss * cs) by (clear -Hcs; nia).
    assert (Hcsl : cs <= ss * cs) by (clear -Hss; nia).
    assert (Hbig : ss * cs <= 2 * (k ^ total * k ^ total) * instants).
    { rewrite Hsc. apply big_le; [clear -Hss Hcs; nia|exact H0]. }
    assert (Hbig2 : ss * ss * instants <= 2 * (k ^ total * k ^ total) * instants).
    { rewrite Hsc. apply Nat.mul_le_mono_r. transitivity (ss * cs * (ss * cs)); [apply Nat.mul_le_mono; exact Hssl|clear; lia]. }
    assert (Hnl : length (ss_links s) <= length tiles).
    { etransitivity; [apply (sv_count _ _ _ _ SV)|]. pose proof (sv_elided _ _ _ _ SV) as X. clear -X. lia. }
    assert (HWl : wf_node (NLinks (ss_links s))).
    { split.
      - eapply fits32_le; [|exact Hfit]. rewrite Hlen in Hnl. clear -Hnl Hbig2 H0. nia.
      - apply Forall_forall. intros c Hc. destruct (sv_links _ _ _ _ SV c Hc) as (o & _ & Ho).
        destruct o as [y|]; [|discriminate]. injection Ho as <-. apply Hhash. }
    set (S0 := mkSuper instants rows cols (k ^ total) level (ss_refs s) max min
            (hash (node_bytes (NLinks (ss_links s)))) bits (el_enc E) cs ss) in *.
    set (st2 := ss_store s ++ [(hash (node_bytes (NLinks (ss_links s))), node_bytes (NLinks (ss_links s)))]) in *.
    (* each tile *)
    assert (HT : forall i j, i * cs < rows -> j * cs < cols -> exists f', encodes (tile_of g (i * cs) (j * cs)) instants (tile_h rows cs i) (tile_h cols cs j) f' /\
      forall st', incl st2 st' -> functional st' ->
        tile_view st' (S (length sub)) S0 [] (i * ss + j) (tile_h rows cs i) (tile_h cols cs j) f').
    { intros i j Hi Hj.
      assert (Hi' : i < ss) by (clear -Hi HR Hcs; nia). assert (Hj' : j < ss) by (clear -Hj HC Hcs; nia).
      destruct (Forall2_nth_error_l _ _ _ _ _ F (nth_error_grid ss i j Hi' Hj')) as (x & Ex & sa & sb & Ia & Ib & T).
      destruct (Forall2_nth_error_l _ _ _ _ _ (sv_refs _ _ _ _ SV) Ex) as (r & Er & Hr).
      destruct (TO i j Hi Hj) as [TT TS].
      pose proof (all_good_tile good bits g instants rows cols cs i j Hi Hj Hbits) as HbT.
      assert (HSt : sizes_ok k lc instants (Nat.max (tile_h rows cs i) (tile_h cols cs j))).
      { eapply sizes_ok_le; [|exact HS]. pose proof (tile_h_le rows cs i). pose proof (tile_h_le cols cs j). clear -H H1. lia. }
      assert (Eref : nth_res (su_refs S0) (i * ss + j) = Ok r) by (apply nth_res_ok; exact Er).
      (* a stored subchunk *)
      assert (G : forall y f', snd x = Some y -> wf_mm (mb_data y) -> spanless (mb_data y) ->
        (forall st', incl st1 st' -> functional st' -> view st' (S (length sub)) (mb_data y) instants (tile_h rows cs i) (tile_h cols cs j) f') ->
        forall st', incl st2 st' -> functional st' ->
        tile_view st' (S (length sub)) S0 [] (i * ss + j) (tile_h rows cs i) (tile_h cols cs j) f').
      { intros y f' Ey HW SL HV st' HI HF. unfold ref_ok in Hr. rewrite Ey in Hr. destruct Hr as (n & -> & En & Hin).
        eapply tv_external; [exact Eref| |exact SL|].
        - unfold super_external. cbn [su_external S0].
          assert (EL : get_links st' (hash (node_bytes (NLinks (ss_links s)))) = Ok (ss_links s)).
          { unfold get_links. rewrite (retrieve_saved st' hash (NLinks (ss_links s)) HWl HF).
            - reflexivity.
            - apply HI. unfold st2. apply in_or_app. right. left. reflexivity. }
          rewrite EL. cbn [bind]. rewrite (nth_res_ok _ _ _ En). cbn [bind].
          unfold get_mm, mm_cid. rewrite (retrieve_saved st' hash (NMM (mb_data y)) HW HF).
          + reflexivity.
          + apply HI. unfold st2. apply in_or_app. left. exact Hin.
        - apply HV; [|exact HF]. eapply incl_tran; [|exact HI]. unfold st2. apply incl_appl. apply (sv_store _ _ _ _ SV). }
      destruct T as [[Ho|Ho] _ _|mm _ _ Em Hu -> _|mm b' y _ _ Em Hu El Eb' Ey -> _|mm b' y _ _ Em Hu El Eb' Ey ->]; cbn [fst snd] in *.
      - clear -Ho Hi. lia.
      - clear -Ho Hj. lia.
      - (* elided *)
        destruct (minmax_of_nth _ _ _ _ _ _ _ Em) as [HLm Hn].
        assert (Huu : forall t, t < instants -> fst (nth t mm (0, 0)%Z) = snd (nth t mm (0, 0)%Z)).
        { intros t Ht. rewrite Forall_forall in Hu. apply Hu, nth_In. rewrite HLm. exact Ht. }
        exists (fun t _ _ => (snd (nth t mm (0, 0)%Z), bits)). split.
        + intros t r' c Ht Hr' Hc. cbn [fst snd]. split; [|apply HbT; assumption].
          apply (to_elide _ _ _ _ _ _ TT bits (fun t => snd (nth t mm (0, 0)%Z)) HbT); auto. intros t' Ht'.
          specialize (Hn t' Ht'). specialize (Huu t' Ht').
          destruct (nth t' mm (0, 0)%Z) as [mn mx]. cbn [fst snd] in *. subst mx. exact Hn.
        + intros st' _ _. unfold ref_ok in Hr. cbn [snd] in Hr. subst r.
          apply tv_elided with (v := fun t => snd (nth t mm (0, 0)%Z)).
          * exact Eref.
          * intros t Ht. cbn [S0 su_max su_subsidelen su_instants] in *. rewrite <- Hlen.
            apply (tile_dac tiles snd instants max (i * ss + j) (mm, None) t); auto. intros p [_ X]; exact X.
          * reflexivity.
      - (* a chunk *)
        pose proof (tile_two _ _ _ _ _ _ (tile_h_pos _ _ _ Hcs Hi) (tile_h_pos _ _ _ Hcs Hj) Em Hu) as H2.
        destruct (leaf_ok _ instants _ _ bits b' y Hev H0 H2 HSt TT HbT (tile_h_pos _ _ _ Hcs Hi) (tile_h_pos _ _ _ Hcs Hj) Eb' Ey) as (HW & _ & _ & f' & HE & HV).
        exists f'. split; [exact HE|]. apply (G y f'); [reflexivity|exact HW|exact (leaf_spanless _ _ _ _ _ _ _ _ _ Ey)|].
        intros st' _ _. eapply view_le; [|apply HV]. clear. lia.
      - (* a superchunk *)
        destruct (to_bits _ _ _ _ _ _ TT bits b' HbT Eb') as [Hb' _].
        destruct (IH _ instants _ _ b' sa sb y H0 (tile_h_pos _ _ _ Hcs Hi) (tile_h_pos _ _ _ Hcs Hj) HSt Hb'
          (TS (build_subchunk_leaf _ _ _ _ _ El)) Ey) as (HW & _ & _ & f' & HE & HV).
        exists f'. split; [exact HE|]. apply (G y f'); [reflexivity|exact HW|exact (super_build_spanless _ _ _ _ _ _ _ _ _ _ _ _ _ Ey)|].
        intros st' HI HF. apply HV; [eapply incl_tran; eassumption|exact HF]. }
    (* one function for all of them *)
    destruct (fn_choice (fun idx f' => forall i j, j < ss -> idx = i * ss + j -> i * cs < rows -> j * cs < cols ->
        encodes (tile_of g (i * cs) (j * cs)) instants (tile_h rows cs i) (tile_h cols cs j) f' /\
        forall st', incl st2 st' -> functional st' ->
          tile_view st' (S (length sub)) S0 [] idx (tile_h rows cs i) (tile_h cols cs j) f')
        (fun _ _ _ => (0%Z, 0)) (ss * ss)) as (FF & HFF).
    { intros idx Hidx.
      destruct (Nat.lt_ge_cases (idx / ss * cs) rows) as [Hi|Hi]; [destruct (Nat.lt_ge_cases (idx mod ss * cs) cols) as [Hj|Hj]|].
      - destruct (HT (idx / ss) (idx mod ss) Hi Hj) as (f' & H1 & H2). exists f'. intros i j Hjs -> Hi' Hj'.
        assert (E1 : (i * ss + j) / ss = i). { rewrite Nat.add_comm, Nat.div_add by (clear -Hss; lia). rewrite Nat.div_small by exact Hjs. reflexivity. }
        assert (E2 : (i * ss + j) mod ss = j). { rewrite Nat.add_comm, Nat.mod_add by (clear -Hss; lia). apply Nat.mod_small. exact Hjs. }
        rewrite E1, E2 in *. split; assumption.
      - exists (fun _ _ _ => (0%Z, 0)). intros i j Hjs -> Hi' Hj'. exfalso.
        assert (E2 : (i * ss + j) mod ss = j). { rewrite Nat.add_comm, Nat.mod_add by (clear -Hss; lia). apply Nat.mod_small. exact Hjs. }
        rewrite E2 in Hj. clear -Hj Hj'. lia.
      - exists (fun _ _ _ => (0%Z, 0)). intros i j Hjs -> Hi' Hj'. exfalso.
        assert (E1 : (i * ss + j) / ss = i). { rewrite Nat.add_comm, Nat.div_add by (clear -Hss; lia). rewrite Nat.div_small by exact Hjs. reflexivity. }
        rewrite E1 in Hi. clear -Hi Hi'. lia. }
    set (f := fun t r c => FF (r / cs * ss + c / cs) t (r mod cs) (c mod cs)).
    assert (Ef : forall i j t r c, r < cs -> c < cs -> f t (i * cs + r) (j * cs + c) = FF (i * ss + j) t r c).
    { intros i j t r c Hr Hc. unfold f.
      assert (E1 : forall a x, x < cs -> (a * cs + x) / cs = a).
      { intros a x Hx. rewrite Nat.add_comm, Nat.div_add by (clear -Hcs; lia). rewrite Nat.div_small by exact Hx. reflexivity. }
      assert (E2 : forall a x, x < cs -> (a * cs + x) mod cs = x).
      { intros a x Hx. rewrite Nat.add_comm, Nat.mod_add by (clear -Hcs; lia). apply Nat.mod_small. exact Hx. }
      rewrite !E1, !E2 by assumption. reflexivity. }
    rewrite Eb. cbn [mb_data].
    assert (HWm : wf_super S0).
    { assert (F32 : forall x, x <= ss * cs -> fits32 x).
      { intros x Hx. eapply fits32_le; [|exact Hfit]. clear -Hx Hbig. lia. }
      assert (FD : fits32 (instants * (ss * ss))) by (eapply fits32_le; [|exact Hfit]; clear -Hbig2; lia).
      constructor; cbn [S0 su_instants su_rows su_cols su_sidelen su_levels su_chunks_sidelen su_subsidelen su_fbits su_refs su_external su_max su_min].
      - eapply fits32_le; [|exact FD]. assert (1 <= ss * ss) by (clear -Hss; nia). clear -H. nia.
      - apply F32. exact HR.
      - apply F32. exact HC.
      - apply F32. rewrite Hsc. clear. lia.
      - apply fits8_levels. apply F32. exact Hssl.
      - apply F32. exact Hcsl.
      - apply F32. exact Hssl.
      - apply bits_ok_fits8. exact (Hgood _ _ (Hbits 0 0 0 H0 Hrows Hcols)).
      - rewrite <- (Forall2_length _ _ _ (sv_refs _ _ _ _ SV)), Hlen. eapply fits32_le; [|exact FD]. clear -H0. nia.
      - apply Forall_forall. intros r Hr. apply In_nth_error in Hr. destruct Hr as (n & En).
        destruct (Forall2_nth_error _ _ _ _ _ (sv_refs _ _ _ _ SV) En) as (x & _ & Hx). unfold ref_ok in Hx.
        destruct (snd x) as [y|].
        + destruct Hx as (m & -> & Em & _). cbn [wf_ref]. assert (m < length (ss_links s)) by (apply nth_error_Some; congruence).
          destruct HWl as [HWl _]. eapply fits32_le; [|exact HWl]. clear -H. lia.
        + subst r. exact I.
      - apply Hhash.
      - eapply dac_rel_wf; [exact RM|]. rewrite map_length, by_instant_length, map_length, Hlen. exact FD.
      - eapply dac_rel_wf; [exact Rm|]. rewrite map_length, by_instant_length, map_length, Hlen. exact FD. }
    split. { cbn [wf_mm]. split; [exact HWm|]. split; [reflexivity|exact I]. }
    split; [reflexivity|]. split; [reflexivity|].
    exists f. split.
    - intros t r c Ht Hr Hc.
      pose proof (Nat.div_mod r cs ltac:(clear -Hcs; lia)) as Er. pose proof (Nat.div_mod c cs ltac:(clear -Hcs; lia)) as Ec.
      pose proof (Nat.mod_upper_bound r cs ltac:(clear -Hcs; lia)) as Br. pose proof (Nat.mod_upper_bound c cs ltac:(clear -Hcs; lia)) as Bc.
      unfold f. revert Er Ec Br Bc. generalize (r / cs) (c / cs) (r mod cs) (c mod cs). intros i j lr lcc Er Ec Br Bc.
      assert (Hi : i * cs < rows) by (clear -Er Hr; lia). assert (Hj : j * cs < cols) by (clear -Ec Hc; lia).
      assert (Hj' : j < ss) by (clear -Hj HC Hcs; nia). assert (Hi' : i < ss) by (clear -Hi HR Hcs; nia).
      destruct (HFF (i * ss + j) ltac:(clear -Hi' Hj'; nia) i j Hj' eq_refl Hi Hj) as [HE _].
      specialize (HE t lr lcc Ht ltac:(unfold tile_h; clear -Er Hr Br; lia) ltac:(unfold tile_h; clear -Ec Hc Bc; lia)).
      unfold tile_of in HE. replace (i * cs + lr) with r in HE by (clear -Er; lia). replace (j * cs + lcc) with c in HE by (clear -Ec; lia).
      exact HE.
    - intros st' HI HF. cbn [length].
      apply (super_view st' (S (length sub)) S0 [] f Hcs).
      cbn [S0 su_chunks_sidelen su_subsidelen su_rows su_cols su_instants]. intros i j Hi Hj.
      assert (Hj' : j < ss) by (clear -Hj HC Hcs; nia). assert (Hi' : i < ss) by (clear -Hi HR Hcs; nia).
      destruct (HFF (i * ss + j) ltac:(clear -Hi' Hj'; nia) i j Hj' eq_refl Hi Hj) as [_ HV].
      specialize (HV st' HI HF). eapply tile_view_ext; [|exact HV].
      intros t r c Ht Hr Hc. unfold tile_of. symmetry. apply Ef; unfold tile_h in *; [clear -Hr; lia|clear -Hc; lia].
  Qed.
End Main.
