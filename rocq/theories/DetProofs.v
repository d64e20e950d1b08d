(** * What the encoder makes depends on the values only: not on the store, nor on
    anything else that the data it is given might hold. *)
From Verif Require Import Base BaseFacts Spec GeomModel BitmapModel DacModel StreamModel SnapshotModel LogModel ChunkModel NodeModel SuperModel SuperProofs.
Ltac Zify.zify_post_hook ::= Z.div_mod_to_equations.
Arguments Nat.pow : simpl never.

Lemma mapM_ext_in {X Y} (f g : X -> res Y) l : (forall x, In x l -> f x = g x) -> mapM f l = mapM g l.
Proof.
  induction l as [|a l IH]; intros H; cbn [mapM]; [reflexivity|]. rewrite (H a (or_introl eq_refl)). rewrite IH; [reflexivity|].
  intros x Hx. apply H. right. exact Hx.
Qed.
Lemma foldM_ext_in {X S} (f g : S -> X -> res S) l : (forall s x, In x l -> f s x = g s x) -> forall s, foldM f s l = foldM g s l.
Proof.
  induction l as [|a l IH]; intros H s; cbn [foldM]; [reflexivity|]. rewrite (H s a (or_introl eq_refl)). destruct (g s a); cbn [bind]; try reflexivity.
  apply IH. intros s' x Hx. apply H. right. exact Hx.
Qed.

(** ** Rasters *)
Definition same2 (rows cols : nat) (g g' : nat -> nat -> Z) : Prop := forall r c, r < rows -> c < cols -> g r c = g' r c.

Lemma k2_build_ext g g' rows cols k : same2 rows cols g g' -> forall fuel sidelen row col,
  k2_build fuel g rows cols k sidelen row col = k2_build fuel g' rows cols k sidelen row col.
Proof.
  intros H. induction fuel as [|fuel IH]; intros sidelen row col; cbn [k2_build]; destruct (sidelen =? 1).
  - destruct (Nat.ltb_spec row rows), (Nat.ltb_spec col cols); cbn [andb]; try reflexivity. rewrite H by assumption. reflexivity.
  - reflexivity.
  - destruct (Nat.ltb_spec row rows), (Nat.ltb_spec col cols); cbn [andb]; try reflexivity. rewrite H by assumption. reflexivity.
  - destruct (udiv sidelen k) as [x| | |]; cbn [bind]; try reflexivity.
    rewrite (mapM_ext_in _ (fun '(i, j) => k2_build fuel g' rows cols k x (row + i * x) (col + j * x))); [reflexivity|].
    intros [i j] _. apply IH.
Qed.
Lemma p_build_ext gs gs' gt gt' rows cols k : same2 rows cols gs gs' -> same2 rows cols gt gt' -> forall fuel sidelen row col,
  p_build fuel gs gt rows cols k sidelen row col = p_build fuel gs' gt' rows cols k sidelen row col.
Proof.
  intros H H'. induction fuel as [|fuel IH]; intros sidelen row col; cbn [p_build]; destruct (sidelen =? 1).
  - destruct (Nat.ltb_spec row rows), (Nat.ltb_spec col cols); cbn [andb]; try reflexivity. rewrite H, H' by assumption. reflexivity.
  - reflexivity.
  - destruct (Nat.ltb_spec row rows), (Nat.ltb_spec col cols); cbn [andb]; try reflexivity. rewrite H, H' by assumption. reflexivity.
  - destruct (udiv sidelen k) as [x| | |]; cbn [bind]; try reflexivity.
    rewrite (mapM_ext_in _ (fun '(i, j) => p_build fuel gs' gt' rows cols k x (row + i * x) (col + j * x))); [reflexivity|].
    intros [i j] _. apply IH.
Qed.
Lemma snapshot_build_ext g g' rows cols k e : same2 rows cols g g' -> snapshot_build_e g rows cols k e = snapshot_build_e g' rows cols k e.
Proof. intros H. unfold snapshot_build_e. rewrite (k2_build_ext g g' rows cols k H). reflexivity. Qed.
Lemma log_build_ext gs gs' gt gt' rows cols k e : same2 rows cols gs gs' -> same2 rows cols gt gt' ->
  log_build_e gs gt rows cols k e = log_build_e gs' gt' rows cols k e.
Proof. intros H H'. unfold log_build_e. rewrite (p_build_ext gs gs' gt gt' rows cols k H H'). reflexivity. Qed.

(** ** Series of rasters *)
Lemma chunk_build_ext g g' instants rows cols k e enc fb : (forall t, t < instants -> same2 rows cols (g t) (g' t)) ->
  chunk_build_e g instants rows cols k e enc fb = chunk_build_e g' instants rows cols k e enc fb.
Proof.
  intros H. unfold chunk_build_e. destruct (Nat.eqb_spec instants 0) as [|N0]; [reflexivity|].
  rewrite (snapshot_build_ext (g 0) (g' 0)) by (apply H; lia). destruct (snapshot_build_e (g' 0) rows cols k e) as [snap| | |]; cbn [bind]; try reflexivity.
  match goal with |- bind (foldM ?f ?s ?l) _ = bind (foldM ?f' _ _) _ =>
    assert (G : forall l' s', (forall i, In i l' -> i < instants) -> (let '(_, _, i, _, _, _) := s' in i < instants) -> foldM f s' l' = foldM f' s' l') end.
  { induction l' as [|i l' IH]; intros s' Hl Hs; cbn [foldM]; [reflexivity|].
    destruct s' as [[[[[blocks sn] si] logs] cs] cl]. assert (Hi : i < instants) by (apply Hl; left; reflexivity).
    unfold chunk_build_step at 1 3. rewrite (snapshot_build_ext (g i) (g' i)) by (apply H; exact Hi).
    destruct (snapshot_build_e (g' i) rows cols k e) as [ns| | |]; cbn [bind]; try reflexivity.
    rewrite (log_build_ext (g si) (g' si) (g i) (g' i)) by (apply H; assumption).
    destruct (log_build_e (g' si) (g' i) rows cols k e) as [nl| | |]; cbn [bind]; try reflexivity.
    destruct ((length logs =? 254) || (snapshot_size ns <=? log_size nl)).
    - destruct (block_new sn logs) as [b| | |]; cbn [bind]; try reflexivity. apply IH; [intros; apply Hl; right; assumption|exact Hi].
    - cbn [bind]. apply IH; [intros; apply Hl; right; assumption|exact Hs]. }
  rewrite G; [reflexivity| |lia]. intros i Hi. apply in_seq in Hi. lia.
Qed.

(** ** Superchunks *)

(** The same outcome, whatever is in the stores. *)
Definition outcome {X} (x : res (store * X)) : res X := match x with Ok p => Ok (snd p) | Err e => Err e | Panic => Panic | Diverge => Diverge end.

Section Same.
  Context {A : Type}.
  Variables (hash : bytes -> cid) (E : elem A) (k : nat) (lc : nat -> nat).
  (** Values between which buffers with a usable number of fractional bits see no difference. *)
  Variables (eqv : A -> A -> Prop) (usable : nat -> Prop).
  Hypothesis Hfixed : forall b x y, usable b -> eqv x y -> el_fixed E b x = el_fixed E b y.
  Hypothesis Hminmax : forall b l l', usable b -> Forall2 eqv l l' -> el_minmax E b l = el_minmax E b l'.
  Hypothesis Hbits : forall b l l', usable b -> Forall2 eqv l l' -> el_bits E b l = el_bits E b l'.
  Hypothesis Husable : forall b l b', usable b -> el_bits E b l = Ok b' -> usable b'.

  Definition alike (n h w : nat) (g g' : nat -> nat -> nat -> A) : Prop := forall t r c, t < n -> r < h -> c < w -> eqv (g t r c) (g' t r c).

  Lemma instant_alike n h w g g' t : alike n h w g g' -> t < n -> Forall2 eqv (instant_values g t h w) (instant_values g' t h w).
  Proof using Type.
    clear Hfixed Hminmax Hbits Husable E lc usable.
    intros H Ht. unfold instant_values. assert (Hin : forall rc, In rc (list_prod (seq 0 h) (seq 0 w)) -> fst rc < h /\ snd rc < w).
    { intros [r c] Hx. apply in_prod_iff in Hx. rewrite !in_seq in Hx. cbn. lia. }
    induction (list_prod (seq 0 h) (seq 0 w)) as [|rc l IH]; cbn [map]; constructor.
    - destruct (Hin rc (or_introl eq_refl)). apply H; assumption.
    - apply IH. intros x Hx. apply Hin. right. exact Hx.
  Qed.
  Lemma values_alike n h w g g' : alike n h w g g' -> Forall2 eqv (all_values g n h w) (all_values g' n h w).
  Proof using Type.
    clear Hfixed Hminmax Hbits Husable E lc usable.
    intros H. unfold all_values. assert (Hin : forall t, In t (range 0 n) -> t < n) by (intros t Ht; apply in_seq in Ht; lia).
    induction (range 0 n) as [|t l IH]; cbn [flat_map]; [constructor|]. apply Forall2_app.
    - apply instant_alike with (n := n); [exact H|]. apply Hin. left. reflexivity.
    - apply IH. intros x Hx. apply Hin. right. exact Hx.
  Qed.
  Lemma minmax_alike b n h w g g' : usable b -> alike n h w g g' -> minmax_of E b g n h w = minmax_of E b g' n h w.
  Proof.
    intros Hb H. unfold minmax_of. apply mapM_ext_in. intros t Ht. apply in_seq in Ht. apply Hminmax; [exact Hb|].
    apply instant_alike with (n := n); [exact H|lia].
  Qed.
  Lemma fixed_alike b l l' : usable b -> Forall2 eqv l l' -> mapM (el_fixed E b) l = mapM (el_fixed E b) l'.
  Proof. intros Hb F. induction F; cbn [mapM]; [reflexivity|]. rewrite (Hfixed b x y Hb H), IHF. reflexivity. Qed.
  Lemma leaf_alike e g g' n h w b : usable b -> alike n h w g g' -> leaf_build E k e g n h w b = leaf_build E k e g' n h w b.
  Proof.
    intros Hb H. unfold leaf_build. rewrite (fixed_alike b _ _ Hb (values_alike n h w g g' H)).
    destruct (mapM (el_fixed E b) (all_values g' n h w)); cbn [bind]; try reflexivity.
    rewrite (chunk_build_ext _ (fun t r c => raw_of E b (g' t r c))); [reflexivity|].
    intros t Ht r c Hr Hc. unfold raw_of. rewrite (Hfixed b _ (g' t r c) Hb); [reflexivity|]. apply H; assumption.
  Qed.

  Lemma tiles_alike levels n rows cols bits side
    (rec : (nat -> nat -> nat -> A) -> nat -> nat -> nat -> store -> res (store * built)) :
    (forall g g' h w b st st', usable b -> alike n h w g g' -> outcome (rec g h w b st) = outcome (rec g' h w b st')) ->
    forall g g', usable bits -> alike n rows cols g g' -> forall l st st' tiles,
    outcome (foldM (build_tile E k lc rec levels g n rows cols bits side) (st, tiles) l) =
    outcome (foldM (build_tile E k lc rec levels g' n rows cols bits side) (st', tiles) l).
  Proof.
    intros Hrec g g' Hb H. induction l as [|rc l IH]; intros st st' tiles; cbn [foldM]; [reflexivity|].
    unfold build_tile at 1 3. set (top := fst rc * side). set (lft := snd rc * side).
    destruct ((rows <=? top) || (cols <=? lft)) eqn:Eo; [cbn [bind]; apply IH|].
    apply orb_false_iff in Eo. destruct Eo as (E1 & E2). apply Nat.leb_gt in E1, E2.
    set (h := Nat.min (top + side) rows - top). set (w := Nat.min (lft + side) cols - lft).
    assert (HT : alike n h w (tile_of g top lft) (tile_of g' top lft)).
    { intros t r c Ht Hr Hc. unfold tile_of. apply H; [exact Ht|unfold h in Hr; clear -Hr E1; lia|unfold w in Hc; clear -Hc E2; lia]. }
    rewrite (minmax_alike bits n h w _ _ Hb HT).
    destruct (minmax_of E bits (tile_of g' top lft) n h w) as [mm| | |]; cbn [bind]; try reflexivity.
    destruct (forallb (fun p => (fst p =? snd p)%Z) mm); [cbn [bind]; apply IH|].
    destruct (build_subchunk lc levels h w) as [leaf| | |]; cbn [bind]; try reflexivity.
    rewrite (Hbits bits _ _ Hb (values_alike n h w _ _ HT)).
    destruct (el_bits E bits (all_values (tile_of g' top lft) n h w)) as [b| | |] eqn:Eb; cbn [bind]; try reflexivity.
    pose proof (Husable _ _ _ Hb Eb) as Hb'. destruct leaf.
    - rewrite (leaf_alike (lc (Nat.max h w)) _ _ n h w b Hb' HT).
      destruct (leaf_build E k (lc (Nat.max h w)) (tile_of g' top lft) n h w b) as [y| | |]; cbn [bind fst snd]; try reflexivity. apply IH.
    - pose proof (Hrec _ _ h w b st st' Hb' HT) as Q.
      destruct (rec (tile_of g top lft) h w b st) as [[s1 y]| | |], (rec (tile_of g' top lft) h w b st') as [[s2 y']| | |]; cbn [outcome snd bind fst] in *;
        try discriminate Q; try (injection Q as ->); try reflexivity. apply IH.
  Qed.

  Definition saved_alike (s s' : save_state) : Prop :=
    ss_links s = ss_links s' /\ ss_refs s = ss_refs s' /\ ss_sizes s = ss_sizes s' /\ ss_elided s = ss_elided s' /\ ss_snapshots s = ss_snapshots s' /\ ss_logs s = ss_logs s'.
  Lemma save_tiles_alike : forall tiles s s', saved_alike s s' -> saved_alike (fold_left (save_tile hash) tiles s) (fold_left (save_tile hash) tiles s').
  Proof.
    induction tiles as [|x tiles IH]; intros s s' H; cbn [fold_left]; [exact H|]. apply IH. destruct H as (H1 & H2 & H3 & H4 & H5 & H6).
    unfold save_tile, save. destruct (snd x) as [b|].
    - rewrite H1. destruct (link_index _ (ss_links s')); unfold saved_alike; cbn; rewrite ?H1, ?H2, ?H3, ?H4, ?H5, ?H6; repeat split; reflexivity.
    - unfold saved_alike; cbn. rewrite H1, H2, H3, H4, H5, H6. repeat split; reflexivity.
  Qed.

  Theorem build_alike : forall levels n g g' rows cols bits st st', usable bits -> alike n rows cols g g' ->
    outcome (super_build hash E k lc levels g n rows cols bits st) = outcome (super_build hash E k lc levels g' n rows cols bits st').
  Proof.
    induction levels as [|level sub IH]; intros n g g' rows cols bits st st' Hb H; cbn [super_build].
    - destruct (negb _); reflexivity.
    - destruct (negb _); [reflexivity|]. destruct (udiv (k ^ lc (Nat.max rows cols)) (k ^ level)) as [side| | |]; cbn [bind]; try reflexivity.
      match goal with |- outcome (bind (foldM (build_tile _ _ _ ?r _ _ _ _ _ _ _) _ _) _) = _ =>
        pose proof (tiles_alike sub n rows cols bits side r (fun g1 g1' h w b s s' U Q => IH n g1 g1' h w b s s' U Q) g g' Hb H (grid (k ^ level)) st st' []) as Q end.
      destruct (foldM _ (st, []) (grid (k ^ level))) as [[s1 t1]| | |], (foldM _ (st', []) (grid (k ^ level))) as [[s2 t2]| | |]; cbn [outcome snd bind] in *;
        try discriminate Q; try (injection Q as ->); try reflexivity.
      destruct (by_instant n (map fst t2) snd) as [mx| | |]; cbn [bind]; try reflexivity.
      destruct (by_instant n (map fst t2) fst) as [mn| | |]; cbn [bind]; try reflexivity.
      destruct (save_tiles_alike t2 (mkSave s1 [] [] 0 0 0 0) (mkSave s2 [] [] 0 0 0 0)) as (L1 & L2 & L3 & L4 & L5 & L6); [repeat split; reflexivity|].
      unfold save. rewrite L1, L2, L3, L4, L5, L6.
      destruct (dac_of mx) as [dx| | |]; cbn [bind]; try reflexivity. destruct (dac_of mn) as [dn| | |]; cbn [bind]; reflexivity.
  Qed.
End Same.

(** Integers. *)
Lemma int_alike hash enc k lc levels n g g' rows cols bits st st' : (forall t r c, t < n -> r < rows -> c < cols -> g t r c = g' t r c) ->
  outcome (super_build hash (int_elem enc) k lc levels g n rows cols bits st) = outcome (super_build hash (int_elem enc) k lc levels g' n rows cols bits st').
Proof.
  intros H. assert (F : forall l l' : list Z, Forall2 eq l l' -> l = l') by (intros l l' Q; induction Q; congruence).
  apply (build_alike hash (int_elem enc) k lc eq (fun _ => True)); try (intros; exact Logic.I); try exact H.
  - intros b x y _ ->. reflexivity.
  - intros b l l' _ Q. rewrite (F _ _ Q). reflexivity.
  - intros b l l' _ Q. rewrite (F _ _ Q). reflexivity.
Qed.
