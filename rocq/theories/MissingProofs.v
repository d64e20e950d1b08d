(** * Reading when part of the stored objects cannot be loaded. *)
From Verif Require Import Base BaseFacts Spec GeomModel GeomProofs BitmapModel DacModel DacProofs StreamModel StreamProofs
  ChunkModel ChunkProofs ChunkReads NodeModel NodeProofs SuperModel SuperViews SuperProofs ArrayModel ArrayProofs.
Ltac Zify.zify_post_hook ::= Z.div_mod_to_equations.
Arguments Nat.pow : simpl never.

(** ** Lists that lack some elements of another list *)
Inductive sub {A} : list A -> list A -> Prop :=
| sub_nil l : sub [] l
| sub_cons x l l' : sub l l' -> sub (x :: l) (x :: l')
| sub_skip x l l' : sub l l' -> sub l (x :: l').

Lemma sub_refl {A} (l : list A) : sub l l.
Proof. induction l; constructor; assumption. Qed.
Lemma sub_skips {A} (l1 l l' : list A) : sub l l' -> sub l (l1 ++ l').
Proof. intros H. induction l1; [exact H|]. cbn [app]. constructor. assumption. Qed.
Lemma sub_app {A} (l1 l1' l2 l2' : list A) : sub l1 l1' -> sub l2 l2' -> sub (l1 ++ l2) (l1' ++ l2').
Proof.
  intros H1 H2. induction H1 as [l|x l l' H IH|x l l' H IH]; cbn [app].
  - apply sub_skips. exact H2.
  - constructor. exact IH.
  - constructor. exact IH.
Qed.
Lemma sub_map {A B} (f : A -> B) l l' : sub l l' -> sub (map f l) (map f l').
Proof. induction 1; cbn [map]; constructor; assumption. Qed.
Lemma sub_in {A} (l l' : list A) x : sub l l' -> In x l -> In x l'.
Proof.
  induction 1 as [l|y l l' H IH|y l l' H IH]; cbn [In]; [intros []| |auto]. intros [->|Hx]; auto.
Qed.
Lemma sub_nodup {A} (l l' : list A) : sub l l' -> NoDup l' -> NoDup l.
Proof.
  induction 1 as [l|y l l' H IH|y l l' H IH]; intros HN; [constructor| |].
  - apply NoDup_cons_iff in HN. destruct HN as [Hn HN]. constructor; [|auto]. intros Hin. apply Hn. eapply sub_in; eassumption.
  - apply NoDup_cons_iff in HN. destruct HN as [Hn HN]. auto.
Qed.

(** ** More objects: the same answers, or more of them *)
Section Mono.
  Variables st st' : store.
  Hypothesis HI : incl st st'.
  Hypothesis HF : functional st'.

  Lemma mm_get_incl : forall fuel m t r c b x, mm_get st fuel m t r c b = Ok x -> mm_get st' fuel m t r c b = Ok x.
  Proof using HI HF.
    induction fuel as [|fuel IH]; [discriminate|]. intros m t r c b x H. destruct m as [s|ch|s local]; cbn [mm_get] in *. all: cycle 1.
    - exact H.
    - repeat (apply bind_inv in H; destruct H as (? & -> & H); cbn [bind]).
      match goal with |- match ?y with _ => _ end = _ => destruct y as [|i|i] end.
      + exact H.
      + apply bind_inv in H. destruct H as (m' & -> & H). cbn [bind]. apply IH. exact H.
      + apply bind_inv in H. destruct H as (m' & Em & H). rewrite (super_external_incl st st' _ _ _ HI HF Em). cbn [bind]. apply IH. exact H.
    - apply bind_inv in H. destruct H as (y & -> & H). cbn [bind]. apply bind_inv in H. destruct H as (c' & -> & H). cbn [bind].
      apply bind_inv in H. destruct H as (m' & Em & H). rewrite (get_mm_incl st st' _ _ HI HF Em). cbn [bind]. apply IH. exact H.
  Qed.

  Lemma flat_mapM_mono {A B} (f f' : A -> res (list B)) l : (forall x y, f x = Ok y -> f' x = Ok y) ->
    forall out, flat_mapM f l = Ok out -> flat_mapM f' l = Ok out.
  Proof using.
    clear. intros Hf. induction l as [|a l IH]; intros out H; [exact H|]. cbn [flat_mapM] in *.
    apply bind_inv in H. destruct H as (y & Ey & H). rewrite (Hf _ _ Ey). cbn [bind].
    apply bind_inv in H. destruct H as (ys & Eys & H). rewrite (IH _ Eys). exact H.
  Qed.

  Lemma mm_fill_cell_incl : forall fuel m s e r c b x, mm_fill_cell st fuel m s e r c b = Ok x -> mm_fill_cell st' fuel m s e r c b = Ok x.
  Proof using HI HF.
    induction fuel as [|fuel IH]; [discriminate|]. intros m s0 e r c b x H. destruct m as [s|ch|s local]; cbn [mm_fill_cell] in *. all: cycle 1.
    - exact H.
    - do 5 (apply bind_inv in H; destruct H as (? & -> & H); cbn [bind]).
      match goal with |- match ?y with _ => _ end = _ => destruct y as [|i|i] end.
      + exact H.
      + apply bind_inv in H. destruct H as (m' & -> & H). cbn [bind]. apply IH. exact H.
      + apply bind_inv in H. destruct H as (m' & Em & H). rewrite (super_external_incl st st' _ _ _ HI HF Em). cbn [bind]. apply IH. exact H.
    - apply bind_inv in H. destruct H as (n & -> & H). cbn [bind]. apply bind_inv in H. destruct H as (ps & -> & H). cbn [bind].
      eapply flat_mapM_mono; [|exact H]. intros [[[sp i] len] off] y Hy. cbn beta iota in *.
      apply bind_inv in Hy. destruct Hy as (c' & -> & Hy). cbn [bind].
      apply bind_inv in Hy. destruct Hy as (m' & Em & Hy). rewrite (get_mm_incl st st' _ _ HI HF Em). cbn [bind].
      apply bind_inv in Hy. destruct Hy as (l' & El & Hy). rewrite (IH _ _ _ _ _ _ _ El). exact Hy.
  Qed.

  (** Windows: with more objects more calls are made. *)
  Definition below {A} (x x' : res (list A)) : Prop :=
    match x with
    | Ok l => match x' with Ok l' => sub l l' | Err _ => False | _ => True end
    | _ => True
    end.
  Lemma below_refl {A} (x : res (list A)) : below x x.
  Proof using. clear. destruct x; cbn; auto. apply sub_refl. Qed.
  Lemma below_bind {A B} (x : res A) (f f' : A -> res (list B)) : (forall a, below (f a) (f' a)) -> below (bind x f) (bind x f').
  Proof using. clear. intros H. destruct x; cbn; auto. Qed.
  Lemma below_map {A B} (h : list A -> list B) x x' : (forall l l', sub l l' -> sub (h l) (h l')) -> below x x' ->
    below (y <- x ;; Ok (h y)) (y <- x' ;; Ok (h y)).
  Proof using. clear. intros Hh. destruct x, x'; cbn; auto. Qed.
  Lemma below_flat_mapM {A B} (f f' : A -> res (list B)) l : (forall x, below (f x) (f' x)) -> below (flat_mapM f l) (flat_mapM f' l).
  Proof using.
    clear. intros Hf. induction l as [|a l IH]; cbn [flat_mapM]; [cbn; constructor|].
    specialize (Hf a). destruct (f a) as [y|e| |]; cbn [bind below]; auto.
    destruct (flat_mapM f l) as [ys|e| |]; cbn [bind below]; auto.
    destruct (f' a) as [y'|e'| |]; cbn [bind]; auto. cbn in Hf.
    destruct (flat_mapM f' l) as [ys'|e'| |]; cbn [bind]; auto. cbn in IH. apply sub_app; assumption.
  Qed.
  Lemma below_swallow {A} (x x' : res (list A)) : below x x' -> below (swallow x) (swallow x').
  Proof using. clear. intros H. destruct x, x'; cbn in *; auto; try constructor; destruct H. Qed.
  (** Loading more. *)
  Lemma below_load {A} (x x' : res mmstruct) (f f' : mmstruct -> res (list A)) : (forall m, x = Ok m -> x' = Ok m) ->
    (forall m, below (f m) (f' m)) -> below (bind x f) (bind x' f').
  Proof using. clear. intros Hx Hf. destruct x as [m|e| |]; cbn [bind]; try exact I. rewrite (Hx m eq_refl). cbn [bind]. auto. Qed.

  Lemma mm_fill_window_below : forall fuel m b bits, below (mm_fill_window st fuel m b bits) (mm_fill_window st' fuel m b bits).
  Proof using HI HF.
    induction fuel as [|fuel IH]; [intros; exact I|]. intros m b bits. destruct m as [s|ch|s local]; cbn [mm_fill_window]. all: cycle 1.
    - apply below_refl.
    - apply below_bind. intros n. apply below_bind. intros subs. apply below_flat_mapM. intros sw. cbv zeta.
      apply below_map; [intros; apply sub_map; assumption|]. apply below_swallow. apply below_bind. intros [|i|i].
      + apply below_refl.
      + apply below_bind. intros m'. apply IH.
      + apply below_load; [intros; apply (super_external_incl st st'); assumption|]. intros m'. apply IH.
    - apply below_bind. intros n. apply below_bind. intros ps. apply below_flat_mapM. intros [[[sp i] len] off].
      apply below_bind. intros c. apply below_load; [intros m'; apply get_mm_incl; assumption|]. intros m'.
      apply below_map; [intros; apply sub_map; assumption|]. apply IH.
  Qed.

  (** Searches: what is found is also found with more objects; without errors nothing is missed. *)
  Definition found_in (out out' : list item) : Prop :=
    (forall x, In (inr x) out -> In (inr x) out') /\ ((forall e, ~ In (inl e) out) -> out = out').
  Definition sbelow (x x' : res (list item)) : Prop :=
    match x with
    | Ok l => match x' with Ok l' => found_in l l' | Err _ => False | _ => True end
    | _ => True
    end.
  Lemma found_refl l : found_in l l.
  Proof using. clear. split; auto. Qed.
  Lemma sbelow_refl x : sbelow x x.
  Proof using. clear. destruct x; cbn; auto. apply found_refl. Qed.
  Lemma sbelow_bind {A} (x : res A) f f' : (forall a, sbelow (f a) (f' a)) -> sbelow (bind x f) (bind x f').
  Proof using. clear. intros H. destruct x; cbn; auto. Qed.
  Lemma sbelow_load (x x' : res mmstruct) f f' : (forall m, x = Ok m -> x' = Ok m) ->
    (forall m, sbelow (f m) (f' m)) -> sbelow (bind x f) (bind x' f').
  Proof using. clear. intros Hx Hf. destruct x as [m|e| |]; cbn [bind]; try exact I. rewrite (Hx m eq_refl). cbn [bind]. auto. Qed.
  Lemma sbelow_shift dt dr dc x x' : sbelow x x' ->
    sbelow (y <- x ;; Ok (map (shift_item dt dr dc) y)) (y <- x' ;; Ok (map (shift_item dt dr dc) y)).
  Proof using.
    clear. destruct x as [l| | |], x' as [l'| | |]; cbn; auto. intros [H1 H2]. split.
    - intros p Hp. apply in_map_iff in Hp. destruct Hp as ([e|q] & E & Hq); [discriminate|].
      rewrite <- E. apply in_map. auto.
    - intros Hn. f_equal. apply H2. intros e He. apply (Hn e). apply (in_map (shift_item dt dr dc)) in He. exact He.
  Qed.
  Lemma sbelow_flat_mapM {A} (f f' : A -> res (list item)) l : (forall x, sbelow (f x) (f' x)) -> sbelow (flat_mapM f l) (flat_mapM f' l).
  Proof using.
    clear. intros Hf. induction l as [|a l IH]; cbn [flat_mapM]; [apply found_refl|].
    specialize (Hf a). destruct (f a) as [y|e| |]; cbn [bind sbelow]; auto.
    destruct (flat_mapM f l) as [ys|e| |]; cbn [bind sbelow]; auto.
    destruct (f' a) as [y'|e'| |]; cbn [bind]; auto. cbn in Hf.
    destruct (flat_mapM f' l) as [ys'|e'| |]; cbn [bind]; auto. cbn in IH. destruct Hf as [A1 A2], IH as [B1 B2]. split.
    - intros x Hx. apply in_app_iff in Hx. apply in_or_app. destruct Hx; auto.
    - intros Hn. rewrite A2, B2; [reflexivity| |]; intros e He; apply (Hn e); apply in_or_app; auto.
  Qed.
  Lemma sbelow_or_error x x' : sbelow x x' -> sbelow (or_error x) (or_error x').
  Proof using.
    clear. intros H. destruct x as [l|e| |]; cbn [or_error]; try exact I.
    - destruct x' as [l'|e'| |]; cbn in *; auto. destruct H.
    - assert (F : forall l', found_in [inl e] l').
      { intros l'. split; [intros p [E|[]]; discriminate|]. intros Hn. exfalso. apply (Hn e). left. reflexivity. }
      destruct x'; cbn; auto.
  Qed.

  Lemma mm_search_sbelow : forall fuel m b lo up, sbelow (mm_search st fuel m b lo up) (mm_search st' fuel m b lo up).
  Proof using HI HF.
    induction fuel as [|fuel IH]; [intros; exact I|]. intros m b lo up. destruct m as [s|ch|s local]; cbn [mm_search]. all: cycle 1.
    - apply sbelow_refl.
    - destruct (rearrangeZ lo up) as [lo' up']. apply sbelow_bind. intros subs. apply sbelow_flat_mapM. intros sw. cbv zeta.
      apply sbelow_bind. intros [|]; [|apply sbelow_refl]. apply sbelow_or_error. apply sbelow_bind. intros [|i|i].
      + apply sbelow_refl.
      + apply sbelow_bind. intros m'. apply sbelow_shift. apply IH.
      + apply sbelow_load; [intros; apply (super_external_incl st st'); assumption|]. intros m'. apply sbelow_shift. apply IH.
    - apply sbelow_bind. intros n. apply sbelow_bind. intros ps. apply sbelow_flat_mapM. intros [[[sp i] len] off].
      apply sbelow_bind. intros c. apply sbelow_or_error. apply sbelow_load; [intros m'; apply get_mm_incl; assumption|]. intros m'.
      apply sbelow_shift. apply IH.
  Qed.
End Mono.

(** ** Reads fail only for want of an object

    The other direction: where all objects make the read succeed, some of them
    give the same, or an object is not found. *)
Section Held.
  Variables st st' : store.
  Hypothesis HI : incl st st'.
  Hypothesis HF : functional st'.

  Definition held {A} (x x' : res A) : Prop := forall v, x' = Ok v -> x = Ok v \/ x = Err ENotFound.

  Lemma held_refl {A} (x : res A) : held x x.
  Proof using. clear. intros v. auto. Qed.
  Lemma held_bind {A B} (x x' : res A) (f f' : A -> res B) : held x x' -> (forall a, held (f a) (f' a)) -> held (bind x f) (bind x' f').
  Proof using.
    clear. intros Hx Hf v H. apply bind_inv in H. destruct H as (a & Ea & H). destruct (Hx a Ea) as [-> | ->]; [|right; reflexivity].
    exact (Hf a v H).
  Qed.
  Lemma held_flat_mapM {A B} (f f' : A -> res (list B)) l : (forall x, held (f x) (f' x)) -> held (flat_mapM f l) (flat_mapM f' l).
  Proof using.
    clear. intros Hf. induction l as [|a l IH]; cbn [flat_mapM]; [apply held_refl|].
    apply held_bind; [apply Hf|]. intros y. apply held_bind; [exact IH|]. intros. apply held_refl.
  Qed.

  Lemma held_retrieve c : held (retrieve st c) (retrieve st' c).
  Proof using HI HF.
    intros n H. unfold retrieve in *. destruct (store_get st c) as [b|] eqn:E; [|right; reflexivity].
    apply store_get_some in E. rewrite (store_get_in st' c b HF (HI _ E)) in H. auto.
  Qed.
  Lemma held_mm c : held (get_mm st c) (get_mm st' c).
  Proof using HI HF. unfold get_mm. apply held_bind; [apply held_retrieve|]. intros. apply held_refl. Qed.
  Lemma held_external s i : held (super_external st s i) (super_external st' s i).
  Proof using HI HF.
    unfold super_external, get_links. apply held_bind.
    - apply held_bind; [apply held_retrieve|]. intros. apply held_refl.
    - intros l. apply held_bind; [apply held_refl|]. intros c. apply held_mm.
  Qed.

  Lemma held_get : forall fuel m t r c b, held (mm_get st fuel m t r c b) (mm_get st' fuel m t r c b).
  Proof using HI HF.
    induction fuel as [|fuel IH]; [intros; intros v H; discriminate|]. intros m t r c b. destruct m as [s|ch|s local]; cbn [mm_get]. all: cycle 1.
    - apply held_refl.
    - do 4 (apply held_bind; [apply held_refl|]; intros ?). apply held_bind; [apply held_refl|]. intros [|i|i].
      + apply held_refl.
      + apply held_bind; [apply held_refl|]. intros m'. apply IH.
      + apply held_bind; [apply held_external|]. intros m'. apply IH.
    - apply held_bind; [apply held_refl|]. intros x. apply held_bind; [apply held_refl|]. intros ci.
      apply held_bind; [apply held_mm|]. intros m'. apply IH.
  Qed.
  Lemma held_cell : forall fuel m s e r c b, held (mm_fill_cell st fuel m s e r c b) (mm_fill_cell st' fuel m s e r c b).
  Proof using HI HF.
    induction fuel as [|fuel IH]; [intros; intros v H; discriminate|]. intros m s0 e r c b. destruct m as [s|ch|s local]; cbn [mm_fill_cell]. all: cycle 1.
    - apply held_refl.
    - do 4 (apply held_bind; [apply held_refl|]; intros ?). apply held_bind; [apply held_refl|]. intros [|i|i].
      + apply held_refl.
      + apply held_bind; [apply held_refl|]. intros m'. apply IH.
      + apply held_bind; [apply held_external|]. intros m'. apply IH.
    - apply held_bind; [apply held_refl|]. intros x. apply held_bind; [apply held_refl|]. intros ps.
      apply held_flat_mapM. intros [[[sp i] len] off]. apply held_bind; [apply held_refl|]. intros ci.
      apply held_bind; [apply held_mm|]. intros m'. apply held_bind; [apply IH|]. intros. apply held_refl.
  Qed.

  (** Searches: what cannot be loaded becomes an error among what is found. *)
  Definition helds (x x' : res (list item)) : Prop := forall l', x' = Ok l' -> (forall e, ~ In (inl e) l') ->
    exists l, x = Ok l /\ found_in l l' /\ forall e, In (inl e) l -> e = ENotFound.
  Lemma helds_refl x : helds x x.
  Proof using. clear. intros l' -> Hn. exists l'. split; [reflexivity|]. split; [apply found_refl|]. intros e He. destruct (Hn e He). Qed.
  Lemma helds_bind {A} (x : res A) f f' : (forall a, helds (f a) (f' a)) -> helds (bind x f) (bind x f').
  Proof using. clear. intros H. destruct x as [a|e| |]; cbn [bind]; auto using helds_refl. Qed.
  Lemma helds_load {A} (x x' : res A) f f' : held x x' -> (forall a, helds (f a) (f' a)) ->
    helds (or_error (bind x f)) (or_error (bind x' f')).
  Proof using.
    clear. intros Hx Hf l' H Hn.
    destruct (bind x' f') as [l0|e| |] eqn:E; cbn [or_error] in H; try discriminate; injection H as <-.
    2:{ exfalso. apply (Hn e). left. reflexivity. }
    apply bind_inv in E. destruct E as (a & Ea & E). destruct (Hx a Ea) as [-> | ->]; cbn [bind or_error].
    - destruct (Hf a l0 E Hn) as (l & -> & H). exists l. split; [reflexivity|exact H].
    - exists [inl ENotFound]. split; [reflexivity|]. split.
      + split; [intros p [X|[]]; discriminate|]. intros X. exfalso. apply (X ENotFound). left. reflexivity.
      + intros e [X|[]]. congruence.
  Qed.
  Lemma helds_shift dt dr dc x x' : helds x x' ->
    helds (y <- x ;; Ok (map (shift_item dt dr dc) y)) (y <- x' ;; Ok (map (shift_item dt dr dc) y)).
  Proof using.
    clear. intros Hx l' H Hn. apply bind_inv in H. destruct H as (l0 & E & H). injection H as <-.
    destruct (Hx l0 E) as (l & -> & [F1 F2] & HE).
    { intros e He. apply (Hn e). apply (in_map (shift_item dt dr dc)) in He. exact He. }
    cbn [bind]. eexists. split; [reflexivity|]. split; [split|].
    - intros p Hp. apply in_map_iff in Hp. destruct Hp as ([e|q] & E1 & Hq); [discriminate|]. rewrite <- E1. apply in_map. auto.
    - intros Hm. f_equal. apply F2. intros e He. apply (Hm e). apply (in_map (shift_item dt dr dc)) in He. exact He.
    - intros e He. apply in_map_iff in He. destruct He as ([e'|q] & E1 & Hq); [|destruct q as [[? ?] ?]; discriminate].
      injection E1 as <-. auto.
  Qed.
  Lemma helds_flat_mapM {A} (f f' : A -> res (list item)) l : (forall x, helds (f x) (f' x)) -> helds (flat_mapM f l) (flat_mapM f' l).
  Proof using.
    clear. intros Hf. induction l as [|a l IH]; cbn [flat_mapM]; [apply helds_refl|].
    intros l' H Hn. apply bind_inv in H. destruct H as (y & Ey & H). apply bind_inv in H. destruct H as (ys & Eys & H). injection H as <-.
    destruct (Hf a y Ey) as (z & -> & [A1 A2] & AE); [intros e He; apply (Hn e), in_or_app; auto|].
    destruct (IH ys Eys) as (zs & -> & [B1 B2] & BE); [intros e He; apply (Hn e), in_or_app; auto|].
    cbn [bind]. eexists. split; [reflexivity|]. split; [split|].
    - intros x Hx. apply in_app_iff in Hx. apply in_or_app. destruct Hx; auto.
    - intros Hm. rewrite A2, B2; [reflexivity| |]; intros e He; apply (Hm e); apply in_or_app; auto.
    - intros e He. apply in_app_iff in He. destruct He; auto.
  Qed.

  Lemma held_search : forall fuel m b lo up, helds (mm_search st fuel m b lo up) (mm_search st' fuel m b lo up).
  Proof using HI HF.
    induction fuel as [|fuel IH]; [intros; intros v H; discriminate|]. intros m b lo up. destruct m as [s|ch|s local]; cbn [mm_search]. all: cycle 1.
    - apply helds_refl.
    - destruct (rearrangeZ lo up) as [lo' up']. apply helds_bind. intros subs. apply helds_flat_mapM. intros sw. cbv zeta.
      apply helds_bind. intros [|]; [|apply helds_refl]. destruct (nth_res (su_refs s) (sw_index sw)) as [[|i|i]|e| |]; cbn [bind or_error].
      + apply helds_refl.
      + apply helds_load; [apply held_refl|]. intros m'. apply helds_shift. apply IH.
      + apply helds_load; [apply held_external|]. intros m'. apply helds_shift. apply IH.
      + apply helds_refl.
      + apply helds_refl.
      + apply helds_refl.
    - apply helds_bind. intros n. apply helds_bind. intros ps. apply helds_flat_mapM. intros [[[sp i] len] off].
      apply helds_bind. intros c. apply helds_load; [apply held_mm|]. intros m'. apply helds_shift. apply IH.
  Qed.
End Held.

(** ** What the array interface gives when objects may be missing *)

(** [reads_if_there R st fuel m instants rows cols g]: reads of the array, some
    of whose objects may be missing. [get] and [cell] give the cells of [g] or
    report that an object is not found. So does a window, but it may also hold
    the initial value, exactly at the cells that [get] does not find. *)
Record reads_if_there {A} (R : reader A) (st : store) (fuel : nat) (m : mmstruct) (instants rows cols : nat)
  (g : nat -> nat -> nat -> A) : Prop :=
  { rt_get : forall t r c, t < instants -> r < rows -> c < cols ->
      arr_get R st fuel m t r c = Ok (g t r c) \/ arr_get R st fuel m t r c = Err ENotFound;
    rt_cell : forall start end_ r c, start <= end_ -> 0 < end_ <= instants -> r < rows -> c < cols ->
      (exists a, arr_cell R st fuel m start end_ r c = Ok a /\
         a1_len a = end_ - start /\ forall i, i < end_ - start -> a1_at a i = g (start + i) r c) \/
      arr_cell R st fuel m start end_ r c = Err ENotFound;
    rt_window : forall order start end_ top bottom left right, (forall l, Permutation l (order l)) ->
      start <= end_ -> 0 < end_ <= instants -> top < bottom <= rows -> left < right <= cols ->
      (exists a, arr_window R st fuel order m (cube_new start end_ top bottom left right) = Ok a /\
         a3_shape a = (end_ - start, bottom - top, right - left) /\
         forall t r c, t < end_ - start -> r < bottom - top -> c < right - left ->
           a3_at a t r c = match arr_get R st fuel m (start + t) (top + r) (left + c) with
                           | Ok _ => g (start + t) (top + r) (left + c)
                           | _ => rd_zero R
                           end) \/
      arr_window R st fuel order m (cube_new start end_ top bottom left right) = Err ENotFound }.

(** [searches_if_there]: a search ends; what it finds is there; the errors it
    reports are objects that are not found; if it reports none, it finds
    everything; and in any case it finds every match that can be read on its
    own. *)
Definition searches_if_there (st : store) (fuel : nat) (m : mmstruct) (instants rows cols : nat)
  (g : nat -> nat -> nat -> Z) : Prop :=
  forall start end_ top bottom left right lower upper,
    start <= end_ -> 0 < end_ <= instants -> top < bottom <= rows -> left < right <= cols ->
    exists out, arr_search st fuel m (cube_new start end_ top bottom left right) lower upper = Ok out /\
    let there '(t, r, c) := start <= t < end_ /\ top <= r < bottom /\ left <= c < right /\
        (Z.min lower upper <= g t r c <= Z.max lower upper)%Z in
    (forall x, In (inr x) out -> there x) /\
    (forall e, In (inl e) out -> e = ENotFound) /\
    ((forall e, ~ In (inl e) out) -> forall x, there x -> In (inr x) out) /\
    (forall A (R : reader A) t r c v, there (t, r, c) -> arr_get R st fuel m t r c = Ok v -> In (inr (t, r, c)) out).

Theorem view_reads_if_there {A} (R : reader A) st st' d fuel m instants rows cols f (g : nat -> nat -> nat -> A) :
  incl st st' -> functional st' ->
  d <= fuel -> view st' d m instants rows cols f -> mm_encoding m = rd_enc R ->
  (forall t r c, t < instants -> r < rows -> c < cols -> rd_set R (snd (f t r c)) (fst (f t r c)) = g t r c) ->
  reads_if_there R st fuel m instants rows cols g.
Proof.
  intros HI HF Hd V He Hg. pose proof (view_reads_as R st' d fuel m instants rows cols f g Hd V He Hg) as RA. constructor.
  - intros t r c Ht Hr Hc. pose proof (ra_get _ _ _ _ _ _ _ _ RA t r c Ht Hr Hc) as E. unfold arr_get in *.
    apply bind_inv in E. destruct E as (u & Eu & E). rewrite Eu. cbn [bind] in *.
    apply bind_inv in E. destruct E as (x & Ex & E). destruct (held_get st st' HI HF _ _ _ _ _ _ _ Ex) as [-> | ->]; cbn [bind]; auto.
  - intros start end_ r c Hse H0 Hr Hc. destruct (ra_cell _ _ _ _ _ _ _ _ RA start end_ r c Hse H0 Hr Hc) as (a & E & EL & EV).
    unfold arr_cell in *.
    apply bind_inv in E. destruct E as (last & Eu & E). rewrite Eu. cbn [bind].
    apply bind_inv in E. destruct E as (u & Eu' & E). rewrite Eu'. cbn [bind].
    apply bind_inv in E. destruct E as (n & En & E). rewrite En. cbn [bind].
    apply bind_inv in E. destruct E as (x & Ex & E).
    destruct (held_cell st st' HI HF _ _ _ _ _ _ _ _ Ex) as [-> | ->]; cbn [bind]; [|right; reflexivity].
    left. exists a. auto.
  - intros order start end_ top bottom left right Ho Hse H0 Hr Hc.
    assert (Hw : window_in top bottom left right rows cols) by (unfold window_in; lia).
    destruct (ra_window _ _ _ _ _ _ _ _ RA order start end_ top bottom left right Ho Hse H0 Hr Hc) as (a' & E & _).
    unfold arr_window in *. rewrite cube_new_le in * by lia. cbn [c_start c_end c_top c_bottom c_left c_right] in *.
    apply bind_inv in E. destruct E as (u & Eu & _). rewrite Eu. cbn [bind]. clear a' u Eu. rewrite !usub_ok by lia. cbn [bind].
    destruct (v_fails _ _ _ _ _ _ _ V st fuel start end_ top bottom left right HF HI Hd Hse (proj2 H0) Hw) as [(l & El)|El];
      rewrite cube_new_le in El by lia; rewrite El; cbn [bind]; [left|right; reflexivity].
    rewrite <- cube_new_le in El by lia. pose proof (v_part _ _ _ _ _ _ _ V st fuel start end_ top bottom left right l HF HI Hd Hse (proj2 H0) Hw El) as K.
    rewrite cube_new_le in El by lia.
    destruct (v_window _ _ _ _ _ _ _ V fuel start end_ top bottom left right Hd Hse (proj2 H0) Hw) as (l' & El' & P).
    rewrite cube_new_le in El' by lia.
    pose proof (mm_fill_window_below st st' HI HF fuel m (mkCube start end_ top bottom left right) (mm_fbits m)) as B.
    rewrite El in B. cbn [below] in B. rewrite El' in B.
    assert (Hin : forall t r c v, In (t, r, c, v) (order l) <-> start + t < end_ /\ top + r < bottom /\ left + c < right /\
      mm_get st fuel m (start + t) (top + r) (left + c) (mm_fbits m) = Ok v).
    { intros t r c v. rewrite <- K. split; apply Permutation_in; [apply Permutation_sym|]; apply Ho. }
    assert (HN : NoDup (map fst (order l))).
    { apply (Permutation_NoDup (Permutation_map fst (Ho l))). apply (sub_nodup _ _ (sub_map fst _ _ B)).
      apply (Permutation_NoDup (Permutation_sym (Permutation_map fst P))). apply window3_nodup. }
    destruct (run3_spec R (order l) (mkArray3 (end_ - start, bottom - top, right - left) (fun _ _ _ => rd_zero R))
      (end_ - start) (bottom - top) (right - left) eq_refl HN) as (a & E & ES & EV & EO).
    { intros t r c v Hv. apply Hin in Hv. destruct Hv as (X1 & X2 & X3 & _). clear -X1 X2 X3. lia. }
    exists a. split; [exact E|]. split; [exact ES|]. intros t r c Ht Hr' Hc'.
    assert (Ht' : start + t < instants) by (clear -Ht H0; lia). assert (Hrr : top + r < rows) by (clear -Hr' Hr; lia).
    assert (Hcc : left + c < cols) by (clear -Hc' Hc; lia).
    pose proof (ra_get _ _ _ _ _ _ _ _ RA (start + t) (top + r) (left + c) Ht' Hrr Hcc) as EG. unfold arr_get in *.
    apply bind_inv in EG. destruct EG as (u & Eu & EG). rewrite Eu. cbn [bind] in *. apply bind_inv in EG. destruct EG as ([v b] & Ev & EG).
    destruct (held_get st st' HI HF _ _ _ _ _ _ _ Ev) as [Ev' | Ev']; rewrite Ev'; cbn [bind].
    + rewrite (EV t r c v b); [cbn [fst snd] in EG; congruence|]. apply Hin. rewrite Ev'. clear -Ht Hr' Hc'. repeat split; lia.
    + rewrite EO; [reflexivity|]. intros Hx. apply in_map_iff in Hx. destruct Hx as ([[[t' r'] c'] w] & E1 & Hx). cbn [fst] in E1.
      injection E1 as -> -> ->. apply Hin in Hx. destruct Hx as (_ & _ & _ & Hx). rewrite Ev' in Hx. discriminate.
Qed.

Theorem sview_searches_if_there st st' d fuel m instants rows cols g :
  incl st st' -> functional st' ->
  d <= fuel -> mm_shape m = Ok (instants, rows, cols) -> sview st' d m instants rows cols g ->
  searches_if_there st fuel m instants rows cols g.
Proof.
  intros HI HF Hd V1 V start end_ top bottom left right lower upper H1 H2 H3 H4. cbv zeta.
  destruct (sview_searches_as st' d fuel m instants rows cols g Hd V1 V start end_ top bottom left right lower upper H1 H2 H3 H4)
    as (out' & E & _ & EI). unfold arr_search in *.
  apply bind_inv in E. destruct E as (u & Eu & E). rewrite Eu. cbn [bind] in *.
  destruct (held_search st st' HI HF fuel m (cube_new start end_ top bottom left right) lower upper _ E) as (out & Eo & [B1 B2] & BE).
  { intros e He. apply in_map_iff in He. destruct He as (x & X & _). discriminate. }
  exists out. split; [exact Eo|]. split; [|split; [exact BE|split]].
  - intros [[t r] c] Hx. apply EI. apply B1 in Hx. apply in_map_iff in Hx. destruct Hx as (y & Ey & Hy). injection Ey as ->. exact Hy.
  - intros Hn [[t r] c] Hx. apply EI in Hx. rewrite (B2 Hn). apply in_map. exact Hx.
  - intros A R t r c v (X1 & X2 & X3 & X4) Eg.
    destruct (sv_part _ _ _ _ _ _ _ V st fuel start end_ top bottom left right lower upper HF HI Hd H1 (proj2 H2)) as (out2 & E2 & P);
      [unfold window_in; clear -H3 H4; lia|].
    rewrite E2 in Eo. injection Eo as ->. unfold arr_get in Eg. apply bind_inv in Eg. destruct Eg as (u' & _ & Eg).
    apply bind_inv in Eg. destruct Eg as (w & Eg & _). apply (P t r c w X1 X2 X3 Eg).
    unfold in_bounds. apply andb_true_intro. split; apply Z.leb_le; apply X4.
Qed.
