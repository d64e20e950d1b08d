(** * Properties C43 and C44: indexing in Python. *)
From Coq Require Import ZArith.
From Verif Require Import Base BaseFacts Spec GeomModel GeomProofs BitmapModel DacModel SnapshotModel StreamModel StreamProofs ChunkModel NodeModel NodeProofs SuperModel SuperInt ArrayModel ArrayProofs
  PropertiesSuper RangeModel PyModel.
From Verif Require PropertiesNode.
Import PropertiesNode.
Ltac Zify.zify_post_hook ::= Z.div_mod_to_equations.
Arguments Nat.pow : simpl never.
Open Scope nat_scope.

(** Two numpy arrays are the same: same shape, same elements. *)
Definition same {A} (a b : nd A) : Prop :=
  nd_shape a = nd_shape b /\ forall p, Forall2 lt p (nd_shape a) -> nd_at a p = nd_at b p.

(** The index is an integer, or a slice in steps of 1 that does not run backwards. *)
Definition or_default (z : option Z) (default : Z) : Z := match z with Some z => z | None => default end.
Definition forward (n : nat) (i : index) : Prop :=
  match i with
  | PInt _ => True
  | PSlice start stop step => or_default step 1 = 1%Z /\ (or_default start 0 <= or_default stop (Z.of_nat n))%Z
  end.
(** The index is within an axis of [n] elements, and selects something. *)
Definition inside (n : nat) (i : index) : Prop :=
  match i with
  | PInt z => (0 <= z < Z.of_nat n)%Z
  | PSlice start stop step =>
      or_default step 1 = 1%Z /\ (0 <= or_default start 0 < or_default stop (Z.of_nat n))%Z /\ (or_default stop (Z.of_nat n) <= Z.of_nat n)%Z
  end.
(** [P] holds of each index and its axis. *)
Fixpoint each (P : nat -> index -> Prop) (shape : list nat) (idx : list index) : Prop :=
  match shape, idx with
  | n :: shape', i :: idx' => P n i /\ each P shape' idx'
  | _, _ => True
  end.

(** ** Proofs *)
Lemma np_full n s : s = None \/ s = Some 0%Z -> np_axis n (PSlice s None None) = Some (Many 0 1 n).
Proof.
  intros [->| ->]; unfold np_axis, np_bound; cbn [Z.eqb Z.ltb Z.compare].
  - destruct (0 <? Z.of_nat n)%Z eqn:E; f_equal; f_equal; lia.
  - rewrite Z.min_l by lia. destruct (0 <? Z.of_nat n)%Z eqn:E; f_equal; f_equal; lia.
Qed.
Lemma as_usize_inv z n : as_usize z = Value n -> z = Some (Z.of_nat n).
Proof.
  unfold as_usize. destruct z as [z|]; [|discriminate]. destruct ((0 <=? z) && (z <? 2 ^ 64))%Z eqn:E; [|discriminate].
  intros H. injection H as <-. f_equal. lia.
Qed.
Lemma as_usize_ok n : (Z.of_nat n < 2 ^ 64)%Z -> as_usize (Some (Z.of_nat n)) = Value n.
Proof.
  intros H. unfold as_usize. replace ((0 <=? Z.of_nat n) && (Z.of_nat n <? 2 ^ 64))%Z with true by lia. rewrite Nat2Z.id. reflexivity.
Qed.
Lemma obind_inv {A B} (x : outcome A) (f : A -> outcome B) y : obind x f = Value y -> exists a, x = Value a /\ f a = Value y.
Proof. destruct x; cbn [obind]; try discriminate. eauto. Qed.
Lemma of_res_inv {A} (x : res A) y : of_res x = Value y -> x = Ok y.
Proof. destruct x; cbn [of_res]; congruence. Qed.

Definition axis_of (i : index) (lo hi : nat) : axis := if is_int i then One lo else Many (Z.of_nat lo) 1 (hi - lo).
Lemma resolve n i lo hi : forward n i ->
  start_of (as_slice (fix_index n i)) = Some (Z.of_nat lo) -> stop_of (as_slice (fix_index n i)) = Some (Z.of_nat hi) -> hi <= n ->
  lo <= hi /\ np_axis n i = Some (axis_of i lo hi) /\ (is_int i = true -> hi = lo + 1) /\ is_int (fix_index n i) = is_int i.
Proof.
  intros HF HS HE Hn. unfold axis_of. destruct i as [z|start stop step]; cbn [fix_index as_slice start_of stop_of is_int] in *.
  - injection HS as ->. assert (hi = lo + 1) by (injection HE; lia). subst hi. split; [lia|]. split; [|auto].
    unfold np_axis. replace ((- Z.of_nat n <=? Z.of_nat lo) && (Z.of_nat lo <? Z.of_nat n))%Z with true by lia.
    replace (Z.of_nat lo <? 0)%Z with false by lia. rewrite Nat2Z.id. reflexivity.
  - destruct HF as [HF1 HF2].
    assert (E : or_default start 0 = Z.of_nat lo /\ or_default stop (Z.of_nat n) = Z.of_nat hi /\ is_int (fix_index n (PSlice start stop step)) = false).
    { unfold fix_index. destruct start as [s|], stop as [e|]; cbn [fix_index as_slice start_of stop_of or_default is_int] in *;
        injection HS; injection HE; intros; subst; auto. }
    destruct E as (E1 & E2 & E3). rewrite E1, E2 in HF2. split; [lia|]. split; [|split; [discriminate|exact E3]].
    unfold np_axis. fold (or_default step 1). rewrite HF1. cbn [Z.eqb Z.ltb Z.compare].
    assert (B1 : np_bound n 1 start 0 = Z.of_nat lo).
    { unfold np_bound. cbn [Z.ltb Z.compare]. destruct start as [s|]; cbn [or_default] in E1; [|exact E1]. subst s. replace (Z.of_nat lo <? 0)%Z with false by lia. lia. }
    assert (B2 : np_bound n 1 stop (Z.of_nat n) = Z.of_nat hi).
    { unfold np_bound. cbn [Z.ltb Z.compare]. destruct stop as [s|]; cbn [or_default] in E2; [|exact E2]. subst s. replace (Z.of_nat hi <? 0)%Z with false by lia. lia. }
    rewrite B1, B2. f_equal. f_equal. destruct (Z.of_nat lo <? Z.of_nat hi)%Z eqn:E; lia.
Qed.

Lemma run3_shape {A} (R : reader A) : forall l a b, run3 R a l = Ok b -> a3_shape b = a3_shape a.
Proof.
  induction l as [|[[[t r] c] [v bits]] l IH]; intros a b H; [injection H as <-; reflexivity|]. cbn [run3 foldM] in H.
  apply bind_inv in H. destruct H as (a' & E & H). apply IH in H. rewrite H. unfold write3 in E. destruct (a3_shape a) as [[n h] w] eqn:Es.
  destruct ((t <? n) && (r <? h) && (c <? w)); [|discriminate]. injection E as <-. cbn [a3_shape]. reflexivity.
Qed.
Section Agree.
  Context {A : Type}.
  Variables (R : reader A) (st : store) (fuel : nat) (order : list call -> list call) (m : mmstruct) (n h w : nat) (g : nat -> nat -> nat -> A).
  Hypothesis HR : reads_as R st fuel m n h w g.
  Hypothesis HO : forall l, Permutation l (order l).
  Let whole : nd A := nd3 (rd_zero R) (mkArray3 (n, h, w) g).

  Lemma checked t r c : ArrayModel.check_bounds m t r c = Ok tt -> t < n /\ r < h /\ c < w.
  Proof.
    intros H. unfold ArrayModel.check_bounds in H. rewrite (ra_shape _ _ _ _ _ _ _ _ HR) in H. cbn [bind] in H.
    destruct ((n <=? t) || (h <=? r) || (w <=? c)) eqn:E; [discriminate|]. lia.
  Qed.
  Lemma checks_inv t r c {B} (k : unit -> res B) y : (u <- ArrayModel.check_bounds m t r c ;; k u) = Ok y -> t < n /\ r < h /\ c < w.
  Proof. intros H. apply bind_inv in H. destruct H as ([] & H & _). apply checked. exact H. Qed.
  Lemma usub_inv a b x : usub a b = Ok x -> b <= a /\ x = a - b.
  Proof. unfold usub. destruct (b <=? a) eqn:E; [|discriminate]. intros H. injection H as <-. split; [lia|reflexivity]. Qed.

  Lemma get_agrees t r c x : arr_get R st fuel m t r c = Ok x -> t < n /\ r < h /\ c < w /\ x = g t r c.
  Proof.
    intros H. assert (B : t < n /\ r < h /\ c < w) by (eapply checks_inv; exact H).
    destruct B as (B1 & B2 & B3). rewrite (ra_get _ _ _ _ _ _ _ _ HR) in H by assumption. injection H as <-. auto.
  Qed.
  Lemma cell_agrees a b r c x : a <= b -> arr_cell R st fuel m a b r c = Ok x ->
    b <= n /\ r < h /\ c < w /\ a1_len x = b - a /\ forall i, i < b - a -> a1_at x i = g (a + i) r c.
  Proof.
    intros Hab H. pose proof H as H0. unfold arr_cell in H0. apply bind_inv in H0. destruct H0 as (la & E & H0). apply usub_inv in E. destruct E as [E ->].
    apply checks_inv in H0. destruct (ra_cell _ _ _ _ _ _ _ _ HR a b r c Hab ltac:(lia) ltac:(lia) ltac:(lia)) as (x' & E1 & E2 & E3).
    rewrite H in E1. injection E1 as <-. repeat split; try assumption; lia.
  Qed.
  Lemma window_agrees a b t o l r x : a <= b -> t <= o -> l <= r -> arr_window R st fuel order m (cube_new a b t o l r) = Ok x ->
    b <= n /\ o <= h /\ r <= w /\ a3_shape x = (b - a, o - t, r - l) /\
    forall i j k, i < b - a -> j < o - t -> k < r - l -> a3_at x i j k = g (a + i) (t + j) (l + k).
  Proof.
    intros H1 H2 H3 H. pose proof H as H0. unfold arr_window, check_cube in H0. rewrite cube_new_le in H0 by assumption.
    cbn [c_start c_end c_top c_bottom c_left c_right] in H0.
    apply bind_inv in H0. destruct H0 as (u & E & H0). apply bind_inv in E. destruct E as (x1 & E1 & E). apply usub_inv in E1. destruct E1 as [E1 ->].
    apply bind_inv in E. destruct E as (x2 & E2 & E). apply usub_inv in E2. destruct E2 as [E2 ->].
    apply bind_inv in E. destruct E as (x3 & E3 & E). apply usub_inv in E3. destruct E3 as [E3 ->]. destruct u. apply checked in E.
    rewrite (usub_ok b a), (usub_ok o t), (usub_ok r l) in H0 by assumption. cbn [bind] in H0. apply bind_inv in H0. destruct H0 as (cs & _ & H0).
    apply run3_shape in H0. cbn [a3_shape] in H0. split; [lia|]. split; [lia|]. split; [lia|]. split; [exact H0|].
    intros i j k Hi Hj Hk.
    destruct (ra_window _ _ _ _ _ _ _ _ HR order a b t o l r HO H1 ltac:(lia) ltac:(lia) ltac:(lia)) as (x' & X1 & X2 & X3).
    rewrite H in X1. injection X1 as <-. apply X3; assumption.
  Qed.

  (** Three indices. *)
  Definition mask_of (i : index) : index := if is_int i then PInt 0 else PSlice None None None.
  Lemma mask_axis i lo hi : lo <= hi -> (is_int i = true -> hi = lo + 1) -> np_axis (hi - lo) (mask_of i) = Some (axis_of i 0 (hi - lo)).
  Proof.
    intros HL HI. unfold mask_of, axis_of. destruct (is_int i).
    - rewrite (HI eq_refl). replace (lo + 1 - lo) with 1 by lia. reflexivity.
    - rewrite Nat.sub_0_r. change (Z.of_nat 0) with 0%Z. apply np_full. left. reflexivity.
  Qed.
  Lemma axes3 x y z i j k a b c : np_axis x i = Some a -> np_axis y j = Some b -> np_axis z k = Some c -> np_axes [x; y; z] [i; j; k] = Some [a; b; c].
  Proof. intros H1 H2 H3. cbn [np_axes]. rewrite H1, H2, H3. reflexivity. Qed.
  Lemma window_same i j k a : forward n i -> forward h j -> forward w k ->
    forall i' j' k', i' = fix_index n i -> j' = fix_index h j -> k' = fix_index w k ->
    (arr <! py_window R st fuel order m (as_slice i') (as_slice j') (as_slice k') ;;
     match np_getitem arr (map mask_of [i'; j'; k']) with Some x => Value x | None => Raises end) = Value a ->
    exists b, np_getitem whole [i; j; k] = Some b /\ same a b.
  Proof.
    intros F1 F2 F3 i' j' k' Ei Ej Ek H. apply obind_inv in H. destruct H as (arr & HW & H). unfold py_window in HW.
    apply obind_inv in HW. destruct HW as (a0 & P1 & HW). apply obind_inv in HW. destruct HW as (b0 & P2 & HW).
    apply obind_inv in HW. destruct HW as (a1 & P3 & HW). apply obind_inv in HW. destruct HW as (b1 & P4 & HW).
    apply obind_inv in HW. destruct HW as (a2 & P5 & HW). apply obind_inv in HW. destruct HW as (b2 & P6 & HW).
    apply obind_inv in HW. destruct HW as (x & HW & Hx). apply of_res_inv in HW. injection Hx as <-.
    apply as_usize_inv in P1, P2, P3, P4, P5, P6. subst i' j' k'.
    assert (L : a0 <= b0 /\ a1 <= b1 /\ a2 <= b2).
    { clear -F1 F2 F3 P1 P2 P3 P4 P5 P6.
      assert (G : forall q s lo hi, forward q s -> start_of (as_slice (fix_index q s)) = Some (Z.of_nat lo) -> stop_of (as_slice (fix_index q s)) = Some (Z.of_nat hi) -> lo <= hi).
      { intros q s lo hi HF HS HE. destruct s as [z|start stop step]; cbn [fix_index as_slice start_of stop_of] in *.
        - injection HS as ->. injection HE. lia.
        - destruct HF as [_ HF]. destruct start, stop; cbn [as_slice start_of stop_of or_default] in *; injection HS; injection HE; intros; subst; lia. }
      exact (conj (G n i a0 b0 F1 P1 P2) (conj (G h j a1 b1 F2 P3 P4) (G w k a2 b2 F3 P5 P6))). }
    destruct L as (L0 & L1 & L2). destruct (window_agrees _ _ _ _ _ _ _ L0 L1 L2 HW) as (B0 & B1 & B2 & Sx & Vx).
    destruct (resolve n i a0 b0 F1 P1 P2 B0) as (_ & N0 & I0 & J0). destruct (resolve h j a1 b1 F2 P3 P4 B1) as (_ & N1 & I1 & J1).
    destruct (resolve w k a2 b2 F3 P5 P6 B2) as (_ & N2 & I2 & J2).
    unfold np_getitem in *. cbn [nd3 nd_shape] in H. rewrite Sx in H. cbn [map] in H. unfold mask_of in H. rewrite J0, J1, J2 in H. fold (mask_of i) (mask_of j) (mask_of k) in H.
    rewrite (axes3 _ _ _ _ _ _ _ _ _ (mask_axis i a0 b0 L0 I0) (mask_axis j a1 b1 L1 I1) (mask_axis k a2 b2 L2 I2)) in H. injection H as <-.
    unfold whole. cbn [nd3 nd_shape a3_shape]. rewrite (axes3 _ _ _ _ _ _ _ _ _ N0 N1 N2). eexists. split; [reflexivity|].
    clear -Vx I0 I1 I2. unfold axis_of. split; cbn [nd_shape nd_at].
    - destruct (is_int i), (is_int j), (is_int k); cbn [np_shape flat_map app]; rewrite ?Nat.sub_0_r; reflexivity.
    - intros p Hp. cbn [nd3 nd_at a3_at].
      destruct (is_int i), (is_int j), (is_int k); cbn [np_shape flat_map app] in Hp; rewrite ?Nat.sub_0_r in Hp;
        repeat match goal with H : true = true -> _ |- _ => specialize (H eq_refl) | H : false = true -> _ |- _ => clear H end;
        repeat match goal with H : Forall2 lt _ (_ :: _) |- _ => inversion H; subst; clear H | H : Forall2 lt _ [] |- _ => inversion H; subst; clear H end;
        cbn [np_source hd tl]; rewrite Vx by lia; f_equal; lia.
  Qed.

  (** The body of [__getitem__] once the indices are filled in, with the mask. *)
  Definition body (t r c : index) (mask : list index) : outcome (nd A) :=
    match t, r, c with
    | PInt t, PInt r, PInt c => py_get R st fuel m t r c
    | PSlice start stop _, PInt r, PInt c => py_cell R st fuel m start stop r c
    | _, _, _ =>
        array <! py_window R st fuel order m (as_slice t) (as_slice r) (as_slice c) ;;
        match np_getitem array mask with Some x => Value x | None => Raises end
    end.
  Lemma body_same i j k mask a : forward n i -> forward h j -> forward w k ->
    (forall x y z, np_axes [x; y; z] mask = np_axes [x; y; z] (map mask_of [fix_index n i; fix_index h j; fix_index w k])) ->
    body (fix_index n i) (fix_index h j) (fix_index w k) mask = Value a ->
    exists b, np_getitem whole [i; j; k] = Some b /\ same a b.
  Proof.
    intros F1 F2 F3 HM H.
    assert (W : (arr <! py_window R st fuel order m (as_slice (fix_index n i)) (as_slice (fix_index h j)) (as_slice (fix_index w k)) ;;
        match np_getitem arr mask with Some x => Value x | None => Raises end) = Value a -> exists b, np_getitem whole [i; j; k] = Some b /\ same a b).
    { intros H0. apply (window_same i j k a F1 F2 F3 _ _ _ eq_refl eq_refl eq_refl). rewrite <- H0.
      destruct (py_window _ _ _ _ _ _ _) as [arr| |] eqn:E; try reflexivity. cbn [obind]. unfold np_getitem.
      assert (Sh : exists x y z, nd_shape arr = [x; y; z]).
      { unfold py_window in E. repeat (apply obind_inv in E; destruct E as (? & _ & E)). injection E as <-. cbn [nd3 nd_shape].
        match goal with |- context [a3_shape ?x] => destruct (a3_shape x) as [[? ?] ?] end. eauto. }
      destruct Sh as (x & y & z & ->). rewrite HM. reflexivity. }
    destruct i as [ti|ti1 ti2 ti3].
    - destruct j as [tj|tj1 tj2 tj3]; [destruct k as [tk|tk1 tk2 tk3]|].
      + cbn [fix_index body] in H. unfold py_get in H. apply obind_inv in H. destruct H as (t & P1 & H). apply obind_inv in H. destruct H as (r & P2 & H).
        apply obind_inv in H. destruct H as (c & P3 & H). apply obind_inv in H. destruct H as (x & P4 & H). injection H as <-.
        apply as_usize_inv in P1, P2, P3. injection P1 as ->. injection P2 as ->. injection P3 as ->. apply of_res_inv, get_agrees in P4.
        destruct P4 as (B1 & B2 & B3 & ->).
        destruct (resolve n (PInt (Z.of_nat t)) t (t + 1) I eq_refl ltac:(cbn; f_equal; lia) ltac:(lia)) as (_ & N1 & _).
        destruct (resolve h (PInt (Z.of_nat r)) r (r + 1) I eq_refl ltac:(cbn; f_equal; lia) ltac:(lia)) as (_ & N2 & _).
        destruct (resolve w (PInt (Z.of_nat c)) c (c + 1) I eq_refl ltac:(cbn; f_equal; lia) ltac:(lia)) as (_ & N3 & _).
        unfold np_getitem, whole. cbn [nd3 nd_shape a3_shape]. rewrite (axes3 _ _ _ _ _ _ _ _ _ N1 N2 N3). eexists. split; [reflexivity|].
        split; [reflexivity|]. intros p Hp. reflexivity.
      + apply W. revert H. unfold fix_index at 3 6. destruct tk1, tk2; auto.
      + apply W. revert H. unfold fix_index at 2 5. destruct tj1, tj2; auto.
    - destruct j as [tj|tj1 tj2 tj3]; [destruct k as [tk|tk1 tk2 tk3]|].
      + assert (E : exists s e st0, fix_index n (PSlice ti1 ti2 ti3) = PSlice s e st0) by (unfold fix_index; destruct ti1, ti2; eauto).
        destruct E as (s & e & st0 & E). cbn [fix_index body] in H. fold (fix_index n (PSlice ti1 ti2 ti3)) in H. rewrite E in H. unfold py_cell in H.
        apply obind_inv in H. destruct H as (x0 & P1 & H). apply obind_inv in H. destruct H as (y0 & P2 & H). apply obind_inv in H. destruct H as (r & P3 & H).
        apply obind_inv in H. destruct H as (c & P4 & H). apply obind_inv in H. destruct H as (x & P5 & H). injection H as <-.
        apply as_usize_inv in P1, P2, P3, P4. injection P3 as ->. injection P4 as ->. apply of_res_inv in P5. subst s e.
        assert (L : x0 <= y0).
        { destruct F1 as [_ F1]. revert F1 E. clear. unfold fix_index. destruct ti1, ti2; cbn [or_default]; intros F1 E; injection E; intros; subst; lia. }
        apply (cell_agrees x0 y0 r c x L) in P5. destruct P5 as (B1 & B2 & B3 & Lx & Vx).
        destruct (resolve n (PSlice ti1 ti2 ti3) x0 y0 F1) as (_ & N1 & _); [rewrite E; reflexivity|rewrite E; reflexivity|exact B1|].
        destruct (resolve h (PInt (Z.of_nat r)) r (r + 1) I eq_refl ltac:(cbn; f_equal; lia) ltac:(lia)) as (_ & N2 & _).
        destruct (resolve w (PInt (Z.of_nat c)) c (c + 1) I eq_refl ltac:(cbn; f_equal; lia) ltac:(lia)) as (_ & N3 & _).
        unfold np_getitem, whole. cbn [nd3 nd_shape a3_shape]. rewrite (axes3 _ _ _ _ _ _ _ _ _ N1 N2 N3). eexists. split; [reflexivity|].
        unfold axis_of. cbn [is_int]. split; cbn [nd_shape nd_at nd1 nd3 np_shape flat_map app]; [rewrite Lx; reflexivity|].
        rewrite Lx. intros p Hp. inversion Hp as [|q l1 l2 l3 Hq Hp']; subst. inversion Hp'; subst. cbn [np_source hd tl a3_at].
        rewrite Vx by exact Hq. f_equal; lia.
      + apply W. revert H. unfold fix_index at 1 3 4 6. destruct ti1, ti2, tk1, tk2; auto.
      + apply W. revert H. unfold fix_index at 1 2 4 5. destruct ti1, ti2, tj1, tj2; auto.
  Qed.
  Lemma getitem_same idx a : each forward [n; h; w] idx -> var_getitem R st fuel order m idx = Value a ->
    exists b, np_getitem whole idx = Some b /\ same a b.
  Proof.
    intros HF H. unfold var_getitem in H. rewrite (ra_shape _ _ _ _ _ _ _ _ HR) in H. cbn [of_res obind] in H.
    destruct (3 <? length idx) eqn:E; [discriminate|].
    set (P := PSlice (Some 0%Z) None None). assert (FP : forall q, forward q P) by (intros q; cbn; lia).
    assert (NP : forall q, np_axis q P = Some (Many 0 1 q)) by (intros q; apply np_full; right; reflexivity).
    assert (NM : forall q q', np_axis q (mask_of (fix_index q' P)) = Some (Many 0 1 q)) by (intros q q'; apply np_full; left; reflexivity).
    destruct idx as [|i [|j [|k [|l idx]]]]; [| | | |cbn [length] in E; apply Nat.ltb_ge in E; lia].
    - replace (np_getitem whole []) with (np_getitem whole [P; P; P]) by (unfold np_getitem, whole; cbn [nd3 nd_shape a3_shape np_axes]; rewrite !NP; reflexivity).
      apply (body_same P P P []); auto. intros x y z. cbn [map np_axes]. rewrite !NM. reflexivity.
    - destruct HF as (F1 & _).
      replace (np_getitem whole [i]) with (np_getitem whole [i; P; P]) by (unfold np_getitem, whole; cbn [nd3 nd_shape a3_shape np_axes]; rewrite !NP; reflexivity).
      apply (body_same i P P (map mask_of (firstn 1 [fix_index n i; fix_index h P; fix_index w P]))); auto. intros x y z. cbn [map np_axes firstn]. rewrite !NM. reflexivity.
    - destruct HF as (F1 & F2 & _).
      replace (np_getitem whole [i; j]) with (np_getitem whole [i; j; P]) by (unfold np_getitem, whole; cbn [nd3 nd_shape a3_shape np_axes]; rewrite !NP; reflexivity).
      apply (body_same i j P (map mask_of (firstn 2 [fix_index n i; fix_index h j; fix_index w P]))); auto. intros x y z. cbn [map np_axes firstn]. rewrite !NM. reflexivity.
    - destruct HF as (F1 & F2 & F3 & _). apply (body_same i j k (map mask_of (firstn 3 [fix_index n i; fix_index h j; fix_index w k]))); auto.
  Qed.

  Hypothesis Hn : (0 < n)%nat. Hypothesis Hh : (0 < h)%nat. Hypothesis Hw : (0 < w)%nat.
  Hypothesis Ln : (Z.of_nat n < 2 ^ 64)%Z. Hypothesis Lh : (Z.of_nat h < 2 ^ 64)%Z. Hypothesis Lw : (Z.of_nat w < 2 ^ 64)%Z.
  Lemma inside_bounds q i : inside q i -> (Z.of_nat q < 2 ^ 64)%Z ->
    exists lo hi, start_of (as_slice (fix_index q i)) = Some (Z.of_nat lo) /\ stop_of (as_slice (fix_index q i)) = Some (Z.of_nat hi) /\ lo < hi <= q /\
      (is_int i = true -> i = PInt (Z.of_nat lo) /\ hi = lo + 1) /\ is_int (fix_index q i) = is_int i /\ forward q i.
  Proof.
    clear. intros HI HL. destruct i as [z|start stop step].
    - exists (Z.to_nat z), (Z.to_nat z + 1). cbn [inside fix_index as_slice start_of stop_of is_int forward] in *.
      split; [f_equal; lia|]. split; [f_equal; lia|]. split; [lia|]. split; [|auto]. intros _. split; [f_equal; lia|reflexivity].
    - destruct HI as (H1 & H2 & H3). exists (Z.to_nat (or_default start 0)), (Z.to_nat (or_default stop (Z.of_nat q))).
      assert (E : start_of (as_slice (fix_index q (PSlice start stop step))) = Some (or_default start 0%Z) /\
        stop_of (as_slice (fix_index q (PSlice start stop step))) = Some (or_default stop (Z.of_nat q)) /\ is_int (fix_index q (PSlice start stop step)) = false)
        by (unfold fix_index; destruct start, stop; cbn; auto).
      destruct E as (E1 & E2 & E3). rewrite E1, E2, !Z2Nat.id by lia. split; [reflexivity|]. split; [reflexivity|]. split; [lia|].
      split; [discriminate|]. split; [exact E3|]. cbn [forward]. split; [exact H1|lia].
  Qed.
  Lemma body_ok i j k mask : inside n i -> inside h j -> inside w k ->
    (forall x y z, np_axes [x; y; z] mask = np_axes [x; y; z] (map mask_of [fix_index n i; fix_index h j; fix_index w k])) ->
    exists a, body (fix_index n i) (fix_index h j) (fix_index w k) mask = Value a.
  Proof.
    intros F1 F2 F3 HM. destruct (inside_bounds n i F1 Ln) as (a0 & b0 & S0 & E0 & L0 & I0 & J0 & _).
    destruct (inside_bounds h j F2 Lh) as (a1 & b1 & S1 & E1 & L1 & I1 & J1 & _). destruct (inside_bounds w k F3 Lw) as (a2 & b2 & S2 & E2 & L2 & I2 & J2 & _).
    assert (U : forall q p, (Z.of_nat q < 2 ^ 64)%Z -> p <= q -> as_usize (Some (Z.of_nat p)) = Value p).
    { intros q p Hq Hp. apply as_usize_ok. eapply Z.le_lt_trans; [|exact Hq]. apply inj_le. exact Hp. }
    assert (W : exists a, (arr <! py_window R st fuel order m (as_slice (fix_index n i)) (as_slice (fix_index h j)) (as_slice (fix_index w k)) ;;
        match np_getitem arr mask with Some x => Value x | None => Raises end) = Value a).
    { unfold py_window. rewrite S0, S1, S2, E0, E1, E2.
      rewrite (U n a0 Ln), (U n b0 Ln), (U h a1 Lh), (U h b1 Lh), (U w a2 Lw), (U w b2 Lw) by (clear -L0 L1 L2; lia). cbn [obind].
      destruct (ra_window _ _ _ _ _ _ _ _ HR order a0 b0 a1 b1 a2 b2 HO) as (x & X & Sx & _); try (clear -L0 L1 L2; lia).
      rewrite X. cbn [of_res obind]. unfold np_getitem. cbn [nd3 nd_shape]. rewrite Sx, HM. cbn [map].
      assert (M : forall q i lo hi, lo < hi -> (is_int i = true -> i = PInt (Z.of_nat lo) /\ hi = lo + 1) -> is_int (fix_index q i) = is_int i ->
        exists ax, np_axis (hi - lo) (mask_of (fix_index q i)) = Some ax).
      { clear. intros q i lo hi HL HI HJ. unfold mask_of. rewrite HJ. destruct (is_int i) eqn:E.
        - destruct (HI eq_refl) as [_ ->]. replace (lo + 1 - lo) with 1 by lia. eexists. reflexivity.
        - eexists. apply np_full. left. reflexivity. }
      destruct (M n i a0 b0) as (x0 & X0); [apply L0|exact I0|exact J0|]. destruct (M h j a1 b1) as (x1 & X1); [apply L1|exact I1|exact J1|].
      destruct (M w k a2 b2) as (x2 & X2); [apply L2|exact I2|exact J2|].
      rewrite (axes3 _ _ _ _ _ _ _ _ _ X0 X1 X2). eexists. reflexivity. }
    destruct i as [ti|ti1 ti2 ti3].
    - destruct j as [tj|tj1 tj2 tj3]; [destruct k as [tk|tk1 tk2 tk3]|].
      + cbn [fix_index body]. destruct (I0 eq_refl) as [Q0 _], (I1 eq_refl) as [Q1 _], (I2 eq_refl) as [Q2 _]. injection Q0 as ->. injection Q1 as ->. injection Q2 as ->.
        unfold py_get. rewrite (U n a0 Ln), (U h a1 Lh), (U w a2 Lw) by (clear -L0 L1 L2; lia). cbn [obind].
        rewrite (ra_get _ _ _ _ _ _ _ _ HR) by (clear -L0 L1 L2; lia). eexists. reflexivity.
      + revert W. unfold fix_index at 3 6. destruct tk1, tk2; auto.
      + revert W. unfold fix_index at 2 5. destruct tj1, tj2; auto.
    - destruct j as [tj|tj1 tj2 tj3]; [destruct k as [tk|tk1 tk2 tk3]|].
      + assert (E : exists s e st0, fix_index n (PSlice ti1 ti2 ti3) = PSlice s e st0) by (unfold fix_index; destruct ti1, ti2; eauto).
        destruct E as (s & e & st0 & E). rewrite E. rewrite E in S0, E0. cbn [fix_index body]. cbn [as_slice start_of stop_of] in S0, E0. subst s e.
        destruct (I1 eq_refl) as [Q1 _], (I2 eq_refl) as [Q2 _]. injection Q1 as ->. injection Q2 as ->.
        unfold py_cell. rewrite (U n a0 Ln), (U n b0 Ln), (U h a1 Lh), (U w a2 Lw) by (clear -L0 L1 L2; lia). cbn [obind].
        destruct (ra_cell _ _ _ _ _ _ _ _ HR a0 b0 a1 a2) as (x & X & _); try (clear -L0 L1 L2; lia). rewrite X. eexists. reflexivity.
      + revert W. unfold fix_index at 1 3 4 6. destruct ti1, ti2, tk1, tk2; auto.
      + revert W. unfold fix_index at 1 2 4 5. destruct ti1, ti2, tj1, tj2; auto.
  Qed.
  Lemma getitem_ok idx : length idx <= 3 -> each inside [n; h; w] idx -> exists a, var_getitem R st fuel order m idx = Value a.
  Proof.
    intros HL HF. unfold var_getitem. rewrite (ra_shape _ _ _ _ _ _ _ _ HR). cbn [of_res obind].
    replace (3 <? length idx) with false by (symmetry; apply Nat.ltb_ge; exact HL).
    set (P := PSlice (Some 0%Z) None None). assert (FP : forall q, 0 < q -> inside q P) by (clear; intros q Hq; cbn; lia).
    assert (NM : forall q q', np_axis q (mask_of (fix_index q' P)) = Some (Many 0 1 q)) by (intros q q'; apply np_full; left; reflexivity).
    pose proof (FP n Hn) as P1. pose proof (FP h Hh) as P2. pose proof (FP w Hw) as P3. clear FP.
    destruct idx as [|i [|j [|k [|l idx]]]]; [| | | |exfalso; cbn [length] in HL; clear -HL; lia].
    - apply (body_ok P P P []); auto. intros x y z. cbn [map np_axes]. rewrite !NM. reflexivity.
    - destruct HF as (F1 & _).
      apply (body_ok i P P (map mask_of (firstn 1 [fix_index n i; fix_index h P; fix_index w P]))); auto. intros x y z. cbn [map np_axes firstn]. rewrite !NM. reflexivity.
    - destruct HF as (F1 & F2 & _).
      apply (body_ok i j P (map mask_of (firstn 2 [fix_index n i; fix_index h j; fix_index w P]))); auto. intros x y z. cbn [map np_axes firstn]. rewrite !NM. reflexivity.
    - destruct HF as (F1 & F2 & F3 & _). apply (body_ok i j k (map mask_of (firstn 3 [fix_index n i; fix_index h j; fix_index w k]))); auto.
  Qed.
End Agree.

(** ** C43: variables *)

(** [reads_as] (ArrayProofs.v): the array data of the variable has the shape [n x h x w]
    and the values of [g], as C19, C24 and others show. Whenever indexing it with
    integers, of whatever size and sign, and with slices that do not run backwards or in
    steps gives anything, that is what numpy gives for the whole array. What is missing
    from C43: indices for which numpy gives something and the variable raises, and the
    other slices; see the theorems below. *)
Theorem C43_variable_agrees_partial : forall A (R : reader A) st fuel order m n h w g idx a,
  reads_as R st fuel m n h w g -> (forall l, Permutation l (order l)) -> each forward [n; h; w] idx ->
  var_getitem R st fuel order m idx = Value a ->
  exists b, np_getitem (nd3 (rd_zero R) (mkArray3 (n, h, w) g)) idx = Some b /\ same a b.
Proof. intros. eapply getitem_same; eassumption. Qed.

(** It does give something if there are at most three indices, within the array, that
    select something. *)
Theorem C43_variable_indexed_partial : forall A (R : reader A) st fuel order m n h w g idx,
  reads_as R st fuel m n h w g -> (forall l, Permutation l (order l)) ->
  0 < n -> 0 < h -> 0 < w -> (Z.of_nat n < 2 ^ 64)%Z -> (Z.of_nat h < 2 ^ 64)%Z -> (Z.of_nat w < 2 ^ 64)%Z ->
  length idx <= 3 -> each inside [n; h; w] idx ->
  exists a b, var_getitem R st fuel order m idx = Value a /\
    np_getitem (nd3 (rd_zero R) (mkArray3 (n, h, w) g)) idx = Some b /\ same a b.
Proof.
  intros A R st fuel order m n h w g idx HR HO Hn Hh Hw Ln Lh Lw HL HI.
  destruct (getitem_ok R st fuel order m n h w g HR HO Hn Hh Hw Ln Lh Lw idx HL HI) as (a & E). exists a.
  destruct (getitem_same R st fuel order m n h w g HR HO idx a) with (2 := E) as (b & B1 & B2); [|eauto].
  clear -HI. revert HI. assert (G : forall q i, inside q i -> forward q i).
  { intros q i. destruct i as [z|start stop step]; cbn [inside forward]; [auto|]. intros (H1 & H2 & H3). split; [exact H1|lia]. }
  generalize [n; h; w]. intros shape. revert idx. induction shape as [|q shape IH]; intros [|i idx]; cbn [each]; auto. intros [H1 H2]. auto.
Qed.

(** As numpy, it refuses more than three indices. *)
Theorem C43_too_many_indices : forall A (R : reader A) st fuel order m n h w g idx, 3 < length idx ->
  var_getitem R st fuel order m idx = Raises /\ np_getitem (nd3 (rd_zero R) (mkArray3 (n, h, w) g)) idx = None.
Proof.
  intros A R st fuel order m n h w g idx H. split.
  - unfold var_getitem. rewrite (proj2 (Nat.ltb_lt _ _) H). reflexivity.
  - destruct idx as [|a [|b [|c [|d idx]]]]; cbn [length] in H; try lia. unfold np_getitem. cbn [nd3 nd_shape a3_shape np_axes].
    destruct (np_axis n a), (np_axis h b), (np_axis w c); reflexivity.
Qed.

(** The step of a slice is ignored. *)
Theorem C43_step_ignored_refuted : forall A (R : reader A) st fuel order m start stop step idx,
  var_getitem R st fuel order m (PSlice start stop step :: idx) = var_getitem R st fuel order m (PSlice start stop None :: idx).
Proof.
  intros. unfold var_getitem. destruct (of_res (mm_shape m)) as [[[n h] w]| |]; cbn [obind]; [|reflexivity..].
  change (length (PSlice start stop step :: idx)) with (length (PSlice start stop None :: idx)). destruct (3 <? length (PSlice start stop None :: idx)); [reflexivity|].
  destruct start, stop, idx as [|i [|j [|k idx]]]; cbn [length app combine repeat map fix_index fst snd Nat.sub]; try reflexivity.
  all: destruct (fix_index h i); try reflexivity.
  all: try (destruct (fix_index w j); reflexivity).
Qed.

(** An array of 3 instants, 4 rows and 4 columns. *)
Definition or_else {A} (x : res A) (y : A) : A := match x with Ok x => x | _ => y end.
Definition ex_g (t r c : nat) : Z := Z.of_nat (100 * t + 10 * r + c).
Definition ex_built : res (store * built) := super_build ex_hash elem_i32 2 (log_ceil 2) [1; 1] ex_g 3 4 4 0 [].
Definition ex_store : store := or_else (x <- ex_built ;; Ok (fst x)) [].
Definition ex_m : mmstruct := or_else (x <- ex_built ;; Ok (mb_data (snd x))) (MSpan (mkSpan 0 0 0 0 [] EncI32)).
Lemma ex_reads : reads_as reader_i32 ex_store 5 ex_m 3 4 4 ex_g.
Proof.
  destruct (C19_i32_reads_partial ex_hash 2 (log_ceil 2) [1; 1] ex_g 3 4 4 []) as (st2 & b & E & _ & _ & H); try lia.
  - intros b. apply wf_ex_cid.
  - exists 1. reflexivity.
  - reflexivity.
  - apply C19_sizes; [lia|]. reflexivity.
  - apply (proj1 (proj2 (C19_levels 2 (log_ceil 2) ltac:(lia)))). reflexivity.
  - intros t r c Ht Hr Hc. unfold ex_g, i32_range. lia.
  - assert (F : functional ex_store) by (apply functional_checked; vm_compute; reflexivity).
    change (ex_built = Ok (st2, b)) in E. assert (E1 : ex_store = st2) by (unfold ex_store; rewrite E; reflexivity).
    assert (E2 : ex_m = mb_data b) by (unfold ex_m; rewrite E; reflexivity). rewrite E1 in *. rewrite E2. apply H; [apply incl_refl|exact F|cbn; lia].
Qed.
Definition ex_np : nd Z := nd3 0%Z (mkArray3 (3, 4, 4) ex_g).
Definition ex_item : list index -> outcome (nd Z) := var_getitem reader_i32 ex_store 5 (@rev call) ex_m.
Definition shape_of (x : outcome (nd Z)) : option (list nat) := match x with Value a => Some (nd_shape a) | _ => None end.
Definition at_of (x : outcome (nd Z)) (p : list nat) : option Z := match x with Value a => Some (nd_at a p) | _ => None end.
Definition upto (a b : Z) : index := PSlice (Some a) (Some b) None.
(** [v[1, 1:3]], [v[:2, 3, 3]], [v[2, 0, 1]] and [v[1:2, :, 0:3]]. *)
Example C43_example :
  each inside [3; 4; 4] [PInt 1; upto 1 3] /\ shape_of (ex_item [PInt 1; upto 1 3]) = Some [2; 4] /\ at_of (ex_item [PInt 1; upto 1 3]) [1; 2] = Some 122%Z /\
  shape_of (ex_item [PSlice None (Some 2%Z) None; PInt 3; PInt 3]) = Some [2] /\
  at_of (ex_item [PInt 2; PInt 0; PInt 1]) [] = Some 201%Z /\
  each inside [3; 4; 4] [upto 1 2; PSlice None None None; upto 0 3] /\ shape_of (ex_item [upto 1 2; PSlice None None None; upto 0 3]) = Some [1; 4; 3].
Proof.
  split; [cbn; lia|]. split; [vm_compute; reflexivity|]. split; [vm_compute; reflexivity|]. split; [vm_compute; reflexivity|]. split; [vm_compute; reflexivity|].
  split; [cbn; lia|vm_compute; reflexivity].
Qed.

(** Slices in steps and backwards slices give something else than numpy's; integers and
    ends that count from the end, ends past the end and empty slices raise. *)
Definition np_shape_of (idx : list index) : option (list nat) := option_map nd_shape (np_getitem ex_np idx).
Theorem C43_steps_refuted : let idx := [PSlice (Some 0%Z) (Some 3%Z) (Some 2%Z)] in
  shape_of (ex_item idx) = Some [3; 4; 4] /\ np_shape_of idx = Some [2; 4; 4].
Proof. split; vm_compute; reflexivity. Qed.
Theorem C43_backwards_refuted : let idx := [upto 2 1] in
  shape_of (ex_item idx) = Some [1; 4; 4] /\ np_shape_of idx = Some [0; 4; 4] /\
  at_of (ex_item idx) [0; 2; 3] = Some (ex_g 1 2 3).
Proof. split; [vm_compute; reflexivity|]. split; vm_compute; reflexivity. Qed.
Theorem C43_raises_refuted :
  (ex_item [PInt (-1)] = Raises /\ np_shape_of [PInt (-1)] = Some [4; 4]) /\
  (ex_item [PSlice None (Some (-1)%Z) None] = Raises /\ np_shape_of [PSlice None (Some (-1)%Z) None] = Some [2; 4; 4]) /\
  (ex_item [upto 1 9] = Raises /\ np_shape_of [upto 1 9] = Some [2; 4; 4]) /\
  (ex_item [upto 0 0] = Raises /\ np_shape_of [upto 0 0] = Some [0; 4; 4]) /\
  (ex_item [PInt 0; upto 2 2] = Raises /\ np_shape_of [PInt 0; upto 2 2] = Some [0; 4]).
Proof. do 4 (split; [split; vm_compute; reflexivity|]). split; vm_compute; reflexivity. Qed.

(** ** C44: coordinates *)
From Coq Require Import Reals.
From Flocq Require Import Core.Core IEEE754.BinarySingleNaN.
From Verif Require Import PropertiesRange.
Open Scope nat_scope.

(** Two numpy arrays have the same shape, and [Q] holds of the elements at each position. *)
Definition alike {A B} (Q : A -> B -> Prop) (a : nd A) (b : nd B) : Prop :=
  nd_shape a = nd_shape b /\ forall p, Forall2 lt p (nd_shape a) -> Q (nd_at a p) (nd_at b p).

Section Line.
  Context {A B : Type}.
  Variables (get : nat -> res A) (slice : nat -> nat -> res (list A)) (len : res nat) (d : A) (n : nat) (f : nat -> B) (Q : A -> B -> Prop).
  Lemma line_agrees i : (Z.of_nat n < 2 ^ 64)%Z -> inside n i -> (match i with PSlice _ _ (Some _) => False | PSlice _ None _ => len = Ok n | _ => True end) ->
    (forall j, j < n -> exists x, get j = Ok x /\ Q x (f j)) ->
    (forall a b, a <= b -> 0 < b <= n -> exists l, slice a b = Ok l /\ length l = b - a /\ forall k x, nth_error l k = Some x -> Q x (f (a + k))) ->
    exists y a, coord_getitem get slice len d i = Value y /\ np_getitem (mkNd [n] (fun p => f (hd 0 p))) [i] = Some a /\ alike Q y a.
  Proof.
    intros H64 HI HL HG HS. destruct i as [z|start stop step].
    - cbn [inside] in HI. destruct (HG (Z.to_nat z)) as (x & E & Hx); [lia|]. unfold np_getitem. cbn [np_axes nd_shape np_axis].
      replace ((- Z.of_nat n <=? z) && (z <? Z.of_nat n))%Z with true by lia. replace (z <? 0)%Z with false by lia.
      do 2 eexists. split; [|split; [reflexivity|]].
      + cbn [coord_getitem]. rewrite <- (Z2Nat.id z) at 1 by lia. rewrite as_usize_ok by lia. cbn [obind]. rewrite E. reflexivity.
      + split; [reflexivity|]. intros p _. cbn. exact Hx.
    - destruct step as [step|]; [destruct stop; destruct HL|]. cbn [inside] in HI. destruct HI as (_ & H1 & H2).
      set (lo := Z.to_nat (or_default start 0)). set (hi := Z.to_nat (or_default stop (Z.of_nat n))).
      destruct (HS lo hi) as (l & E & Hl & HQ); [lia..|].
      destruct (resolve n (PSlice start stop None) lo hi) as (_ & R & _); [cbn [forward]; split; [reflexivity|lia]| | |lia|].
      { unfold lo. destruct start as [s|]; destruct stop as [e|]; cbn [fix_index as_slice start_of or_default] in *; f_equal; lia. }
      { unfold hi. destruct start as [s|]; destruct stop as [e|]; cbn [fix_index as_slice stop_of or_default] in *; f_equal; lia. }
      unfold np_getitem. cbn [np_axes nd_shape]. rewrite R. unfold axis_of. cbn [is_int np_axes option_map].
      exists (nd_list d l). eexists. split; [|split; [reflexivity|]].
      + unfold coord_getitem.
        assert (E1 : (match start with Some z => Some z | None => Some 0%Z end) = Some (Z.of_nat lo)) by (unfold lo; destruct start; cbn [or_default] in *; f_equal; lia).
        assert (E2 : match stop with Some z => Value (Some z) | None => n <! of_res len ;; Value (Some (Z.of_nat n)) end = Value (Some (Z.of_nat hi))).
        { unfold hi. destruct stop; cbn [or_default] in *; [do 2 f_equal; lia|]. rewrite HL. cbn [of_res obind]. do 2 f_equal. lia. }
        rewrite E2. cbn [obind]. rewrite E1, !as_usize_ok by lia. cbn [obind]. rewrite E. reflexivity.
      + split; [cbn; now rewrite Hl|]. cbn [nd_list nd_shape nd_at]. intros p Hp. inversion Hp as [|j ? p' ? Hj Hp']; subst. inversion Hp'; subst. cbn [np_source hd tl].
        replace (Z.to_nat (Z.of_nat lo + Z.of_nat j * 1)) with (lo + j) by lia. apply HQ. rewrite nth_error_nth' with (d := d) by exact Hj. reflexivity.
  Qed.
End Line.

(** What is missing is what [C32] shows to be false of slices: constant coordinates, slices
    as wide as the type; and what raises, see below. *)
Theorem C44_int_coordinate_partial : forall bits start step n i, (0 < bits)%Z -> step <> 0%Z -> (Z.of_nat n < 2 ^ 64)%Z ->
  int_in bits (Z.of_nat n) -> int_in bits (Z.of_nat n * step) -> (forall j, j < n -> int_in bits (element start step j)) ->
  inside n i -> (match i with PSlice _ _ (Some _) => False | _ => True end) ->
  let r := mkIntRange start step n in
  exists y a, coord_getitem (int_get bits r) (int_slice bits r) (Ok n) 0%Z i = Value y /\
    np_getitem (mkNd [n] (fun p => element start step (hd 0 p))) [i] = Some a /\ same y a.
Proof.
  intros bits start step n i Hb Hs H64 Hn Hw He HI Hst r.
  apply (line_agrees (int_get bits r) (int_slice bits r) (Ok n) 0%Z n (element start step) eq); [exact H64|exact HI| | |].
  - destruct i as [|? [] []]; auto; contradiction.
  - intros j Hj. exists (element start step j). split; [|reflexivity]. apply C32_int_get; [exact Hb|exact Hj| |apply He; exact Hj].
    clear - Hn Hj. unfold int_in in *. lia.
  - intros a b Hab Hbn. exists (elements start step a b). split; [|split].
    + apply C32_int_slice_partial; try assumption.
      * clear - Hn Hbn. unfold int_in in *. lia.
      * clear - Hw Hab Hbn. unfold int_in in *. nia.
      * intros j Hj. apply He. lia.
    + unfold elements. rewrite map_length, seq_length. reflexivity.
    + intros k x H. unfold elements in H. rewrite nth_error_map in H. destruct (nth_error (seq a (b - a)) k) as [j|] eqn:E; [|discriminate].
      injection H as <-. f_equal. assert (k < b - a) by (rewrite <- (seq_length (b - a) a); apply nth_error_Some; congruence).
      apply nth_error_nth with (d := 0) in E. rewrite seq_nth in E by assumption. lia.
Qed.

(** A time coordinate has no end: slices need a stop, and then give what any long enough
    array of its instants gives. *)
Theorem C44_time_coordinate_partial : forall start step n i, (Z.of_nat n < 2 ^ 64)%Z ->
  (forall j, j < n -> int_in 64 (element start step j)) ->
  inside n i -> (match i with PSlice _ (Some _) None | PInt _ => True | _ => False end) ->
  let r := mkTimeRange start step in
  exists y a, coord_getitem (fun j => Ok (time_get r j)) (fun a b => Ok (time_slice r a b)) (Err ETimeIsInfinite) 0%Z i = Value y /\
    np_getitem (mkNd [n] (fun p => element start step (hd 0 p))) [i] = Some a /\ same y a.
Proof.
  intros start step n i H64 He HI Hst r.
  apply (line_agrees (fun j => Ok (time_get r j)) (fun a b => Ok (time_slice r a b)) (Err ETimeIsInfinite) 0%Z n (element start step) eq); [exact H64|exact HI| | |].
  - destruct i as [|? [] []]; auto; contradiction.
  - intros j Hj. eexists. split; [reflexivity|]. apply C32_time_get. apply He. exact Hj.
  - intros a b Hab Hbn. eexists. split; [unfold r; rewrite C32_time_slice by (intros j Hj; apply He; lia); reflexivity|]. split.
    + unfold elements. rewrite map_length, seq_length. reflexivity.
    + intros k x H. unfold elements in H. rewrite nth_error_map in H. destruct (nth_error (seq a (b - a)) k) as [j|] eqn:E; [|discriminate].
      injection H as <-. f_equal. assert (k < b - a) by (rewrite <- (seq_length (b - a) a); apply nth_error_Some; congruence).
      apply nth_error_nth with (d := 0) in E. rewrite seq_nth in E by assumption. lia.
Qed.

Lemma exact_range_le {prec emax} (r : float_range prec emax) e start step a b : a <= b -> exact_range r e start step b -> exact_range r e start step a.
Proof. intros H (H1 & H2 & H3 & H4 & H5 & H6). unfold exact_range. do 5 (split; [assumption|]). nia. Qed.
(** A float coordinate whose numbers are exact (see [C32]): the numbers are those of the array of
    real numbers [start + i * step]. *)
Theorem C44_float_coordinate_partial : forall prec emax (Hp : Prec_gt_0 prec) (He : Prec_lt_emax prec emax)
    (r : float_range prec emax) e start step d i, (65 <= emax)%Z -> (prec <= 63)%Z ->
  exact_range r e start step (fr_steps r) -> (Z.of_nat (fr_steps r) < 2 ^ 64)%Z ->
  inside (fr_steps r) i -> (match i with PSlice _ _ (Some _) => False | _ => True end) ->
  exists y a, coord_getitem (float_get r) (float_slice r) (Ok (fr_steps r)) d i = Value y /\
    np_getitem (mkNd [fr_steps r] (fun p => (B2R (fr_start r) + INR (hd 0%nat p) * B2R (fr_step r))%R)) [i] = Some a /\ alike is_number y a.
Proof.
  intros prec emax Hp He r e start step d i Hx Hq HE H64 HI Hst.
  apply (line_agrees (float_get r) (float_slice r) (Ok (fr_steps r)) d (fr_steps r)
    (fun j => (B2R (fr_start r) + INR j * B2R (fr_step r))%R) is_number); [exact H64|exact HI| | |].
  - destruct i as [|? [] []]; auto; contradiction.
  - intros j Hj. eapply C32_float_get_partial; try eassumption. eapply exact_range_le; [|exact HE]. lia.
  - intros a b Hab Hbn. eapply C32_float_slice_partial; try eassumption. eapply exact_range_le; [|exact HE]. lia.
Qed.

(** What raises, though numpy answers: steps, whatever they are; a negative number anywhere;
    ends past the end; empty slices at the start; and slices of time without a stop. *)
Theorem C44_raises_refuted : forall A (get : nat -> res A) slice len d,
  (forall start stop step, coord_getitem get slice len d (PSlice start stop (Some step)) = Raises) /\
  (forall z, (z < 0)%Z -> coord_getitem get slice len d (PInt z) = Raises) /\
  (forall z stop, (z < 0)%Z -> coord_getitem get slice (Ok 3) d (PSlice (Some z) stop None) = Raises) /\
  (forall start, coord_getitem get slice (Err ETimeIsInfinite) d (PSlice start None None) = Raises).
Proof.
  intros A get slice len d. split; [reflexivity|].
  assert (N : forall z, (z < 0)%Z -> as_usize (Some z) = Raises).
  { intros z H. unfold as_usize. replace (0 <=? z)%Z with false by lia. reflexivity. }
  split; [intros z H; cbn [coord_getitem]; rewrite N by exact H; reflexivity|].
  split; [|reflexivity]. intros z stop H. cbn [coord_getitem]. rewrite N by exact H. destruct stop; reflexivity.
Qed.
Definition ex_coord (start step : Z) (n : nat) : index -> outcome (nd Z) :=
  let r := mkIntRange start step n in coord_getitem (int_get 32 r) (int_slice 32 r) (Ok n) 0%Z.
Theorem C44_ends_refuted :
  ex_coord 10 5 4 (upto 2 9) = Raises /\ ex_coord 10 5 4 (upto 0 0) = Raises /\ ex_coord 10 5 4 (upto 3 1) = Raises /\
  (forall i, In i [upto 2 9; upto 0 0; upto 3 1] -> np_getitem (mkNd [4] (fun p => element 10 5 (hd 0 p))) [i] <> None).
Proof.
  split; [vm_compute; reflexivity|]. split; [vm_compute; reflexivity|]. split; [vm_compute; reflexivity|].
  intros i H. cbn [In] in H. destruct H as [<-|[<-|[<-|[]]]]; unfold np_getitem; cbn; discriminate.
Qed.
(** The coordinate 10, 5, 0, -5: [c[1:3]], [c[2:]], [c[3]]. *)
Example C44_example :
  shape_of (ex_coord 10 (-5) 4 (upto 1 3)) = Some [2] /\ at_of (ex_coord 10 (-5) 4 (upto 1 3)) [1] = Some 0%Z /\
  shape_of (ex_coord 10 (-5) 4 (PSlice (Some 2%Z) None None)) = Some [2] /\ at_of (ex_coord 10 (-5) 4 (PInt 3)) [] = Some (-5)%Z /\
  inside 4 (upto 1 3) /\ int_in 32 (4 * (-5)) /\ (forall j, j < 4 -> int_in 32 (element 10 (-5) j)).
Proof.
  split; [vm_compute; reflexivity|]. split; [vm_compute; reflexivity|]. split; [vm_compute; reflexivity|]. split; [vm_compute; reflexivity|].
  split; [cbn; lia|]. unfold int_in, element. change (2 ^ (32 - 1))%Z with 2147483648%Z. split; lia.
Qed.

Print Assumptions C43_variable_agrees_partial.
Print Assumptions C43_variable_indexed_partial.
Print Assumptions C43_too_many_indices.
Print Assumptions C43_step_ignored_refuted.
Print Assumptions C43_steps_refuted.
Print Assumptions C43_backwards_refuted.
Print Assumptions C43_raises_refuted.
Print Assumptions C44_int_coordinate_partial.
Print Assumptions C44_time_coordinate_partial.
Print Assumptions C44_float_coordinate_partial.
Print Assumptions C44_raises_refuted.
Print Assumptions C44_ends_refuted.
