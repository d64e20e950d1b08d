(** * Properties C43 and C44: exactly which indices of variables and coordinates give an answer *)
From Verif Require Import Base BaseFacts FixedModel GeomModel GeomProofs BitmapModel DacModel StreamModel ChunkModel NodeModel SuperModel ArrayModel ArrayProofs FloatModel
  DatasetModel PyModel PropertiesPython.
Open Scope nat_scope.

(** The index does not reach out of an axis of [n] elements: a number is that of an element, and of
    a slice both ends are, the larger not being 0. *)
Definition within (n : nat) (i : index) : Prop :=
  match i with
  | PInt z => (0 <= z < Z.of_nat n)%Z
  | PSlice start stop _ =>
      (0 <= or_default start 0 /\ 0 <= or_default stop (Z.of_nat n) /\
       0 < Z.max (or_default start 0) (or_default stop (Z.of_nat n)) <= Z.of_nat n)%Z
  end.
(** The index selects something, if the axis is long enough. *)
Definition selects (n : nat) (i : index) : Prop :=
  match i with
  | PInt _ => True
  | PSlice start stop step => or_default step 1 = 1%Z /\ (or_default start 0 < or_default stop (Z.of_nat n))%Z
  end.

Lemma obind_value {A B} (x : outcome A) (f : A -> outcome B) b : PyModel.obind x f = Value b -> exists a, x = Value a /\ f a = Value b.
Proof. destruct x as [a| |]; cbn; intros H; try discriminate. eauto. Qed.
Lemma of_res_value {A} (x : res A) a : of_res x = Value a -> x = Ok a.
Proof. destruct x as [y| | |]; cbn; intros H; try discriminate. congruence. Qed.
Lemma as_usize_value z k : as_usize z = Value k -> exists y, z = Some y /\ (0 <= y)%Z /\ k = Z.to_nat y.
Proof.
  unfold as_usize. destruct z as [y|]; [|discriminate]. destruct (Z.leb_spec 0 y) as [L|L]; cbn [andb]; [|discriminate].
  destruct (y <? _)%Z; [|discriminate]. intros H. injection H as <-. eauto.
Qed.

Lemma slice_within q i lo hi : as_usize (start_of (as_slice (fix_index q i))) = Value lo -> as_usize (stop_of (as_slice (fix_index q i))) = Value hi ->
  0 < Nat.max lo hi <= q -> within q i.
Proof.
  intros H1 H2 HB. apply as_usize_value in H1. apply as_usize_value in H2. destruct H1 as (y1 & E1 & L1 & ->). destruct H2 as (y2 & E2 & L2 & ->).
  destruct i as [z|start stop step].
  - cbn in E1, E2. injection E1 as <-. injection E2 as <-. cbn [within]. lia.
  - assert (y1 = or_default start 0%Z /\ y2 = or_default stop (Z.of_nat q)) as (-> & ->) by (unfold fix_index in E1, E2; destruct start, stop; cbn [as_slice start_of stop_of or_default] in *; split; congruence).
    cbn [within]. lia.
Qed.
Lemma int_within q i z : fix_index q i = PInt z -> i = PInt z.
Proof. destruct i as [y|start stop step]; cbn; [auto|]. destruct start, stop; discriminate. Qed.
Lemma bounds_inv m n h w t r c u : mm_shape m = Ok (n, h, w) -> ArrayModel.check_bounds m t r c = Ok u -> t < n /\ r < h /\ c < w.
Proof.
  intros E H. unfold ArrayModel.check_bounds in H. rewrite E in H. cbn [bind] in H.
  destruct (Nat.leb_spec n t), (Nat.leb_spec h r), (Nat.leb_spec w c); cbn in H; try discriminate. auto.
Qed.
Lemma usub_inv a b c : usub a b = Ok c -> b <= a /\ c = a - b.
Proof. unfold usub. destruct (Nat.leb_spec b a); intros E; try discriminate; injection E as <-; auto. Qed.

Section Exact.
  Context {A : Type}.
  Variables (R : reader A) (st : store) (fuel : nat) (order : list call -> list call) (m : mmstruct) (n h w : nat).
  Hypothesis Sh : mm_shape m = Ok (n, h, w).

  Lemma window_inv i j k x : py_window R st fuel order m (as_slice (fix_index n i)) (as_slice (fix_index h j)) (as_slice (fix_index w k)) = Value x ->
    within n i /\ within h j /\ within w k.
  Proof.
    intros H. unfold py_window in H.
    apply obind_value in H. destruct H as (a & Ea & H). apply obind_value in H. destruct H as (b & Eb & H).
    apply obind_value in H. destruct H as (tp & Et & H). apply obind_value in H. destruct H as (bt & Ebt & H).
    apply obind_value in H. destruct H as (lf & El & H). apply obind_value in H. destruct H as (rt & Er & H).
    apply obind_value in H. destruct H as (y & Ey & _). apply of_res_value in Ey. unfold arr_window in Ey.
    apply bind_inv in Ey. destruct Ey as (u & Eu & _). unfold check_cube in Eu. rewrite cube_new_spec in Eu. cbn [c_end c_bottom c_right] in Eu.
    apply bind_inv in Eu. destruct Eu as (t & Ut & Eu). apply bind_inv in Eu. destruct Eu as (r & Ur & Eu). apply bind_inv in Eu. destruct Eu as (c & Uc & Eu).
    apply usub_inv in Ut. apply usub_inv in Ur. apply usub_inv in Uc. destruct (bounds_inv _ _ _ _ _ _ _ _ Sh Eu) as (B1 & B2 & B3).
    split; [|split].
    - eapply slice_within; [exact Ea|exact Eb|lia].
    - eapply slice_within; [exact Et|exact Ebt|lia].
    - eapply slice_within; [exact El|exact Er|lia].
  Qed.

  Lemma cases_inv T Q C mask a :
    match T, Q, C with
    | PInt t, PInt r, PInt c => py_get R st fuel m t r c
    | PSlice start stop _, PInt r, PInt c => py_cell R st fuel m start stop r c
    | _, _, _ => PyModel.obind (py_window R st fuel order m (as_slice T) (as_slice Q) (as_slice C)) (fun array =>
        match np_getitem array mask with Some x => Value x | None => Raises end)
    end = Value a ->
    (exists x, py_window R st fuel order m (as_slice T) (as_slice Q) (as_slice C) = Value x) \/
    (exists t r c x, T = PInt t /\ Q = PInt r /\ C = PInt c /\ py_get R st fuel m t r c = Value x) \/
    (exists r c x, is_int T = false /\ Q = PInt r /\ C = PInt c /\ py_cell R st fuel m (start_of T) (stop_of T) r c = Value x).
  Proof.
    intros H. destruct T as [t|s0 s1 s2], Q as [r|t0 t1 t2], C as [c|u0 u1 u2];
      try (left; apply obind_value in H; destruct H as (x & E & _); exists x; exact E); right.
    - left. exists t, r, c. eauto 10.
    - right. exists r, c. eauto 10.
  Qed.

  Lemma body_inv i j k mask a :
    match fix_index n i, fix_index h j, fix_index w k with
    | PInt t, PInt r, PInt c => py_get R st fuel m t r c
    | PSlice start stop _, PInt r, PInt c => py_cell R st fuel m start stop r c
    | _, _, _ => PyModel.obind (py_window R st fuel order m (as_slice (fix_index n i)) (as_slice (fix_index h j)) (as_slice (fix_index w k))) (fun array =>
        match np_getitem array mask with Some x => Value x | None => Raises end)
    end = Value a -> within n i /\ within h j /\ within w k.
  Proof.
    intros H. assert (G := cases_inv _ _ _ _ _ H).
    destruct G as [(x & E)|[(t & r & c & x & E1 & E2 & E3 & E)|(r & c & x & E1 & E2 & E3 & E)]]; [exact (window_inv i j k x E)| |].
    - apply int_within in E1. apply int_within in E2. apply int_within in E3. subst i j k. unfold py_get in E.
      apply obind_value in E. destruct E as (t' & Et & E). apply obind_value in E. destruct E as (r' & Er & E). apply obind_value in E. destruct E as (c' & Ec & E).
      apply obind_value in E. destruct E as (y & Ey & _). apply of_res_value in Ey. unfold arr_get in Ey. apply bind_inv in Ey. destruct Ey as (u & Eu & _).
      destruct (bounds_inv _ _ _ _ _ _ _ _ Sh Eu) as (B1 & B2 & B3). apply as_usize_value in Et, Er, Ec.
      destruct Et as (? & Et & ? & ->), Er as (? & Er & ? & ->), Ec as (? & Ec & ? & ->). injection Et as <-. injection Er as <-. injection Ec as <-. cbn [within]. lia.
    - apply int_within in E2. apply int_within in E3. subst j k. unfold py_cell in E.
      apply obind_value in E. destruct E as (a0 & Ea & E). apply obind_value in E. destruct E as (b0 & Eb & E). apply obind_value in E. destruct E as (r' & Er & E).
      apply obind_value in E. destruct E as (c' & Ec & E). apply obind_value in E. destruct E as (y & Ey & _). apply of_res_value in Ey. unfold arr_cell in Ey.
      apply bind_inv in Ey. destruct Ey as (l & El & Ey). apply bind_inv in Ey. destruct Ey as (u & Eu & Ey). apply bind_inv in Ey. destruct Ey as (q & Eq & _).
      apply usub_inv in El. apply usub_inv in Eq. destruct (bounds_inv _ _ _ _ _ _ _ _ Sh Eu) as (B1 & B2 & B3). apply as_usize_value in Er, Ec.
      destruct Er as (? & Er & ? & ->), Ec as (? & Ec & ? & ->). injection Er as <-. injection Ec as <-. split; [|cbn [within]; lia].
      apply (slice_within n i a0 b0); [| |lia]; (destruct (fix_index n i) as [t|s0 s1 s2]; [discriminate|]); cbn [as_slice]; assumption.
  Qed.

  Lemma getitem_within idx a : var_getitem R st fuel order m idx = Value a -> length idx <= 3 /\ each within [n; h; w] idx.
  Proof.
    intros H. unfold var_getitem in H. destruct (3 <? length idx) eqn:E; [discriminate|]. apply Nat.ltb_ge in E. split; [exact E|].
    rewrite Sh in H. cbn [of_res PyModel.obind] in H. set (P := PSlice (Some 0%Z) None None) in H.
    destruct idx as [|i [|j [|k [|l idx]]]]; [exact Logic.I| | | |cbn [length] in E; lia];
      cbn [length app combine repeat map fst snd Nat.sub] in H; apply (body_inv _ _ _ _ _) in H; cbn [each]; tauto.
  Qed.
End Exact.

(** ** C43: whatever the indices, an answer says that none reaches out of the array *)
Theorem C43_no_answer_outside : forall A (R : reader A) st fuel order m n h w g idx a,
  reads_as R st fuel m n h w g -> var_getitem R st fuel order m idx = Value a -> length idx <= 3 /\ each within [n; h; w] idx.
Proof. intros A R st fuel order m n h w g idx a HR H. exact (getitem_within R st fuel order m n h w (ra_shape _ _ _ _ _ _ _ _ HR) idx a H). Qed.

(** ** C43: exactly when there is an answer, for indices that select something *)
Theorem C43_exactly_when : forall A (R : reader A) st fuel order m n h w g idx,
  reads_as R st fuel m n h w g -> (forall l, Permutation l (order l)) ->
  0 < n -> 0 < h -> 0 < w -> (Z.of_nat n < 2 ^ 64)%Z -> (Z.of_nat h < 2 ^ 64)%Z -> (Z.of_nat w < 2 ^ 64)%Z ->
  each selects [n; h; w] idx ->
  ((exists a, var_getitem R st fuel order m idx = Value a) <-> length idx <= 3 /\ each inside [n; h; w] idx).
Proof.
  intros A R st fuel order m n h w g idx HR HO Hn Hh Hw Ln Lh Lw HS. split.
  - intros (a & H). destruct (C43_no_answer_outside A R st fuel order m n h w g idx a HR H) as (HL & HI). split; [exact HL|]. clear -HS HI. revert HS HI.
    assert (G : forall q i, selects q i -> within q i -> inside q i).
    { intros q i. destruct i as [z|start stop step]; cbn [selects within inside]; [auto|]. intros (H1 & H2) (H3 & H4 & H5). split; [exact H1|]. lia. }
    generalize [n; h; w]. intros shape. revert idx. induction shape as [|q shape IH]; intros [|i idx]; cbn [each]; auto. intros [H1 H2] [H3 H4]. auto.
  - intros (HL & HI). destruct (C43_variable_indexed_partial A R st fuel order m n h w g idx HR HO Hn Hh Hw Ln Lh Lw HL HI) as (a & b & E & _). eauto.
Qed.

(** ** C43: whatever the data, a slice of time that ends before it starts is turned round, where numpy's is empty *)
Lemma window_turned {A} (R : reader A) st fuel order m x y r c : (0 <= x < 2 ^ 64)%Z -> (0 <= y < 2 ^ 64)%Z ->
  py_window R st fuel order m (PSlice (Some x) (Some y) None) r c = py_window R st fuel order m (PSlice (Some y) (Some x) None) r c.
Proof.
  intros Hx Hy. unfold py_window. cbn [start_of stop_of].
  assert (U : forall z, (0 <= z < 2 ^ 64)%Z -> as_usize (Some z) = Value (Z.to_nat z)).
  { intros z Hz. unfold as_usize. replace ((0 <=? z) && (z <? 2 ^ 64))%Z with true by lia. reflexivity. }
  rewrite (U x Hx), (U y Hy). cbn [PyModel.obind].
  destruct (as_usize (start_of r)) as [tp| |]; cbn [PyModel.obind]; [|reflexivity..]. destruct (as_usize (stop_of r)) as [bt| |]; cbn [PyModel.obind]; [|reflexivity..].
  destruct (as_usize (start_of c)) as [lf| |]; cbn [PyModel.obind]; [|reflexivity..]. destruct (as_usize (stop_of c)) as [rt| |]; cbn [PyModel.obind]; [|reflexivity..].
  rewrite !cube_new_spec. rewrite (Nat.min_comm (Z.to_nat x)), (Nat.max_comm (Z.to_nat x)). reflexivity.
Qed.
Lemma item_turned {A} (R : reader A) st fuel order m x y rest : (0 <= x < 2 ^ 64)%Z -> (0 <= y < 2 ^ 64)%Z -> length rest <= 2 ->
  (forall r c, rest <> [PInt r; PInt c]) ->
  var_getitem R st fuel order m (PSlice (Some x) (Some y) None :: rest) = var_getitem R st fuel order m (PSlice (Some y) (Some x) None :: rest).
Proof.
  intros Hx Hy HL HN. unfold var_getitem. destruct (of_res (mm_shape m)) as [[[n h] w]| |]; cbn [PyModel.obind]; [|reflexivity..].
  destruct rest as [|i [|j [|k rest]]]; [| | |cbn [length] in HL; lia]; cbn [length app combine repeat map fst snd Nat.sub].
  - cbn [fix_index as_slice]. rewrite (window_turned R st fuel order m x y) by assumption. reflexivity.
  - cbn [fix_index as_slice]. destruct i as [r|s0 s1 s2]; cbn [fix_index]; [|destruct s0, s1]; cbn [as_slice]; rewrite (window_turned R st fuel order m x y) by assumption; reflexivity.
  - destruct i as [r|s0 s1 s2], j as [c|t0 t1 t2]; [destruct (HN r c eq_refl)|..];
      repeat match goal with |- context [fix_index _ (PSlice ?a ?b ?c)] => is_var a; destruct a | |- context [fix_index _ (PSlice ?a ?b ?c)] => is_var b; destruct b end;
      cbn [fix_index as_slice]; rewrite (window_turned R st fuel order m x y) by assumption; reflexivity.
Qed.

Theorem C43_turned_round_refuted : forall A (R : reader A) st fuel order m n h w g x y rest,
  reads_as R st fuel m n h w g -> (forall l, Permutation l (order l)) ->
  0 < h -> 0 < w -> (Z.of_nat n < 2 ^ 64)%Z -> (Z.of_nat h < 2 ^ 64)%Z -> (Z.of_nat w < 2 ^ 64)%Z ->
  (0 <= y < x)%Z -> (x <= Z.of_nat n)%Z -> length rest <= 2 -> each inside [h; w] rest -> (forall r c, rest <> [PInt r; PInt c]) ->
  let idx := PSlice (Some x) (Some y) None :: rest in
  exists a b shape, var_getitem R st fuel order m idx = Value a /\ np_getitem (nd3 (rd_zero R) (mkArray3 (n, h, w) g)) idx = Some b /\
    nd_shape a = Z.to_nat (x - y) :: shape /\ nd_shape b = 0 :: shape.
Proof.
  intros A R st fuel order m n h w g x y rest HR HO Hh Hw Ln Lh Lw Hxy Hxn HL HI HN idx.
  assert (HI2 : each inside [n; h; w] (PSlice (Some y) (Some x) None :: rest)) by (cbn [each inside or_default]; split; [lia|exact HI]).
  destruct (C43_variable_indexed_partial A R st fuel order m n h w g (PSlice (Some y) (Some x) None :: rest) HR HO ltac:(lia) Hh Hw Ln Lh Lw) as (a & b & E & N & (Sh & _));
    [cbn [length]; lia|exact HI2|].
  unfold idx. rewrite (item_turned R st fuel order m x y rest) by (assumption || lia). exists a. rewrite E.
  assert (AX : forall i, np_axes [n; h; w] (i :: rest) = match np_axis n i, np_axes [h; w] rest with Some a, Some l => Some (a :: l) | _, _ => None end) by reflexivity.
  unfold np_getitem in *. cbn [nd3 nd_shape a3_shape] in *. rewrite AX in *. clear AX. destruct (np_axes [h; w] rest) as [l|] eqn:El.
  - cbn [np_axis np_bound] in *. replace (1 =? 0)%Z with false in * by reflexivity. replace (1 <? 0)%Z with false in * by reflexivity.
    replace (x <? 0)%Z with false in * by lia. replace (y <? 0)%Z with false in * by lia.
    rewrite (Z.min_l x) in * by lia. rewrite (Z.min_l y) in * by lia. replace (y <? x)%Z with true in N by lia. replace (x <? y)%Z with false by lia.
    injection N as <-. cbn [nd_shape np_shape flat_map app] in Sh. eexists. exists (np_shape l). split; [reflexivity|]. split; [reflexivity|].
    split; [rewrite Sh, Z.div_1_r; f_equal; lia|reflexivity].
  - destruct (np_axis n (PSlice (Some y) (Some x) None)); discriminate.
Qed.

(** [v[3:1, 1:3]] of an array of 3 times 4 times 4. *)
Example C43_turned_example : exists a b shape, ex_item [upto 3 1; upto 1 3] = Value a /\ np_getitem ex_np [upto 3 1; upto 1 3] = Some b /\
  nd_shape a = 2 :: shape /\ nd_shape b = 0 :: shape.
Proof.
  apply (C43_turned_round_refuted Z reader_i32 ex_store 5 (@rev call) ex_m 3 4 4 ex_g 3 1 [upto 1 3] ex_reads); try lia; try (cbn; lia).
  - intros l. apply Permutation_rev.
  - intros r c. discriminate.
Qed.

(** Of an array of 3 times 4 times 4: [v[1, 1:3]] selects what is there, [v[1:4]] and [v[0, -1]]
    do not. *)
Example C43_exactly_example :
  (forall idx, each selects [3; 4; 4] idx -> ((exists a, ex_item idx = Value a) <-> length idx <= 3 /\ each inside [3; 4; 4] idx)) /\
  each selects [3; 4; 4] [PInt 1; upto 1 3] /\ (exists a, ex_item [PInt 1; upto 1 3] = Value a) /\
  each selects [3; 4; 4] [upto 1 4] /\ ~ (exists a, ex_item [upto 1 4] = Value a) /\
  each selects [3; 4; 4] [PInt 0; PInt (-1)] /\ ~ (exists a, ex_item [PInt 0; PInt (-1)] = Value a).
Proof.
  assert (G : forall idx, each selects [3; 4; 4] idx -> ((exists a, ex_item idx = Value a) <-> length idx <= 3 /\ each inside [3; 4; 4] idx)).
  { intros idx. apply (C43_exactly_when Z reader_i32 ex_store 5 (@rev call) ex_m 3 4 4 ex_g idx ex_reads); try lia. intros l. apply Permutation_rev. }
  split; [exact G|].
  assert (S1 : each selects [3; 4; 4] [PInt 1; upto 1 3]) by (cbn; lia).
  assert (S2 : each selects [3; 4; 4] [upto 1 4]) by (cbn; lia).
  assert (S3 : each selects [3; 4; 4] [PInt 0; PInt (-1)]) by (cbn; auto).
  split; [exact S1|]. split; [apply (G _ S1); cbn; lia|]. split; [exact S2|]. split; [rewrite (G _ S2); cbn; lia|]. split; [exact S3|]. rewrite (G _ S3); cbn; lia.
Qed.

(** ** C44: exactly when there is an answer, for an index of a coordinate that selects something *)
From Flocq Require Import Core.Core IEEE754.BinarySingleNaN.
From Verif Require Import RangeModel PropertiesRange.
Open Scope nat_scope.

(** Without a step: giving one raises, whatever it is (C44_raises_refuted). *)
Definition no_step (i : index) : Prop := match i with PSlice _ _ (Some _) => False | _ => True end.
Lemma range_bounds_inv n i u : RangeModel.check_bounds n i = Ok u -> i < n.
Proof. unfold RangeModel.check_bounds. destruct (Nat.leb_spec n i); [discriminate|auto]. Qed.
Lemma coord_inside {A} (get : nat -> res A) slice d n i y :
  (forall j x, get j = Ok x -> j < n) -> (forall a b l, slice a b = Ok l -> 0 < b <= n) ->
  selects n i -> coord_getitem get slice (Ok n) d i = Value y -> inside n i.
Proof.
  intros HG HS Hi H. destruct i as [z|start stop step]; cbn [coord_getitem selects inside] in *.
  - apply obind_value in H. destruct H as (k & Ek & H). apply obind_value in H. destruct H as (x & Ex & _). apply of_res_value in Ex. apply HG in Ex.
    apply as_usize_value in Ek. destruct Ek as (z' & Ez & L & ->). injection Ez as <-. lia.
  - destruct step as [step|]; [discriminate|]. destruct Hi as (_ & Hi). split; [reflexivity|].
    apply obind_value in H. destruct H as (q & Eq & H). apply obind_value in H. destruct H as (a & Ea & H). apply obind_value in H. destruct H as (b & Eb & H).
    apply obind_value in H. destruct H as (l & El & _). apply of_res_value in El. apply HS in El.
    apply as_usize_value in Ea, Eb. destruct Ea as (a' & Ea & La & ->), Eb as (b' & Eb & Lb & ->).
    assert (a' = or_default start 0%Z) as -> by (destruct start; cbn [or_default]; congruence).
    assert (b' = or_default stop (Z.of_nat n)) as -> by (destruct stop; cbn [or_default of_res PyModel.obind] in *; congruence). lia.
Qed.

Theorem C44_int_exactly_when : forall bits start step n i, (0 < bits)%Z -> step <> 0%Z -> (Z.of_nat n < 2 ^ 64)%Z ->
  int_in bits (Z.of_nat n) -> int_in bits (Z.of_nat n * step) -> (forall j, j < n -> int_in bits (element start step j)) ->
  selects n i ->
  let r := mkIntRange start step n in
  ((exists y, coord_getitem (int_get bits r) (int_slice bits r) (Ok n) 0%Z i = Value y) <-> inside n i /\ no_step i).
Proof.
  intros bits start step n i Hb Hs H64 Hn Hw He Hi r. split.
  - intros (y & H). split.
    + refine (coord_inside _ _ _ n i y _ _ Hi H).
      * intros j x G. unfold int_get in G. apply bind_inv in G. destruct G as (u & G & _). exact (range_bounds_inv _ _ _ G).
      * intros a b l G. unfold int_slice in G. apply bind_inv in G. destruct G as (k & Ek & G). apply bind_inv in G. destruct G as (u & G & _).
        apply usub_inv in Ek. apply range_bounds_inv in G. cbn [r ir_steps] in G. lia.
    + destruct i as [z|a b [c|]]; cbn [no_step]; auto. discriminate H.
  - intros (HI & HN). destruct (C44_int_coordinate_partial bits start step n i Hb Hs H64 Hn Hw He HI HN) as (y & a & E & _). eauto.
Qed.

Theorem C44_float_exactly_when : forall prec emax (Hp : Prec_gt_0 prec) (He : Prec_lt_emax prec emax)
    (r : float_range prec emax) e start step d i, (65 <= emax)%Z -> (prec <= 63)%Z ->
  exact_range r e start step (fr_steps r) -> (Z.of_nat (fr_steps r) < 2 ^ 64)%Z ->
  selects (fr_steps r) i ->
  ((exists y, coord_getitem (float_get r) (float_slice r) (Ok (fr_steps r)) d i = Value y) <-> inside (fr_steps r) i /\ no_step i).
Proof.
  intros prec emax Hp He r e start step d i Hx Hq HE H64 Hi. split.
  - intros (y & H). split.
    + refine (coord_inside _ _ _ (fr_steps r) i y _ _ Hi H).
      * intros j x G. unfold float_get in G. apply bind_inv in G. destruct G as (u & G & _). exact (range_bounds_inv _ _ _ G).
      * intros a b l G. unfold float_slice in G. apply bind_inv in G. destruct G as (k & Ek & G). apply bind_inv in G. destruct G as (u & G & _).
        apply usub_inv in Ek. apply range_bounds_inv in G. lia.
    + destruct i as [z|a b [c|]]; cbn [no_step]; auto. discriminate H.
  - intros (HI & HN). destruct (C44_float_coordinate_partial prec emax Hp He r e start step d i Hx Hq HE H64 HI HN) as (y & a & E & _). eauto.
Qed.

(** A time coordinate has no end: any indices are answered exactly when they do not count from the
    end, fit 64 bits and, if slices, have a stop and no step. *)
Theorem C44_time_exactly_when : forall start step i,
  let r := mkTimeRange start step in
  let fits z := (0 <= z < 2 ^ 64)%Z in
  ((exists y, coord_getitem (fun j => Ok (time_get r j)) (fun a b => Ok (time_slice r a b)) (Err ETimeIsInfinite) 0%Z i = Value y) <->
   match i with
   | PInt z => fits z
   | PSlice a (Some b) None => fits (or_default a 0%Z) /\ fits b
   | _ => False
   end).
Proof.
  intros start step i r fits.
  assert (U : forall z, (exists k, as_usize (Some z) = Value k) <-> fits z).
  { intros z. unfold as_usize, fits. destruct (Z.leb_spec 0 z), (Z.ltb_spec z (2 ^ 64)); cbn [andb]; (split; [intros (k & E); try discriminate; lia|intros K; try lia; eauto]). }
  destruct i as [z|a [b|] [c|]]; cbn [coord_getitem PyModel.obind of_res].
  - rewrite <- U. split.
    + intros (y & H). apply obind_value in H. destruct H as (k & E & _). eauto.
    + intros (k & E). rewrite E. cbn [PyModel.obind]. eauto.
  - split; [intros (y & H); discriminate|tauto].
  - rewrite <- !U. replace (match a with Some z => Some z | None => Some 0%Z end) with (Some (or_default a 0%Z)) by (destruct a; reflexivity). split.
    + intros (y & H). apply obind_value in H. destruct H as (k & E & H). apply obind_value in H. destruct H as (l & E2 & _). eauto.
    + intros ((k & E) & (l & E2)). rewrite E. cbn [PyModel.obind]. rewrite E2. cbn [PyModel.obind]. eauto.
  - split; [intros (y & H); discriminate|tauto].
  - split; [intros (y & H); discriminate|tauto].
Qed.

(** The coordinate 10, 5, 0, -5: [c[1:3]] and [c[3]] are answered, [c[1:5]], [c[-1]] and [c[0:4:1]] not. *)
Example C44_exactly_example :
  (forall i, selects 4 i -> ((exists y, ex_coord 10 (-5) 4 i = Value y) <-> inside 4 i /\ no_step i)) /\
  (exists y, ex_coord 10 (-5) 4 (upto 1 3) = Value y) /\ (exists y, ex_coord 10 (-5) 4 (PInt 3) = Value y) /\
  selects 4 (upto 1 5) /\ ~ inside 4 (upto 1 5) /\ selects 4 (PInt (-1)) /\ ~ inside 4 (PInt (-1)) /\
  selects 4 (PSlice (Some 0%Z) (Some 4%Z) (Some 1%Z)) /\ ~ no_step (PSlice (Some 0%Z) (Some 4%Z) (Some 1%Z)).
Proof.
  assert (G : forall i, selects 4 i -> ((exists y, ex_coord 10 (-5) 4 i = Value y) <-> inside 4 i /\ no_step i)).
  { intros i. apply (C44_int_exactly_when 32 10 (-5) 4 i); try lia; unfold int_in, element; change (2 ^ (32 - 1))%Z with 2147483648%Z; [|lia..].
    split; lia. }
  split; [exact G|]. split; [apply G; cbn; lia|]. split; [apply G; cbn; lia|].
  split; [cbn; lia|]. split; [cbn; lia|]. split; [exact Logic.I|]. split; [cbn; lia|]. split; [cbn; lia|]. cbn. auto.
Qed.

Print Assumptions C43_no_answer_outside.
Print Assumptions C43_exactly_when.
Print Assumptions C43_turned_round_refuted.
Print Assumptions C44_int_exactly_when.
Print Assumptions C44_float_exactly_when.
Print Assumptions C44_time_exactly_when.
