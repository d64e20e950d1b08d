(** * Proofs about the DAC model. *)
From Verif Require Import Base BaseFacts BitmapModel BitmapProofs DacModel.
Ltac Zify.zify_post_hook ::= Z.div_mod_to_equations.

(** ** zigzag *)
Lemma zigzag_encode_val n : i64_range n ->
  zigzag_encode n = Z.to_N (if (0 <=? n)%Z then 2 * n else -2 * n - 1)%Z.
Proof.
  intros Hn. unfold zigzag_encode. f_equal.
  rewrite Z.shiftl_mul_pow2 by lia. change (2 ^ 1)%Z with 2%Z.
  destruct (Z.leb_spec 0 n) as [H|H].
  - replace (Z.shiftr n 63) with 0%Z.
    2:{ symmetry. rewrite Z.shiftr_div_pow2 by lia. apply Z.div_small. split; [exact H|apply Hn]. }
    rewrite Z.lxor_0_l. destruct (wrap64_eqm (n * 2)) as [q ->].
    rewrite Z.mod_add by discriminate. unfold i64_range, two63, two64 in *. lia.
  - replace (Z.shiftr n 63) with (-1)%Z.
    2:{ symmetry. rewrite Z.shiftr_div_pow2 by lia. unfold i64_range, two63 in Hn.
        change (2 ^ 63)%Z with 9223372036854775808%Z. lia. }
    rewrite Z.lxor_m1_l. unfold Z.lnot. destruct (wrap64_eqm (n * 2)) as [q ->].
    replace (Z.pred (- (n * 2 + q * two64)))%Z with ((-2 * n - 1) + (- q) * two64)%Z by lia.
    rewrite Z.mod_add by discriminate. unfold i64_range, two63, two64 in *. lia.
Qed.

Lemma zigzag_encode_bound n : i64_range n -> (zigzag_encode n < 2 ^ 64)%N.
Proof.
  intros Hn. rewrite zigzag_encode_val by exact Hn. unfold i64_range, two63 in Hn.
  change (2 ^ 64)%N with 18446744073709551616%N. destruct (Z.leb_spec 0 n); lia.
Qed.

Lemma lxor_ones64 a : (a < 2 ^ 64)%N -> N.lxor a 18446744073709551615 = (18446744073709551615 - a)%N.
Proof.
  intros Ha. change 18446744073709551615%N with (N.ones 64).
  change (N.lxor a (N.ones 64)) with (N.lnot a 64).
  apply N.lnot_sub_low. destruct (N.eq_dec a 0) as [->|H]; [reflexivity|].
  apply N.log2_lt_pow2; lia.
Qed.

Lemma zigzag_decode_val zz : (zz < 2 ^ 64)%N ->
  zigzag_decode zz = (if N.odd zz then - Z.of_N (zz / 2) - 1 else Z.of_N (zz / 2))%Z.
Proof.
  intros Hz. unfold zigzag_decode. rewrite <- N.div2_spec, N.div2_div.
  change (2 ^ 64)%N with 18446744073709551616%N in Hz.
  destruct (N.odd zz).
  - rewrite lxor_ones64 by (change (2 ^ 64)%N with 18446744073709551616%N; lia).
    apply wrap64_uniq with (q := 1%Z); unfold i64_range, two63, two64; lia.
  - rewrite N.lxor_0_r. apply wrap64_id. unfold i64_range, two63. lia.
Qed.

Lemma zigzag_roundtrip n : i64_range n -> zigzag_decode (zigzag_encode n) = n.
Proof.
  intros Hn. rewrite zigzag_decode_val by (apply zigzag_encode_bound; exact Hn).
  rewrite zigzag_encode_val by exact Hn.
  destruct (Z.leb_spec 0 n).
  - replace (N.odd (Z.to_N (2 * n))) with false; [lia|].
    symmetry. rewrite Z2N.inj_mul by lia. change (Z.to_N 2) with 2%N.
    rewrite N.odd_mul. reflexivity.
  - replace (N.odd (Z.to_N (-2 * n - 1))) with true; [lia|].
    replace (Z.to_N (-2 * n - 1)) with (1 + 2 * Z.to_N (- n - 1))%N by lia.
    rewrite N.odd_add, N.odd_mul. reflexivity.
Qed.

Lemma zigzag_decode_range zz : i64_range (zigzag_decode zz).
Proof. apply wrap64_range. Qed.

Lemma zigzag_roundtrip_inv zz : (zz < 2 ^ 64)%N -> zigzag_encode (zigzag_decode zz) = zz.
Proof.
  intros Hz. rewrite zigzag_encode_val by apply zigzag_decode_range.
  rewrite zigzag_decode_val by exact Hz.
  destruct (N.odd zz) eqn:E.
  - apply N.odd_spec in E. destruct E as [m ->].
    replace ((2 * m + 1) / 2)%N with m by lia.
    destruct (Z.leb_spec 0 (- Z.of_N m - 1)); lia.
  - rewrite <- N.negb_even in E. apply negb_false_iff, N.even_spec in E. destruct E as [m ->].
    replace (2 * m / 2)%N with m by lia.
    destruct (Z.leb_spec 0 (Z.of_N m)); lia.
Qed.

(** ** Levels: what each level must hold. *)
Definition lvl_more (d : N) : bool := negb (N.shiftr d 8 =? 0)%N.

Fixpoint levels_spec (n : nat) (D : list N) : list (list bool * list N) :=
  match n with
  | 0 => []
  | S n' => (map lvl_more D, map (fun d => N.land d 255) D)
              :: levels_spec n' (map (fun d => N.shiftr d 8) (filter lvl_more D))
  end.

Definition to_builder (l : list bool * list N) : builder * list N :=
  (fold_left builder_push (fst l) builder_new, snd l).

Lemma push_datum_spec n D d :
  push_datum (map to_builder (levels_spec n D)) d = map to_builder (levels_spec n (D ++ [d])).
Proof.
  revert D d; induction n as [|n IH]; intros D d; [reflexivity|].
  cbn [levels_spec map].
  assert (E1 : to_builder (map lvl_more (D ++ [d]), map (fun d => N.land d 255) (D ++ [d])) =
    (builder_push (fold_left builder_push (map lvl_more D) builder_new) (lvl_more d),
     map (fun d => N.land d 255) D ++ [N.land d 255])).
  { unfold to_builder. cbn [fst snd]. rewrite !map_app, fold_left_app. reflexivity. }
  rewrite E1. clear E1.
  change (to_builder (map lvl_more D, map (fun d => N.land d 255) D))
    with (fold_left builder_push (map lvl_more D) builder_new, map (fun d => N.land d 255) D).
  cbn [push_datum]. rewrite filter_app. cbn [filter].
  destruct (N.eqb_spec (N.shiftr d 8) 0) as [E|E].
  - assert (E2 : lvl_more d = false) by (unfold lvl_more; rewrite E; reflexivity).
    rewrite E2, app_nil_r. reflexivity.
  - assert (E2 : lvl_more d = true).
    { unfold lvl_more. apply negb_true_iff, N.eqb_neq. exact E. }
    rewrite E2, map_app. cbn [map]. rewrite IH. reflexivity.
Qed.

Lemma push_data_spec n data :
  fold_left (fun ls d => push_datum ls (zigzag_encode d)) data (repeat (builder_new, @nil N) n)
  = map to_builder (levels_spec n (map zigzag_encode data)).
Proof.
  induction data as [|d data IH] using rev_ind.
  - cbn [fold_left map]. induction n as [|n IH]; cbn [repeat levels_spec map]; [reflexivity|].
    rewrite IH. reflexivity.
  - rewrite fold_left_app, map_app, IH. cbn [fold_left map]. apply push_datum_spec.
Qed.

Definition nonempty_lvl (l : list bool * list N) : bool := 0 <? length (fst l).

Lemma take_while_map {A B} (f : A -> B) p l :
  take_while p (map f l) = map f (take_while (fun x => p (f x)) l).
Proof. induction l as [|x xs IH]; cbn [map take_while]; [reflexivity|]. destruct (p (f x)); cbn [map]; congruence. Qed.

Lemma take_while_ext {A} (p q : A -> bool) l : (forall x, p x = q x) -> take_while p l = take_while q l.
Proof. intros H. induction l as [|x xs IH]; cbn [take_while]; [reflexivity|]. rewrite H, IH. reflexivity. Qed.

(** A level of a DAC represents (bits, bytes). *)
Definition level_rel (l : bitmap * list N) (s : list bool * list N) : Prop :=
  bitmap_rel (fst l) (fst s) /\ snd l = snd s.

Definition dac_rel (d : dac) (D : list N) : Prop :=
  Forall2 level_rel d (take_while nonempty_lvl (levels_spec 8 D)).

Lemma finish_levels ls :
  exists d, mapM (fun l => m <- builder_finish (fst l) ;; Ok (m, snd l)) (map to_builder ls) = Ok d
            /\ Forall2 level_rel d ls.
Proof.
  induction ls as [|l ls IH]; cbn [map mapM].
  - exists []. split; [reflexivity|constructor].
  - destruct (bitmap_of_ok (fst l)) as (m & Em & Rm). unfold bitmap_of in Em.
    unfold to_builder at 1. cbn [fst]. rewrite Em. cbn [bind].
    destruct IH as (d & Ed & Rd). rewrite Ed. cbn [bind].
    eexists. split; [reflexivity|]. constructor; [|exact Rd].
    split; [exact Rm|reflexivity].
Qed.

Lemma dac_of_ok data : exists d, dac_of data = Ok d /\ dac_rel d (map zigzag_encode data).
Proof.
  unfold dac_of. rewrite push_data_spec, take_while_map.
  rewrite (take_while_ext _ nonempty_lvl).
  - apply finish_levels.
  - intros l. unfold nonempty_lvl, to_builder. cbn [fst].
    destruct (pushes_rel (fst l)) as [-> _]. reflexivity.
Qed.

(** Position of an element among the elements kept by a filter. *)
Lemma nth_error_filter_rank {A} (p : A -> bool) (l : list A) i x :
  nth_error l i = Some x -> p x = true ->
  nth_error (filter p l) (count_occ Bool.bool_dec (firstn i (map p l)) true) = Some x.
Proof.
  revert i; induction l as [|y ys IH]; intros i Hi Hp; [destruct i; discriminate|].
  destruct i as [|i]; cbn [nth_error] in Hi.
  - injection Hi as ->. cbn [firstn map count_occ filter]. rewrite Hp. reflexivity.
  - cbn [map firstn count_occ filter].
    destruct (p y); destruct Bool.bool_dec; try congruence; cbn [nth_error]; apply IH; assumption.
Qed.

Lemma lor_split d i : i < 8 -> (d < 2 ^ (64 - 8 * N.of_nat i))%N ->
  N.lor (N.shiftl (N.land d 255) (N.of_nat (i * 8)) mod 2 ^ 64)
        (N.shiftl (N.shiftr d 8) (N.of_nat (S i * 8)) mod 2 ^ 64)
  = (N.shiftl d (N.of_nat (i * 8)) mod 2 ^ 64)%N.
Proof.
  intros Hi Hd. apply N.bits_inj. intros m. rewrite N.lor_spec.
  destruct (N.lt_ge_cases m 64) as [Hm|Hm].
  2:{ rewrite !N.mod_pow2_bits_high by exact Hm. reflexivity. }
  rewrite !N.mod_pow2_bits_low by exact Hm.
  destruct (N.lt_ge_cases m (N.of_nat (i * 8))) as [H1|H1].
  { rewrite !N.shiftl_spec_low by lia. reflexivity. }
  rewrite (N.shiftl_spec_high' _ (N.of_nat (i * 8))) by exact H1.
  rewrite (N.shiftl_spec_high' d (N.of_nat (i * 8))) by exact H1.
  rewrite N.land_spec. change 255%N with (N.ones 8).
  destruct (N.lt_ge_cases (m - N.of_nat (i * 8)) 8) as [H2|H2].
  - rewrite N.ones_spec_low by exact H2. rewrite andb_true_r.
    rewrite (N.shiftl_spec_low _ (N.of_nat (S i * 8))) by lia. apply orb_false_r.
  - rewrite N.ones_spec_high by exact H2. rewrite andb_false_r. cbn [orb].
    rewrite N.shiftl_spec_high' by lia. rewrite N.shiftr_spec by lia. f_equal. lia.
Qed.

Lemma levels_spec_nil_head n D ls :
  take_while nonempty_lvl (levels_spec n D) = ls -> D = [] -> ls = [].
Proof. intros <- ->. destruct n; reflexivity. Qed.

Lemma dac_get_loop_ok levels n D i index acc d :
  i + n = 8 ->
  Forall2 level_rel levels (take_while nonempty_lvl (levels_spec n D)) ->
  nth_error D index = Some d -> (d < 2 ^ (64 - 8 * N.of_nat i))%N ->
  dac_get_loop levels i index acc = Ok (N.lor acc (N.shiftl d (N.of_nat (i * 8)) mod 2 ^ 64)).
Proof.
  revert levels D i index acc d; induction n as [|n IH]; intros levels D i index acc d Hi HF Hd Hlt.
  - replace i with 8 in * by lia. change (2 ^ (64 - 8 * N.of_nat 8))%N with 1%N in Hlt.
    replace d with 0%N by lia. cbn [levels_spec take_while] in HF. inversion HF; subst.
    cbn [dac_get_loop]. rewrite N.shiftl_0_l, N.mod_0_l, N.lor_0_r by discriminate. reflexivity.
  - assert (HidxD : index < length D) by (apply nth_error_Some; congruence).
    cbn [levels_spec take_while] in HF.
    replace (nonempty_lvl (map lvl_more D, map (fun x => N.land x 255) D)) with true in HF.
    2:{ unfold nonempty_lvl. cbn [fst]. rewrite map_length.
        destruct (Nat.ltb_spec 0 (length D)); [reflexivity|lia]. }
    inversion HF as [|l0 s0 ls ss [HRb HRy] HF' E1 E2]; subst. cbn [fst snd] in *.
    destruct l0 as [bm bytes]. cbn [fst snd] in *. subst bytes.
    cbn [dac_get_loop].
    rewrite (nth_res_ok _ index (N.land d 255)) by (apply (map_nth_error (fun d => N.land d 255)); exact Hd). cbn [bind].
    replace (8 <=? i) with false by (symmetry; apply Nat.leb_gt; lia).
    assert (Hmore : nth_error (map lvl_more D) index = Some (lvl_more d)) by (apply map_nth_error; exact Hd).
    rewrite (bm_get_ok bm _ index HRb) by (rewrite map_length; exact HidxD).
    rewrite (nth_error_nth _ _ false Hmore). cbn [bind].
    destruct (lvl_more d) eqn:Em.
    + rewrite (bm_rank_ok bm _ index HRb) by (rewrite map_length; lia). cbn [bind].
      rewrite (IH ls (map (fun x => N.shiftr x 8) (filter lvl_more D)) (S i) _ _ (N.shiftr d 8)).
      * rewrite <- N.lor_assoc. rewrite lor_split by (lia || exact Hlt). reflexivity.
      * lia.
      * exact HF'.
      * apply (map_nth_error (fun x => N.shiftr x 8)). apply nth_error_filter_rank; assumption.
      * rewrite N.shiftr_div_pow2.
        apply N.div_lt_upper_bound; [discriminate|].
        rewrite <- N.pow_add_r. replace (8 + (64 - 8 * N.of_nat (S i)))%N with (64 - 8 * N.of_nat i)%N by lia.
        exact Hlt.
    + (* last byte *)
      unfold lvl_more in Em. apply negb_false_iff, N.eqb_eq in Em.
      assert (Hd8 : N.land d 255 = d).
      { change 255%N with (N.ones 8). rewrite N.land_ones. apply N.mod_small.
        rewrite N.shiftr_div_pow2 in Em. apply N.div_small_iff in Em; [exact Em|discriminate]. }
      rewrite Hd8. reflexivity.
Qed.

Lemma dac_get_ok d data i x :
  dac_rel d (map zigzag_encode data) -> Forall i64_range data ->
  nth_error data i = Some x -> dac_get d i = Ok x.
Proof.
  intros HR HF Hx. assert (Hr : i64_range x).
  { rewrite Forall_forall in HF. apply HF. eapply nth_error_In; eauto. }
  unfold dac_get.
  rewrite (dac_get_loop_ok d 8 (map zigzag_encode data) 0 i 0 (zigzag_encode x)).
  - cbn [bind]. rewrite N.lor_0_l. change (N.of_nat (0 * 8)) with 0%N. rewrite N.shiftl_0_r.
    rewrite N.mod_small by (apply zigzag_encode_bound; exact Hr).
    rewrite zigzag_roundtrip by exact Hr. reflexivity.
  - reflexivity.
  - exact HR.
  - apply map_nth_error. exact Hx.
  - change (64 - 8 * N.of_nat 0)%N with 64%N. apply zigzag_encode_bound. exact Hr.
Qed.

Lemma levels_spec_cons n x D : exists s0 rest,
  take_while nonempty_lvl (levels_spec (S n) (x :: D)) = s0 :: rest /\ length (snd s0) = length (x :: D).
Proof.
  cbn [levels_spec take_while].
  exists (map lvl_more (x :: D), map (fun d => N.land d 255) (x :: D)). eexists. split.
  - reflexivity.
  - cbn [snd]. apply map_length.
Qed.

(** Access past the end panics, except that an empty array answers 0. *)
Lemma dac_get_past d data i :
  dac_rel d (map zigzag_encode data) -> length data <= i ->
  dac_get d i = match data with [] => Ok 0%Z | _ => Panic end.
Proof.
  intros HR Hi. unfold dac_rel in HR.
  destruct data as [|x data].
  - cbn in HR. inversion HR; subst. reflexivity.
  - cbn [map] in HR. set (D := map zigzag_encode data) in *.
    destruct (levels_spec_cons 7 (zigzag_encode x) D) as (s0 & rest & Es & Hs0). rewrite Es in HR.
    inversion HR as [|l0 s0' ls ss [HRb HRy] HF' E1 E2]; subst.
    destruct l0 as [bm bytes]. cbn [fst snd] in *. subst bytes.
    unfold dac_get. cbn [dac_get_loop]. unfold nth_res.
    destruct (nth_error _ i) eqn:E; [|reflexivity].
    assert (H : i < length (snd s0)) by (apply nth_error_Some; congruence).
    rewrite Hs0 in H. cbn [length] in H, Hi. unfold D in H. rewrite map_length in H. lia.
Qed.

Lemma dac_get_empty i : dac_get [] i = Ok 0%Z.
Proof. reflexivity. Qed.

(** ** Number of levels *)
Lemma tw_levels_nil n : take_while nonempty_lvl (levels_spec n []) = [].
Proof. destruct n; reflexivity. Qed.

Lemma tw_levels_cons n x D : take_while nonempty_lvl (levels_spec (S n) (x :: D)) =
  (map lvl_more (x :: D), map (fun d => N.land d 255) (x :: D)) ::
  take_while nonempty_lvl (levels_spec n (map (fun d => N.shiftr d 8) (filter lvl_more (x :: D)))).
Proof. reflexivity. Qed.

Lemma lvl_more_lt d : lvl_more d = false <-> (d < 256)%N.
Proof.
  unfold lvl_more. rewrite N.shiftr_div_pow2. change (2 ^ 8)%N with 256%N.
  destruct (N.eqb_spec (d / 256) 0); cbn [negb]; split; intros H; try discriminate; try reflexivity; lia.
Qed.

Lemma tw_levels_length n : forall D m, Forall (fun d => (d < 256 ^ N.of_nat (S n))%N) D -> 1 <= m ->
  length (take_while nonempty_lvl (levels_spec (S n) D)) <= m <->
  Forall (fun d => (d < 256 ^ N.of_nat m)%N) D.
Proof.
  induction n as [|n IH]; intros D m HD Hm.
  - destruct D as [|x D]; [rewrite tw_levels_nil; split; [constructor|cbn [length]; lia]|].
    rewrite tw_levels_cons. cbn [levels_spec take_while length]. split; [intros _|lia].
    eapply Forall_impl; [|exact HD]. cbv beta. intros a Ha.
    eapply N.lt_le_trans; [exact Ha|]. apply N.pow_le_mono_r; lia.
  - destruct D as [|x D]; [rewrite tw_levels_nil; split; [constructor|cbn [length]; lia]|].
    rewrite tw_levels_cons. cbn [length]. set (E := x :: D) in *. clearbody E. clear x D.
    destruct m as [|m]; [lia|]. destruct m as [|m].
    + change (256 ^ N.of_nat 1)%N with 256%N. split.
      * intros H. apply Forall_forall. intros d Hd. apply lvl_more_lt.
        destruct (lvl_more d) eqn:Em; [|reflexivity].
        assert (Hf : In d (filter lvl_more E)) by (apply filter_In; auto).
        destruct (filter lvl_more E) as [|y F]; [destruct Hf|].
        cbn [map] in H. rewrite tw_levels_cons in H. cbn [length] in H. lia.
      * intros H. rewrite filter_false_in.
        -- cbn [map]. rewrite tw_levels_nil. cbn [length]. lia.
        -- intros d Hd. rewrite Forall_forall in H. apply lvl_more_lt. apply H. exact Hd.
    + assert (Hshift : forall d k, (N.shiftr d 8 < 256 ^ N.of_nat (S k) <-> d < 256 ^ N.of_nat (S (S k)))%N).
      { intros d k. rewrite N.shiftr_div_pow2. change (2 ^ 8)%N with 256%N.
        rewrite (Nat2N.inj_succ (S k)), N.pow_succ_r'. set (p := (256 ^ N.of_nat (S k))%N).
        clearbody p. split; intros H; lia. }
      assert (HI : length (take_while nonempty_lvl
            (levels_spec (S n) (map (fun d => N.shiftr d 8) (filter lvl_more E)))) <= S m
          <-> Forall (fun d => (d < 256 ^ N.of_nat (S m))%N) (map (fun d => N.shiftr d 8) (filter lvl_more E))).
      { apply IH; [|lia]. apply Forall_forall. intros y Hy. apply in_map_iff in Hy.
        destruct Hy as (d & <- & Hd). apply filter_In in Hd. rewrite Forall_forall in HD.
        apply Hshift. apply HD. apply Hd. }
      rewrite <- Nat.succ_le_mono, HI. rewrite !Forall_forall. split; intros H d Hd.
      * destruct (lvl_more d) eqn:Em.
        -- apply Hshift. apply H. apply in_map_iff. exists d. split; [reflexivity|]. apply filter_In. auto.
        -- apply lvl_more_lt in Em. eapply N.lt_le_trans; [exact Em|].
           change 256%N with (256 ^ 1)%N at 1. apply N.pow_le_mono_r; lia.
      * apply in_map_iff in Hd. destruct Hd as (e & <- & He). apply filter_In in He.
        apply Hshift. apply H. apply He.
Qed.

Lemma dac_levels d data m : dac_rel d (map zigzag_encode data) -> Forall i64_range data -> 1 <= m <= 8 ->
  length d <= m <->
  Forall (fun x => - 2 ^ (8 * Z.of_nat m - 1) <= x < 2 ^ (8 * Z.of_nat m - 1))%Z data.
Proof.
  intros HR HF Hm. rewrite (Forall2_length _ _ _ HR).
  rewrite (tw_levels_length 7).
  - rewrite !Forall_forall in *.
    assert (Hx : forall x, In x data -> ((zigzag_encode x < 256 ^ N.of_nat m)%N <->
       (- 2 ^ (8 * Z.of_nat m - 1) <= x < 2 ^ (8 * Z.of_nat m - 1))%Z)).
    { intros x Hx. rewrite zigzag_encode_val by (apply HF; exact Hx).
      assert (E : Z.of_N (256 ^ N.of_nat m) = (2 * 2 ^ (8 * Z.of_nat m - 1))%Z).
      { rewrite N2Z.inj_pow. rewrite <- Z.pow_succ_r by lia.
        change (Z.of_N 256) with (2 ^ 8)%Z. rewrite <- Z.pow_mul_r by lia.
        rewrite nat_N_Z. f_equal. lia. }
      set (p := (256 ^ N.of_nat m)%N) in *. set (q := (2 ^ (8 * Z.of_nat m - 1))%Z) in *.
      clearbody p q. destruct (Z.leb_spec 0 x); lia. }
    split; intros H.
    + intros x Hin. apply Hx; [exact Hin|]. apply H. apply in_map. exact Hin.
    + intros y Hy. apply in_map_iff in Hy. destruct Hy as (x & <- & Hin). apply Hx; auto.
  - apply Forall_forall. intros y Hy. apply in_map_iff in Hy. destruct Hy as (x & <- & Hin).
    rewrite Forall_forall in HF. apply zigzag_encode_bound. apply HF. exact Hin.
  - lia.
Qed.
