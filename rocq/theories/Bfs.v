(** * Breadth first order of a tree with fixed arity, and where children land.
    Pure combinatorics used by the snapshot and log proofs. *)
From Verif Require Import Base BaseFacts BitmapModel DacModel DacProofs.
Ltac Zify.zify_post_hook ::= Z.div_mod_to_equations.

Section Bfs.
  Variables (E S : Type) (body : S -> E -> S * list E) (upd : S -> E -> S) (kids : E -> list E).
  Hypothesis Hbody : forall s x, body s x = (upd s x, kids x).
  (** [at_h h x]: entry [x] sits [h] levels above the bottom. *)
  Variable at_h : nat -> E -> Prop.
  Hypothesis Hkids0 : forall x, at_h 0 x -> kids x = [].
  Hypothesis HkidsS : forall h x, at_h (Datatypes.S h) x -> Forall (at_h h) (kids x).

  Fixpoint lv (h : nat) (L : list E) : list E :=
    L ++ match h with 0 => [] | Datatypes.S h' => lv h' (flat_map kids L) end.

  Lemma worklist_app A : forall fuel B s,
    worklist body (length A + fuel) (A ++ B) s =
    worklist body fuel (B ++ flat_map kids A) (fold_left upd A s).
  Proof.
    induction A as [|x A IH]; intros fuel B s; cbn [length app flat_map fold_left Nat.add].
    - rewrite app_nil_r. reflexivity.
    - cbn [worklist]. rewrite Hbody. rewrite <- app_assoc. rewrite IH.
      rewrite <- app_assoc. reflexivity.
  Qed.

  Lemma Forall_flat_kids h L :
    Forall (at_h (Datatypes.S h)) L -> Forall (at_h h) (flat_map kids L).
  Proof.
    induction 1 as [|x L Hx HL IH]; cbn [flat_map]; [constructor|].
    apply Forall_app. split; [apply HkidsS; exact Hx|exact IH].
  Qed.

  Lemma flat_kids0 L : Forall (at_h 0) L -> flat_map kids L = [].
  Proof. induction 1 as [|x L Hx HL IH]; cbn [flat_map]; [reflexivity|]. rewrite Hkids0, IH; auto. Qed.

  Lemma worklist_lv h : forall L s fuel,
    Forall (at_h h) L -> length (lv h L) <= fuel ->
    worklist body fuel L s = Ok (fold_left upd (lv h L) s).
  Proof.
    induction h as [|h IH]; intros L s fuel HL Hf; cbn [lv] in *.
    - rewrite app_nil_r in *. pose proof (worklist_app L (fuel - length L) [] s) as W.
      rewrite app_nil_r, flat_kids0 in W by exact HL.
      replace (length L + (fuel - length L)) with fuel in W by lia. rewrite W.
      destruct (fuel - length L); reflexivity.
    - rewrite app_length in Hf. pose proof (worklist_app L (fuel - length L) [] s) as W.
      rewrite app_nil_r in W. cbn [app] in W.
      replace (length L + (fuel - length L)) with fuel in W by lia. rewrite W.
      rewrite IH.
      + rewrite fold_left_app. reflexivity.
      + apply Forall_flat_kids. exact HL.
      + lia.
  Qed.

  Lemma lv_eq h : forall L, Forall (at_h h) L -> lv h L = L ++ flat_map kids (lv h L).
  Proof.
    induction h as [|h IH]; intros L HL; cbn [lv].
    - rewrite app_nil_r, flat_kids0, app_nil_r by exact HL. reflexivity.
    - f_equal. rewrite flat_map_app. apply IH. apply Forall_flat_kids. exact HL.
  Qed.

  Lemma lv_in_h h : forall L, Forall (at_h h) L -> Forall (fun x => exists h', h' <= h /\ at_h h' x) (lv h L).
  Proof.
    induction h as [|h IH]; intros L HL; cbn [lv]; apply Forall_app; split.
    - eapply Forall_impl; [|exact HL]. eauto.
    - constructor.
    - eapply Forall_impl; [|exact HL]. eauto.
    - eapply Forall_impl; [|apply IH, Forall_flat_kids; exact HL].
      intros x (h' & H1 & H2). eauto.
  Qed.

  (** How many entries there can be. *)
  Lemma lv_length K : 2 <= K -> (forall h x, at_h h x -> length (kids x) <= K) ->
    forall h L, Forall (at_h h) L -> length (lv h L) + length L <= 2 * length L * K ^ h.
  Proof using HkidsS.
    clear Hbody Hkids0 body upd S. intros HK HL. induction h as [|h IH]; intros L HF; cbn [lv].
    - rewrite app_nil_r, Nat.pow_0_r. lia.
    - rewrite app_length, Nat.pow_succ_r'. specialize (IH _ (Forall_flat_kids _ _ HF)).
      assert (HM : length (flat_map kids L) <= length L * K).
      { clear IH. induction HF as [|x L Hx _ IHL]; cbn [flat_map length]; [lia|].
        rewrite app_length. specialize (HL _ _ Hx). lia. }
      assert (1 <= K ^ h) by (apply Nat.neq_0_lt_0, Nat.pow_nonzero; lia).
      remember (length (flat_map kids L)) as m. remember (length (lv h (flat_map kids L))) as t.
      remember (K ^ h) as q. remember (length L) as n.
      assert (m * (2 * q - 1) <= n * K * (2 * q - 1)) by (apply Nat.mul_le_mono_r; lia).
      nia.
  Qed.

  (** Inner nodes come first, leaves last. *)
  Variable inner : E -> bool.
  Hypothesis Hinner0 : forall x, at_h 0 x -> inner x = false.
  Hypothesis HinnerS : forall h x, at_h (Datatypes.S h) x -> inner x = true.

  Lemma lv_split h : forall L, Forall (at_h h) L ->
    exists V1 V2, lv h L = V1 ++ V2 /\ Forall (fun x => inner x = true) V1 /\
                  Forall (fun x => inner x = false) V2 /\
                  forall K, (forall h x, at_h h x -> exists b, length (kids x) = b * K) -> 0 < h ->
                    exists n, length V2 = n * K.
  Proof.
    induction h as [|h IH]; intros L HL; cbn [lv].
    - exists [], L. split; [rewrite app_nil_r; reflexivity|]. split; [constructor|]. split.
      + eapply Forall_impl; [|exact HL]. auto.
      + intros; lia.
    - destruct (IH (flat_map kids L)) as (V1 & V2 & EV & H1 & H2 & H3).
      { apply Forall_flat_kids. exact HL. }
      exists (L ++ V1), V2. rewrite EV, app_assoc. split; [reflexivity|]. split; [|split; [exact H2|]].
      + apply Forall_app. split; [|exact H1]. eapply Forall_impl; [|exact HL]. eauto.
      + intros K HK _. destruct h as [|h].
        * assert (HV1 : V1 = []).
          { destruct V1 as [|y V1]; [reflexivity|]. exfalso.
            pose proof (Forall_flat_kids 0 L HL) as HF. cbn [lv] in EV. rewrite app_nil_r in EV.
            rewrite EV in HF. inversion HF as [|? ? Hy _]; subst. inversion H1 as [|? ? Hy' _]; subst.
            rewrite Hinner0 in Hy' by exact Hy. discriminate. }
          rewrite HV1 in EV. cbn [app lv] in EV. rewrite app_nil_r in EV. rewrite <- EV.
          clear - HL HK. induction HL as [|x L Hx HL IHL]; [exists 0; reflexivity|].
          destruct (HK _ _ Hx) as (b & Eb). destruct IHL as (n & En). exists (b + n).
          cbn [flat_map]. rewrite app_length, Eb, En. lia.
        * apply H3; [exact HK|lia].
  Qed.
End Bfs.

(** Positions. [V] is the visit order, [V = root :: flat_map kids V]. *)
Section Positions.
  Variables (E : Type) (kids : E -> list E) (branch : E -> bool) (K : nat) (root : E) (V V1 V2 : list E).
  Hypothesis HV : V = root :: flat_map kids V.
  Hypothesis Hlen : forall x, In x V -> length (kids x) = if branch x then K else 0.
  Hypothesis HV12 : V = V1 ++ V2.
  Hypothesis HV2 : Forall (fun x => branch x = false) V2.

  Definition bits : list bool := map branch V1.
  Definition rank_at (i : nat) : nat := count_occ Bool.bool_dec (firstn i bits) true.

  Lemma flat_kids_filter l : (forall x, In x l -> length (kids x) = if branch x then K else 0) ->
    flat_map kids l = flat_map kids (filter branch l).
  Proof.
    induction l as [|x l IH]; intros H; cbn [flat_map filter]; [reflexivity|].
    pose proof (H x (or_introl eq_refl)) as Hx.
    rewrite IH by (intros y Hy; apply H; right; exact Hy).
    destruct (branch x); cbn [flat_map]; [reflexivity|].
    destruct (kids x); [reflexivity|discriminate].
  Qed.

  Lemma length_flat_kids l : (forall x, In x l -> length (kids x) = if branch x then K else 0) ->
    exists c, length (flat_map kids l) = c * K.
  Proof.
    induction l as [|x l IH]; intros H; [exists 0; reflexivity|].
    destruct (IH (fun y Hy => H y (or_intror Hy))) as (c & Ec).
    pose proof (H x (or_introl eq_refl)) as Hx. cbn [flat_map]. rewrite app_length, Ec, Hx.
    destruct (branch x); [exists (S c)|exists c]; lia.
  Qed.

  (** Number of inner nodes. *)
  Lemma length_V1 : 0 < K -> 0 < length V1 -> (exists n, length V2 = n * K) -> exists m, length V1 = 1 + m * K.
  Proof.
    intros HK H1 (n & En). destruct (length_flat_kids V Hlen) as (c & Ec).
    assert (EL : length V1 + n * K = 1 + c * K).
    { rewrite <- En, <- app_length, <- HV12. rewrite HV. cbn [length]. rewrite Ec. reflexivity. }
    exists (c - n). rewrite Nat.mul_sub_distr_r.
    destruct (Nat.le_gt_cases n c) as [Hle|Hgt].
    - pose proof (Nat.mul_le_mono_r n c K Hle). lia.
    - pose proof (Nat.mul_le_mono_r (S c) n K Hgt). lia.
  Qed.

  Lemma branch_inner i x : nth_error V i = Some x -> branch x = true -> i < length bits.
  Proof.
    intros Hi Hb. unfold bits. rewrite map_length.
    destruct (Nat.lt_ge_cases i (length V1)) as [H|H]; [exact H|].
    rewrite HV12, nth_error_app2 in Hi by exact H.
    rewrite Forall_forall in HV2. apply nth_error_In in Hi. rewrite HV2 in Hb by exact Hi. discriminate.
  Qed.

  Lemma bits_nth i x : nth_error V i = Some x -> i < length bits -> nth i bits false = branch x.
  Proof.
    intros Hi Hl. unfold bits in *. rewrite map_length in Hl.
    rewrite HV12, nth_error_app1 in Hi by exact Hl.
    apply nth_error_nth with (d := false). apply map_nth_error. exact Hi.
  Qed.

  Lemma bits_past i x : nth_error V i = Some x -> length bits <= i -> branch x = false.
  Proof using HV12 HV2.
    intros Hi Hl. destruct (branch x) eqn:Hb; [|reflexivity].
    pose proof (branch_inner i x Hi Hb) as Hlt. exfalso. eapply Nat.lt_irrefl, Nat.lt_le_trans; eassumption.
  Qed.

  Lemma filter_V : filter branch V = filter branch V1.
  Proof.
    rewrite HV12, filter_app. rewrite (filter_false_in branch V2), app_nil_r; [reflexivity|].
    apply Forall_forall. exact HV2.
  Qed.

  Lemma filter_nth i x : nth_error V i = Some x -> branch x = true ->
    nth_error (filter branch V) (rank_at i) = Some x.
  Proof.
    intros Hi Hb. pose proof (branch_inner i x Hi Hb) as Hl. rewrite filter_V.
    unfold rank_at, bits in *. rewrite map_length in Hl.
    apply nth_error_filter_rank; [|exact Hb].
    rewrite HV12, nth_error_app1 in Hi by exact Hl. exact Hi.
  Qed.

  Lemma child_pos i x c y : nth_error V i = Some x -> branch x = true -> c < K ->
    nth_error (kids x) c = Some y -> nth_error V (1 + rank_at i * K + c) = Some y.
  Proof.
    intros Hi Hb Hc Hy. rewrite HV. cbn [Nat.add nth_error].
    rewrite flat_kids_filter by exact Hlen.
    rewrite (nth_error_flat_map_const kids (filter branch V) K (rank_at i) c x); auto.
    - intros z Hz. apply filter_In in Hz. destruct Hz as [Hz1 Hz2]. rewrite Hlen by exact Hz1.
      rewrite Hz2. reflexivity.
    - apply filter_nth; assumption.
  Qed.
End Positions.
