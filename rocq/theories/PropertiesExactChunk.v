(** * Property C09: exactly when searching a time series is right

    C09_chunk_search_partial asks of every two instants what C06 asks. Here: what is
    needed, no more and no less, is that of each instant that is stored as changes and
    the one it is stored as changes to. *)
From Verif Require Import Base BaseFacts Spec BitmapModel BitmapProofs DacModel DacProofs
  GeomModel GeomProofs SnapshotModel SnapshotProofs LogModel LogTree LogProofs StreamModel StreamProofs
  PropertiesSnapshot PropertiesLog ChunkModel ChunkProofs ChunkReads PropertiesExact.
Ltac Zify.zify_post_hook ::= Z.div_mod_to_equations.
Arguments Nat.pow : simpl never.

(** The premises of C06_exactly_when on two rasters. *)
Definition found (gs gt : nat -> nat -> Z) (rows cols side : nat) : Prop :=
  (forall v, all_equal gt rows cols v -> uniform_raster gs rows cols \/ least_value gs rows cols v) /\
  (forall v, uniform_raster gs rows cols -> all_equal gt rows cols v -> 0 <= v)%Z /\
  (forall v, all_equal gs rows cols v -> ~ uniform_raster gt rows cols -> 0 <= v)%Z /\
  (forall d, all_equal (fun r c => gt r c - gs r c)%Z rows cols d -> ~ uniform_raster gt rows cols ->
     rows = side -> cols = side -> 0 <= d)%Z.

(** Instant [t] is stored as its changes to instant [base]: they are in the same block,
    which begins at [base]. *)
Definition stored_as_changes (c : chunk) (base t : nat) : Prop :=
  exists i b, nth_error (ch_blocks c) i = Some b /\
    base = list_sum (map (fun b => 1 + length (bl_logs b)) (firstn i (ch_blocks c))) /\ base < t <= base + length (bl_logs b).

Lemma small_i64 rows cols g : small g rows cols -> i64_raster g rows cols.
Proof. intros H r c R C. specialize (H r c R C). unfold i64_range, two63. lia. Qed.

Section Needed.
  Variables (gs gt : nat -> nat -> Z) (rows cols k e : nat).
  Hypothesis Hk : 2 <= k.
  Hypothesis He : 1 <= e.
  Hypothesis Hmax : Nat.max rows cols <= k ^ e.
  Hypothesis Hr : 0 < rows.
  Hypothesis Hc : 0 < cols.
  Hypothesis Ss : small gs rows cols.
  Hypothesis St : small gt rows cols.
  Variables (s : snapshot) (l : log).
  Hypothesis Es : snapshot_build_e gs rows cols k e = Ok s.
  Hypothesis El : log_build_e gs gt rows cols k e = Ok l.

  Lemma found_needed : right_search gt rows cols s l -> found gs gt rows cols (k ^ e).
  Proof.
    intros HR.
    destruct (snapshot_build_ok gs rows cols k Hk e (small_i64 rows cols gs Ss)) as (s' & sroot & SV & SV1 & SV2 & Es' & SOK).
    rewrite Es in Es'. injection Es' as <-.
    destruct (log_build_ok gs gt rows cols k Hk e (small_i64 rows cols gs Ss) (small_i64 rows cols gt St)) as (l' & root & V & V1 & V2 & El' & OK).
    rewrite El in El'. injection El' as <-.
    assert (R1 : rows <= k ^ e) by lia. assert (C1 : cols <= k ^ e) by lia. split; [|split; [|split]].
    - intros v Hv. exact (need1 gs gt rows cols k e Hk He R1 C1 Hr Hc Ss St s sroot SV SV1 SV2 SOK l root V V1 V2 OK v HR Hv).
    - intros v (w & Hw) Hv. exact (need2 gs gt rows cols k e Hk He R1 C1 Hr Hc Ss St s sroot SV SV1 SV2 SOK l root V V1 V2 OK v w HR Hv Hw).
    - intros v Hv Hn. exact (need3 gs gt rows cols k e Hk He R1 C1 Hr Hc Ss St s sroot SV SV1 SV2 SOK l root V V1 V2 OK v HR Hv Hn).
    - intros d Hdd Hn F1 F2. exact (need4 gs gt rows cols k e Hk He R1 C1 Hr Hc Ss St s sroot SV SV1 SV2 SOK l root V V1 V2 OK d HR Hdd Hn F1 F2).
  Qed.
  Lemma found_enough top bottom left right lower upper : found gs gt rows cols (k ^ e) -> window_in top bottom left right rows cols ->
    exists out, log_search_window l s (rect_new top bottom left right) lower upper = Ok out /\
      Permutation out (search_spec gt top bottom left right lower upper).
  Proof.
    intros (P1 & P2 & P3 & P4) Hw.
    assert (Hd : diff_fits gs gt rows cols) by (intros r c R C; pose proof (Ss r c R C); pose proof (St r c R C); unfold i64_range, two63; lia).
    destruct (C06_log_search_partial gs gt rows cols k e top bottom left right lower upper Hk He Hmax (small_i64 rows cols gs Ss) (small_i64 rows cols gt St)
      Hd P1 P2 P3 P4 Hw) as (s' & l' & out & Es' & El' & E & P).
    rewrite Es in Es'. injection Es' as <-. rewrite El in El'. injection El' as <-. exists out. auto.
  Qed.
End Needed.

(** What the last results of a search give. *)
Lemma collect_inv c t : forall fuel rs s out, it_remaining (se_iter s) = 0 -> se_instant s = S t -> se_results s = Some rs ->
  search_collect fuel c s = Ok out -> out = tag t rs.
Proof.
  induction fuel as [|fuel IH]; intros rs s out Hn Hi Hs H; [discriminate|]. cbn [search_collect] in H. unfold search_next in H.
  rewrite Hs, Hn in H. cbn [Nat.add search_next_loop] in H. rewrite Hs in H. destruct rs as [|[r q] rs].
  - unfold next_results, chunk_iter_next in H. rewrite Hn in H. cbn in H. injection H as <-. reflexivity.
  - cbn [bind fst snd se_instant] in H. rewrite Hi, usub_ok in H by lia. cbn [bind fst snd] in H. replace (S t - 1) with t in H by lia.
    destruct (search_collect fuel c _) as [rest| | |] eqn:E; cbn [bind] in H; try discriminate. injection H as <-.
    rewrite (IH rs (mkSearch (se_iter s) (se_bounds s) (se_lower s) (se_upper s) (S t) (Some rs)) rest Hn eq_refl eq_refl E). reflexivity.
Qed.

(** The answer to a search of one instant is that of its block. *)
Lemma search_one blocks enc fb t top bottom left right lower upper out : t < total blocks -> top <= bottom -> left <= right -> (lower <= upper)%Z ->
  chunk_search (chunk_new blocks enc fb) (mkCube t (S t) top bottom left right) lower upper = Ok out ->
  exists b i q, at_instant blocks t = Ok (b, i) /\ block_search_window b i (rect_new top bottom left right) lower upper = Ok q /\ out = tag t q.
Proof.
  intros Ht H1 H2 HL H. assert (Hne : blocks <> []) by (intros ->; cbn in Ht; lia).
  unfold chunk_search, iter_search in H. unfold rearrangeZ in H. rewrite (proj2 (Z.ltb_ge _ _) HL) in H.
  cbn [c_start c_end] in H.
  destruct (iter_new_at blocks enc fb t (S t) Hne ltac:(lia) ltac:(lia)) as (bi & ii & E & L). rewrite E in H. cbn [bind] in H.
  replace (S t - t) with 1 in * by lia.
  destruct (iter_next_at blocks enc fb t bi ii 0 L Ht) as (b & it' & Hb & Ea & En & Er & HL').
  unfold next_results in H. cbn [se_iter se_bounds se_lower se_upper se_instant] in H. rewrite En in H. cbn [bind fst snd] in H.
  change (ch_blocks (chunk_new blocks enc fb)) with blocks in H. rewrite (nth_res_ok _ _ _ Hb) in H. cbn [bind] in H.
  unfold cube_rect in H. cbn [c_top c_bottom c_left c_right] in H.
  destruct (block_search_window b ii (rect_new top bottom left right) lower upper) as [q| | |] eqn:Eq; cbn [bind] in H; try discriminate.
  exists b, ii, q. split; [exact Ea|]. split; [exact Eq|]. eapply collect_inv; [| | |exact H]; cbn [se_iter se_instant se_results]; [exact Er|lia|reflexivity].
Qed.

Lemma tag_inj t : forall a b, tag t a = tag t b -> a = b.
Proof. unfold tag. induction a as [|[x y] a IH]; intros [|[u v] b] H; try discriminate; [reflexivity|]. cbn in H. injection H as -> -> H. f_equal. auto. Qed.
Lemma untag t a b : Permutation (tag t a) (tag t b) -> Permutation a b.
Proof.
  intros H. apply (Permutation_map (fun x : nat * nat * nat => (snd (fst x), snd x))) in H. unfold tag in H. rewrite !map_map in H. cbn [fst snd] in H.
  rewrite !(map_ext (fun x : nat * nat => (fst x, snd x)) (fun x => x)), !map_id in H by (intros []; reflexivity). exact H.
Qed.
Lemma one_instant g t top bottom left right lo up : search3_spec g t (S t) top bottom left right lo up = tag t (search_spec (g t) top bottom left right lo up).
Proof.
  unfold search3_spec, cells3, range. replace (S t - t) with 1 by lia. cbn [seq flat_map]. rewrite app_nil_r. unfold search_spec, tag.
  induction (cells top bottom left right) as [|[r c] l IH]; [reflexivity|].
  cbn [filter map fst snd]. destruct (in_bounds lo up (g t r c)); cbn [map fst snd]; rewrite IH; reflexivity.
Qed.

Lemma sum_start blocks i : list_sum (map (fun b => 1 + length (bl_logs b)) (firstn i blocks)) = start_of blocks i.
Proof. apply list_sum_total. Qed.

(** Where an instant is. *)
Lemma placed g rows cols k e blocks : forall t0, built_blocks g rows cols k e t0 blocks -> forall i b, nth_error blocks i = Some b ->
  built_block g rows cols k e (t0 + start_of blocks i) b.
Proof.
  induction blocks as [|x l IH]; intros t0 H [|i] b E; try discriminate.
  - injection E as ->. rewrite start_of_0, Nat.add_0_r. apply H.
  - rewrite start_of_cons, Nat.add_assoc. apply IH; [apply H|exact E].
Qed.
Lemma place blocks : forall t, t < total blocks -> exists i b off, nth_error blocks i = Some b /\ off < blen b /\ t = start_of blocks i + off.
Proof.
  induction blocks as [|x l IH]; intros t Ht; [cbn in Ht; lia|]. rewrite total_cons in Ht. destruct (Nat.ltb_spec t (blen x)) as [L|L].
  - exists 0, x, t. rewrite start_of_0. auto.
  - destruct (IH (t - blen x) ltac:(lia)) as (i & b & off & A & B & C). exists (S i), b, off. rewrite start_of_cons. repeat split; auto; lia.
Qed.
Lemma start_total blocks : forall i b, nth_error blocks i = Some b -> start_of blocks i + blen b <= total blocks.
Proof.
  induction blocks as [|x l IH]; intros [|i] b E; try discriminate.
  - injection E as ->. rewrite start_of_0, total_cons. lia.
  - rewrite start_of_cons, total_cons. specialize (IH i b E). lia.
Qed.

(** ** C09: exactly when searches are right *)
Theorem C09_exactly_when : forall (g : nat -> nat -> nat -> Z) instants rows cols k e enc fb,
  2 <= k -> 1 <= e -> Nat.max rows cols <= k ^ e -> 0 < instants -> 0 < rows -> 0 < cols ->
  (forall t, t < instants -> small (g t) rows cols) ->
  exists c, chunk_build_e g instants rows cols k e enc fb = Ok c /\
    ((forall start end_ top bottom left right lower upper, start <= end_ -> end_ <= instants -> window_in top bottom left right rows cols ->
        exists out, chunk_search (cb_data c) (cube_new start end_ top bottom left right) lower upper = Ok out /\
          Permutation out (search3_spec g start end_ top bottom left right (Z.min lower upper) (Z.max lower upper)))
     <->
     (forall base t, stored_as_changes (cb_data c) base t -> found (g base) (g t) rows cols (k ^ e))).
Proof.
  intros g instants rows cols k e enc fb Hk He Hmax H0 Hr Hc HS.
  assert (Hg : i64_series g instants rows cols).
  { intros t r c T R C. pose proof (HS t T r c R C). unfold i64_range, two63. lia. }
  destruct (chunk_build_ok g rows cols k e Hk instants enc fb H0 Hg) as (blocks & ns & nl & E & HB & HT & _).
  eexists. split; [exact E|]. cbn [cb_data]. unfold stored_as_changes. change (ch_blocks (chunk_new blocks enc fb)) with blocks.
  assert (EC : forall start end_ top bottom left right, start <= end_ -> top <= bottom -> left <= right ->
    cube_new start end_ top bottom left right = mkCube start end_ top bottom left right).
  { clear. intros start end_ top bottom left right A B C. unfold cube_new, rearrange. destruct (Nat.ltb_spec end_ start); [lia|].
    destruct (Nat.ltb_spec bottom top); [lia|]. destruct (Nat.ltb_spec right left); [lia|]. reflexivity. }
  split.
  - intros HR base t (i & b & Eb & -> & Ht). rewrite sum_start in *. set (base := start_of blocks i) in *.
    pose proof (start_total blocks i b Eb) as HU. fold base in HU. unfold blen in HU. rewrite HT in HU.
    destruct (placed g rows cols k e blocks 0 HB i b Eb) as (Bs & _ & Bl). cbn [Nat.add] in Bs, Bl. fold base in Bs, Bl.
    destruct (nth_error (bl_logs b) (t - base - 1)) as [l|] eqn:En; [|apply nth_error_None in En; lia].
    pose proof (Bl _ _ En) as El. replace (base + 1 + (t - base - 1)) with t in El by lia.
    apply (found_needed (g base) (g t) rows cols k e Hk He Hmax Hr Hc (HS base ltac:(lia)) (HS t ltac:(lia)) (bl_snapshot b) l Bs El).
    intros lower upper LU.
    destruct (HR t (S t) 0 rows 0 cols lower upper ltac:(lia) ltac:(lia) ltac:(unfold window_in; lia)) as (out & Eo & P).
    rewrite EC in Eo by lia. rewrite one_instant, Z.min_l, Z.max_r in P by exact LU.
    destruct (search_one blocks enc fb t 0 rows 0 cols lower upper out ltac:(lia) ltac:(lia) ltac:(lia) LU Eo) as (b' & i' & q & Ea & Eq & ->).
    pose proof (at_instant_eq blocks i b (t - base) Eb ltac:(unfold blen; lia)) as Ea'. fold base in Ea'. replace (base + (t - base)) with t in Ea' by lia.
    rewrite Ea' in Ea. injection Ea as <- <-. exists q. split; [|apply untag in P; exact P].
    destruct (t - base) as [|j] eqn:Ej; [lia|]. cbn [block_search_window] in Eq. replace (S j - 1) with j in En by lia. rewrite (nth_res_ok _ _ _ En) in Eq. exact Eq.
  - intros HF start end_ top bottom left right lower upper H1 H2 Hw. rewrite EC by (try exact H1; destruct Hw; lia).
    assert (ER : rearrangeZ lower upper = (Z.min lower upper, Z.max lower upper)).
    { clear. unfold rearrangeZ. destruct (Z.ltb_spec upper lower); f_equal; lia. }
    set (lo := Z.min lower upper) in *. set (up := Z.max lower upper) in *.
    pose (Q := fun t => match (x <- at_instant blocks t ;;
             block_search_window (fst x) (snd x) (rect_new top bottom left right) lo up) with Ok l => l | _ => [] end).
    assert (HQ : forall t, t < instants ->
      answers blocks (rect_new top bottom left right) lo up Q t /\
      Permutation (Q t) (search_spec (g t) top bottom left right lo up)).
    { intros t Ht. destruct (place blocks t ltac:(lia)) as (i & b & off & Eb & Ho & Et).
      pose proof (at_instant_eq blocks i b off Eb Ho) as Ea. rewrite <- Et in Ea.
      destruct (placed g rows cols k e blocks 0 HB i b Eb) as (Bs & _ & Bl). cbn [Nat.add] in Bs, Bl. unfold blen in Ho.
      set (base := start_of blocks i) in *.
      assert (exists o, block_search_window b off (rect_new top bottom left right) lo up = Ok o /\
        Permutation o (search_spec (g t) top bottom left right lo up)) as (o & Eo & P).
      { destruct off as [|j].
        - cbn [block_search_window]. rewrite Nat.add_0_r in Et. subst t.
          destruct (C03_snapshot_search (g base) rows cols k e top bottom left right lo up Hk He Hmax (small_i64 rows cols _ (HS base Ht)) Hw)
            as (s & out & Es & H & P & _). rewrite Bs in Es. injection Es as <-. eauto.
        - cbn [block_search_window]. destruct (nth_error (bl_logs b) j) as [l|] eqn:En; [|apply nth_error_None in En; lia].
          rewrite (nth_res_ok _ _ _ En). cbn [bind]. pose proof (Bl _ _ En) as El. replace (base + 1 + j) with t in El by lia.
          apply (found_enough (g base) (g t) rows cols k e Hk He Hmax Hr Hc (HS base ltac:(lia)) (HS t Ht) (bl_snapshot b) l Bs El); [|exact Hw].
          apply HF. exists i, b. split; [exact Eb|]. rewrite sum_start. fold base. split; [reflexivity|]. lia. }
      unfold answers, Q. rewrite Ea. cbn [bind fst snd]. rewrite Eo. split; [reflexivity|exact P]. }
    rewrite (chunk_search_at blocks enc fb _ lower upper Q); cbn [c_start c_end c_top c_bottom c_left c_right].
    + eexists. split; [reflexivity|].
      unfold search3_spec, cells3. rewrite filter_flat_map. apply flat_map_perm_in.
      intros t Ht. apply in_range in Ht. unfold tag.
      eapply perm_trans; [apply Permutation_map; apply (HQ t); lia|].
      apply Permutation_refl'. clear. unfold search_spec.
      induction (cells top bottom left right) as [|[r c] l IH]; [reflexivity|].
      cbn [filter map fst snd]. destruct (in_bounds lo up (g t r c)); cbn [map fst snd]; rewrite IH; reflexivity.
    + intros ->. cbn in HT. lia.
    + exact H1.
    + lia.
    + intros t Ht. unfold cube_rect. cbn [c_top c_bottom c_left c_right]. rewrite ER. cbn [fst snd]. apply HQ. lia.
    + intros t Ht. destruct (HQ t ltac:(lia)) as [_ P]. apply Permutation_length in P. rewrite P.
      unfold search_spec. etransitivity; [apply filter_length_le'|]. rewrite length_cells. apply le_n.
Qed.

(** In particular every search is right if no instant has one value everywhere, and
    the raster does not fill the square of the tree or no instant is an earlier one with the same
    number taken away everywhere. *)
Theorem C09_varied_series_partial : forall (g : nat -> nat -> nat -> Z) instants rows cols k e enc fb,
  2 <= k -> 1 <= e -> Nat.max rows cols <= k ^ e -> 0 < instants -> 0 < rows -> 0 < cols ->
  (forall t, t < instants -> small (g t) rows cols) ->
  (forall t, t < instants -> exists r c r' c', r < rows /\ c < cols /\ r' < rows /\ c' < cols /\ g t r c <> g t r' c') ->
  (rows < k ^ e \/ cols < k ^ e \/
   forall s t, s < t < instants -> exists r c r' c', r < rows /\ c < cols /\ r' < rows /\ c' < cols /\ (g t r c - g s r c <> g t r' c' - g s r' c' \/ 0 <= g t r c - g s r c)%Z) ->
  exists c, chunk_build_e g instants rows cols k e enc fb = Ok c /\
    forall start end_ top bottom left right lower upper, start <= end_ -> end_ <= instants -> window_in top bottom left right rows cols ->
      exists out, chunk_search (cb_data c) (cube_new start end_ top bottom left right) lower upper = Ok out /\
        Permutation out (search3_spec g start end_ top bottom left right (Z.min lower upper) (Z.max lower upper)).
Proof.
  intros g instants rows cols k e enc fb Hk He Hmax H0 Hr Hc HS HV HD.
  assert (Hg : i64_series g instants rows cols).
  { intros t r c T R C. pose proof (HS t T r c R C). unfold i64_range, two63. lia. }
  destruct (chunk_build_ok g rows cols k e Hk instants enc fb H0 Hg) as (blocks & ns & nl & E & HB & HT & _).
  destruct (C09_exactly_when g instants rows cols k e enc fb Hk He Hmax H0 Hr Hc HS) as (c & Ec & H). exists c. split; [exact Ec|]. apply H.
  rewrite E in Ec. injection Ec as <-. cbn [cb_data]. intros base t (i & b & Eb & Es & Ht).
  change (ch_blocks (chunk_new blocks enc fb)) with blocks in Eb, Es. rewrite sum_start in Es.
  pose proof (start_total blocks i b Eb) as HU. unfold blen in HU. rewrite HT, <- Es in HU.
  assert (NU : forall u, u < instants -> ~ uniform_raster (g u) rows cols).
  { intros u Hu (v & A). destruct (HV u Hu) as (r & q & r' & q' & R & Q & R' & Q' & N). apply N. rewrite (A r q R Q), (A r' q' R' Q'). reflexivity. }
  split; [|split; [|split]].
  - intros v A. destruct (NU t ltac:(lia)). exists v. exact A.
  - intros v U. destruct (NU base ltac:(lia) U).
  - intros v A. destruct (NU base ltac:(lia)). exists v. exact A.
  - intros d A _ E1 E2. destruct HD as [L|[L|HD]]; [lia|lia|]. destruct (HD base t ltac:(lia)) as (r & q & r' & q' & R & Q & R' & Q' & N).
    pose proof (A r q R Q) as A1. pose proof (A r' q' R' Q') as A2. cbv beta in A1, A2. lia.
Qed.

(** Three rows, three columns and four instants, the last of which is the first with 1 taken away: as the
    raster does not fill the square of the tree, every search is right. *)
Definition falling (t r c : nat) : Z := (Z.of_nat (r * 300 + 90 * c) - Z.of_nat (t / 3) + Z.of_nat (t mod 3))%Z.
Example C09_varied_example : (forall t, t < 4 -> small (falling t) 3 3) /\
  (forall t, t < 4 -> exists r c r' c', r < 3 /\ c < 3 /\ r' < 3 /\ c' < 3 /\ falling t r c <> falling t r' c') /\
  exists c out, chunk_build_e falling 4 3 3 2 2 EncI64 0 = Ok c /\ stored_as_changes (cb_data c) 0 3 /\
    chunk_search (cb_data c) (cube_new 0 4 0 3 0 3) 0 90 = Ok out /\ length out = 5 /\ In (3, 0, 1) out /\ In (2, 0, 0) out.
Proof.
  split.
  { intros t Ht r c R C. unfold falling. assert (A : t / 3 <= 1) by lia. assert (B : t mod 3 <= 2) by lia. revert A B. generalize (t / 3) (t mod 3). intros x y A B. lia. }
  split.
  { intros t Ht. exists 0, 0, 0, 1. split; [lia|]. split; [lia|]. split; [lia|]. split; [lia|]. unfold falling. generalize (t / 3) (t mod 3). intros x y. lia. }
  do 2 eexists. split; [vm_compute; reflexivity|]. split.
  { exists 0. eexists. split; [reflexivity|]. split; [reflexivity|]. cbn. lia. }
  split; [vm_compute; reflexivity|]. split; [reflexivity|]. cbn [In]. split; tauto.
Qed.

(** Two instants of four: where searching goes wrong (C09_uniform_refuted), what is needed is not there. *)
Example C09_exactly_example : exists c, chunk_build_e (fun t r q => if t =? 0 then two_by_two 201 202 203 204 r q else 204%Z) 2 2 2 2 1 EncI64 0 = Ok c /\
  stored_as_changes (cb_data c) 0 1 /\ ~ found (two_by_two 201 202 203 204) (fun _ _ => 204%Z) 2 2 2.
Proof.
  eexists. split; [vm_compute; reflexivity|]. split.
  { exists 0. eexists. split; [reflexivity|]. split; [reflexivity|]. cbn. lia. }
  intros (F & _). destruct (F 204%Z ltac:(intros r c _ _; reflexivity)) as [(v & U)|(U & _)].
  - pose proof (U 0 0 ltac:(lia) ltac:(lia)) as A. pose proof (U 0 1 ltac:(lia) ltac:(lia)) as B. cbn in A, B. lia.
  - pose proof (U 0 0 ltac:(lia) ltac:(lia)) as A. cbn in A. lia.
Qed.

Print Assumptions C09_exactly_when.
Print Assumptions C09_varied_series_partial.
