(** * Proofs about blocks and chunks. *)
From Verif Require Import Base BaseFacts Spec BitmapModel BitmapProofs DacModel DacProofs
  GeomModel GeomProofs SnapshotModel SnapshotProofs LogModel LogTree LogProofs StreamModel StreamProofs
  ChunkModel.
Ltac Zify.zify_post_hook ::= Z.div_mod_to_equations.
Arguments Nat.pow : simpl never.

(** ** Where an instant is stored *)
Definition blen (b : block) : nat := length (bl_logs b) + 1.
Definition total (blocks : list block) : nat := sum_nat (map blen blocks).
Definition start_of (blocks : list block) (i : nat) : nat := total (firstn i blocks).

Lemma total_cons x l : total (x :: l) = blen x + total l.
Proof. reflexivity. Qed.
Lemma start_of_0 blocks : start_of blocks 0 = 0.
Proof. reflexivity. Qed.
Lemma start_of_cons x l i : start_of (x :: l) (S i) = blen x + start_of l i.
Proof. reflexivity. Qed.

Lemma total_app a b : total (a ++ b) = total a + total b.
Proof. induction a as [|x a IH]; [reflexivity|]. cbn [app]. rewrite !total_cons, IH. lia. Qed.

Lemma start_of_S blocks i b : nth_error blocks i = Some b -> start_of blocks (S i) = start_of blocks i + blen b.
Proof.
  revert i; induction blocks as [|x blocks IH]; intros [|i] H; try discriminate; rewrite !start_of_cons.
  - injection H as ->. rewrite !start_of_0. lia.
  - cbn [nth_error] in H. rewrite (IH i H). lia.
Qed.

Lemma start_of_all blocks i : length blocks <= i -> start_of blocks i = total blocks.
Proof. intros H. unfold start_of. rewrite firstn_all2 by exact H. reflexivity. Qed.

Lemma start_of_lt blocks i j : i < j -> j <= length blocks -> start_of blocks i < start_of blocks j.
Proof.
  intros Hij Hj. revert i Hij. induction j as [|j IH]; intros i Hij; [lia|].
  destruct (nth_error blocks j) as [b|] eqn:E.
  - rewrite (start_of_S _ _ _ E). assert (1 <= blen b) by (unfold blen; lia).
    destruct (Nat.eq_dec i j) as [->|]; [lia|]. specialize (IH ltac:(lia) i ltac:(lia)). lia.
  - apply nth_error_None in E. lia.
Qed.

Lemma start_of_le blocks i j : i <= j -> j <= length blocks -> start_of blocks i <= start_of blocks j.
Proof. intros. destruct (Nat.eq_dec i j) as [->|]; [lia|]. pose proof (start_of_lt blocks i j). lia. Qed.

Lemma index_of_length blocks : forall n, length (index_of blocks n) = length blocks.
Proof. induction blocks as [|b blocks IH]; intros n; cbn [index_of length]; [reflexivity|]. rewrite IH. reflexivity. Qed.

Lemma index_of_nth blocks : forall n i, i < length blocks ->
  nth_error (index_of blocks n) i = Some (n + start_of blocks (S i)).
Proof.
  induction blocks as [|b blocks IH]; intros n i Hi; [cbn in Hi; lia|]. cbn [index_of].
  destruct i as [|i]; cbn [nth_error]; rewrite start_of_cons; unfold blen.
  - rewrite start_of_0. f_equal. lia.
  - rewrite IH by (cbn [length] in Hi; lia). f_equal. lia.
Qed.

(** ** The binary search *)
Section Find.
  Variable blocks : list block.
  Notation idx := (index_of blocks 0).
  Variable t : nat.
  Hypothesis Hne : 0 < length blocks.
  Hypothesis Ht1 : start_of blocks 1 <= t.

  Lemma idx_at i : i < length blocks -> nth_res idx i = Ok (start_of blocks (S i)).
  Proof. intros H. apply nth_res_ok. rewrite index_of_nth by exact H. reflexivity. Qed.

  (** Between [lower] and [upper] lies the block that starts at or before [t]
      and ends after it. *)
  Lemma find_loop fuel : t <= total blocks -> forall lower upper index,
    upper <= length blocks -> lower <= index < upper ->
    upper - lower < fuel -> index = (lower + upper) / 2 ->
    (lower = 0 \/ start_of blocks (S lower) < t) ->
    (upper = length blocks \/ t < start_of blocks upper) ->
    exists b, find_block_loop fuel idx t lower upper index = Ok b /\ 0 < b <= length blocks /\
      start_of blocks b <= t /\ (b < length blocks -> t < start_of blocks (S b)) /\
      (b = length blocks -> t = total blocks).
  Proof.
    intros Htt. induction fuel as [|fuel IH]; intros lower upper index Hu Hi Hf Ei Hl Hu2; [lia|].
    cbn [find_block_loop]. rewrite idx_at by lia. cbn [bind].
    destruct (Nat.eqb_spec (start_of blocks (S index)) t) as [E|E].
    - exists (index + 1). split; [reflexivity|]. replace (index + 1) with (S index) by lia.
      split; [lia|]. split; [lia|]. split.
      + intros Hb. rewrite <- E. apply start_of_lt; lia.
      + intros Hb. rewrite <- E, Hb. apply start_of_all. lia.
    - destruct (Nat.ltb_spec (start_of blocks (S index)) t) as [H|H].
      + assert (Hgap : S index < upper).
        { destruct (Nat.eq_dec (S index) upper) as [Eq|]; [|lia]. exfalso. rewrite Eq in *.
          destruct Hu2 as [->|Hu2]; [|lia]. rewrite start_of_all in * by lia. lia. }
        apply IH; lia.
      + assert (Hpos : 0 < index).
        { destruct index; [|lia]. lia. }
        rewrite usub_ok by lia. cbn [bind]. rewrite idx_at by lia. cbn [bind].
        replace (S (index - 1)) with index by lia.
        destruct (Nat.leb_spec (start_of blocks index) t) as [H'|H'].
        * exists index. split; [reflexivity|]. split; [lia|]. split; [exact H'|]. split; [lia|lia].
        * assert (lower + 1 < index).
          { destruct Hl as [->|Hl].
            - destruct (Nat.eq_dec index 1) as [->|]; [lia|]. lia.
            - destruct (Nat.lt_ge_cases (lower + 1) index) as [|Hc]; [assumption|exfalso].
              pose proof (start_of_le blocks index (S lower)). lia. }
          apply IH; try lia.
  Qed.

  (** Past the end the search never ends. *)
  Lemma find_loop_past : total blocks < t -> forall fuel lower index,
    lower <= index < length blocks -> index = (lower + length blocks) / 2 ->
    find_block_loop fuel idx t lower (length blocks) index = Diverge.
  Proof.
    intros Htt. induction fuel as [|fuel IH]; intros lower index Hi Ei; [reflexivity|].
    cbn [find_block_loop]. rewrite idx_at by lia. cbn [bind].
    pose proof (start_of_le blocks (S index) (length blocks) ltac:(lia) ltac:(lia)) as H.
    rewrite (start_of_all blocks (length blocks)) in H by lia.
    destruct (Nat.eqb_spec (start_of blocks (S index)) t); [lia|].
    destruct (Nat.ltb_spec (start_of blocks (S index)) t); [|lia].
    apply IH; lia.
  Qed.
End Find.

Lemma find_block_ok blocks enc fb t : blocks <> [] -> t <= total blocks ->
  exists bi off, find_block (chunk_new blocks enc fb) t = Ok (bi, off) /\ bi <= length blocks /\
    t = start_of blocks bi + off /\ (bi < length blocks -> t < start_of blocks (S bi)) /\
    (bi = length blocks -> t = total blocks).
Proof.
  intros Hne Ht. assert (HL : 0 < length blocks) by (destruct blocks; [congruence|cbn; lia]).
  unfold find_block, find_block_fuel, chunk_new. cbn [ch_blocks ch_index].
  rewrite idx_at by exact HL. cbn [bind].
  destruct (Nat.ltb_spec t (start_of blocks 1)) as [H|H].
  - exists 0, t. split; [reflexivity|]. split; [lia|]. split; [reflexivity|]. split; [auto|lia].
  - destruct (find_loop blocks t HL H (S (length blocks)) Ht 0 (length blocks) (length blocks / 2))
      as (b & E & Hb & H1 & H2 & H3); try lia.
    rewrite E. cbn [bind]. rewrite usub_ok by lia. cbn [bind]. rewrite idx_at by lia. cbn [bind].
    replace (S (b - 1)) with b by lia. rewrite usub_ok by exact H1. cbn [bind].
    exists b, (t - start_of blocks b). split; [reflexivity|]. split; [lia|]. split; [lia|]. auto.
Qed.

Lemma find_block_past blocks enc fb t fuel : blocks <> [] -> total blocks < t ->
  find_block_fuel fuel (chunk_new blocks enc fb) t = Diverge.
Proof.
  intros Hne Ht. assert (HL : 0 < length blocks) by (destruct blocks; [congruence|cbn; lia]).
  unfold find_block_fuel, chunk_new. cbn [ch_blocks ch_index]. rewrite idx_at by exact HL. cbn [bind].
  pose proof (start_of_le blocks 1 (length blocks) ltac:(lia) ltac:(lia)) as H.
  rewrite (start_of_all blocks (length blocks)) in H by lia.
  destruct (Nat.ltb_spec t (start_of blocks 1)); [lia|].
  rewrite find_loop_past by lia. reflexivity.
Qed.

(** The block and the offset inside it, by walking the blocks. *)
Fixpoint at_instant (blocks : list block) (t : nat) : res (block * nat) :=
  match blocks with
  | [] => Panic
  | b :: rest => if t <? blen b then Ok (b, t) else at_instant rest (t - blen b)
  end.

Lemma at_instant_eq blocks : forall bi b off, nth_error blocks bi = Some b -> off < blen b ->
  at_instant blocks (start_of blocks bi + off) = Ok (b, off).
Proof.
  induction blocks as [|x blocks IH]; intros [|bi] b off Hb Ho; try discriminate; cbn [at_instant].
  - injection Hb as ->. rewrite start_of_0. cbn [Nat.add]. destruct (Nat.ltb_spec off (blen b)); [reflexivity|lia].
  - cbn [nth_error] in Hb.
    assert (E : start_of (x :: blocks) (S bi) = blen x + start_of blocks bi) by reflexivity.
    rewrite E. destruct (Nat.ltb_spec (blen x + start_of blocks bi + off) (blen x)); [lia|].
    replace (blen x + start_of blocks bi + off - blen x) with (start_of blocks bi + off) by lia.
    apply IH; assumption.
Qed.

Definition located (blocks : list block) (t : nat) (it_b it_i : nat) : Prop :=
  t = start_of blocks it_b + it_i /\ it_b <= length blocks /\
  (forall b, nth_error blocks it_b = Some b -> it_i < blen b) /\
  (it_b = length blocks -> t = total blocks).

Lemma located_find blocks enc fb t : blocks <> [] -> t <= total blocks ->
  exists bi off, find_block (chunk_new blocks enc fb) t = Ok (bi, off) /\ located blocks t bi off.
Proof.
  intros Hne Ht. destruct (find_block_ok blocks enc fb t Hne Ht) as (bi & off & E & H1 & H2 & H3 & H4).
  exists bi, off. split; [exact E|]. split; [exact H2|]. split; [exact H1|]. split; [|exact H4].
  intros b Hb. assert (bi < length blocks) by (apply nth_error_Some; congruence).
  specialize (H3 ltac:(assumption)). rewrite (start_of_S _ _ _ Hb) in H3. lia.
Qed.

Lemma located_block blocks t bi ii : located blocks t bi ii -> t < total blocks ->
  exists b, nth_error blocks bi = Some b /\ ii < blen b /\ at_instant blocks t = Ok (b, ii).
Proof.
  intros (H1 & H2 & H3 & H4) Ht.
  destruct (nth_error blocks bi) as [b|] eqn:E.
  - exists b. split; [reflexivity|]. specialize (H3 b eq_refl). split; [exact H3|].
    rewrite H1. apply at_instant_eq; assumption.
  - apply nth_error_None in E. specialize (H4 ltac:(lia)). lia.
Qed.

Lemma chunk_get_at blocks enc fb t row col : t < total blocks ->
  chunk_get (chunk_new blocks enc fb) t row col =
  (x <- at_instant blocks t ;; block_get (fst x) (snd x) row col).
Proof.
  intros Ht. assert (Hne : blocks <> []) by (intros ->; cbn in Ht; lia).
  destruct (located_find blocks enc fb t Hne ltac:(lia)) as (bi & off & E & HL).
  destruct (located_block _ _ _ _ HL Ht) as (b & Hb & Ho & Ea).
  unfold chunk_get. rewrite E, Ea. cbn [bind fst snd ch_blocks chunk_new].
  rewrite (nth_res_ok _ _ _ Hb). reflexivity.
Qed.

(** ** Iterating over instants *)
Lemma iter_next_at blocks enc fb t bi ii n : located blocks t bi ii -> t < total blocks ->
  exists b it', nth_error blocks bi = Some b /\ at_instant blocks t = Ok (b, ii) /\
    chunk_iter_next (chunk_new blocks enc fb) (mkIter bi ii (S n)) = Ok (Some (bi, ii), it') /\
    it_remaining it' = n /\ located blocks (S t) (it_block it') (it_instant it').
Proof.
  intros HL Ht. destruct (located_block _ _ _ _ HL Ht) as (b & Hb & Ho & Ea).
  destruct HL as (H1 & H2 & H3 & H4). exists b.
  assert (Hlt : bi < length blocks) by (apply nth_error_Some; congruence).
  unfold chunk_iter_next. cbn [it_remaining it_block it_instant ch_blocks chunk_new].
  rewrite (nth_res_ok _ _ _ Hb). cbn [bind].
  destruct (Nat.eqb_spec ii (length (bl_logs b))) as [E|E]; eexists; (split; [exact Hb|]);
    (split; [exact Ea|]); (split; [reflexivity|]); (split; [reflexivity|]); cbn [it_block it_instant].
  - unfold located. replace (bi + 1) with (S bi) by lia. rewrite (start_of_S _ _ _ Hb).
    split; [unfold blen; lia|]. split; [lia|]. split; [unfold blen; lia|].
    intros Hx. rewrite H1, E. rewrite <- (start_of_all blocks (S bi)) by lia. rewrite (start_of_S _ _ _ Hb). unfold blen; lia.
  - unfold located. split; [lia|]. split; [lia|]. split.
    + intros b' Hb'. rewrite Hb in Hb'. injection Hb' as <-. unfold blen in *. lia.
    + lia.
Qed.

Lemma iter_loop_S {A} fuel c it i (body : nat -> block -> nat -> res (list A)) :
  iter_loop (S fuel) c it i body =
  (x <- chunk_iter_next c it ;;
   match fst x with
   | None => Ok []
   | Some (bi, ii) =>
       b <- nth_res (ch_blocks c) bi ;;
       out <- body i b ii ;;
       rest <- iter_loop fuel c (snd x) (i + 1) body ;;
       Ok (out ++ rest)
   end).
Proof. reflexivity. Qed.

Lemma iter_loop_at {A} blocks enc fb (body : nat -> block -> nat -> res (list A)) n :
  forall t bi ii i, located blocks t bi ii -> t + n <= total blocks ->
  iter_loop (S n) (chunk_new blocks enc fb) (mkIter bi ii n) i body =
  flat_mapM (fun j => x <- at_instant blocks (t + j) ;; body (i + j) (fst x) (snd x)) (seq 0 n).
Proof.
  induction n as [|n IH]; intros t bi ii i HL Ht.
  - reflexivity.
  - destruct (iter_next_at blocks enc fb t bi ii n HL ltac:(lia)) as (b & it' & Hb & Ea & En & Er & HL').
    rewrite iter_loop_S, En. cbn [bind fst snd].
    cbn [seq flat_mapM]. change (ch_blocks (chunk_new blocks enc fb)) with blocks. rewrite (nth_res_ok _ _ _ Hb). cbn [bind].
    replace (t + 0) with t by lia. rewrite Ea. cbn [bind fst snd]. replace (i + 0) with i by lia.
    destruct (body i b ii) as [out| | |]; cbn [bind]; try reflexivity.
    destruct it' as [bi' ii' n']. cbn [it_remaining it_block it_instant] in *. subst n'.
    specialize (IH (S t) bi' ii' (i + 1) HL' ltac:(lia)). rewrite IH.
    rewrite <- seq_shift.
    assert (EE : forall l, flat_mapM (fun j => x <- at_instant blocks (S t + j);; body (i + 1 + j) (fst x) (snd x)) l =
      flat_mapM (fun j => x <- at_instant blocks (t + j);; body (i + j) (fst x) (snd x)) (map S l)).
    { clear. induction l as [|y l IH]; [reflexivity|]. cbn [map flat_mapM].
      replace (t + S y) with (S t + y) by lia. replace (i + S y) with (i + 1 + y) by lia. rewrite IH. reflexivity. }
    rewrite EE. reflexivity.
Qed.

Lemma iter_new_at blocks enc fb start end_ : blocks <> [] -> start <= end_ -> end_ <= total blocks ->
  exists bi ii, chunk_iter_new (chunk_new blocks enc fb) start end_ = Ok (mkIter bi ii (end_ - start)) /\
    located blocks start bi ii.
Proof.
  intros Hne H1 H2. destruct (located_find blocks enc fb start Hne ltac:(lia)) as (bi & off & E & HL).
  exists bi, off. split; [|exact HL]. unfold chunk_iter_new. rewrite E. cbn [bind fst snd].
  rewrite usub_ok by exact H1. reflexivity.
Qed.

Lemma chunk_fill_cell_at blocks enc fb start end_ row col :
  blocks <> [] -> start <= end_ -> end_ <= total blocks ->
  chunk_fill_cell (chunk_new blocks enc fb) start end_ row col =
  flat_mapM (fun j => x <- at_instant blocks (start + j) ;;
                      v <- block_get (fst x) (snd x) row col ;; Ok [(j, v)]) (seq 0 (end_ - start)).
Proof.
  intros Hne H1 H2. destruct (iter_new_at blocks enc fb start end_ Hne H1 H2) as (bi & ii & E & HL).
  unfold chunk_fill_cell. rewrite E. cbn [bind it_remaining].
  rewrite (iter_loop_at blocks enc fb _ _ start bi ii 0 HL) by lia. reflexivity.
Qed.

Lemma chunk_fill_window_at blocks enc fb cb :
  blocks <> [] -> c_start cb <= c_end cb -> c_end cb <= total blocks ->
  chunk_fill_window (chunk_new blocks enc fb) cb =
  flat_mapM (fun j => x <- at_instant blocks (c_start cb + j) ;;
       out <- block_fill_window (fst x) (snd x) (cube_rect cb) ;;
       Ok (map (fun '(r, c, v) => (j, r, c, v)) out)) (seq 0 (c_end cb - c_start cb)).
Proof.
  intros Hne H1 H2. destruct (iter_new_at blocks enc fb _ _ Hne H1 H2) as (bi & ii & E & HL).
  unfold chunk_fill_window. rewrite E. cbn [bind it_remaining].
  rewrite (iter_loop_at blocks enc fb _ _ _ bi ii 0 HL) by lia. reflexivity.
Qed.

(** ** Searching *)
Definition tag (t : nat) (l : list (nat * nat)) : list (nat * nat * nat) :=
  map (fun rc => (t, fst rc, snd rc)) l.

Section Search.
  Variables (blocks : list block) (enc : encoding) (fb : nat) (w : rect) (lower upper : Z).
  Notation c := (chunk_new blocks enc fb).
  Variable R : nat -> list (nat * nat).

  Definition answers (t : nat) : Prop :=
    (x <- at_instant blocks t ;; block_search_window (fst x) (snd x) w lower upper) = Ok (R t).

  Definition pending (t n : nat) : list (nat * nat * nat) :=
    flat_map (fun j => tag j (R j)) (seq t n).

  Definition sst (s : search_iter) (t n : nat) (rs : list (nat * nat)) : Prop :=
    located blocks t (it_block (se_iter s)) (it_instant (se_iter s)) /\
    it_remaining (se_iter s) = n /\ se_bounds s = w /\ se_lower s = lower /\ se_upper s = upper /\
    se_instant s = t /\ se_results s = Some rs.

  Lemma next_results_some it t n rs : located blocks t (it_block it) (it_instant it) ->
    it_remaining it = S n -> t < total blocks -> answers t ->
    exists s', next_results c (mkSearch it w lower upper t rs) = Ok s' /\ sst s' (S t) n (R t).
  Proof.
    intros HL Hn Ht HA. destruct it as [bi ii m]. cbn [it_block it_instant it_remaining] in *. subst m.
    destruct (iter_next_at blocks enc fb t bi ii n HL Ht) as (b & it' & Hb & Ea & En & Er & HL').
    unfold next_results. cbn [se_iter se_bounds se_lower se_upper se_instant]. rewrite En. cbn [bind fst snd].
    change (ch_blocks c) with blocks. rewrite (nth_res_ok _ _ _ Hb). cbn [bind].
    unfold answers in HA. rewrite Ea in HA. cbn [bind fst snd] in HA. rewrite HA. cbn [bind].
    eexists. split; [reflexivity|]. unfold sst. cbn [se_iter se_bounds se_lower se_upper se_instant se_results].
    repeat split; auto; try apply HL'. lia.
  Qed.

  Lemma search_loop_ok : forall n fuel t s rs, sst s t n rs -> n + 2 <= fuel -> 0 < t ->
    t + n <= total blocks -> (forall j, t <= j < t + n -> answers j) ->
    match tag (t - 1) rs ++ pending t n with
    | [] => exists s', search_next_loop fuel c s = Ok (None, s')
    | (i, row, col) :: L =>
        exists s' t' n' rs', search_next_loop fuel c s = Ok (Some (row, col), s') /\ sst s' t' n' rs' /\
          0 < t' /\ i = t' - 1 /\ t' + n' = t + n /\ t <= t' /\
          L = tag (t' - 1) rs' ++ pending t' n'
    end.
  Proof.
    induction n as [|n IH]; intros fuel t s rs HS Hf Hp Ht HA; destruct rs as [|[row col] rs].
    - destruct HS as (_ & Hn & _ & _ & _ & _ & Hr).
      cbn [tag map app]. unfold pending. cbn [seq flat_map].
      destruct fuel as [|[|fuel]]; [lia|lia|]. cbn [search_next_loop]. rewrite Hr.
      unfold next_results, chunk_iter_next. rewrite Hn. cbn [bind fst snd]. cbn [se_results].
      eexists. reflexivity.
    - pose proof HS as HS'. destruct HS as (HL & Hn & Hb & Hlo & Hup & Hi & Hr).
      cbn [tag map app fst snd]. destruct fuel as [|fuel]; [lia|]. cbn [search_next_loop]. rewrite Hr.
      eexists _, t, 0, rs. split; [reflexivity|]. split; [|repeat split; auto; lia].
      unfold sst. cbn [se_iter se_bounds se_lower se_upper se_instant se_results]. repeat split; auto; apply HL.
    - destruct HS as (HL & Hn & Hb & Hlo & Hup & Hi & Hr).
      destruct fuel as [|fuel]; [lia|]. cbn [search_next_loop]. rewrite Hr.
      destruct s as [it w' lo' up' i' r']. cbn [se_iter se_bounds se_lower se_upper se_instant se_results] in *. subst w' lo' up' i' r'.
      destruct (next_results_some it t n (Some []) HL Hn ltac:(lia) (HA t ltac:(lia))) as (s' & E & HS').
      rewrite E. cbn [bind].
      specialize (IH fuel (S t) s' (R t) HS' ltac:(lia) ltac:(lia) ltac:(lia)).
      assert (HA' : forall j, S t <= j < S t + n -> answers j) by (intros j Hj; apply HA; lia).
      specialize (IH HA'). replace (S t - 1) with t in IH by lia.
      cbn [tag map app]. unfold pending at 1. cbn [seq flat_map]. fold (pending (S t) n).
      destruct (tag t (R t) ++ pending (S t) n) as [|[[i row] col] L]; [exact IH|].
      destruct IH as (s2 & t' & n' & rs' & E1 & E2 & E3 & E4 & E5 & E6 & E7).
      exists s2, t', n', rs'. repeat split; auto; try apply E2; lia.
    - pose proof HS as HS'. destruct HS as (HL & Hn & Hb & Hlo & Hup & Hi & Hr).
      cbn [tag map app fst snd]. destruct fuel as [|fuel]; [lia|]. cbn [search_next_loop]. rewrite Hr.
      eexists _, t, (S n), rs. split; [reflexivity|]. split; [|repeat split; auto; lia].
      unfold sst. cbn [se_iter se_bounds se_lower se_upper se_instant se_results]. repeat split; auto; apply HL.
  Qed.

  Lemma search_collect_ok : forall fuel t n s rs, sst s t n rs -> 0 < t ->
    t + n <= total blocks -> (forall j, t <= j < t + n -> answers j) ->
    length (tag (t - 1) rs ++ pending t n) < fuel ->
    search_collect fuel c s = Ok (tag (t - 1) rs ++ pending t n).
  Proof.
    induction fuel as [|fuel IH]; intros t n s rs HS Hp Ht HA Hf; [lia|].
    cbn [search_collect]. unfold search_next. pose proof HS as (HL & Hn & Hb & Hlo & Hup & Hi & Hr).
    rewrite Hr, Hn.
    pose proof (search_loop_ok n (n + 2) t s rs HS (le_n _) Hp Ht HA) as H.
    destruct (tag (t - 1) rs ++ pending t n) as [|[[i row] col] L].
    - destruct H as (s' & ->). reflexivity.
    - destruct H as (s' & t' & n' & rs' & E & HS' & Hp' & Ei & Etn & Hle & EL).
      rewrite E. cbn [bind fst snd].
      assert (Hi' : se_instant s' = t') by apply HS'. rewrite Hi'. rewrite usub_ok by lia. cbn [bind].
      cbn [fst snd]. rewrite (IH t' n' s' rs' HS' Hp' ltac:(lia)).
      + cbn [bind]. rewrite <- EL, Ei. reflexivity.
      + intros j Hj. apply HA. lia.
      + rewrite <- EL. cbn [length] in Hf. lia.
  Qed.
End Search.

Lemma chunk_search_at blocks enc fb cb lower upper (R : nat -> list (nat * nat)) :
  blocks <> [] -> c_start cb <= c_end cb -> c_end cb <= total blocks ->
  (forall t, c_start cb <= t < c_end cb ->
     answers blocks (cube_rect cb) (fst (rearrangeZ lower upper)) (snd (rearrangeZ lower upper)) R t) ->
  (forall t, c_start cb <= t < c_end cb ->
     length (R t) <= (c_bottom cb - c_top cb) * (c_right cb - c_left cb)) ->
  chunk_search (chunk_new blocks enc fb) cb lower upper =
  Ok (flat_map (fun t => tag t (R t)) (range (c_start cb) (c_end cb))).
Proof.
  intros Hne H1 H2 HA HB. unfold chunk_search, iter_search.
  destruct (rearrangeZ lower upper) as [lo up]. cbn [fst snd] in HA.
  destruct (iter_new_at blocks enc fb _ _ Hne H1 H2) as (bi & ii & E & HL). rewrite E. cbn [bind].
  destruct (c_end cb - c_start cb) as [|n] eqn:En.
  - unfold next_results, chunk_iter_next. cbn [se_iter it_remaining bind fst snd].
    cbn [search_collect Nat.mul]. unfold search_next. cbn [se_results bind fst].
    unfold range. rewrite En. reflexivity.
  - destruct (next_results_some blocks enc fb (cube_rect cb) lo up R (mkIter bi ii (S n)) (c_start cb) n None)
      as (s' & Es & HS); [exact HL|reflexivity|lia|apply HA; lia|].
    rewrite Es. cbn [bind].
    assert (EQ : tag (S (c_start cb) - 1) (R (c_start cb)) ++ pending R (S (c_start cb)) n
                 = flat_map (fun t => tag t (R t)) (range (c_start cb) (c_end cb))).
    { unfold range, pending. rewrite En. cbn [seq flat_map]. do 2 f_equal. lia. }
    rewrite <- EQ. apply (search_collect_ok blocks enc fb (cube_rect cb) lo up R); try assumption; try lia.
    + intros j Hj. apply HA. lia.
    + rewrite EQ. apply Nat.lt_succ_r.
      assert (HC : forall a m, c_start cb <= a -> a + m <= c_end cb ->
        length (flat_map (fun t => tag t (R t)) (seq a m)) <= m * ((c_bottom cb - c_top cb) * (c_right cb - c_left cb))).
      { intros a m. revert a. induction m as [|m IH]; intros a Ha Hm; cbn [seq flat_map Nat.mul]; [cbn; lia|].
        rewrite app_length. unfold tag at 1. rewrite map_length.
        specialize (HB a ltac:(lia)). specialize (IH (S a) ltac:(lia) ltac:(lia)). lia. }
      unfold range. rewrite En. apply HC; lia.
Qed.

(** ** What [Chunk::build] stores *)
Section Build.
  Variables (g : nat -> nat -> nat -> Z) (rows cols k e : nat).

  Definition built_block (t0 : nat) (b : block) : Prop :=
    snapshot_build_e (g t0) rows cols k e = Ok (bl_snapshot b) /\ length (bl_logs b) <= 254 /\
    forall i l, nth_error (bl_logs b) i = Some l ->
      log_build_e (g t0) (g (t0 + 1 + i)) rows cols k e = Ok l.

  Fixpoint built_blocks (t0 : nat) (blocks : list block) : Prop :=
    match blocks with
    | [] => True
    | b :: rest => built_block t0 b /\ built_blocks (t0 + blen b) rest
    end.

  Lemma built_blocks_app blocks : forall t0 b, built_blocks t0 blocks ->
    built_block (t0 + total blocks) b -> built_blocks t0 (blocks ++ [b]).
  Proof.
    induction blocks as [|x blocks IH]; intros t0 b H Hb; cbn [app built_blocks].
    - split; [|exact I]. replace (t0 + total []) with t0 in Hb by (cbn; lia). exact Hb.
    - destruct H as [H1 H2]. split; [exact H1|]. apply IH; [exact H2|].
      rewrite total_cons in Hb. replace (t0 + blen x + total blocks) with (t0 + (blen x + total blocks)) by lia. exact Hb.
  Qed.

  Lemma built_at blocks : forall t0 t, built_blocks t0 blocks -> t < total blocks ->
    exists b i s0, at_instant blocks t = Ok (b, i) /\ built_block s0 b /\ s0 + i = t0 + t /\ i <= length (bl_logs b) /\ t0 <= s0.
  Proof.
    induction blocks as [|x blocks IH]; intros t0 t H Ht; [cbn in Ht; lia|]. destruct H as [H1 H2].
    cbn [at_instant]. rewrite total_cons in Ht. destruct (Nat.ltb_spec t (blen x)) as [L|L].
    - exists x, t, t0. repeat split; auto; try apply H1. unfold blen in L. lia.
    - destruct (IH (t0 + blen x) (t - blen x) H2 ltac:(lia)) as (b & i & s0 & A & B & C & D & E).
      exists b, i, s0. repeat split; auto; try apply B; lia.
  Qed.

  Definition build_inv (st : build_state) (i : nat) : Prop :=
    let '(blocks, snap, si, logs, cs, cl) := st in
    built_blocks 0 blocks /\ si = total blocks /\ i = si + 1 + length logs /\
    built_block si (mkBlock snap logs) /\ cs = length blocks /\ cs + cl = total blocks.

  Hypothesis Hk : 2 <= k.

  Lemma build_step_ok st i : i64_raster (g i) rows cols ->
    (let '(_, _, si, _, _, _) := st in i64_raster (g si) rows cols) -> build_inv st i ->
    exists st', chunk_build_step g rows cols k e st i = Ok st' /\ build_inv st' (S i) /\
      (let '(_, _, si, _, _, _) := st' in si <= i) .
  Proof.
    intros Hi Hsi Hinv. destruct st as [[[[[blocks snap] si] logs] cs] cl].
    destruct Hinv as (H1 & H2 & H3 & H4 & H5 & H6).
    destruct (snapshot_build_ok (g i) rows cols k Hk e Hi) as (s & ? & ? & ? & ? & Es & _).
    destruct (log_build_ok (g si) (g i) rows cols k Hk e Hsi Hi) as (l & ? & ? & ? & ? & El & _).
    cbn [chunk_build_step]. rewrite Es, El. cbn [bind].
    destruct ((length logs =? 254) || (snapshot_size s <=? log_size l)) eqn:C.
    - unfold block_new. destruct H4 as (A & B & D). cbn [bl_logs bl_snapshot] in *.
      destruct (Nat.ltb_spec 254 (length logs)); [lia|]. cbn [bind].
      eexists. split; [reflexivity|]. split; [|lia]. unfold build_inv.
      assert (Et : total (blocks ++ [mkBlock snap logs]) = i) by
        (rewrite total_app, total_cons; unfold blen; cbn [bl_logs]; change (total []) with 0; lia).
      split; [|split; [|split; [|split; [|split]]]].
      + apply built_blocks_app; [exact H1|]. cbn [Nat.add]. rewrite <- H2. repeat split; auto.
      + lia.
      + cbn [length]. lia.
      + split; [exact Es|]. cbn [bl_logs length]. split; [lia|]. intros [|j] l' E'; discriminate.
      + rewrite app_length. cbn [length]. lia.
      + lia.
    - apply Bool.orb_false_iff in C. destruct C as [C _]. apply Nat.eqb_neq in C.
      eexists. split; [reflexivity|]. split; [|lia]. unfold build_inv. destruct H4 as (A & B & D). cbn [bl_logs bl_snapshot] in *.
      repeat split; auto; cbn [bl_logs]; rewrite ?app_length; cbn [length]; try lia.
      intros j l' E'. destruct (Nat.lt_ge_cases j (length logs)) as [L|L].
      + rewrite nth_error_app1 in E' by exact L. apply D. exact E'.
      + rewrite nth_error_app2 in E' by exact L. destruct (j - length logs) as [|m] eqn:Em.
        * cbn [nth_error] in E'. injection E' as <-. replace (si + 1 + j) with i by lia. exact El.
        * cbn [nth_error] in E'. destruct m; discriminate.
  Qed.

  Lemma build_fold_ok n : forall st i, (forall t, t < i + n -> i64_raster (g t) rows cols) -> 0 < i ->
    (let '(_, _, si, _, _, _) := st in si < i) -> build_inv st i ->
    exists st', foldM (chunk_build_step g rows cols k e) st (seq i n) = Ok st' /\ build_inv st' (i + n).
  Proof.
    induction n as [|n IH]; intros st i Hg Hi Hsi Hinv; cbn [seq foldM].
    - exists st. split; [reflexivity|]. replace (i + 0) with i by lia. exact Hinv.
    - destruct (build_step_ok st i) as (st1 & E & Hinv1 & Hlt); [apply Hg; lia| |exact Hinv|].
      { destruct st as [[[[[? ?] si] ?] ?] ?]. apply Hg. lia. }
      rewrite E. cbn [bind]. destruct (IH st1 (S i)) as (st' & E' & Hinv').
      + intros t Ht. apply Hg. lia.
      + lia.
      + destruct st1 as [[[[[? ?] si] ?] ?] ?]. lia.
      + exact Hinv1.
      + exists st'. split; [exact E'|]. replace (i + S n) with (S i + n) by lia. exact Hinv'.
  Qed.

  Lemma chunk_build_ok instants enc fb : 0 < instants -> i64_series g instants rows cols ->
    exists blocks ns nl, chunk_build_e g instants rows cols k e enc fb =
        Ok (mkBuilt (chunk_new blocks enc fb) ns nl) /\
      built_blocks 0 blocks /\ total blocks = instants /\ ns = length blocks /\ ns + nl = instants.
  Proof.
    intros Hn Hg. unfold chunk_build_e. destruct (Nat.eqb_spec instants 0); [lia|].
    assert (H0 : forall t, t < instants -> i64_raster (g t) rows cols).
    { intros t Ht r c Hr Hc. apply Hg; assumption. }
    destruct (snapshot_build_ok (g 0) rows cols k Hk e (H0 0 Hn)) as (s & ? & ? & ? & ? & Es & _).
    rewrite Es. cbn [bind]. unfold range.
    destruct (build_fold_ok (instants - 1) ([], s, 0, [], 0, 0) 1) as (st & E & Hinv).
    - intros t Ht. apply H0. lia.
    - lia.
    - lia.
    - repeat split; cbn; auto; try lia. intros [|i] l E; discriminate.
    - rewrite E. cbn [bind]. destruct st as [[[[[blocks snap] si] logs] cs] cl].
      destruct Hinv as (H1 & H2 & H3 & H4 & H5 & H6). unfold block_new.
      destruct H4 as (A & B & D). cbn [bl_logs bl_snapshot] in *.
      destruct (Nat.ltb_spec 254 (length logs)); [lia|]. cbn [bind].
      assert (Et : total (blocks ++ [mkBlock snap logs]) = instants) by
        (rewrite total_app, total_cons; unfold blen; cbn [bl_logs]; change (total []) with 0; lia).
      do 3 eexists. split; [reflexivity|]. split; [|split; [exact Et|split]].
      + apply built_blocks_app; [exact H1|]. cbn [Nat.add]. rewrite <- H2. repeat split; auto.
      + rewrite app_length. cbn [length]. lia.
      + lia.
  Qed.
End Build.
