(** * Whatever is in the store, the numbers that a read hands over are i64s. *)
From Verif Require Import Base BaseFacts GeomModel BitmapModel DacModel StreamModel SnapshotModel LogModel ChunkModel NodeModel SuperModel SuperProofs.
Ltac Zify.zify_post_hook ::= Z.div_mod_to_equations.
Arguments Nat.pow : simpl never.

Lemma dac_get_range d i z : dac_get d i = Ok z -> i64_range z.
Proof. unfold dac_get. intros H. apply bind_inv in H. destruct H as (n & _ & H). injection H as <-. apply wrap64_range. Qed.

Lemma mapM_Forall {A B} (f : A -> res B) (P : B -> Prop) : forall l ys, (forall x y, f x = Ok y -> P y) -> mapM f l = Ok ys -> Forall P ys.
Proof.
  induction l as [|x l IH]; intros ys Hf H; cbn [mapM] in H; [injection H as <-; constructor|].
  apply bind_inv in H. destruct H as (y & E1 & H). apply bind_inv in H. destruct H as (zs & E2 & H). injection H as <-.
  constructor; [eapply Hf; exact E1|eapply IH; eassumption].
Qed.
Lemma flat_mapM_Forall {A B} (f : A -> res (list B)) (P : B -> Prop) l ys :
  (forall x y, f x = Ok y -> Forall P y) -> flat_mapM f l = Ok ys -> Forall P ys.
Proof.
  revert ys. induction l as [|x l IH]; intros ys Hf H; cbn [flat_mapM] in H; [injection H as <-; constructor|].
  apply bind_inv in H. destruct H as (y & E1 & H). apply bind_inv in H. destruct H as (zs & E2 & H). injection H as <-.
  apply Forall_app. split; [eapply Hf; exact E1|eapply IH; eassumption].
Qed.

Definition cell_i64 (x : nat * nat * Z) : Prop := i64_range (snd x).
Lemma fill_block_i64 a b c d e f g h v l : i64_range v -> fill_block a b c d e f g h v = Ok l -> Forall cell_i64 l.
Proof.
  intros Hv H. unfold fill_block in H. eapply flat_mapM_Forall; [|exact H]. intros x y Hy. cbv beta in Hy.
  eapply mapM_Forall; [|exact Hy]. intros x' y' H'. cbv beta in H'.
  apply bind_inv in H'. destruct H' as (p & _ & H'). apply bind_inv in H'. destruct H' as (q & _ & H'). injection H' as <-. exact Hv.
Qed.
Lemma rows_i64 (v : Z) rows cols : i64_range v -> Forall cell_i64 (flat_map (fun row => map (fun col => (row, col, v)) (range 0 cols)) (range 0 rows)).
Proof.
  intros Hv. apply Forall_forall. intros x Hx. apply in_flat_map in Hx. destruct Hx as (r & _ & Hx). apply in_map_iff in Hx.
  destruct Hx as (c & <- & _). exact Hv.
Qed.

Ltac peel H := let x := fresh "x" in let E := fresh "E" in apply bind_inv in H; destruct H as (x & E & H).

Lemma snap_fill_rec_i64 s : forall fuel sidelen top bottom lft rgt index m wt wl to lo l,
  snap_fill_rec fuel s sidelen top bottom lft rgt index m wt wl to lo = Ok l -> Forall cell_i64 l.
Proof.
  induction fuel as [|fuel IH]; intros sidelen top bottom lft rgt index m wt wl to lo l H; cbn [snap_fill_rec] in H; [discriminate|].
  do 7 peel H. eapply flat_mapM_Forall; [|exact H]. intros i y Hy. cbv beta in Hy. peel Hy.
  eapply flat_mapM_Forall; [|exact Hy]. intros j z Hz. cbv beta in Hz. do 3 peel Hz.
  match type of Hz with (if ?b then _ else _) = _ => destruct b end.
  - eapply fill_block_i64; [|exact Hz]. apply wrap64_range.
  - eapply IH. exact Hz.
Qed.
Lemma snap_fill_i64 s b l : snap_fill_window s b = Ok l -> Forall cell_i64 l.
Proof.
  unfold snap_fill_window. intros H. do 3 peel H. destruct (negb _) in H.
  - peel H. injection H as <-. apply rows_i64. eapply dac_get_range. eassumption.
  - do 3 peel H. eapply snap_fill_rec_i64. exact H.
Qed.
Lemma log_fill_rec_i64 lg s : forall fuel sidelen top bottom lft rgt it is_ mt ms wt wl to lo l,
  log_fill_rec fuel lg s sidelen top bottom lft rgt it is_ mt ms wt wl to lo = Ok l -> Forall cell_i64 l.
Proof.
  induction fuel as [|fuel IH]; intros sidelen top bottom lft rgt it is_ mt ms wt wl to lo l H; cbn [log_fill_rec] in H; [discriminate|].
  do 8 peel H. eapply flat_mapM_Forall; [|exact H]. intros i y Hy. cbv beta in Hy. peel Hy.
  eapply flat_mapM_Forall; [|exact Hy]. intros j z Hz. cbv beta in Hz. do 5 peel Hz.
  destruct (_ && _) in Hz; [eapply fill_block_i64; [|exact Hz]; apply wrap64_range|].
  match type of Hz with (if ?b then _ else _) = _ => destruct b end; [eapply IH; exact Hz|].
  match type of Hz with (if ?b then _ else _) = _ => destruct b end; [|eapply IH; exact Hz].
  peel Hz. match type of Hz with (if ?b then _ else _) = _ => destruct b end; [eapply fill_block_i64; [|exact Hz]; apply wrap64_range|eapply IH; exact Hz].
Qed.
Lemma log_fill_i64 lg s b l : log_fill_window lg s b = Ok l -> Forall cell_i64 l.
Proof.
  unfold log_fill_window. intros H. do 3 peel H. match type of H with (if ?b then _ else _) = _ => destruct b end.
  - do 4 peel H. injection H as <-. apply rows_i64. apply wrap64_range.
  - do 4 peel H. eapply log_fill_rec_i64. exact H.
Qed.
Lemma block_fill_i64 b i w l : block_fill_window b i w = Ok l -> Forall cell_i64 l.
Proof. unfold block_fill_window. destruct i as [|i]; intros H; [eapply snap_fill_i64; exact H|]. peel H. eapply log_fill_i64. exact H. Qed.

Lemma iter_loop_Forall {B} (f : nat -> block -> nat -> res (list B)) (P : B -> Prop) c :
  (forall i b ii l, f i b ii = Ok l -> Forall P l) ->
  forall fuel it i l, iter_loop fuel c it i f = Ok l -> Forall P l.
Proof.
  intros Hf. induction fuel as [|fuel IH]; intros it i l H; cbn [iter_loop] in H; [discriminate|].
  peel H. destruct (fst x) as [[bi ii]|]; [|injection H as <-; constructor].
  do 3 peel H. injection H as <-. apply Forall_app. split; [eapply Hf; eassumption|eapply IH; eassumption].
Qed.

Definition call_i64 (x : call) : Prop := i64_range (fst (snd x)).
Lemma chunk_fill_i64 c b l : chunk_fill_window c b = Ok l -> Forall (fun x => i64_range (snd x)) l.
Proof.
  unfold chunk_fill_window. intros H. peel H. eapply iter_loop_Forall; [|exact H]. intros i bl ii y Hy. cbv beta in Hy. peel Hy.
  injection Hy as <-. apply Forall_map. eapply Forall_impl; [|eapply block_fill_i64; eassumption]. intros [[r cc] v] Hv. exact Hv.
Qed.
Lemma moved_i64 a b c l : Forall call_i64 l -> Forall call_i64 (moved a b c l).
Proof. intros H. apply Forall_map. eapply Forall_impl; [|exact H]. intros [[[t r] cc] v] Hv. exact Hv. Qed.

(** Whatever the store holds. *)
Theorem mm_fill_window_i64 st : forall fuel m b bits l, mm_fill_window st fuel m b bits = Ok l -> Forall call_i64 l.
Proof.
  induction fuel as [|fuel IH]; intros m b bits l H; cbn [mm_fill_window] in H; [discriminate|].
  destruct m as [s|c|s local].
  - do 2 peel H. eapply flat_mapM_Forall; [|exact H]. intros [[[sp instant] len] off] y Hy. cbv beta iota in Hy. do 3 peel Hy.
    injection Hy as <-. apply moved_i64. eapply IH. eassumption.
  - peel H. injection H as <-. apply Forall_map. eapply Forall_impl; [|eapply chunk_fill_i64; eassumption]. intros [[[t r] cc] v] Hv. exact Hv.
  - do 2 peel H. eapply flat_mapM_Forall; [|exact H]. intros sw y Hy. cbv beta in Hy. peel Hy. injection Hy as <-. apply moved_i64.
    match goal with E : swallow ?z = Ok _ |- _ => destruct z as [l'|e| |] eqn:Ez; cbn [swallow] in E; try discriminate; [|injection E as <-; constructor]; injection E as <- end.
    peel Ez. match type of Ez with match ?r with _ => _ end = _ => destruct r end.
    + peel Ez. eapply flat_mapM_Forall; [|exact Ez]. intros i z Hz. cbv beta in Hz. peel Hz. injection Hz as <-.
      unfold fill_instant. apply Forall_map. apply Forall_forall. intros rc _. red. cbn [snd fst]. eapply dac_get_range. eassumption.
    + peel Ez. eapply IH. exact Ez.
    + peel Ez. eapply IH. exact Ez.
Qed.
