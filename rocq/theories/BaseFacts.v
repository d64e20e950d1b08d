(** * Facts about the conventions of [Base]. No modelling here. *)
From Verif Require Import Base.
Ltac Zify.zify_post_hook ::= Z.div_mod_to_equations.

(** ** res *)
Lemma bind_ok {A B} (a : A) (f : A -> res B) : bind (Ok a) f = f a.
Proof. reflexivity. Qed.

Lemma bind_inv {A B} (x : res A) (f : A -> res B) b :
  bind x f = Ok b -> exists a, x = Ok a /\ f a = Ok b.
Proof. destruct x; cbn [bind]; intros H; try discriminate. eauto. Qed.

Lemma nth_res_ok {A} (l : list A) i x : nth_error l i = Some x -> nth_res l i = Ok x.
Proof. unfold nth_res; intros ->; reflexivity. Qed.

Lemma nth_res_inv {A} (l : list A) i x : nth_res l i = Ok x -> nth_error l i = Some x.
Proof. unfold nth_res; destruct (nth_error l i); congruence. Qed.

Lemma nth_res_nth {A} (l : list A) i d : i < length l -> nth_res l i = Ok (nth i l d).
Proof. intros H. apply nth_res_ok. apply nth_error_nth'. exact H. Qed.

Lemma usub_ok a b : b <= a -> usub a b = Ok (a - b).
Proof. unfold usub; intros H. destruct (Nat.leb_spec b a); [reflexivity|lia]. Qed.

Lemma udiv_ok a b : b <> 0 -> udiv a b = Ok (a / b).
Proof. unfold udiv; intros H. destruct (Nat.eqb_spec b 0); [lia|reflexivity]. Qed.

Lemma umod_ok a b : b <> 0 -> umod a b = Ok (a mod b).
Proof. unfold umod; intros H. destruct (Nat.eqb_spec b 0); [lia|reflexivity]. Qed.

Lemma slice_res_ok {A} (l : list A) s e : s <= e -> e <= length l ->
  slice_res l s e = Ok (firstn (e - s) (skipn s l)).
Proof.
  unfold slice_res; intros H1 H2.
  destruct (Nat.leb_spec s e); [|lia]. destruct (Nat.leb_spec e (length l)); [|lia]. reflexivity.
Qed.

(** ** wrap-around *)
Lemma wrap64_range z : i64_range (wrap64 z).
Proof. unfold i64_range, wrap64, two63, two64. lia. Qed.

Lemma wrap64_id z : i64_range z -> wrap64 z = z.
Proof. unfold i64_range, wrap64, two63, two64. lia. Qed.

Lemma wrap64_eqm z : exists q, (wrap64 z = z + q * two64)%Z.
Proof.
  exists (- ((z + two63) / two64))%Z.
  unfold wrap64, two63, two64. lia.
Qed.

Lemma wrap64_uniq a z q : i64_range a -> (z = a + q * two64)%Z -> wrap64 z = a.
Proof. unfold i64_range, wrap64, two63, two64. lia. Qed.

Lemma i64_sub_range a b : i64_range (i64_sub a b).
Proof. apply wrap64_range. Qed.
Lemma i64_add_range a b : i64_range (i64_add a b).
Proof. apply wrap64_range. Qed.

(** Differences undo exactly, even when they overflow. *)
Lemma i64_sub_sub a b : i64_range b -> i64_sub a (i64_sub a b) = b.
Proof.
  intros Hb. unfold i64_sub at 1, i64_sub.
  destruct (wrap64_eqm (a - b)) as [q ->].
  apply wrap64_uniq with (q := (- q)%Z); [exact Hb|lia].
Qed.

Lemma i64_add_sub a b : i64_range b -> i64_add a (i64_sub b a) = b.
Proof.
  intros Hb. unfold i64_add, i64_sub.
  destruct (wrap64_eqm (b - a)) as [q ->].
  apply wrap64_uniq with (q := q); [exact Hb|lia].
Qed.

Lemma i64_sub_add a b : i64_range b -> i64_add (i64_sub b a) a = b.
Proof.
  intros Hb. unfold i64_add, i64_sub.
  destruct (wrap64_eqm (b - a)) as [q ->].
  apply wrap64_uniq with (q := q); [exact Hb|lia].
Qed.

Lemma i64_rangeb_spec z : i64_rangeb z = true <-> i64_range z.
Proof. unfold i64_rangeb, i64_range. lia. Qed.

(** ** lists *)
Lemma nth_error_list_set {A} (l : list A) i j x :
  i < length l ->
  nth_error (list_set l i x) j = if j =? i then Some x else nth_error l j.
Proof.
  revert i j; induction l as [|h t IH]; intros i j H; cbn [length] in H; [lia|].
  destruct i as [|i], j as [|j]; cbn [list_set nth_error Nat.eqb]; try reflexivity.
  apply IH. lia.
Qed.

Lemma length_list_set {A} (l : list A) i x : length (list_set l i x) = length l.
Proof.
  revert i; induction l as [|h t IH]; intros [|i]; cbn [list_set length]; auto.
Qed.

Lemma nth_list_set {A} (l : list A) i j x d :
  i < length l -> nth j (list_set l i x) d = if j =? i then x else nth j l d.
Proof.
  revert i j; induction l as [|h t IH]; intros i j H; cbn [length] in H; [lia|].
  destruct i as [|i], j as [|j]; cbn [list_set nth Nat.eqb]; try reflexivity.
  apply IH. lia.
Qed.

Lemma length_range a b : length (range a b) = b - a.
Proof. apply seq_length. Qed.

Lemma in_range a b x : In x (range a b) <-> a <= x < b.
Proof. unfold range. rewrite in_seq. lia. Qed.

Lemma in_range_incl a b x : In x (range_incl a b) <-> a <= x <= b.
Proof. unfold range_incl. rewrite in_seq. lia. Qed.

(** ** loops *)
Lemma mapM_ok {A B} (f : A -> res B) (g : A -> B) l :
  (forall x, In x l -> f x = Ok (g x)) -> mapM f l = Ok (map g l).
Proof.
  induction l as [|x xs IH]; intros H; cbn [mapM map]; [reflexivity|].
  rewrite (H x) by (left; reflexivity). cbn [bind].
  rewrite IH by (intros y Hy; apply H; right; exact Hy). reflexivity.
Qed.

Lemma mapM_ext {A B} (f g : A -> res B) l :
  (forall x, In x l -> f x = g x) -> mapM f l = mapM g l.
Proof.
  induction l as [|x xs IH]; intros H; cbn [mapM]; [reflexivity|].
  rewrite (H x) by (left; reflexivity).
  rewrite IH by (intros y Hy; apply H; right; exact Hy). reflexivity.
Qed.

Lemma mapM_app {A B} (f : A -> res B) l1 l2 :
  mapM f (l1 ++ l2) = (a <- mapM f l1 ;; b <- mapM f l2 ;; Ok (a ++ b)).
Proof.
  induction l1 as [|x xs IH]; cbn [mapM app bind].
  - destruct (mapM f l2); reflexivity.
  - destruct (f x); cbn [bind]; try reflexivity. rewrite IH.
    destruct (mapM f xs); cbn [bind]; try reflexivity.
    destruct (mapM f l2); reflexivity.
Qed.

Lemma flat_mapM_ok {A B} (f : A -> res (list B)) (g : A -> list B) l :
  (forall x, In x l -> f x = Ok (g x)) -> flat_mapM f l = Ok (flat_map g l).
Proof.
  induction l as [|x xs IH]; intros H; cbn [flat_mapM flat_map]; [reflexivity|].
  rewrite (H x) by (left; reflexivity). cbn [bind].
  rewrite IH by (intros y Hy; apply H; right; exact Hy). reflexivity.
Qed.

Lemma flat_mapM_perm {A B} (f : A -> res (list B)) (h : A -> list B) l :
  (forall x, In x l -> exists r, f x = Ok r /\ Permutation r (h x)) ->
  exists r, flat_mapM f l = Ok r /\ Permutation r (flat_map h l).
Proof.
  induction l as [|x xs IH]; intros H; cbn [flat_mapM flat_map].
  - exists []. split; [reflexivity|constructor].
  - destruct (H x) as (r & Hr & Pr); [left; reflexivity|].
    destruct IH as (rs & Hrs & Prs); [intros y Hy; apply H; right; exact Hy|].
    exists (r ++ rs). rewrite Hr. cbn [bind]. rewrite Hrs. split; [reflexivity|].
    apply Permutation_app; assumption.
Qed.

Lemma foldM_app {A S} (f : S -> A -> res S) s l1 l2 :
  foldM f s (l1 ++ l2) = (s' <- foldM f s l1 ;; foldM f s' l2).
Proof.
  revert s; induction l1 as [|x xs IH]; intros s; cbn [foldM app bind]; [reflexivity|].
  destruct (f s x); cbn [bind]; auto.
Qed.

(** ** flat_map and permutations *)
Lemma flat_map_ext_in {A B} (f g : A -> list B) l :
  (forall x, In x l -> f x = g x) -> flat_map f l = flat_map g l.
Proof.
  induction l as [|x xs IH]; intros H; cbn [flat_map]; [reflexivity|].
  rewrite (H x) by (left; reflexivity).
  rewrite IH by (intros y Hy; apply H; right; exact Hy). reflexivity.
Qed.

Lemma flat_map_perm_in {A B} (f g : A -> list B) l :
  (forall x, In x l -> Permutation (f x) (g x)) -> Permutation (flat_map f l) (flat_map g l).
Proof.
  induction l as [|x xs IH]; intros H; cbn [flat_map]; [constructor|].
  apply Permutation_app; [apply H; left; reflexivity|].
  apply IH; intros y Hy; apply H; right; exact Hy.
Qed.

Lemma flat_map_nil {A B} (l : list A) : flat_map (fun _ => @nil B) l = [].
Proof. induction l; auto. Qed.

Lemma flat_map_app_fun {A B} (f g : A -> list B) l :
  Permutation (flat_map (fun x => f x ++ g x) l) (flat_map f l ++ flat_map g l).
Proof.
  induction l as [|x xs IH]; cbn [flat_map]; [constructor|].
  rewrite IH. rewrite <- !app_assoc. apply Permutation_app_head.
  rewrite !app_assoc. apply Permutation_app_tail. apply Permutation_app_comm.
Qed.

Lemma flat_map_swap {A B C} (f : A -> B -> list C) la lb :
  Permutation (flat_map (fun a => flat_map (fun b => f a b) lb) la)
              (flat_map (fun b => flat_map (fun a => f a b) la) lb).
Proof.
  induction la as [|a la IH]; cbn [flat_map].
  - rewrite flat_map_nil. constructor.
  - rewrite IH. symmetry. apply (flat_map_app_fun (fun b => f a b)).
Qed.

Lemma flat_map_flat_map {A B C} (f : A -> list B) (g : B -> list C) l :
  flat_map g (flat_map f l) = flat_map (fun x => flat_map g (f x)) l.
Proof.
  induction l as [|x xs IH]; cbn [flat_map]; [reflexivity|].
  rewrite flat_map_app, IH. reflexivity.
Qed.

Lemma map_flat_map {A B C} (f : A -> list B) (g : B -> C) l :
  map g (flat_map f l) = flat_map (fun x => map g (f x)) l.
Proof.
  induction l as [|x xs IH]; cbn [flat_map]; [reflexivity|].
  rewrite map_app, IH. reflexivity.
Qed.

Lemma flat_map_map {A B C} (f : A -> B) (g : B -> list C) l :
  flat_map g (map f l) = flat_map (fun x => g (f x)) l.
Proof. induction l as [|x xs IH]; cbn [flat_map map]; [reflexivity|]. rewrite IH. reflexivity. Qed.

Lemma filter_flat_map {A B} (f : A -> list B) (p : B -> bool) l :
  filter p (flat_map f l) = flat_map (fun x => filter p (f x)) l.
Proof.
  induction l as [|x xs IH]; cbn [flat_map]; [reflexivity|].
  rewrite filter_app, IH. reflexivity.
Qed.

Lemma filter_map_comm {A B} (f : A -> B) (p : B -> bool) l :
  filter p (map f l) = map f (filter (fun x => p (f x)) l).
Proof.
  induction l as [|x xs IH]; cbn [map filter]; [reflexivity|].
  rewrite IH. destruct (p (f x)); reflexivity.
Qed.

Lemma filter_perm {A} (p : A -> bool) l1 l2 :
  Permutation l1 l2 -> Permutation (filter p l1) (filter p l2).
Proof.
  induction 1; cbn [filter]; try constructor.
  - destruct (p x); auto.
  - destruct (p x), (p y); auto using perm_swap.
  - etransitivity; eassumption.
Qed.

Lemma filter_true_in {A} (p : A -> bool) l : (forall x, In x l -> p x = true) -> filter p l = l.
Proof.
  induction l as [|x xs IH]; intros H; cbn [filter]; [reflexivity|].
  rewrite (H x) by (left; reflexivity).
  rewrite IH by (intros y Hy; apply H; right; exact Hy). reflexivity.
Qed.

Lemma filter_false_in {A} (p : A -> bool) l : (forall x, In x l -> p x = false) -> filter p l = [].
Proof.
  induction l as [|x xs IH]; intros H; cbn [filter]; [reflexivity|].
  rewrite (H x) by (left; reflexivity).
  apply IH; intros y Hy; apply H; right; exact Hy.
Qed.

Lemma nth_error_flat_map_const {A B} (f : A -> list B) (l : list A) n j c x :
  (forall y, In y l -> length (f y) = n) ->
  nth_error l j = Some x -> c < n ->
  nth_error (flat_map f l) (j * n + c) = nth_error (f x) c.
Proof.
  revert j; induction l as [|y ys IH]; intros j Hlen Hj Hc; [destruct j; discriminate|].
  destruct j as [|j]; cbn [nth_error] in Hj.
  - injection Hj as ->. cbn [flat_map Nat.mul Nat.add].
    apply nth_error_app1. rewrite Hlen by (left; reflexivity). exact Hc.
  - cbn [flat_map]. rewrite nth_error_app2; rewrite Hlen by (left; reflexivity); [|cbn [Nat.mul]; lia].
    replace (S j * n + c - n) with (j * n + c) by (cbn [Nat.mul]; lia).
    apply IH; auto. intros z Hz; apply Hlen; right; exact Hz.
Qed.

Lemma skipn_skipn {A} (a b : nat) (l : list A) : skipn a (skipn b l) = skipn (a + b) l.
Proof.
  revert l; induction b as [|b IH]; intros l.
  - rewrite Nat.add_0_r. reflexivity.
  - rewrite Nat.add_succ_r. destruct l as [|x l]; cbn [skipn].
    + apply skipn_nil.
    + apply IH.
Qed.

Lemma mapM_exists {A B} (R : A -> B -> Prop) (f : A -> res B) l :
  (forall x, In x l -> exists y, f x = Ok y /\ R x y) ->
  exists ys, mapM f l = Ok ys /\ Forall2 R l ys.
Proof.
  induction l as [|x xs IH]; intros H; cbn [mapM].
  - exists []. split; [reflexivity|constructor].
  - destruct (H x) as (y & Ey & Ry); [left; reflexivity|].
    destruct IH as (ys & Eys & Rys); [intros z Hz; apply H; right; exact Hz|].
    exists (y :: ys). rewrite Ey. cbn [bind]. rewrite Eys. split; [reflexivity|constructor; assumption].
Qed.

Lemma Forall2_nth_error {A B} (R : A -> B -> Prop) la lb i b :
  Forall2 R la lb -> nth_error lb i = Some b -> exists a, nth_error la i = Some a /\ R a b.
Proof.
  intros HF; revert i; induction HF as [|x y xs ys HR HF IH]; intros [|i] Hi; try discriminate.
  - injection Hi as <-. exists x. split; [reflexivity|exact HR].
  - apply IH. exact Hi.
Qed.

Lemma Forall2_nth_error_l {A B} (R : A -> B -> Prop) la lb i a :
  Forall2 R la lb -> nth_error la i = Some a -> exists b, nth_error lb i = Some b /\ R a b.
Proof.
  intros HF; revert i; induction HF as [|x y xs ys HR HF IH]; intros [|i] Hi; try discriminate.
  - injection Hi as <-. exists y. split; [reflexivity|exact HR].
  - apply IH. exact Hi.
Qed.

Lemma length_grid k : length (grid k) = k * k.
Proof. unfold grid. rewrite prod_length, seq_length. reflexivity. Qed.

Lemma list_prod_flat {A B} (la : list A) (lb : list B) :
  list_prod la lb = flat_map (fun a => map (fun b => (a, b)) lb) la.
Proof. induction la as [|a la IH]; cbn [list_prod flat_map]; [reflexivity|]. rewrite IH. reflexivity. Qed.

Lemma nth_error_seq a n i : i < n -> nth_error (seq a n) i = Some (a + i).
Proof.
  revert a i; induction n as [|n IH]; intros a i H; [lia|].
  destruct i as [|i]; cbn [seq nth_error]; [f_equal; lia|]. rewrite IH by lia. f_equal. lia.
Qed.

Lemma nth_error_grid k i j : i < k -> j < k -> nth_error (grid k) (i * k + j) = Some (i, j).
Proof.
  intros Hi Hj. unfold grid. rewrite list_prod_flat.
  rewrite (nth_error_flat_map_const _ _ k j _ i) || rewrite (nth_error_flat_map_const _ _ k i j i).
  - rewrite (map_nth_error _ j (seq 0 k) (d := j)); [reflexivity|]. apply nth_error_seq. exact Hj.
  - intros y _. rewrite map_length. apply seq_length.
  - apply nth_error_seq. exact Hi.
  - exact Hj.
Qed.

Lemma in_grid k i j : In (i, j) (grid k) <-> i < k /\ j < k.
Proof. unfold grid. rewrite in_prod_iff, !in_seq. lia. Qed.

Lemma ex_perm_trans {A} (x : res (list A)) (l1 l2 : list A) :
  (exists r, x = Ok r /\ Permutation r l1) -> Permutation l1 l2 -> exists r, x = Ok r /\ Permutation r l2.
Proof. intros (r & E & P) Q. exists r. split; [exact E|]. rewrite P. exact Q. Qed.

Lemma Forall2_length {A B} (R : A -> B -> Prop) la lb : Forall2 R la lb -> length la = length lb.
Proof. induction 1; cbn [length]; congruence. Qed.
