(** * Spec: what the properties mean, independently of the model.

    A raster is a function [nat -> nat -> Z] (row, column) together with a
    number of rows and columns; a series is a function
    [nat -> nat -> nat -> Z] (instant, row, column).  Regions are half open. *)
From Verif Require Import Base.

(** The cells of the region [top,bottom) x [left,right), row by row. *)
Definition cells (top bottom left right : nat) : list (nat * nat) :=
  flat_map (fun r => map (fun c => (r, c)) (range left right)) (range top bottom).

(** What a window read must deliver: every cell of the window, addressed
    relative to the window's top-left corner, with the raster's value there. *)
Definition window_spec (g : nat -> nat -> Z) (top bottom left right : nat) : list (nat * nat * Z) :=
  map (fun rc => (fst rc - top, snd rc - left, g (fst rc) (snd rc))) (cells top bottom left right).

(** What a search must deliver: the cells of the window whose value lies in
    the closed interval. *)
Definition in_bounds (lower upper v : Z) : bool := ((lower <=? v) && (v <=? upper))%Z.
Definition search_spec (g : nat -> nat -> Z) (top bottom left right : nat) (lower upper : Z)
  : list (nat * nat) :=
  filter (fun rc => in_bounds lower upper (g (fst rc) (snd rc))) (cells top bottom left right).

(** The same for a series of rasters over the instants [start,end_). *)
Definition cells3 (start end_ top bottom left right : nat) : list (nat * nat * nat) :=
  flat_map (fun t => map (fun rc => (t, fst rc, snd rc)) (cells top bottom left right))
           (range start end_).
Definition window3_spec {A} (g : nat -> nat -> nat -> A) (start end_ top bottom left right : nat)
  : list (nat * nat * nat * A) :=
  map (fun '(t, r, c) => (t - start, r - top, c - left, g t r c))
      (cells3 start end_ top bottom left right).
Definition search3_spec (g : nat -> nat -> nat -> Z) (start end_ top bottom left right : nat)
  (lower upper : Z) : list (nat * nat * nat) :=
  filter (fun '(t, r, c) => in_bounds lower upper (g t r c))
         (cells3 start end_ top bottom left right).

(** A raster all of whose values inside the shape are i64 values. *)
Definition i64_raster (g : nat -> nat -> Z) (rows cols : nat) : Prop :=
  forall r c, r < rows -> c < cols -> i64_range (g r c).
Definition i64_series (g : nat -> nat -> nat -> Z) (instants rows cols : nat) : Prop :=
  forall t r c, t < instants -> r < rows -> c < cols -> i64_range (g t r c).

(** A non-empty window inside a raster. *)
Definition window_in (top bottom left right rows cols : nat) : Prop :=
  top < bottom /\ bottom <= rows /\ left < right /\ right <= cols.
