(** * Model of [dcdf/src/helpers.rs] and [dcdf/src/geom.rs]. *)
From Verif Require Import Base.

(** [rearrange], helpers.rs 7-16, at [usize]. *)
Definition rearrange (lower upper : nat) : nat * nat :=
  if upper <? lower then (upper, lower) else (lower, upper).

(** [rearrange] at [i64]. *)
Definition rearrangeZ (lower upper : Z) : Z * Z :=
  if (upper <? lower)%Z then (upper, lower) else (lower, upper).

(** [struct Rect], geom.rs 3-10. *)
Record rect := mkRect { r_top : nat; r_bottom : nat; r_left : nat; r_right : nat }.

(** [Rect::new], geom.rs 13-23. *)
Definition rect_new (top bottom left right : nat) : rect :=
  let '(top, bottom) := rearrange top bottom in
  let '(lft, rgt) := rearrange left right in
  mkRect top bottom lft rgt.

(** [Rect::rows], [Rect::cols], geom.rs 25-31. *)
Definition rect_rows (r : rect) : res nat := usub (r_bottom r) (r_top r).
Definition rect_cols (r : rect) : res nat := usub (r_right r) (r_left r).

(** [struct RectIter], geom.rs 44-50. *)
Record rect_iter := mkRectIter
  { it_row : nat; it_col : nat; it_left : nat; it_bottom : nat; it_right : nat }.

(** [Rect::iter], geom.rs 33-41. *)
Definition rect_iter_new (r : rect) : rect_iter :=
  mkRectIter (r_top r) (r_left r) (r_left r) (r_bottom r) (r_right r).

(** [RectIter::next], geom.rs 55-69. *)
Definition rect_iter_next (it : rect_iter) : rect_iter * option (nat * nat) :=
  if it_row it <? it_bottom it then
    let coord := (it_row it, it_col it) in
    let col := it_col it + 1 in
    if col =? it_right it
    then (mkRectIter (it_row it + 1) (it_left it) (it_left it) (it_bottom it) (it_right it), Some coord)
    else (mkRectIter (it_row it) col (it_left it) (it_bottom it) (it_right it), Some coord)
  else (it, None).

(** [for x in iter]: calls [next] until it answers [None], at most [fuel] times. *)
Fixpoint rect_iter_run (fuel : nat) (it : rect_iter) : res (list (nat * nat)) :=
  match fuel with
  | 0 => Diverge
  | S fuel' =>
      match rect_iter_next it with
      | (_, None) => Ok []
      | (it', Some rc) => l <- rect_iter_run fuel' it' ;; Ok (rc :: l)
      end
  end.

(** [for (row, col) in bounds.iter()]; the fuel suffices for every rectangle
    with at least one column. *)
Definition rect_cells (r : rect) : res (list (nat * nat)) :=
  rect_iter_run (S ((r_bottom r - r_top r) * (r_right r - r_left r))) (rect_iter_new r).

(** [struct Cube], geom.rs 72-81. *)
Record cube := mkCube
  { c_start : nat; c_end : nat; c_top : nat; c_bottom : nat; c_left : nat; c_right : nat }.

(** [Cube::new], geom.rs 84-103. *)
Definition cube_new (start end_ top bottom left right : nat) : cube :=
  let '(start, end_) := rearrange start end_ in
  let '(top, bottom) := rearrange top bottom in
  let '(lft, rgt) := rearrange left right in
  mkCube start end_ top bottom lft rgt.

(** [Cube::instants/rows/cols/rect], geom.rs 105-119. *)
Definition cube_instants (c : cube) : res nat := usub (c_end c) (c_start c).
Definition cube_rows (c : cube) : res nat := usub (c_bottom c) (c_top c).
Definition cube_cols (c : cube) : res nat := usub (c_right c) (c_left c).
Definition cube_rect (c : cube) : rect := rect_new (c_top c) (c_bottom c) (c_left c) (c_right c).
