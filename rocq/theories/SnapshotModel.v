(** * Model of [dcdf/src/snapshot.rs]. *)
From Verif Require Import Base BitmapModel DacModel GeomModel.

(** [struct K2TreeNode], snapshot.rs 425-429. *)
Inductive k2node := K2Node (max min : option Z) (children : list k2node).
Definition n_max (n : k2node) : option Z := let '(K2Node m _ _) := n in m.
Definition n_min (n : k2node) : option Z := let '(K2Node _ m _) := n in m.
Definition n_children (n : k2node) : list k2node := let '(K2Node _ _ c) := n in c.

(** [Option::unwrap_or(0)]. *)
Definition or0 (o : option Z) : Z := match o with Some z => z | None => 0%Z end.

(** Updating the running maximum / minimum, snapshot.rs 476-497. *)
Definition merge_max (acc child : option Z) : option Z :=
  match child with
  | Some c => match acc with
              | Some a => if (a <? c)%Z then Some c else acc
              | None => Some c
              end
  | None => acc
  end.
Definition merge_min (acc child : option Z) : option Z :=
  match child with
  | Some c => match acc with
              | Some a => if (c <? a)%Z then Some c else acc
              | None => Some c
              end
  | None => acc
  end.

(** [K2TreeNode::_build], snapshot.rs 439-500. *)
Fixpoint k2_build (fuel : nat) (get : nat -> nat -> Z) (rows cols k sidelen row col : nat)
  : res k2node :=
  if sidelen =? 1 then
    let value := if (row <? rows) && (col <? cols) then Some (get row col) else None in
    Ok (K2Node value value [])
  else
    match fuel with
    | 0 => Diverge
    | S fuel' =>
        sl <- udiv sidelen k ;;
        children <- mapM (fun '(i, j) =>
            k2_build fuel' get rows cols k sl (row + i * sl) (col + j * sl)) (grid k) ;;
        first <- nth_res children 0 ;;
        Ok (K2Node
              (fold_left (fun m c => merge_max m (n_max c)) (tl children) (n_max first))
              (fold_left (fun m c => merge_min m (n_min c)) (tl children) (n_min first))
              children)
    end.

(** Number of nodes of a tree; only used as fuel for the traversal loop. *)
Fixpoint node_count (n : k2node) : nat :=
  let '(K2Node _ _ c) := n in S (fold_right (fun x acc => node_count x + acc) 0 c).

(** [struct Snapshot], snapshot.rs 20-42. *)
Record snapshot := mkSnapshot
  { s_nodemap : bitmap; s_max : dac; s_min : dac;
    s_k : nat; s_rows : nat; s_cols : nat; s_sidelen : nat }.

(** Queue entries of the traversal: (diff_max, diff_min, node). *)
Definition snap_entry := (Z * Z * k2node)%type.

(** Body of the breadth first traversal, snapshot.rs 125-146. State:
    (nodemap, max, min). *)
Definition snap_body (st : builder * list Z * list Z) (e : snap_entry)
  : (builder * list Z * list Z) * list snap_entry :=
  let '(nodemap, max, min) := st in
  let '(diff_max, diff_min, child) := e in
  let child_max := or0 (n_max child) in
  let child_min := or0 (n_min child) in
  let max := max ++ [diff_max] in
  match n_children child with
  | [] => ((nodemap, max, min), [])
  | _ :: _ =>
      let elide := (child_min =? child_max)%Z in
      let nodemap := builder_push nodemap (negb elide) in
      if elide then ((nodemap, max, min), [])
      else ((nodemap, max, min ++ [diff_min]),
            map (fun d => (i64_sub child_max (or0 (n_max d)),
                           i64_sub (or0 (n_min d)) child_min, d)) (n_children child))
  end.

(** [Snapshot::build], snapshot.rs 108-156, with the exponent [e] (lines
    118-119) as a parameter: [sidelen = k^e]. See [log_ceil] below. *)
Definition snapshot_build_e (get : nat -> nat -> Z) (rows cols k e : nat) : res snapshot :=
  let sidelen := k ^ e in
  root <- k2_build e get rows cols k sidelen 0 0 ;;
  st <- worklist snap_body (node_count root)
          [(or0 (n_max root), or0 (n_min root), root)] (builder_new, [], []) ;;
  let '(nodemap, max, min) := st in
  nm <- builder_finish nodemap ;;
  dmax <- dac_of max ;;
  dmin <- dac_of min ;;
  Ok (mkSnapshot nm dmax dmin k rows cols sidelen).

(** [(n as f64).log(k).ceil()] as an exponent (snapshot.rs 118-119): the least
    [e] with [n <= k^e]. SIMPLIFICATION: the code uses f64 logarithms; the core
    theorems hold for every [e] with [n <= k^e], so a result rounded up by
    one would not matter. *)
Fixpoint log_ceil_loop (fuel k n e : nat) : nat :=
  match fuel with
  | 0 => e
  | S fuel' => if n <=? k ^ e then e else log_ceil_loop fuel' k n (S e)
  end.
Definition log_ceil (k n : nat) : nat := log_ceil_loop n k n 0.

Definition snapshot_build (get : nat -> nat -> Z) (rows cols k : nat) : res snapshot :=
  snapshot_build_e get rows cols k (log_ceil k (Nat.max rows cols)).

(** [index >= self.nodemap.length || !self.nodemap.get(index)],
    snapshot.rs 181, 271 and 380. *)
Definition snap_is_leaf (s : snapshot) (index : nat) : res bool :=
  if bm_length (s_nodemap s) <=? index then Ok true
  else b <- bm_get (s_nodemap s) index ;; Ok (negb b).

(** [Snapshot::_get], snapshot.rs 174-188. *)
Fixpoint snap_get_rec (fuel : nat) (s : snapshot) (sidelen row col index : nat) (max_value : Z)
  : res Z :=
  match fuel with
  | 0 => Diverge
  | S fuel' =>
      let k := s_k s in
      sl <- udiv sidelen k ;;
      r <- bm_rank (s_nodemap s) index ;;
      let index := 1 + r * k * k in
      qr <- udiv row sl ;;
      qc <- udiv col sl ;;
      let index := index + qr * k + qc in
      d <- dac_get (s_max s) index ;;
      let max_value := i64_sub max_value d in
      leaf <- snap_is_leaf s index ;;
      if leaf : bool then Ok max_value
      else
        mr <- umod row sl ;;
        mc <- umod col sl ;;
        snap_get_rec fuel' s sl mr mc index max_value
  end.

(** [Snapshot::get], snapshot.rs 165-172. *)
Definition snap_get (s : snapshot) (row col : nat) : res Z :=
  b <- bm_get (s_nodemap s) 0 ;;
  if negb b then dac_get (s_max s) 0
  else m <- dac_get (s_max s) 0 ;; snap_get_rec (s_sidelen s) s (s_sidelen s) row col 0 m.

(** The leaf loops of [_fill_window], snapshot.rs 273-281. *)
Definition fill_block (top bottom left right to lo wt wl : nat) (v : Z) : res (list (nat * nat * Z)) :=
  flat_mapM (fun row => mapM (fun col =>
      a <- usub (to + row) wt ;;
      b <- usub (lo + col) wl ;;
      Ok (a, b, v)) (range_incl left right)) (range_incl top bottom).

(** [Snapshot::_fill_window], snapshot.rs 237-301: the list of calls to [set]. *)
Fixpoint snap_fill_rec (fuel : nat) (s : snapshot) (sidelen top bottom left right index : nat)
  (max_value : Z) (wt wl to lo : nat) : res (list (nat * nat * Z)) :=
  match fuel with
  | 0 => Diverge
  | S fuel' =>
      let k := s_k s in
      sl <- udiv sidelen k ;;
      r <- bm_rank (s_nodemap s) index ;;
      let index := 1 + r * k * k in
      i0 <- udiv top sl ;; i1 <- udiv bottom sl ;;
      j0 <- udiv left sl ;; j1 <- udiv right sl ;;
      sl1 <- usub sl 1 ;;
      flat_mapM (fun i =>
        let top_ := top - i * sl in
        bi <- usub bottom (i * sl) ;;
        let bottom_ := Nat.min sl1 bi in
        let to_ := to + i * sl in
        flat_mapM (fun j =>
          let left_ := left - j * sl in
          rj <- usub right (j * sl) ;;
          let right_ := Nat.min sl1 rj in
          let lo_ := lo + j * sl in
          let index_ := index + i * k + j in
          d <- dac_get (s_max s) index_ ;;
          let max_value_ := i64_sub max_value d in
          leaf <- snap_is_leaf s index_ ;;
          if leaf : bool then fill_block top_ bottom_ left_ right_ to_ lo_ wt wl max_value_
          else snap_fill_rec fuel' s sl top_ bottom_ left_ right_ index_ max_value_ wt wl to_ lo_)
          (range_incl j0 j1))
        (range_incl i0 i1)
  end.

(** [Snapshot::fill_window], snapshot.rs 204-235. *)
Definition snap_fill_window (s : snapshot) (b : rect) : res (list (nat * nat * Z)) :=
  rows <- rect_rows b ;;
  cols <- rect_cols b ;;
  nb <- bm_get (s_nodemap s) 0 ;;
  if negb nb then
    value <- dac_get (s_max s) 0 ;;
    Ok (flat_map (fun row => map (fun col => (row, col, value)) (range 0 cols)) (range 0 rows))
  else
    b1 <- usub (r_bottom b) 1 ;;
    r1 <- usub (r_right b) 1 ;;
    m <- dac_get (s_max s) 0 ;;
    snap_fill_rec (s_sidelen s) s (s_sidelen s) (r_top b) b1 (r_left b) r1 0 m
                  (r_top b) (r_left b) 0 0.

(** The leaf loops of [_search_window], snapshot.rs 383-387 and 394-398. *)
Definition push_block (top bottom left right to lo : nat) : list (nat * nat) :=
  flat_map (fun row => map (fun col => (to + row, lo + col)) (range_incl left right))
           (range_incl top bottom).

(** [Snapshot::_search_window], snapshot.rs 347-421. *)
Fixpoint snap_search_rec (fuel : nat) (s : snapshot) (sidelen top bottom left right : nat)
  (lower upper : Z) (index : nat) (min_value max_value : Z) (to lo : nat) : res (list (nat * nat)) :=
  match fuel with
  | 0 => Diverge
  | S fuel' =>
      let k := s_k s in
      sl <- udiv sidelen k ;;
      r <- bm_rank (s_nodemap s) index ;;
      let index := 1 + r * k * k in
      i0 <- udiv top sl ;; i1 <- udiv bottom sl ;;
      j0 <- udiv left sl ;; j1 <- udiv right sl ;;
      sl1 <- usub sl 1 ;;
      flat_mapM (fun i =>
        let top_ := top - i * sl in
        bi <- usub bottom (i * sl) ;;
        let bottom_ := Nat.min sl1 bi in
        let to_ := to + i * sl in
        flat_mapM (fun j =>
          let left_ := left - j * sl in
          rj <- usub right (j * sl) ;;
          let right_ := Nat.min sl1 rj in
          let lo_ := lo + j * sl in
          let index_ := index + i * k + j in
          d <- dac_get (s_max s) index_ ;;
          let max_value_ := i64_sub max_value d in
          leaf <- snap_is_leaf s index_ ;;
          if leaf : bool then
            Ok (if ((lower <=? max_value_) && (max_value_ <=? upper))%Z
                then push_block top_ bottom_ left_ right_ to_ lo_ else [])
          else
            rk <- bm_rank (s_nodemap s) index_ ;;
            dm <- dac_get (s_min s) rk ;;
            let min_value_ := i64_add min_value dm in
            if ((lower <=? min_value) && (max_value_ <=? upper))%Z
            then Ok (push_block top_ bottom_ left_ right_ to_ lo_)
            else if ((min_value_ <=? upper) && (lower <=? max_value_))%Z
            then snap_search_rec fuel' s sl top_ bottom_ left_ right_ lower upper index_
                                 min_value_ max_value_ to_ lo_
            else Ok [])
          (range_incl j0 j1))
        (range_incl i0 i1)
  end.

(** [Snapshot::search_window], snapshot.rs 310-345. *)
Definition snap_search_window (s : snapshot) (b : rect) (lower upper : Z) : res (list (nat * nat)) :=
  nb <- bm_get (s_nodemap s) 0 ;;
  if negb nb then
    value <- dac_get (s_max s) 0 ;;
    if ((lower <=? value) && (value <=? upper))%Z then rect_cells b else Ok []
  else
    b1 <- usub (r_bottom b) 1 ;;
    r1 <- usub (r_right b) 1 ;;
    mn <- dac_get (s_min s) 0 ;;
    mx <- dac_get (s_max s) 0 ;;
    snap_search_rec (s_sidelen s) s (s_sidelen s) (r_top b) b1 (r_left b) r1
                    lower upper 0 mn mx 0 0.
