(** * Model of [dcdf/src/log.rs]. *)
From Verif Require Import Base BitmapModel DacModel GeomModel SnapshotModel.

(** [struct K2PTreeNode], log.rs 705-713. *)
Inductive pnode :=
  PNode (max_t min_t max_s min_s : option Z) (diff : Z) (equal : bool) (children : list pnode).
Definition p_max_t (n : pnode) : option Z := let '(PNode a _ _ _ _ _ _) := n in a.
Definition p_min_t (n : pnode) : option Z := let '(PNode _ a _ _ _ _ _) := n in a.
Definition p_max_s (n : pnode) : option Z := let '(PNode _ _ a _ _ _ _) := n in a.
Definition p_min_s (n : pnode) : option Z := let '(PNode _ _ _ a _ _ _) := n in a.
Definition p_diff (n : pnode) : Z := let '(PNode _ _ _ _ a _ _) := n in a.
Definition p_equal (n : pnode) : bool := let '(PNode _ _ _ _ _ a _) := n in a.
Definition p_children (n : pnode) : list pnode := let '(PNode _ _ _ _ _ _ a) := n in a.

(** [is_lt], log.rs 783-790: comparisons with a missing value are false. *)
Definition is_lt (l r : option Z) : bool :=
  match l, r with Some l, Some r => (l <? r)%Z | _, _ => false end.

(** Updating the running extremes, log.rs 790-803. *)
Definition up_max (acc child : option Z) : option Z := if is_lt acc child then child else acc.
Definition up_min (acc child : option Z) : option Z := if is_lt child acc then child else acc.

(** [K2PTreeNode::_build], log.rs 725-816. *)
Fixpoint p_build (fuel : nat) (get_s get_t : nat -> nat -> Z) (rows cols k sidelen row col : nat)
  : res pnode :=
  if sidelen =? 1 then
    let value_s := if (row <? rows) && (col <? cols) then Some (get_s row col) else None in
    let value_t := if (row <? rows) && (col <? cols) then Some (get_t row col) else None in
    Ok (PNode value_t value_t value_s value_s (i64_sub (or0 value_t) (or0 value_s)) true [])
  else
    match fuel with
    | 0 => Diverge
    | S fuel' =>
        sl <- udiv sidelen k ;;
        children <- mapM (fun '(i, j) =>
            p_build fuel' get_s get_t rows cols k sl (row + i * sl) (col + j * sl)) (grid k) ;;
        first <- nth_res children 0 ;;
        let rest := tl children in
        Ok (PNode
              (fold_left (fun m c => up_max m (p_max_t c)) rest (p_max_t first))
              (fold_left (fun m c => up_min m (p_min_t c)) rest (p_min_t first))
              (fold_left (fun m c => up_max m (p_max_s c)) rest (p_max_s first))
              (fold_left (fun m c => up_min m (p_min_s c)) rest (p_min_s first))
              (p_diff first)
              (fold_left (fun q c => q && (p_diff c =? p_diff first)%Z) rest
                         (forallb p_equal children))
              children)
    end.

(** Number of nodes of a tree; only used as fuel for the traversal loop. *)
Fixpoint p_count (n : pnode) : nat :=
  let '(PNode _ _ _ _ _ _ c) := n in S (fold_right (fun x acc => p_count x + acc) 0 c).

(** [struct Log], log.rs 21-47. *)
Record log := mkLog
  { l_nodemap : bitmap; l_equal : bitmap; l_max : dac; l_min : dac;
    l_k : nat; l_rows : nat; l_cols : nat; l_sidelen : nat }.

(** Comparing two [Option<i64>] with [==]. *)
Definition opt_eqb (a b : option Z) : bool :=
  match a, b with
  | Some a, Some b => (a =? b)%Z
  | None, None => true
  | _, _ => false
  end.

(** State of the traversal: (nodemap, equal, max, min, panicked). *)
Definition log_state := (builder * builder * list Z * list Z * bool)%type.

(** Body of the breadth first traversal, log.rs 132-154. The last component
    records a panic of [unwrap] at line 148. *)
Definition log_body (st : log_state) (node : pnode) : log_state * list pnode :=
  let '(nodemap, equal, max, min, bad) := st in
  let max := max ++ [i64_sub (or0 (p_max_t node)) (or0 (p_max_s node))] in
  match p_children node with
  | [] => ((nodemap, equal, max, min, bad), [])
  | _ :: _ =>
      if opt_eqb (p_min_t node) (p_max_t node) then
        ((builder_push nodemap false, builder_push equal false, max, min, bad), [])
      else if p_equal node then
        ((builder_push nodemap false, builder_push equal true, max, min, bad), [])
      else
        match p_min_t node, p_min_s node with
        | Some mt, Some ms =>
            ((builder_push nodemap true, equal, max, min ++ [i64_sub mt ms], bad), p_children node)
        | _, _ => ((nodemap, equal, max, min, true), [])
        end
  end.

(** [Log::build], log.rs 112-165, with the exponent as in [snapshot_build_e]. *)
Definition log_build_e (get_s get_t : nat -> nat -> Z) (rows cols k e : nat) : res log :=
  let sidelen := k ^ e in
  root <- p_build e get_s get_t rows cols k sidelen 0 0 ;;
  st <- worklist log_body (p_count root) [root] (builder_new, builder_new, [], [], false) ;;
  let '(nodemap, equal, max, min, bad) := st in
  if bad : bool then Panic else
  nm <- builder_finish nodemap ;;
  eq <- builder_finish equal ;;
  dmax <- dac_of max ;;
  dmin <- dac_of min ;;
  Ok (mkLog nm eq dmax dmin k rows cols sidelen).

Definition log_build (get_s get_t : nat -> nat -> Z) (rows cols k : nat) : res log :=
  log_build_e get_s get_t rows cols k (log_ceil k (Nat.max rows cols)).

(** [index > nodemap.length || !nodemap.get(index)] (note [>]), log.rs
    238, 243, 403 and 418. *)
Definition leaf_gt (m : bitmap) (index : nat) : res bool :=
  if bm_length m <? index then Ok true
  else b <- bm_get m index ;; Ok (negb b).
(** [index >= nodemap.length || !nodemap.get(index)], log.rs 630 and 635. *)
Definition leaf_ge (m : bitmap) (index : nat) : res bool :=
  if bm_length m <=? index then Ok true
  else b <- bm_get m index ;; Ok (negb b).

(** [match index { Some(index) => leaf.., None => true }]. *)
Definition opt_leaf (leaf : bitmap -> nat -> res bool) (m : bitmap) (index : option nat) : res bool :=
  match index with Some i => leaf m i | None => Ok true end.

(** [self.equal.get(self.nodemap.rank0(index + 1) - 1)], log.rs 262, 459 and 672. *)
Definition log_equal_at (l : log) (index : nat) : res bool :=
  r0 <- bm_rank0 (l_nodemap l) (index + 1) ;;
  p <- usub r0 1 ;;
  bm_get (l_equal l) p.

(** [Log::_get], log.rs 203-293. *)
Fixpoint log_get_rec (fuel : nat) (l : log) (s : snapshot) (sidelen row col : nat)
  (index_t index_s : option nat) (max_t max_s : Z) : res Z :=
  match fuel with
  | 0 => Diverge
  | S fuel' =>
      let k := l_k l in
      sl <- udiv sidelen k ;;
      ' (index_s, max_s) <-
        match index_s with
        | Some index =>
            r <- bm_rank (s_nodemap s) index ;;
            qr <- udiv row sl ;;
            qc <- udiv col sl ;;
            let index := 1 + r * k * k + qr * k + qc in
            d <- dac_get (s_max s) index ;;
            Ok (Some index, i64_sub max_s d)
        | None => Ok (None, max_s)
        end ;;
      ' (index_t, max_t) <-
        match index_t with
        | Some index =>
            r <- bm_rank (l_nodemap l) index ;;
            qr <- udiv row sl ;;
            qc <- udiv col sl ;;
            let index := 1 + r * k * k + qr * k + qc in
            d <- dac_get (l_max l) index ;;
            Ok (Some index, d)
        | None => Ok (None, max_t)
        end ;;
      leaf_t <- opt_leaf leaf_gt (l_nodemap l) index_t ;;
      leaf_s <- opt_leaf leaf_gt (s_nodemap s) index_s ;;
      if leaf_t && leaf_s then Ok (i64_add max_t max_s)
      else
        mr <- umod row sl ;;
        mc <- umod col sl ;;
        if leaf_s : bool then log_get_rec fuel' l s sl mr mc index_t None max_t max_s
        else if leaf_t : bool then
          stop <- match index_t with
                  | Some index =>
                      if index <? bm_length (l_nodemap l)
                      then eq <- log_equal_at l index ;; Ok (negb eq)
                      else Ok false
                  | None => Ok false
                  end ;;
          if stop : bool then Ok (i64_add max_t max_s)
          else log_get_rec fuel' l s sl mr mc None index_s max_t max_s
        else log_get_rec fuel' l s sl mr mc index_t index_s max_t max_s
  end.

(** [Log::get], log.rs 176-201. [single_t && !self.equal.get(0)] is evaluated
    only when the first test fails. *)
Definition log_get (l : log) (s : snapshot) (row col : nat) : res Z :=
  max_t <- dac_get (l_max l) 0 ;;
  max_s <- dac_get (s_max s) 0 ;;
  nt <- bm_get (l_nodemap l) 0 ;;
  ns <- bm_get (s_nodemap s) 0 ;;
  let single_t := negb nt in
  let single_s := negb ns in
  if single_t && single_s then Ok (i64_add max_t max_s)
  else
    uniform <- (if single_t then eq <- bm_get (l_equal l) 0 ;; Ok (negb eq) else Ok false) ;;
    if uniform : bool then Ok (i64_add max_t max_s)
    else
      log_get_rec (l_sidelen l) l s (l_sidelen l) row col
        (if single_t then None else Some 0) (if single_s then None else Some 0) max_t max_s.

(** [Log::_fill_window], log.rs 349-508: the list of calls to [set]. *)
Fixpoint log_fill_rec (fuel : nat) (l : log) (s : snapshot) (sidelen top bottom left right : nat)
  (index_t index_s : option nat) (max_t max_s : Z) (wt wl to lo : nat) : res (list (nat * nat * Z)) :=
  match fuel with
  | 0 => Diverge
  | S fuel' =>
      let k := l_k l in
      sl <- udiv sidelen k ;;
      index_t <- match index_t with
                 | Some index => r <- bm_rank (l_nodemap l) index ;; Ok (Some (1 + r * k * k))
                 | None => Ok None
                 end ;;
      index_s <- match index_s with
                 | Some index => r <- bm_rank (s_nodemap s) index ;; Ok (Some (1 + r * k * k))
                 | None => Ok None
                 end ;;
      i0 <- udiv top sl ;; i1 <- udiv bottom sl ;;
      j0 <- udiv left sl ;; j1 <- udiv right sl ;;
      sl1 <- usub sl 1 ;;
      flat_mapM (fun i =>
        let top_ := top - i * sl in
        bi <- usub bottom (i * sl) ;;
        let bottom_ := Nat.min sl1 bi in
        let to_ := to + i * sl in
        flat_mapM (fun j =>
          let left_ := left - j * sl in
          rj <- usub right (j * sl) ;;
          let right_ := Nat.min sl1 rj in
          let lo_ := lo + j * sl in
          let index_t_ := option_map (fun index => index + i * k + j) index_t in
          max_t_ <- match index_t_ with Some index => dac_get (l_max l) index | None => Ok max_t end ;;
          leaf_t <- opt_leaf leaf_gt (l_nodemap l) index_t_ ;;
          let index_s_ := option_map (fun index => index + i * k + j) index_s in
          max_s_ <- match index_s_ with
                    | Some index => d <- dac_get (s_max s) index ;; Ok (i64_sub max_s d)
                    | None => Ok max_s
                    end ;;
          leaf_s <- opt_leaf leaf_gt (s_nodemap s) index_s_ ;;
          if leaf_t && leaf_s then
            fill_block top_ bottom_ left_ right_ to_ lo_ wt wl (i64_add max_t_ max_s_)
          else if leaf_s : bool then
            log_fill_rec fuel' l s sl top_ bottom_ left_ right_ index_t_ None max_t_ max_s_ wt wl to_ lo_
          else if leaf_t : bool then
            stop <- match index_t_ with
                    | Some index =>
                        b <- bm_get (l_nodemap l) index ;;
                        if negb b then eq <- log_equal_at l index ;; Ok (negb eq) else Ok false
                    | None => Ok false
                    end ;;
            if stop : bool
            then fill_block top_ bottom_ left_ right_ to_ lo_ wt wl (i64_add max_t_ max_s_)
            else log_fill_rec fuel' l s sl top_ bottom_ left_ right_ None index_s_ max_t_ max_s_
                              wt wl to_ lo_
          else log_fill_rec fuel' l s sl top_ bottom_ left_ right_ index_t_ index_s_ max_t_ max_s_
                            wt wl to_ lo_)
          (range_incl j0 j1))
        (range_incl i0 i1)
  end.

(** [Log::fill_window], log.rs 311-347. *)
Definition log_fill_window (l : log) (s : snapshot) (b : rect) : res (list (nat * nat * Z)) :=
  nt <- bm_get (l_nodemap l) 0 ;;
  ns <- bm_get (s_nodemap s) 0 ;;
  let single_t := negb nt in
  let single_s := negb ns in
  block <- (if single_t
            then if single_s then Ok true else eq <- bm_get (l_equal l) 0 ;; Ok (negb eq)
            else Ok false) ;;
  if block : bool then
    max_t <- dac_get (l_max l) 0 ;;
    max_s <- dac_get (s_max s) 0 ;;
    rows <- rect_rows b ;;
    cols <- rect_cols b ;;
    let value := i64_add max_t max_s in
    Ok (flat_map (fun row => map (fun col => (row, col, value)) (range 0 cols)) (range 0 rows))
  else
    b1 <- usub (r_bottom b) 1 ;;
    r1 <- usub (r_right b) 1 ;;
    max_t <- dac_get (l_max l) 0 ;;
    max_s <- dac_get (s_max s) 0 ;;
    log_fill_rec (l_sidelen l) l s (l_sidelen l) (r_top b) b1 (r_left b) r1
      (if single_t then None else Some 0) (if single_s then None else Some 0) max_t max_s
      (r_top b) (r_left b) 0 0.

(** [Log::_search_window], log.rs 553-702. *)
Fixpoint log_search_rec (fuel : nat) (l : log) (s : snapshot) (sidelen top bottom left right : nat)
  (lower upper : Z) (index_t index_s : option nat) (min_t min_s max_t max_s : Z) (to lo : nat)
  : res (list (nat * nat)) :=
  let max_value := i64_add max_s max_t in
  let min_value := i64_add min_s min_t in
  if ((lower <=? min_value) && (max_value <=? upper))%Z then
    Ok (push_block top bottom left right to lo)
  else if ((upper <? min_value) || (max_value <? lower))%Z then Ok []
  else
  match fuel with
  | 0 => Diverge
  | S fuel' =>
      let k := l_k l in
      sl <- udiv sidelen k ;;
      index_t <- match index_t with
                 | Some index => r <- bm_rank (l_nodemap l) index ;; Ok (Some (1 + r * k * k))
                 | None => Ok None
                 end ;;
      index_s <- match index_s with
                 | Some index => r <- bm_rank (s_nodemap s) index ;; Ok (Some (1 + r * k * k))
                 | None => Ok None
                 end ;;
      i0 <- udiv top sl ;; i1 <- udiv bottom sl ;;
      j0 <- udiv left sl ;; j1 <- udiv right sl ;;
      sl1 <- usub sl 1 ;;
      flat_mapM (fun i =>
        let top_ := top - i * sl in
        bi <- usub bottom (i * sl) ;;
        let bottom_ := Nat.min sl1 bi in
        let to_ := to + i * sl in
        flat_mapM (fun j =>
          let left_ := left - j * sl in
          rj <- usub right (j * sl) ;;
          let right_ := Nat.min sl1 rj in
          let lo_ := lo + j * sl in
          let index_t_ := option_map (fun index => index + i * k + j) index_t in
          let index_s_ := option_map (fun index => index + i * k + j) index_s in
          max_t_ <- match index_t_ with Some index => dac_get (l_max l) index | None => Ok max_t end ;;
          max_s_ <- match index_s_ with
                    | Some index => d <- dac_get (s_max s) index ;; Ok (i64_sub max_s d)
                    | None => Ok max_s
                    end ;;
          leaf_t <- opt_leaf leaf_ge (l_nodemap l) index_t_ ;;
          leaf_s <- opt_leaf leaf_ge (s_nodemap s) index_s_ ;;
          min_t_ <- match index_t_ with
                    | Some index =>
                        if leaf_t : bool then Ok min_t
                        else r <- bm_rank (l_nodemap l) index ;; dac_get (l_min l) r
                    | None => Ok min_t
                    end ;;
          min_s_ <- match index_s_ with
                    | Some index =>
                        if leaf_s : bool then Ok min_s
                        else r <- bm_rank (s_nodemap s) index ;;
                             d <- dac_get (s_min s) r ;; Ok (i64_add min_s d)
                    | None => Ok min_s
                    end ;;
          let '(min_s_, index_s_) := if leaf_s : bool then (max_s_, None) else (min_s_, index_s_) in
          ' (min_t_, index_t_) <-
            (if leaf_t : bool then
               m <- match index_t_ with
                    | Some index =>
                        if index <? bm_length (l_nodemap l) then
                          eq <- log_equal_at l index ;;
                          if negb eq then Ok (i64_sub (i64_add max_s_ max_t_) min_s_) else Ok max_t_
                        else Ok max_t_
                    | None => Ok max_t_
                    end ;;
               Ok (m, None)
             else Ok (min_t_, index_t_)) ;;
          log_search_rec fuel' l s sl top_ bottom_ left_ right_ lower upper index_t_ index_s_
                         min_t_ min_s_ max_t_ max_s_ to_ lo_)
          (range_incl j0 j1))
        (range_incl i0 i1)
  end.

(** [Log::search_window], log.rs 519-551. *)
Definition log_search_window (l : log) (s : snapshot) (b : rect) (lower upper : Z)
  : res (list (nat * nat)) :=
  nt <- bm_get (l_nodemap l) 0 ;;
  ns <- bm_get (s_nodemap s) 0 ;;
  let single_t := negb nt in
  let single_s := negb ns in
  b1 <- usub (r_bottom b) 1 ;;
  r1 <- usub (r_right b) 1 ;;
  min_t <- dac_get (l_min l) 0 ;;
  min_s <- dac_get (s_min s) 0 ;;
  max_t <- dac_get (l_max l) 0 ;;
  max_s <- dac_get (s_max s) 0 ;;
  log_search_rec (l_sidelen l) l s (l_sidelen l) (r_top b) b1 (r_left b) r1 lower upper
    (if single_t then None else Some 0) (if single_s then None else Some 0)
    min_t min_s max_t max_s 0 0.
