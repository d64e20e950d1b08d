(** * Model of [dcdf/src/dac.rs]. *)
From Verif Require Import Base BitmapModel.

(** [zigzag_encode], dac.rs 134-137: [((n >> 63) ^ (n << 1)) as u64]. *)
Definition zigzag_encode (n : Z) : N :=
  Z.to_N (Z.lxor (Z.shiftr n 63) (wrap64 (Z.shiftl n 1)) mod two64).

(** [zigzag_decode], dac.rs 139-142. *)
Definition zigzag_decode (zz : N) : Z :=
  wrap64 (Z.of_N (N.lxor (N.shiftr zz 1)
                         (if N.odd zz then 18446744073709551615%N else 0%N))).

(** [struct Dac], dac.rs 29-31. *)
Definition dac := list (bitmap * list N).

(** Body of the loop over levels while compressing one datum, dac.rs 109-121. *)
Fixpoint push_datum (levels : list (builder * list N)) (datum : N) : list (builder * list N) :=
  match levels with
  | [] => []
  | (bm, bytes) :: rest =>
      let bytes := bytes ++ [N.land datum 255] in
      let datum := N.shiftr datum 8 in
      if (datum =? 0)%N then (builder_push bm false, bytes) :: rest
      else (builder_push bm true, bytes) :: push_datum rest datum
  end.

(** [Iterator::take_while]. *)
Fixpoint take_while {A} (p : A -> bool) (l : list A) : list A :=
  match l with
  | [] => []
  | x :: xs => if p x then x :: take_while p xs else []
  end.

(** [impl From<Vec<I>> for Dac], dac.rs 96-132. The data are given as i64. *)
Definition dac_of (data : list Z) : res dac :=
  let levels := repeat (builder_new, @nil N) 8 in
  let levels := fold_left (fun ls d => push_datum ls (zigzag_encode d)) data levels in
  mapM (fun l => m <- builder_finish (fst l) ;; Ok (m, snd l))
       (take_while (fun l => 0 <? b_length (fst l)) levels).

(** Loop of [Dac::get], dac.rs 83-90; [i] is the level number. The shift is
    truncated to 64 bits; shifting by 64 or more, in an array with too many
    levels, panics. *)
Fixpoint dac_get_loop (levels : dac) (i : nat) (index : nat) (n : N) : res N :=
  match levels with
  | [] => Ok n
  | (bm, bytes) :: rest =>
      b <- nth_res bytes index ;;
      if 8 <=? i then Panic else
      let n := N.lor n (N.shiftl b (N.of_nat (i * 8)) mod 2 ^ 64) in
      more <- bm_get bm index ;;
      if more : bool then
        index <- bm_rank bm index ;;
        dac_get_loop rest (S i) index n
      else Ok n
  end.

(** [Dac::get], dac.rs 80-93. *)
Definition dac_get (d : dac) (index : nat) : res Z :=
  n <- dac_get_loop d 0 index 0 ;; Ok (zigzag_decode n).
