(** * What reads ask of the resolver.

    The reads of SuperModel.v and ArrayModel.v take the store as an argument and look
    objects up in it. Here the same functions of superchunk.rs, span.rs, mmstruct.rs and
    mmarray.rs are written as what they are for the resolver: they ask for an object, wait,
    and go on with what they were given, from whatever place it came. *)
From Verif Require Import Base CacheModel GeomModel BitmapModel DacModel StreamModel ChunkModel NodeModel SuperModel ArrayModel.

(** A function that asks [Resolver::check_cache], resolver.rs 118-122, for objects. *)
Inductive ask (A : Type) :=
  | Answer (x : res A)
  | Ask (c : cid) (k : res node -> ask A).
Arguments Answer {A}. Arguments Ask {A}.

(** What is done with the result, an error or not. *)
Fixpoint catch {A B} (p : ask A) (f : res A -> ask B) : ask B :=
  match p with Answer x => f x | Ask c k => Ask c (fun r => catch (k r) f) end.
(** [p.await?] *)
Definition abind {A B} (p : ask A) (f : A -> ask B) : ask B :=
  catch p (fun x => match x with Ok a => f a | Err e => Answer (Err e) | Panic => Answer Panic | Diverge => Answer Diverge end).
Definition asked_map {A B} (f : res A -> res B) (p : ask A) : ask B := catch p (fun x => Answer (f x)).
Declare Scope ask_scope.
Delimit Scope ask_scope with ask.
Notation "x <~ e ;; f" := (abind e (fun x => f))
  (at level 61, e at next level, right associativity) : ask_scope.

(** Parts that run concurrently, [join_all] and [FuturesUnordered]. All of them run to
    their end here; where an error or a panic of one of them ends the others (span.rs
    171-174 and 218-221), the code asks for less. *)
Fixpoint gather {X Y} (f : X -> ask (list Y)) (l : list X) : ask (list Y) :=
  match l with
  | [] => Answer (Ok [])
  | x :: l' => catch (f x) (fun a => catch (gather f l') (fun b => Answer (u <- a ;; v <- b ;; Ok (u ++ v))))
  end.

(** [Resolver::get_mmstruct3] and [get_links], resolver.rs 96-116. *)
Definition ask_mm (c : cid) : ask mmstruct :=
  Ask c (fun r => Answer (n <- r ;; match n with NMM m => Ok m | _ => Panic end)).
Definition ask_links (c : cid) : ask (list cid) :=
  Ask c (fun r => Answer (n <- r ;; match n with NLinks l => Ok l | _ => Panic end)).
Definition ask_dataset (c : cid) : ask dataset :=
  Ask c (fun r => Answer (n <- r ;; match n with NDataset d => Ok d | _ => Panic end)).

(** [self.external().await?[index]], superchunk.rs 342-345 and 635-649. A superchunk that
    has been read before may find the links through its weak pointer, and then does not
    ask. *)
Definition ask_external (s : super) (i : nat) : ask mmstruct := (
  links <~ ask_links (su_external s) ;;
  c <~ Answer (nth_res links i) ;;
  ask_mm c)%ask.

(** [MMStruct3::get], mmstruct.rs 103-125; superchunk.rs 313-351; span.rs 121-134. *)
Fixpoint ask_get (fuel : nat) (m : mmstruct) (instant row col bits : nat) : ask (Z * nat) :=
  match fuel with
  | 0 => Answer Diverge
  | S fuel' => (
      match m with
      | MSub c => Answer (v <- chunk_get c instant row col ;; Ok (v, bits))
      | MSuper s local =>
          chunk_row <~ Answer (udiv row (su_chunks_sidelen s)) ;;
          local_row <~ Answer (umod row (su_chunks_sidelen s)) ;;
          chunk_col <~ Answer (udiv col (su_chunks_sidelen s)) ;;
          local_col <~ Answer (umod col (su_chunks_sidelen s)) ;;
          let chunk := chunk_row * su_subsidelen s + chunk_col in
          ref <~ Answer (nth_res (su_refs s) chunk) ;;
          match ref with
          | RElided =>
              Answer (v <- dac_get (su_max s) (chunk + instant * (su_subsidelen s * su_subsidelen s)) ;; Ok (v, bits))
          | RLocal i => m' <~ Answer (nth_res local i) ;; ask_get fuel' m' instant local_row local_col (mm_fbits m')
          | RExternal i => m' <~ ask_external s i ;; ask_get fuel' m' instant local_row local_col (mm_fbits m')
          end
      | MSpan s =>
          x <~ Answer (find_span s instant) ;;
          c <~ Answer (nth_res (sp_spans s) (fst x)) ;;
          m' <~ ask_mm c ;;
          ask_get fuel' m' (snd x) row col (mm_fbits m')
      end)%ask
  end.

(** [MMStruct3::fill_cell], mmstruct.rs 128-144; superchunk.rs 356-398; span.rs 139-178. *)
Fixpoint ask_cell (fuel : nat) (m : mmstruct) (start end_ row col bits : nat) : ask (list (nat * (Z * nat))) :=
  match fuel with
  | 0 => Answer Diverge
  | S fuel' => (
      match m with
      | MSub c => Answer (l <- chunk_fill_cell c start end_ row col ;; Ok (map (fun '(i, v) => (i, (v, bits))) l))
      | MSuper s local =>
          chunk_row <~ Answer (udiv row (su_chunks_sidelen s)) ;;
          local_row <~ Answer (umod row (su_chunks_sidelen s)) ;;
          chunk_col <~ Answer (udiv col (su_chunks_sidelen s)) ;;
          local_col <~ Answer (umod col (su_chunks_sidelen s)) ;;
          let chunk := chunk_row * su_subsidelen s + chunk_col in
          ref <~ Answer (nth_res (su_refs s) chunk) ;;
          match ref with
          | RElided =>
              let stride := su_subsidelen s * su_subsidelen s in
              Answer (remaining <- usub end_ start ;;
                      mapM (fun i => v <- dac_get (su_max s) (chunk + start * stride + i * stride) ;; Ok (i, (v, bits)))
                           (seq 0 remaining))
          | RLocal i => m' <~ Answer (nth_res local i) ;; ask_cell fuel' m' start end_ local_row local_col (mm_fbits m')
          | RExternal i => m' <~ ask_external s i ;; ask_cell fuel' m' start end_ local_row local_col (mm_fbits m')
          end
      | MSpan s =>
          instants <~ Answer (usub end_ start) ;;
          pieces <~ Answer (span_pieces_for s start instants) ;;
          gather (fun '(sp, instant, len, off) =>
            c <~ Answer (nth_res (sp_spans s) sp) ;;
            m' <~ ask_mm c ;;
            l <~ ask_cell fuel' m' instant (instant + len) row col (mm_fbits m') ;;
            Answer (Ok (map (fun '(i, v) => (off + i, v)) l))) pieces
      end)%ask
  end.

(** [MMStruct3::fill_window], mmstruct.rs 148-160; superchunk.rs 403-457; span.rs 183-224. *)
Fixpoint ask_window (fuel : nat) (m : mmstruct) (bounds : cube) (bits : nat) : ask (list call) :=
  match fuel with
  | 0 => Answer Diverge
  | S fuel' => (
      match m with
      | MSub c => Answer (l <- chunk_fill_window c bounds ;; Ok (map (fun '(t, r, c, v) => (t, r, c, (v, bits))) l))
      | MSuper s local =>
          instants <~ Answer (usub (c_end bounds) (c_start bounds)) ;;
          subs <~ Answer (subchunks_for s (cube_rect bounds)) ;;
          gather (fun sw =>
            let lo := sw_local sw in
            let b := cube_new (c_start bounds) (c_end bounds) (r_top lo) (r_bottom lo) (r_left lo) (r_right lo) in
            calls <~ asked_map swallow (
              ref <~ Answer (nth_res (su_refs s) (sw_index sw)) ;;
              match ref with
              | RElided =>
                  let stride := su_subsidelen s * su_subsidelen s in
                  Answer (n <- cube_instants b ;;
                  flat_mapM (fun i =>
                    v <- dac_get (su_max s) (sw_index sw + c_start b * stride + i * stride) ;;
                    Ok (fill_instant i (r_bottom (sw_slice sw) - r_top (sw_slice sw))
                                       (r_right (sw_slice sw) - r_left (sw_slice sw)) (v, bits))) (seq 0 n))
              | RLocal i => m' <~ Answer (nth_res local i) ;; ask_window fuel' m' b (mm_fbits m')
              | RExternal i => m' <~ ask_external s i ;; ask_window fuel' m' b (mm_fbits m')
              end) ;;
            Answer (Ok (moved 0 (r_top (sw_slice sw)) (r_left (sw_slice sw)) calls))) subs
      | MSpan s =>
          instants <~ Answer (cube_instants bounds) ;;
          pieces <~ Answer (span_pieces_for s (c_start bounds) instants) ;;
          gather (fun '(sp, instant, len, off) =>
            c <~ Answer (nth_res (sp_spans s) sp) ;;
            m' <~ ask_mm c ;;
            l <~ ask_window fuel' m'
                   (cube_new instant (instant + len) (c_top bounds) (c_bottom bounds) (c_left bounds) (c_right bounds))
                   (mm_fbits m') ;;
            Answer (Ok (moved off 0 0 l))) pieces
      end)%ask
  end.

(** [MMStruct3::search], mmstruct.rs 167-184; superchunk.rs 464-585; span.rs 231-275. *)
Fixpoint ask_search (fuel : nat) (m : mmstruct) (bounds : cube) (lower upper : Z) : ask (list item) :=
  match fuel with
  | 0 => Answer Diverge
  | S fuel' => (
      match m with
      | MSub c => Answer (l <- chunk_search c bounds lower upper ;; Ok (map inr l))
      | MSuper s local =>
          let '(lower, upper) := rearrangeZ lower upper in
          subs <~ Answer (subchunks_for s (cube_rect bounds)) ;;
          gather (fun sw =>
            let stride := su_subsidelen s * su_subsidelen s in
            some <~ Answer (has_cells s (sw_index sw + c_start bounds * stride) (c_end bounds - c_start bounds) lower upper) ;;
            if some : bool then
              let lo := sw_local sw in
              let top := r_top (sw_chunk sw) in
              let lft := r_left (sw_chunk sw) in
              let b := cube_new (c_start bounds) (c_end bounds) (r_top lo) (r_bottom lo) (r_left lo) (r_right lo) in
              asked_map or_error (
                ref <~ Answer (nth_res (su_refs s) (sw_index sw)) ;;
                match ref with
                | RElided => Answer (
                    n <- cube_instants b ;;
                    if stride =? 0 then Panic else
                    flat_mapM (fun i =>
                      v <- dac_get (su_max s) (sw_index sw + stride * c_start b + i * stride) ;;
                      Ok (if ((lower <=? v) && (v <=? upper))%Z then
                            map (fun rc => inr (i + c_start b, fst rc + top, snd rc + lft))
                                (list_prod (range (c_top b) (c_bottom b)) (range (c_left b) (c_right b)))
                          else [])) (seq 0 n))
                | RLocal i =>
                    m' <~ Answer (nth_res local i) ;;
                    l <~ ask_search fuel' m' b lower upper ;; Answer (Ok (map (shift_item 0 top lft) l))
                | RExternal i =>
                    m' <~ ask_external s i ;;
                    l <~ ask_search fuel' m' b lower upper ;; Answer (Ok (map (shift_item 0 top lft) l))
                end)
            else Answer (Ok [])) subs
      | MSpan s =>
          instants <~ Answer (cube_instants bounds) ;;
          pieces <~ Answer (span_pieces_for s (c_start bounds) instants) ;;
          gather (fun '(sp, instant, len, off) =>
            c <~ Answer (nth_res (sp_spans s) sp) ;;
            asked_map or_error (
              m' <~ ask_mm c ;;
              l <~ ask_search fuel' m'
                     (cube_new instant (instant + len) (c_top bounds) (c_bottom bounds) (c_left bounds) (c_right bounds))
                     lower upper ;;
              Answer (Ok (map (shift_item (sp * sp_stride s) 0 0) l)))) pieces
      end)%ask
  end.

(** ** What a program asks of an array, mmarray.rs 135-537 *)

(** [Variable::data_i32] etc., dataset.rs 988-1010, with the identifier of the variable;
    [get], [cell], [window] and [search]. *)
Inductive question :=
  | QData (c : cid)
  | QGet (m : mmstruct) (instant row col : nat)
  | QCell (m : mmstruct) (start end_ row col : nat)
  | QWindow (m : mmstruct) (b : cube)
  | QSearch (m : mmstruct) (b : cube) (lower upper : Z).
Inductive reply (A : Type) :=
  | AData (m : mmstruct)
  | AOne (x : A)
  | ACell (a : array1 A)
  | AWindow (a : array3 A)
  | AFound (l : list item).
Arguments AData {A}. Arguments AOne {A}. Arguments ACell {A}. Arguments AWindow {A}. Arguments AFound {A}.

Section Questions.
  Context {A : Type}.
  Variables (R : reader A) (fuel : nat) (order : list call -> list call).
  Local Open Scope ask_scope.

  Definition question_asks (q : question) : ask (reply A) :=
    match q with
    | QData c => m <~ ask_mm c ;; m' <~ Answer (arr_new R m) ;; Answer (Ok (AData m'))
    | QGet m t r c =>
        _ <~ Answer (check_bounds m t r c) ;;
        x <~ ask_get fuel m t r c (mm_fbits m) ;;
        Answer (Ok (AOne (rd_set R (snd x) (fst x))))
    | QCell m s e r c =>
        last <~ Answer (usub e 1) ;;
        _ <~ Answer (check_bounds m last r c) ;;
        n <~ Answer (usub e s) ;;
        l <~ ask_cell fuel m s e r c (mm_fbits m) ;;
        a <~ Answer (run1 R (mkArray1 n (fun _ => rd_zero R)) l) ;;
        Answer (Ok (ACell a))
    | QWindow m b =>
        _ <~ Answer (check_cube m b) ;;
        n <~ Answer (usub (c_end b) (c_start b)) ;;
        h <~ Answer (usub (c_bottom b) (c_top b)) ;;
        w <~ Answer (usub (c_right b) (c_left b)) ;;
        l <~ ask_window fuel m b (mm_fbits m) ;;
        a <~ Answer (run3 R (mkArray3 (n, h, w) (fun _ _ _ => rd_zero R)) (order l)) ;;
        Answer (Ok (AWindow a))
    | QSearch m b lower upper =>
        _ <~ Answer (check_cube m b) ;;
        l <~ ask_search fuel m b lower upper ;;
        Answer (Ok (AFound l))
    end.
End Questions.

(** ** Where the objects come from *)

(** From the store, [Resolver::retrieve], resolver.rs 142-165. *)
Fixpoint ask_store {A} (st : store) (p : ask A) : res A :=
  match p with Answer x => x | Ask c k => ask_store st (k (retrieve st c)) end.
(** The objects asked for, in order. *)
Fixpoint asked {A} (st : store) (p : ask A) : list cid :=
  match p with Answer _ => [] | Ask c k => c :: asked st (k (retrieve st c)) end.
(** From the cache, which asks the store: [Resolver::check_cache], resolver.rs 118-122, with
    the objects that were loaded. *)
Fixpoint ask_cache {A} (size : node -> nat) (st : store) (s : entries cid node) (p : ask A) : res (entries cid node * list cid * res A) :=
  match p with
  | Answer x => Ok (s, [], x)
  | Ask c k =>
      x <- cache_get cid_eqb size s c (retrieve st c) ;;
      let '(s', loaded, r) := x in
      y <- ask_cache size st s' (k r) ;;
      let '(s'', l, a) := y in
      Ok (s'', (if loaded : bool then [c] else []) ++ l, a)
  end.
(** One after the other, each with what the store then holds. *)
Fixpoint ask_each {A} (size : node -> nat) (s : entries cid node) (l : list (store * ask A)) : res (entries cid node * list (list cid * res A)) :=
  match l with
  | [] => Ok (s, [])
  | (st, p) :: l' =>
      x <- ask_cache size st s p ;;
      let '(s', loaded, a) := x in
      y <- ask_each size s' l' ;;
      let '(s'', out) := y in Ok (s'', (loaded, a) :: out)
  end.
(** From anywhere: every time an object is asked for, it is answered by one of the results
    that [allowed] names. *)
Inductive gives {A} (allowed : cid -> res node -> Prop) : ask A -> res A -> Prop :=
  | GAnswer x : gives allowed (Answer x) x
  | GAsk c k r x : allowed c r -> gives allowed (k r) x -> gives allowed (Ask c k) x.
