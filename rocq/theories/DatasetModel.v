(** * Model of the writing half of [dcdf/src/span.rs] and of the operations of
    [dcdf/src/dataset.rs].

    Every operation takes the store and answers the store it leaves, whether it
    succeeds or not. *)
From Verif Require Import Base FixedModel GeomModel BitmapModel DacModel StreamModel ChunkModel NodeModel SuperModel ArrayModel FloatModel.

(** ** Operations on a store *)
Definition op (A : Type) : Type := store -> store * res A.
Definition oret {A} (x : A) : op A := fun st => (st, Ok x).
Definition olift {A} (x : res A) : op A := fun st => (st, x).
Definition obind {A B} (m : op A) (f : A -> op B) : op B := fun st =>
  let '(st1, r) := m st in
  match r with Ok x => f x st1 | Err e => (st1, Err e) | Panic => (st1, Panic) | Diverge => (st1, Diverge) end.
Declare Scope op_scope.
Delimit Scope op_scope with op.
Notation "x <! e ;; f" := (obind e (fun x => f))
  (at level 61, e at next level, right associativity) : op_scope.

(** [resolver.get_mmstruct3(cid).await?] and [resolver.save(node).await?]. *)
Definition oload (c : cid) : op mmstruct := fun st => (st, get_mm st c).
Definition osave (hash : bytes -> cid) (n : node) : op cid := fun st => let '(c, st') := save hash st n in (st', Ok c).

(** [for x in l { s = f(s, x).await? }] *)
Fixpoint ofold {S X} (f : S -> X -> op S) (s : S) (l : list X) : op S :=
  match l with [] => oret s | x :: l' => (s' <! f s x ;; ofold f s' l')%op end.

(** ** Building superchunks

    [Superchunk::build], superchunk.rs 88-270, once more: [super_build] of
    SuperModel.v with what it leaves in the store when it fails, which is what
    nested superchunks have saved before. That the two agree is
    [super_op_build] in AppendProofs.v. *)
Section BuildOps.
  Context {A : Type}.
  Variables (hash : bytes -> cid) (E : elem A) (k : nat) (lc : nat -> nat).
  Local Open Scope op_scope.

  (** One subarray of the first loop, superchunk.rs 121-175. *)
  Definition tile_op (rec : (nat -> nat -> nat -> A) -> nat -> nat -> nat -> op built)
    (sublevels : list nat) (g : nat -> nat -> nat -> A) (instants rows cols bits chunks_sidelen : nat)
    (tiles : list tile) (rc : nat * nat) : op (list tile) :=
    let top := fst rc * chunks_sidelen in
    let lft := snd rc * chunks_sidelen in
    let bottom := Nat.min (top + chunks_sidelen) rows in
    let rgt := Nat.min (lft + chunks_sidelen) cols in
    if (rows <=? top) || (cols <=? lft) then
      oret (tiles ++ [(repeat (0, 0)%Z instants, None)])
    else
      let g' := tile_of g top lft in
      let h := bottom - top in
      let w := rgt - lft in
      mm <! olift (minmax_of E bits g' instants h w) ;;
      if forallb (fun p => (fst p =? snd p)%Z) mm then oret (tiles ++ [(mm, None)])
      else
        leaf <! olift (build_subchunk lc sublevels h w) ;;
        b <! olift (el_bits E bits (all_values g' instants h w)) ;;
        x <! (if leaf : bool then olift (leaf_build E k (lc (Nat.max h w)) g' instants h w b) else rec g' h w b) ;;
        oret (tiles ++ [(mm, Some x)]).

  (** The third loop and what follows it, superchunk.rs 193-270. *)
  Definition finish_op (level instants rows cols sidelen bits chunks_sidelen subsidelen : nat) (tiles : list tile)
    (max min : list Z) : op built := fun st =>
    let s := fold_left (save_tile hash) tiles (mkSave st [] [] 0 0 0 0) in
    let '(external, st) := save hash (ss_store s) (NLinks (ss_links s)) in
    (max <! olift (dac_of max) ;;
     min <! olift (dac_of min) ;;
     let data := MSuper (mkSuper instants rows cols sidelen level (ss_refs s) max min external bits
                                 (el_enc E) chunks_sidelen subsidelen) [] in
     oret (mkMM data (mm_size data - 1 + links_size (ss_links s) + ss_sizes s) (ss_elided s)
                (length (ss_links s)) (ss_snapshots s) (ss_logs s))) st.

  Fixpoint super_op (levels : list nat) (g : nat -> nat -> nat -> A) (instants rows cols bits : nat) : op built :=
    let total := lc (Nat.max rows cols) in
    if negb (sum_nat levels =? total) then olift Panic else
    match levels with
    | [] => olift Panic
    | level :: sublevels =>
        let sidelen := k ^ total in
        let subsidelen := k ^ level in
        chunks_sidelen <! olift (udiv sidelen subsidelen) ;;
        tiles <! ofold (tile_op (fun g' h w b => super_op sublevels g' instants h w b)
                          sublevels g instants rows cols bits chunks_sidelen) [] (grid subsidelen) ;;
        max <! olift (by_instant instants (map fst tiles) snd) ;;
        min <! olift (by_instant instants (map fst tiles) fst) ;;
        finish_op level instants rows cols sidelen bits chunks_sidelen subsidelen tiles max min
    end.
End BuildOps.

(** ** Spans *)

(** [Span::new], span.rs 35-48. *)
Definition span_new (rows cols stride : nat) (enc : encoding) : span := mkSpan 0 rows cols stride [] enc.

(** [MMStruct3::{stride, last, len, append, update}], dataset.rs 498-542, panic
    on anything but a span. *)
Definition as_span (m : mmstruct) : res span := match m with MSpan s => Ok s | _ => Panic end.
(** [span.spans[span.spans.len() - 1]] *)
Definition span_last (s : span) : res cid := i <- usub (length (sp_spans s)) 1 ;; nth_res (sp_spans s) i.
Definition instants_of (m : mmstruct) : res nat := sh <- mm_shape m ;; let '(n, _, _) := sh in Ok n.

Section Spans.
  Variable hash : bytes -> cid.
  Local Open Scope op_scope.

  (** [Span::append], span.rs 50-93. *)
  Definition span_append (s : span) (m : mmstruct) : op span :=
    _ <! (if 0 <? length (sp_spans s) then
            c <! olift (span_last s) ;;
            last <! oload c ;;
            n <! olift (instants_of last) ;;
            if n =? sp_stride s then oret tt else olift Panic
          else oret tt) ;;
    shape <! olift (mm_shape m) ;;
    let '(n, rows, cols) := shape in
    if negb (rows =? sp_rows s) || negb (cols =? sp_cols s) then olift Panic
    else if sp_stride s <? n then olift Panic
    else
      c <! osave hash (NMM m) ;;
      oret (mkSpan (sp_instants s + n) rows cols (sp_stride s) (sp_spans s ++ [c]) (sp_enc s)).

  (** [Span::update], span.rs 97-110. [Vec::pop] of an empty vector does nothing. *)
  Definition span_update (s : span) (m : mmstruct) : op span :=
    let spans := removelast (sp_spans s) in
    span_append (mkSpan (length spans * sp_stride s) (sp_rows s) (sp_cols s) (sp_stride s) spans (sp_enc s)) m.
End Spans.

(** ** Variables

    A vector of spans used as a stack is given with its last element first. *)
Section Variables.
  Variable hash : bytes -> cid.
  Local Open Scope op_scope.

  (** The loop of [Variable::tail_spans], dataset.rs 966-970. The fuel is the
      stride of the root and one: strides decrease on the way down in the trees
      that this file builds. *)
  Fixpoint tail_loop (fuel chunk_size : nat) (m : mmstruct) (ancestors : list mmstruct) : op (list mmstruct) :=
    match fuel with
    | 0 => olift Diverge
    | S fuel' =>
        s <! olift (as_span m) ;;
        if chunk_size <? sp_stride s then
          c <! olift (span_last s) ;;
          m' <! oload c ;;
          tail_loop fuel' chunk_size m' (m :: ancestors)
        else oret (m :: ancestors)
    end.

  (** [Variable::tail_spans], dataset.rs 961-975. *)
  Definition tail_spans (chunk_size : nat) (root : cid) : op (list mmstruct) :=
    m <! oload root ;;
    s <! olift (as_span m) ;;
    tail_loop (S (sp_stride s)) chunk_size m [].

  (** [while let Some(last) = spans.pop() { span = last.update(&span) }],
      dataset.rs 979-981 and 928-930. *)
  Fixpoint update_up (m : mmstruct) (spans : list mmstruct) : op mmstruct :=
    match spans with
    | [] => oret m
    | p :: rest =>
        s <! olift (as_span p) ;;
        s' <! span_update hash s m ;;
        update_up (MSpan s') rest
    end.

  (** [Variable::save_spans], dataset.rs 977-986: the new [cid] of the variable. *)
  Definition save_spans (spans : list mmstruct) : op cid :=
    match spans with
    | [] => olift Panic
    | m :: rest => root <! update_up m rest ;; osave hash (NMM root)
    end.

  (** The loop of [Variable::create_open_span], dataset.rs 893-925. Answers the
      span to go on with and the ancestors that are left. *)
  Fixpoint open_loop (span_size rows cols : nat) (enc : encoding) (s : span) (left_hand : mmstruct) (spans : list mmstruct)
    : op (span * list mmstruct) :=
    match spans with
    | parent :: rest =>
        p <! olift (as_span parent) ;;
        if length (sp_spans p) =? span_size then
          s' <! span_append hash (span_new rows cols (span_size * sp_stride s) enc) (MSpan s) ;;
          open_loop span_size rows cols enc s' parent rest
        else
          s' <! span_append hash p (MSpan s) ;;
          oret (s', rest)
    | [] =>
        r <! span_append hash (span_new rows cols (span_size * sp_stride s) enc) left_hand ;;
        r' <! span_append hash r (MSpan s) ;;
        oret (r', [])
    end.

  (** [Variable::create_open_span], dataset.rs 880-935: the new [cid]. *)
  Definition create_open_span (span_size chunk_size rows cols : nat) (enc : encoding) (root : cid) : op cid :=
    spans <! tail_spans chunk_size root ;;
    match spans with
    | [] => olift Panic
    | left_hand :: rest =>
        x <! open_loop span_size rows cols enc (span_new rows cols chunk_size enc) left_hand rest ;;
        let '(s, ancestors) := x in
        m <! update_up (MSpan s) ancestors ;;
        osave hash (NMM m)
    end.

  (** [Variable::tail_data], dataset.rs 937-957. *)
  Definition tail_data (chunk_size : nat) (root : cid) : op (option mmstruct) :=
    spans <! tail_spans chunk_size root ;;
    match spans with
    | [] => olift Panic
    | tail :: _ =>
        s <! olift (as_span tail) ;;
        if length (sp_spans s) =? 0 then oret None
        else
          c <! olift (span_last s) ;;
          chunk <! oload c ;;
          n <! olift (instants_of chunk) ;;
          oret (if n <? chunk_size then Some chunk else None)
    end.

  (** The values of [(0..instants).step_by(step)]. *)
  Definition step_starts (instants step : nat) : res (list nat) :=
    if step =? 0 then Panic else Ok (map (fun i => i * step) (seq 0 ((instants + step - 1) / step))).

  (** One step of the loop of [Variable::append], dataset.rs 838-873. [build]
      makes the chunk from [len] instants of the data from [start] on. *)
  Definition append_step (build : nat -> nat -> op mmstruct) (v : variable) (instants rows cols : nat)
    (x : cid * list mmstruct * bool) (start : nat) : op (cid * list mmstruct * bool) :=
    let '(root, spans, update) := x in
    let end_ := Nat.min (start + va_chunk_size v) instants in
    chunk <! build start (end_ - start) ;;
    match spans with
    | [] => olift Panic
    | m :: rest =>
        s <! olift (as_span m) ;;
        y <! (if sp_instants s =? va_span_size v * sp_stride s then
                root' <! save_spans (m :: rest) ;;
                root'' <! create_open_span (va_span_size v) (va_chunk_size v) rows cols (va_enc v) root' ;;
                spans' <! tail_spans (va_chunk_size v) root'' ;;
                match spans' with
                | [] => olift Panic
                | m' :: rest' =>
                    s' <! olift (as_span m') ;;
                    if length (sp_spans s') =? 0 then oret (root'', s', rest') else olift Panic
                end
              else oret (root, s, rest)) ;;
        let '(root, s, rest) := y in
        s' <! (if update : bool then span_update hash s chunk else span_append hash s chunk) ;;
        oret (root, MSpan s' :: rest, false)
    end.

  (** [Variable::append], dataset.rs 834-878: the new [cid]. *)
  Definition var_append (build : nat -> nat -> op mmstruct) (v : variable) (instants rows cols : nat) (update : bool) : op cid :=
    spans <! tail_spans (va_chunk_size v) (va_cid v) ;;
    starts <! olift (step_starts instants (va_chunk_size v)) ;;
    x <! ofold (append_step build v instants rows cols) (va_cid v, spans, update) starts ;;
    let '(_, spans, _) := x in save_spans spans.
End Variables.

(** ** Datasets *)

Definition with_var_cid (v : variable) (c : cid) : variable :=
  mkVar (va_name v) (va_round v) (va_span_size v) (va_chunk_size v) (va_levels v) (va_enc v) c.

(** [if let Some(cid) = self.cid { Some(cid) } else { self.prev }] *)
Definition next_prev (d : dataset) : option cid := match ds_cid d with Some c => Some c | None => ds_prev d end.

(** The variable with a name, [filter(..).next()], dataset.rs 163-169 and 396-404. *)
Definition find_var (name : bytes) (vars : list variable) : option variable :=
  find (fun v => bytes_eqb (va_name v) name) vars.

(** The loop of dataset.rs 191-196: the first variable with that name is replaced. *)
Fixpoint replace_var (v : variable) (vars : list variable) : list variable :=
  match vars with
  | [] => []
  | x :: rest => if bytes_eqb (va_name x) (va_name v) then v :: rest else x :: replace_var v rest
  end.

(** How the four [append_*] differ: the array type that reads the tail, and the
    buffer that holds the data, with the number of fractional bits it starts
    with, dataset.rs 184 and 187, 237 and 240, 277-280 and 296, 336-339 and 355. *)
Record dtype (A : Type) := mkDtype
  { dt_reader : reader A; dt_elem : option nat -> elem A; dt_bits : option nat -> nat }.
Arguments mkDtype {A}. Arguments dt_reader {A}. Arguments dt_elem {A}. Arguments dt_bits {A}.
Definition dt_i32 : dtype Z := mkDtype reader_i32 (fun _ => elem_i32) (fun _ => 0).
Definition dt_i64 : dtype Z := mkDtype reader_i64 (fun _ => elem_i64) (fun _ => 0).
(** [match variable.round { Some(bits) => (true, bits), None => (false, 0) }] *)
Definition rounds (round : option nat) : bool := match round with Some _ => true | None => false end.
Definition start_bits (round : option nat) : nat := match round with Some bits => bits | None => 0 end.
Definition dt_f32 (log2_floor : f64 -> nat) : dtype f32 :=
  mkDtype reader_f32 (fun round => elem_f32 (rounds round) log2_floor) start_bits.
Definition dt_f64 (log2_floor : f64 -> nat) : dtype f64 :=
  mkDtype reader_f64 (fun round => elem_f64 (rounds round) log2_floor) start_bits.

(** [tail_array.append(Axis(0), data.view()).unwrap()] *)
Definition join3 {A} (a b : array3 A) : res (array3 A) :=
  let '(n, h, w) := a3_shape a in
  let '(n', h', w') := a3_shape b in
  if (h =? h') && (w =? w') then
    Ok (mkArray3 (n + n', h, w) (fun t r c => if t <? n then a3_at a t r c else a3_at b (t - n) r c))
  else Panic.

Section Datasets.
  Variable hash : bytes -> cid.
  (** [(side as f64).log(k as f64).ceil() as u32] *)
  Variable lc : nat -> nat.
  Local Open Scope op_scope.

  (** [Dataset::new], dataset.rs 101-110. *)
  Definition dataset_new (coords : coordinate * coordinate * coordinate) (rows cols : nat) : dataset :=
    mkDataset coords [] rows cols None None.

  (** [Dataset::commit], dataset.rs 112-114. *)
  Definition dataset_commit (d : dataset) : op cid := osave hash (NDataset d).

  (** [Dataset::add_variable], dataset.rs 116-160. *)
  Definition add_variable (d : dataset) (name : bytes) (round : option nat) (span_size chunk_size : nat)
    (levels : list nat) (enc : encoding) : op dataset :=
    c <! osave hash (NMM (MSpan (span_new (ds_rows d) (ds_cols d) chunk_size enc))) ;;
    oret (mkDataset (ds_coords d) (ds_vars d ++ [mkVar name round span_size chunk_size levels enc c])
                    (ds_rows d) (ds_cols d) None (next_prev d)).

  Section Append.
    Context {A : Type}.
    Variable D : dtype A.
    (** The order in which concurrent reads write to their output, and the
        nesting that reads of a chunk are allowed. *)
    Variables (order : list call -> list call) (fuel : nat).

    (** Building one chunk, dataset.rs 840-853: [data.slice], [compute_fractional_bits],
        [Superchunk::build] with [k = 2]. *)
    Definition build_chunk (v : variable) (data : array3 A) (start len : nat) : op mmstruct :=
      let '(_, rows, cols) := a3_shape data in
      let g := fun t => a3_at data (start + t) in
      let E := dt_elem D (va_round v) in
      bits <! olift (el_bits E (dt_bits D (va_round v)) (all_values g len rows cols)) ;;
      b <! super_op hash E 2 lc (va_levels v) g len rows cols bits ;;
      oret (mb_data b).

    (** Reading the tail, dataset.rs 172-183. *)
    Definition read_tail (m : mmstruct) : op (array3 A) := fun st =>
      (st, s <- mm_shape m ;;
           let '(n, h, w) := s in
           l <- mm_fill_window st fuel m (cube_new 0 n 0 h 0 w) (mm_fbits m) ;;
           run3 (dt_reader D) (mkArray3 (n, h, w) (fun _ _ _ => rd_zero (dt_reader D))) (order l))%res.

    (** [Dataset::append_i32], [append_i64], [append_f32], [append_f64], dataset.rs 162-384. *)
    Definition dataset_append (d : dataset) (name : bytes) (data : array3 A) : op dataset :=
      match find_var name (ds_vars d) with
      | None => olift (Err EBadName)
      | Some v =>
          tail <! tail_data (va_chunk_size v) (va_cid v) ;;
          c <! match tail with
               | Some m =>
                   a <! read_tail m ;;
                   a' <! olift (join3 a data) ;;
                   let '(n, rows, cols) := a3_shape a' in
                   var_append hash (build_chunk v a') v n rows cols true
               | None =>
                   let '(n, rows, cols) := a3_shape data in
                   var_append hash (build_chunk v data) v n rows cols false
               end ;;
          oret (mkDataset (ds_coords d) (replace_var (with_var_cid v c) (ds_vars d))
                          (ds_rows d) (ds_cols d) None (next_prev d))
      end.

    (** [Variable::data_i32] etc., dataset.rs 988-1010. *)
    Definition var_data (st : store) (v : variable) : res mmstruct :=
      (m <- get_mm st (va_cid v) ;; arr_new (dt_reader D) m)%res.
  End Append.
End Datasets.
