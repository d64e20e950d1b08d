(** * Programs that share a store.

    The operations of DatasetModel.v and SessionModel.v take the store and answer the
    store that they leave: nothing else happens in between. Here the same functions of
    superchunk.rs, span.rs and dataset.rs are written as what they are for the store: they
    load an object or save one, wait, and go on with what they were given. Between two of
    these steps, others can save objects of their own. That the two agree when nobody else
    does is [run_work_session] in WorkProofs.v. *)
From Verif Require Import Base FixedModel GeomModel BitmapModel DacModel StreamModel ChunkModel NodeModel SuperModel ArrayModel FloatModel
  DatasetModel HistoryModel SessionModel RequestModel.

(** Work that is left: none; to load an object, [Resolver::retrieve], resolver.rs 142-165;
    to save one, [Resolver::save], resolver.rs 126-139. *)
Inductive work (A : Type) :=
  | Finished (x : res A)
  | Fetch (c : cid) (k : res node -> work A)
  | Put (n : node) (k : cid -> work A).
Arguments Finished {A}. Arguments Fetch {A}. Arguments Put {A}.

(** What is done with the result, an error or not. *)
Fixpoint wcatch {A B} (p : work A) (f : res A -> work B) : work B :=
  match p with
  | Finished x => f x
  | Fetch c k => Fetch c (fun r => wcatch (k r) f)
  | Put n k => Put n (fun c => wcatch (k c) f)
  end.
(** [p.await?] *)
Definition wbind {A B} (p : work A) (f : A -> work B) : work B :=
  wcatch p (fun x => match x with Ok a => f a | Err e => Finished (Err e) | Panic => Finished Panic | Diverge => Finished Diverge end).
Declare Scope work_scope.
Delimit Scope work_scope with work.
Notation "x <^ e ;; f" := (wbind e (fun x => f))
  (at level 61, e at next level, right associativity) : work_scope.
Definition wret {A} (x : A) : work A := Finished (Ok x).
Definition wlift {A} (x : res A) : work A := Finished x.

(** [resolver.get_mmstruct3(cid).await?], [resolver.get_dataset(cid).await?] and
    [resolver.save(node).await?]. *)
Definition wload (c : cid) : work mmstruct :=
  Fetch c (fun r => Finished (n <- r ;; match n with NMM m => Ok m | _ => Panic end)).
Definition wdataset (c : cid) : work dataset :=
  Fetch c (fun r => Finished (n <- r ;; match n with NDataset d => Ok d | _ => Panic end)).
Definition wsave (n : node) : work cid := Put n (fun c => Finished (Ok c)).
(** Reads, RequestModel.v. *)
Fixpoint wask {A} (p : ask A) : work A :=
  match p with Answer x => Finished x | Ask c k => Fetch c (fun r => wask (k r)) end.

(** [for x in l { s = f(s, x).await? }] *)
Fixpoint wfold {S X} (f : S -> X -> work S) (s : S) (l : list X) : work S :=
  match l with [] => wret s | x :: l' => (s' <^ f s x ;; wfold f s' l')%work end.

(** ** Building superchunks, superchunk.rs 88-270 *)
Section BuildWork.
  Context {A : Type}.
  Variables (E : elem A) (k : nat) (lc : nat -> nat).
  Local Open Scope work_scope.

  (** One subarray of the first loop, superchunk.rs 121-175. *)
  Definition tile_work (rec : (nat -> nat -> nat -> A) -> nat -> nat -> nat -> work built)
    (sublevels : list nat) (g : nat -> nat -> nat -> A) (instants rows cols bits chunks_sidelen : nat)
    (tiles : list tile) (rc : nat * nat) : work (list tile) :=
    let top := fst rc * chunks_sidelen in
    let lft := snd rc * chunks_sidelen in
    let bottom := Nat.min (top + chunks_sidelen) rows in
    let rgt := Nat.min (lft + chunks_sidelen) cols in
    if (rows <=? top) || (cols <=? lft) then
      wret (tiles ++ [(repeat (0, 0)%Z instants, None)])
    else
      let g' := tile_of g top lft in
      let h := bottom - top in
      let w := rgt - lft in
      mm <^ wlift (minmax_of E bits g' instants h w) ;;
      if forallb (fun p => (fst p =? snd p)%Z) mm then wret (tiles ++ [(mm, None)])
      else
        leaf <^ wlift (build_subchunk lc sublevels h w) ;;
        b <^ wlift (el_bits E bits (all_values g' instants h w)) ;;
        x <^ (if leaf : bool then wlift (leaf_build E k (lc (Nat.max h w)) g' instants h w b) else rec g' h w b) ;;
        wret (tiles ++ [(mm, Some x)]).

  (** The third loop, superchunk.rs 193-231; [save_tile] of SuperModel.v. The field
      [ss_store] is not used. *)
  Definition save_tile_work (s : save_state) (x : tile) : work save_state :=
    match snd x with
    | None => wret (mkSave (ss_store s) (ss_links s) (ss_refs s ++ [RElided]) (ss_sizes s) (ss_elided s + 1)
                           (ss_snapshots s) (ss_logs s))
    | Some b =>
        c <^ wsave (NMM (mb_data b)) ;;
        let '(i, links) := match link_index c (ss_links s) with
                           | Some i => (i, ss_links s)
                           | None => (length (ss_links s), ss_links s ++ [c])
                           end in
        wret (mkSave (ss_store s) links (ss_refs s ++ [RExternal i]) (ss_sizes s + mm_size (mb_data b)) (ss_elided s)
                     (ss_snapshots s + mb_snapshots b) (ss_logs s + mb_logs b))
    end.

  (** The third loop and what follows it, superchunk.rs 193-270. *)
  Definition finish_work (level instants rows cols sidelen bits chunks_sidelen subsidelen : nat) (tiles : list tile)
    (max min : list Z) : work built :=
    s <^ wfold save_tile_work (mkSave [] [] [] 0 0 0 0) tiles ;;
    external <^ wsave (NLinks (ss_links s)) ;;
    max <^ wlift (dac_of max) ;;
    min <^ wlift (dac_of min) ;;
    let data := MSuper (mkSuper instants rows cols sidelen level (ss_refs s) max min external bits
                                (el_enc E) chunks_sidelen subsidelen) [] in
    wret (mkMM data (mm_size data - 1 + links_size (ss_links s) + ss_sizes s) (ss_elided s)
               (length (ss_links s)) (ss_snapshots s) (ss_logs s)).

  Fixpoint super_work (levels : list nat) (g : nat -> nat -> nat -> A) (instants rows cols bits : nat) : work built :=
    let total := lc (Nat.max rows cols) in
    if negb (sum_nat levels =? total) then wlift Panic else
    match levels with
    | [] => wlift Panic
    | level :: sublevels =>
        let sidelen := k ^ total in
        let subsidelen := k ^ level in
        chunks_sidelen <^ wlift (udiv sidelen subsidelen) ;;
        tiles <^ wfold (tile_work (fun g' h w b => super_work sublevels g' instants h w b)
                          sublevels g instants rows cols bits chunks_sidelen) [] (grid subsidelen) ;;
        max <^ wlift (by_instant instants (map fst tiles) snd) ;;
        min <^ wlift (by_instant instants (map fst tiles) fst) ;;
        finish_work level instants rows cols sidelen bits chunks_sidelen subsidelen tiles max min
    end.
End BuildWork.

(** ** Spans *)
Section SpanWork.
  Local Open Scope work_scope.

  (** [Span::append], span.rs 50-93. *)
  Definition span_append_work (s : span) (m : mmstruct) : work span :=
    _ <^ (if 0 <? length (sp_spans s) then
            c <^ wlift (span_last s) ;;
            last <^ wload c ;;
            n <^ wlift (instants_of last) ;;
            if n =? sp_stride s then wret tt else wlift Panic
          else wret tt) ;;
    shape <^ wlift (mm_shape m) ;;
    let '(n, rows, cols) := shape in
    if negb (rows =? sp_rows s) || negb (cols =? sp_cols s) then wlift Panic
    else if sp_stride s <? n then wlift Panic
    else
      c <^ wsave (NMM m) ;;
      wret (mkSpan (sp_instants s + n) rows cols (sp_stride s) (sp_spans s ++ [c]) (sp_enc s)).

  (** [Span::update], span.rs 97-110. *)
  Definition span_update_work (s : span) (m : mmstruct) : work span :=
    let spans := removelast (sp_spans s) in
    span_append_work (mkSpan (length spans * sp_stride s) (sp_rows s) (sp_cols s) (sp_stride s) spans (sp_enc s)) m.

  (** ** Variables *)

  (** [Variable::tail_spans], dataset.rs 961-975. *)
  Fixpoint tail_loop_work (fuel chunk_size : nat) (m : mmstruct) (ancestors : list mmstruct) : work (list mmstruct) :=
    match fuel with
    | 0 => wlift Diverge
    | S fuel' =>
        s <^ wlift (as_span m) ;;
        if chunk_size <? sp_stride s then
          c <^ wlift (span_last s) ;;
          m' <^ wload c ;;
          tail_loop_work fuel' chunk_size m' (m :: ancestors)
        else wret (m :: ancestors)
    end.
  Definition tail_spans_work (chunk_size : nat) (root : cid) : work (list mmstruct) :=
    m <^ wload root ;;
    s <^ wlift (as_span m) ;;
    tail_loop_work (S (sp_stride s)) chunk_size m [].

  (** dataset.rs 979-981 and 928-930. *)
  Fixpoint update_up_work (m : mmstruct) (spans : list mmstruct) : work mmstruct :=
    match spans with
    | [] => wret m
    | p :: rest =>
        s <^ wlift (as_span p) ;;
        s' <^ span_update_work s m ;;
        update_up_work (MSpan s') rest
    end.

  (** [Variable::save_spans], dataset.rs 977-986. *)
  Definition save_spans_work (spans : list mmstruct) : work cid :=
    match spans with
    | [] => wlift Panic
    | m :: rest => root <^ update_up_work m rest ;; wsave (NMM root)
    end.

  (** The loop of [Variable::create_open_span], dataset.rs 893-925. *)
  Fixpoint open_loop_work (span_size rows cols : nat) (enc : encoding) (s : span) (left_hand : mmstruct) (spans : list mmstruct)
    : work (span * list mmstruct) :=
    match spans with
    | parent :: rest =>
        p <^ wlift (as_span parent) ;;
        if length (sp_spans p) =? span_size then
          s' <^ span_append_work (span_new rows cols (span_size * sp_stride s) enc) (MSpan s) ;;
          open_loop_work span_size rows cols enc s' parent rest
        else
          s' <^ span_append_work p (MSpan s) ;;
          wret (s', rest)
    | [] =>
        r <^ span_append_work (span_new rows cols (span_size * sp_stride s) enc) left_hand ;;
        r' <^ span_append_work r (MSpan s) ;;
        wret (r', [])
    end.

  (** [Variable::create_open_span], dataset.rs 880-935. *)
  Definition create_open_span_work (span_size chunk_size rows cols : nat) (enc : encoding) (root : cid) : work cid :=
    spans <^ tail_spans_work chunk_size root ;;
    match spans with
    | [] => wlift Panic
    | left_hand :: rest =>
        x <^ open_loop_work span_size rows cols enc (span_new rows cols chunk_size enc) left_hand rest ;;
        let '(s, ancestors) := x in
        m <^ update_up_work (MSpan s) ancestors ;;
        wsave (NMM m)
    end.

  (** [Variable::tail_data], dataset.rs 937-957. *)
  Definition tail_data_work (chunk_size : nat) (root : cid) : work (option mmstruct) :=
    spans <^ tail_spans_work chunk_size root ;;
    match spans with
    | [] => wlift Panic
    | tail :: _ =>
        s <^ wlift (as_span tail) ;;
        if length (sp_spans s) =? 0 then wret None
        else
          c <^ wlift (span_last s) ;;
          chunk <^ wload c ;;
          n <^ wlift (instants_of chunk) ;;
          wret (if n <? chunk_size then Some chunk else None)
    end.

  (** One step of the loop of [Variable::append], dataset.rs 838-873. *)
  Definition append_step_work (build : nat -> nat -> work mmstruct) (v : variable) (instants rows cols : nat)
    (x : cid * list mmstruct * bool) (start : nat) : work (cid * list mmstruct * bool) :=
    let '(root, spans, update) := x in
    let end_ := Nat.min (start + va_chunk_size v) instants in
    chunk <^ build start (end_ - start) ;;
    match spans with
    | [] => wlift Panic
    | m :: rest =>
        s <^ wlift (as_span m) ;;
        y <^ (if sp_instants s =? va_span_size v * sp_stride s then
                root' <^ save_spans_work (m :: rest) ;;
                root'' <^ create_open_span_work (va_span_size v) (va_chunk_size v) rows cols (va_enc v) root' ;;
                spans' <^ tail_spans_work (va_chunk_size v) root'' ;;
                match spans' with
                | [] => wlift Panic
                | m' :: rest' =>
                    s' <^ wlift (as_span m') ;;
                    if length (sp_spans s') =? 0 then wret (root'', s', rest') else wlift Panic
                end
              else wret (root, s, rest)) ;;
        let '(root, s, rest) := y in
        s' <^ (if update : bool then span_update_work s chunk else span_append_work s chunk) ;;
        wret (root, MSpan s' :: rest, false)
    end.

  (** [Variable::append], dataset.rs 834-878. *)
  Definition var_append_work (build : nat -> nat -> work mmstruct) (v : variable) (instants rows cols : nat) (update : bool) : work cid :=
    spans <^ tail_spans_work (va_chunk_size v) (va_cid v) ;;
    starts <^ wlift (step_starts instants (va_chunk_size v)) ;;
    x <^ wfold (append_step_work build v instants rows cols) (va_cid v, spans, update) starts ;;
    let '(_, spans, _) := x in save_spans_work spans.
End SpanWork.

(** ** Datasets *)
Section DatasetWork.
  Variables (lc : nat -> nat) (lg : f64 -> nat) (order : list call -> list call) (fuel : nat).
  Local Open Scope work_scope.

  (** [Dataset::commit], dataset.rs 112-114. *)
  Definition commit_work (d : dataset) : work cid := wsave (NDataset d).

  (** [Dataset::add_variable], dataset.rs 116-160. *)
  Definition add_work (d : dataset) (name : bytes) (round : option nat) (span_size chunk_size : nat)
    (levels : list nat) (enc : encoding) : work dataset :=
    c <^ wsave (NMM (MSpan (span_new (ds_rows d) (ds_cols d) chunk_size enc))) ;;
    wret (mkDataset (ds_coords d) (ds_vars d ++ [mkVar name round span_size chunk_size levels enc c])
                    (ds_rows d) (ds_cols d) None (next_prev d)).

  Section AppendWork.
    Context {A : Type}.
    Variable D : dtype A.

    (** Building one chunk, dataset.rs 840-853. *)
    Definition build_work (v : variable) (data : array3 A) (start len : nat) : work mmstruct :=
      let '(_, rows, cols) := a3_shape data in
      let g := fun t => a3_at data (start + t) in
      let E := dt_elem D (va_round v) in
      bits <^ wlift (el_bits E (dt_bits D (va_round v)) (all_values g len rows cols)) ;;
      b <^ super_work E 2 lc (va_levels v) g len rows cols bits ;;
      wret (mb_data b).

    (** Reading the tail, dataset.rs 172-183. *)
    Definition read_tail_work (m : mmstruct) : work (array3 A) :=
      s <^ wlift (mm_shape m) ;;
      let '(n, h, w) := s in
      l <^ wask (ask_window fuel m (cube_new 0 n 0 h 0 w) (mm_fbits m)) ;;
      wlift (run3 (dt_reader D) (mkArray3 (n, h, w) (fun _ _ _ => rd_zero (dt_reader D))) (order l)).

    (** [Dataset::append_i32], [append_i64], [append_f32], [append_f64], dataset.rs 162-384. *)
    Definition append_work (d : dataset) (name : bytes) (data : array3 A) : work dataset :=
      match find_var name (ds_vars d) with
      | None => wlift (Err EBadName)
      | Some v =>
          tail <^ tail_data_work (va_chunk_size v) (va_cid v) ;;
          c <^ match tail with
               | Some m =>
                   a <^ read_tail_work m ;;
                   a' <^ wlift (join3 a data) ;;
                   let '(n, rows, cols) := a3_shape a' in
                   var_append_work (build_work v a') v n rows cols true
               | None =>
                   let '(n, rows, cols) := a3_shape data in
                   var_append_work (build_work v data) v n rows cols false
               end ;;
          wret (mkDataset (ds_coords d) (replace_var (with_var_cid v c) (ds_vars d))
                          (ds_rows d) (ds_cols d) None (next_prev d))
      end.
  End AppendWork.

  (** The calls of HistoryModel.v. *)
  Definition event_work (d : dataset) (e : event) : work dataset :=
    match e with
    | Add c => add_work d (cf_name c) (cf_round c) (cf_span c) (cf_chunk c) (cf_levels c) (enc_of (cf_type c))
    | Append t name data => append_work (dt_of lg t) d name data
    | Commit => c <^ commit_work d ;; wret d
    | Reload => c <^ commit_work d ;; wdataset c
    end.

  (** One action of a program, SessionModel.v, with the datasets it can use. [Crash] is not
      one: a program that crashes is one that gets no further turn. *)
  Definition action_work (open : list dataset) (a : action) : work (list dataset) :=
    match a with
    | New coords rows cols => wret (open ++ [dataset_new coords rows cols])
    | Open c => wcatch (wdataset c) (fun r => wret (match r with Ok d => open ++ [d] | _ => open end))
    | Do i e =>
        match nth_error open i with
        | Some d => wcatch (event_work d e) (fun r => wret (match r with Ok d' => open ++ [d'] | _ => open end))
        | None => wret open
        end
    | Crash _ => wret open
    end.
  Definition session_work (open : list dataset) (l : list action) : work (list dataset) := wfold action_work open l.
End DatasetWork.

(** ** Several programs and one store *)

(** The store, and the work that is left to each program. *)
Record shared (A : Type) := mkShared { sh_store : store; sh_work : list (work A) }.
Arguments mkShared {A}. Arguments sh_store {A}. Arguments sh_work {A}.

Section Share.
  Variable hash : bytes -> cid.

  (** One step of a program: what it leaves in the store, and what it has left to do. *)
  Definition work_step {A} (st : store) (p : work A) : store * work A :=
    match p with
    | Finished x => (st, p)
    | Fetch c k => (st, k (retrieve st c))
    | Put n k => let '(c, st') := save hash st n in (st', k c)
    end.
  (** The program [i] has the turn. *)
  Definition turn {A} (s : shared A) (i : nat) : shared A :=
    match nth_error (sh_work s) i with
    | Some p =>
        let '(st, p') := work_step (sh_store s) p in
        mkShared st (firstn i (sh_work s) ++ p' :: skipn (S i) (sh_work s))
    | None => s
    end.
  Definition turns {A} (s : shared A) (schedule : list nat) : shared A := fold_left turn schedule s.

  (** A program that is alone with the store, from now to its end. *)
  Fixpoint run_work {A} (st : store) (p : work A) : store * res A :=
    match p with
    | Finished x => (st, x)
    | Fetch c k => run_work st (k (retrieve st c))
    | Put n k => let '(c, st') := save hash st n in run_work st' (k c)
    end.
End Share.
