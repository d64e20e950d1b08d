(** * What the theorems about sessions ask of the calls. *)
From Coq Require Import ZArith Permutation.
From Verif Require Import Base StreamModel StreamProofs ChunkStream NodeModel NodeProofs SuperModel SuperProofs ArrayModel FixedModel DatasetModel HistoryModel SessionModel.

(** Nothing is asked of the values, the names, the types or the order of the calls, and
    calls may fail. What is asked is that numbers fit the fields of the format: otherwise
    what is written is not what was meant (C21). *)

(** Numbers in integer arrays are i64s, which their type grants; floats are any floats. *)
Definition value_ok (t : vtype) : carrier t -> Prop := match t with I32 | I64 => i64_range | F32 | F64 => fun _ => True end.

Section Limits.
  (** No chunk size is above [C], no number of rows or columns above [S], no variable
      gets longer than [N]. *)
  Variables (N C S : nat).

  Definition data_ok (t : vtype) (data : array3 (carrier t)) : Prop :=
    let '(n, r, c) := a3_shape data in
    1 <= r <= S /\ 1 <= c <= S /\ forall i j k, i < n -> j < r -> k < c -> value_ok t (a3_at data i j k).

  (** A configuration may be one with which nothing can be appended (C25). *)
  Definition event_ok (e : event) : Prop :=
    match e with
    | Add c => wf_name (cf_name c) /\ match cf_round c with Some b => fits8 b | None => True end /\
        fits32 (cf_span c) /\ cf_chunk c <= C /\ fits32 (cf_chunk c) /\ fits8 (length (cf_levels c)) /\ Forall fits32 (cf_levels c)
    | Append t _ data => data_ok t data
    | Commit | Reload => True
    end.
  Definition action_ok (a : action) : Prop :=
    match a with
    | New coords rows cols => (let '(c1, c2, c3) := coords in wf_coord c1 /\ wf_coord c2 /\ wf_coord c3) /\ 1 <= rows <= S /\ 1 <= cols <= S
    | Do _ e => event_ok e
    | Open _ | Crash _ => True
    end.

  (** At most 255 variables in a dataset, and at most [N] instants in a variable. *)
  Definition event_fits (st : store) (d : dataset) (e : event) : Prop :=
    match e with
    | Add _ => length (ds_vars d) < 255
    | Append _ name data => forall v m n r c, find_var name (ds_vars d) = Some v -> get_mm st (va_cid v) = Ok m -> mm_shape m = Ok (n, r, c) ->
        n + instants3 data <= N
    | Commit | Reload => True
    end.
  Definition action_fits (x : session) (a : action) : Prop :=
    match a with
    | Do i e => forall d, nth_error (se_open x) i = Some d -> event_fits (se_store x) d e
    | New _ _ _ | Open _ | Crash _ => True
    end.
  Fixpoint all_fit hash lc lg order fuel (x : session) (l : list action) : Prop :=
    match l with
    | [] => True
    | a :: l' => action_fits x a /\ all_fit hash lc lg order fuel (run_action hash lc lg order fuel x a) l'
    end.
End Limits.

(** What is asked of the rest: identifiers have the form that the format can hold,
    concurrent reads take place in some order, the limits are those of the format
    ([sizes_ok], SuperProofs.v: a chunk of [C] instants of [S] by [S] has fewer than
    2^32 nodes). *)
Record limits (hash : bytes -> cid) (lc : nat -> nat) (order : list call -> list call) (N C S : nat) : Prop :=
  { li_hash : forall b, wf_cid (hash b);
    li_order : forall l, Permutation l (order l);
    li_instants : fits32 N;
    li_chunk : 1 <= C;
    li_sizes : sizes_ok 2 lc C S }.
