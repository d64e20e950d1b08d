(** * Histories of a dataset: sequences of calls of its interface. *)
From Verif Require Import Base FixedModel GeomModel StreamModel ChunkModel NodeModel SuperModel ArrayModel FloatModel DatasetModel.

(** The types of variables, and what their arrays hold. *)
Inductive vtype := I32 | I64 | F32 | F64.
Definition carrier (t : vtype) : Type := match t with I32 | I64 => Z | F32 => f32 | F64 => f64 end.
Definition enc_of (t : vtype) : encoding := match t with I32 => EncI32 | I64 => EncI64 | F32 => EncF32 | F64 => EncF64 end.
Definition dt_of (log2_floor : f64 -> nat) (t : vtype) : dtype (carrier t) :=
  match t with I32 => dt_i32 | I64 => dt_i64 | F32 => dt_f32 log2_floor | F64 => dt_f64 log2_floor end.
Definition reader_of (t : vtype) : reader (carrier t) :=
  match t with I32 => reader_i32 | I64 => reader_i64 | F32 => reader_f32 | F64 => reader_f64 end.

(** What a variable is created with. *)
Record config := mkConfig
  { cf_name : bytes; cf_round : option nat; cf_span : nat; cf_chunk : nat; cf_levels : list nat; cf_type : vtype }.

(** [Add]: [Dataset::add_variable]. [Append]: the [append_*] of the type.
    [Commit]: [Dataset::commit], after which the dataset in memory goes on being
    used. [Reload]: [Dataset::commit], after which the dataset is loaded with
    [Resolver::get_dataset] and that one goes on being used. *)
Inductive event :=
  | Add (c : config)
  | Append (t : vtype) (name : bytes) (data : array3 (carrier t))
  | Commit
  | Reload.

Section Run.
  Variables (hash : bytes -> cid) (lc : nat -> nat) (lg : f64 -> nat) (order : list call -> list call) (fuel : nat).
  Local Open Scope op_scope.

  Definition run_event (d : dataset) (e : event) : op dataset :=
    match e with
    | Add c => add_variable hash d (cf_name c) (cf_round c) (cf_span c) (cf_chunk c) (cf_levels c) (enc_of (cf_type c))
    | Append t name data => dataset_append hash lc (dt_of lg t) order fuel d name data
    | Commit => c <! dataset_commit hash d ;; oret d
    | Reload => c <! dataset_commit hash d ;; (fun st => (st, get_dataset st c))
    end.
  Definition run (d : dataset) (es : list event) : op dataset := ofold run_event d es.

  (** The same, noting the versions that were committed and loaded again, newest
      first. Committing twice with nothing in between gives the same version. *)
  Definition add_version (c : cid) (l : list cid) : list cid :=
    match l with c' :: _ => if cid_eqb c c' then l else c :: l | [] => [c] end.
  Definition run_versions_event (x : dataset * list cid) (e : event) : op (dataset * list cid) :=
    let '(d, l) := x in
    match e with
    | Reload => c <! dataset_commit hash d ;; d' <! (fun st => (st, get_dataset st c)) ;; oret (d', add_version c l)
    | _ => d' <! run_event d e ;; oret (d', l)
    end.
  Definition run_versions (d : dataset) (es : list event) : op (dataset * list cid) :=
    ofold run_versions_event (d, []) es.
End Run.

(** Following the links to previous versions, at most [n] times, with
    [Resolver::get_dataset] and the field [prev], dataset.rs 36-43. *)
Fixpoint walk (st : store) (n : nat) (c : cid) : list cid :=
  match n with
  | 0 => []
  | S n' => match get_dataset st c with
            | Ok d => c :: match ds_prev d with Some p => walk st n' p | None => [] end
            | _ => []
            end
  end.

(** ** What a history means *)

(** The array, if it is of type [t]. *)
Definition as_type (t t' : vtype) : array3 (carrier t') -> option (array3 (carrier t)) :=
  match t, t' with
  | I32, I32 => Some | I64, I64 => Some | F32, F32 => Some | F64, F64 => Some
  | _, _ => fun _ => None
  end.
(** The arrays of type [t] appended to a variable, in order. *)
Fixpoint batches (t : vtype) (name : bytes) (es : list event) : list (array3 (carrier t)) :=
  match es with
  | [] => []
  | Append t' n a :: es' =>
      match as_type t t' a with
      | Some a' => if bytes_eqb n name then a' :: batches t name es' else batches t name es'
      | None => batches t name es'
      end
  | _ :: es' => batches t name es'
  end.

(** The length of a list of arrays laid end to end along the time axis, and the
    value of a cell of them. *)
Definition instants3 {A} (a : array3 A) : nat := fst (fst (a3_shape a)).
Fixpoint total {A} (l : list (array3 A)) : nat := match l with [] => 0 | a :: l' => instants3 a + total l' end.
Fixpoint joined {A} (default : A) (l : list (array3 A)) (t r c : nat) : A :=
  match l with
  | [] => default
  | a :: l' => if t <? instants3 a then a3_at a t r c else joined default l' (t - instants3 a) r c
  end.

(** The variables that a history creates. *)
Fixpoint configs (es : list event) : list config :=
  match es with [] => [] | Add c :: es' => c :: configs es' | _ :: es' => configs es' end.
