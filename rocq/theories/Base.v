(** * Base: results, checked arithmetic, machine integers, loops.

    Shared by every model file.  Nothing here models a particular function of
    the code base; these are the conventions of DESIGN.md section 1. *)
From Coq Require Export List Arith ZArith NArith Lia Bool Permutation.
From Coq Require Export ZifyBool ZifyNat ZifyN.
Export ListNotations.

(** Error values returned by the Rust code ([errors.rs] lines 1-38).
    [EIo] stands for every [io::Error] (short reads), [ENotFound] for the
    resolver's "object not found", [ELoad] for [Error::Load], [ECid] for a
    malformed CID, [EStore] for any error of the mapper, [EBadName] and
    [ETimeIsInfinite] for the errors of those names. *)
Inductive err := EIo | ENotFound | ELoad | ECid | EUtf8 | EStore | EBadName | ETimeIsInfinite.

(** Outcome of running a piece of Rust code. [Panic]: any Rust panic.
    [Diverge]: the fuel given to a model loop ran out. *)
Inductive res (A : Type) : Type :=
| Ok (a : A)
| Err (e : err)
| Panic
| Diverge.
Arguments Ok {A} a.
Arguments Err {A} e.
Arguments Panic {A}.
Arguments Diverge {A}.

Definition bind {A B} (x : res A) (f : A -> res B) : res B :=
  match x with
  | Ok a => f a
  | Err e => Err e
  | Panic => Panic
  | Diverge => Diverge
  end.

Declare Scope res_scope.
Delimit Scope res_scope with res.
Notation "x <- e ;; f" := (bind e (fun x => f))
  (at level 61, e at next level, right associativity) : res_scope.
Notation "' p <- e ;; f" := (bind e (fun x => match x with p => f end))
  (at level 61, p pattern, e at next level, right associativity) : res_scope.
Open Scope res_scope.

Definition is_ok {A} (x : res A) : bool := match x with Ok _ => true | _ => false end.

(** Indexing a slice or Vec: panics out of bounds. *)
Definition nth_res {A} (l : list A) (i : nat) : res A :=
  match nth_error l i with Some x => Ok x | None => Panic end.

(** Checked [usize] subtraction. *)
Definition usub (a b : nat) : res nat := if b <=? a then Ok (a - b) else Panic.

(** [usize] division: panics on zero. *)
Definition udiv (a b : nat) : res nat := if b =? 0 then Panic else Ok (a / b).
Definition umod (a b : nat) : res nat := if b =? 0 then Panic else Ok (a mod b).

(** [&v[start..end]]: panics when [start > end] or [end > len]. *)
Definition slice_res {A} (l : list A) (start end_ : nat) : res (list A) :=
  if (start <=? end_) && (end_ <=? length l) then Ok (firstn (end_ - start) (skipn start l))
  else Panic.

(** ** i64 with wrap-around *)
Definition two63 : Z := 9223372036854775808%Z.
Definition two64 : Z := 18446744073709551616%Z.
Definition wrap64 (z : Z) : Z := ((z + two63) mod two64 - two63)%Z.
Definition i64_range (z : Z) : Prop := (- two63 <= z < two63)%Z.
Definition i64_rangeb (z : Z) : bool := ((- two63 <=? z) && (z <? two63))%Z.
Definition i64_add (a b : Z) : Z := wrap64 (a + b).
Definition i64_sub (a b : Z) : Z := wrap64 (a - b).

(** ** Loops *)
Fixpoint mapM {A B} (f : A -> res B) (l : list A) : res (list B) :=
  match l with
  | [] => Ok []
  | x :: xs => y <- f x ;; ys <- mapM f xs ;; Ok (y :: ys)
  end.

(** A loop whose body appends a list to an output. *)
Fixpoint flat_mapM {A B} (f : A -> res (list B)) (l : list A) : res (list B) :=
  match l with
  | [] => Ok []
  | x :: xs => y <- f x ;; ys <- flat_mapM f xs ;; Ok (y ++ ys)
  end.

(** A loop with state. *)
Fixpoint foldM {A S} (f : S -> A -> res S) (s : S) (l : list A) : res S :=
  match l with
  | [] => Ok s
  | x :: xs => s' <- f s x ;; foldM f s' xs
  end.

(** [while let Some(x) = queue.pop_front() { ... queue.push_back(..) ... }]:
    [body] answers the new state and the entries pushed to the back. *)
Fixpoint worklist {E S} (body : S -> E -> S * list E) (fuel : nat) (queue : list E) (s : S) : res S :=
  match queue with
  | [] => Ok s
  | x :: rest =>
      match fuel with
      | 0 => Diverge
      | Datatypes.S fuel' => let '(s', new) := body s x in worklist body fuel' (rest ++ new) s'
      end
  end.

(** The nested loop [for i in 0..k { for j in 0..k { ... } }] visits these pairs. *)
Definition grid (k : nat) : list (nat * nat) := list_prod (seq 0 k) (seq 0 k).

(** The inclusive range [a..=b]. *)
Definition range_incl (a b : nat) : list nat := seq a (S b - a).
(** The half-open range [a..b]. *)
Definition range (a b : nat) : list nat := seq a (b - a).

(** Replacing an element of a list (in-place update of a Vec). *)
Fixpoint list_set {A} (l : list A) (i : nat) (x : A) : list A :=
  match l, i with
  | [], _ => []
  | _ :: t, 0 => x :: t
  | h :: t, S i' => h :: list_set t i' x
  end.

Definition sum_nat (l : list nat) : nat := fold_right Nat.add 0 l.

Definition b2n (b : bool) : nat := if b then 1 else 0.
