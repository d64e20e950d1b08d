(** * What the cache is meant to do: a list of objects with their keys, the most
    recently used first. *)
From Verif Require Import Base.

Section Spec.
  Context {K V : Type}.
  Variables (keqb : K -> K -> bool) (size : V -> nat).

  Definition keys (l : list (K * V)) : list K := map fst l.
  Definition sum_sizes (l : list (K * V)) : nat := fold_right (fun p n => size (snd p) + n) 0 l.
  (** The longest part of a list, from the front, that fits into [room]. *)
  Fixpoint fitting (room : nat) (l : list (K * V)) : list (K * V) :=
    match l with
    | [] => []
    | p :: l' => if size (snd p) <=? room then p :: fitting (room - size (snd p)) l' else []
    end.
  Definition without (k : K) (l : list (K * V)) : list (K * V) := filter (fun p => negb (keqb k (fst p))) l.
  Definition found (k : K) (l : list (K * V)) : option V :=
    match find (fun p => keqb k (fst p)) l with Some p => Some (snd p) | None => None end.

  (** Getting [k], when loading it answers [r]: the list afterwards, whether the
      object is loaded, and the answer. *)
  Definition lru_get (limit : nat) (l : list (K * V)) (k : K) (r : res V) : list (K * V) * bool * res V :=
    match found k l with
    | Some v => ((k, v) :: without k l, false, Ok v)
    | None => (match r with Ok v => fitting limit ((k, v) :: l) | _ => l end, true, r)
    end.
  (** A sequence of gets, from the list [l]. *)
  Fixpoint lru (limit : nat) (l : list (K * V)) (requests : list (K * res V)) : list (K * V) * list (bool * res V) :=
    match requests with
    | [] => (l, [])
    | (k, r) :: rest =>
        let '(l1, loaded, a) := lru_get limit l k r in
        let '(l2, out) := lru limit l1 rest in (l2, (loaded, a) :: out)
    end.

  (** Loading ends, with an object or an error. *)
  Definition answers (r : res V) : Prop := match r with Ok _ | Err _ => True | _ => False end.
  (** An object that has been loaded once is there to be loaded ever after: what the
      loads of a sequence of gets answer if stored objects never change. *)
  Definition stable (requests : list (K * res V)) : Prop :=
    forall before k v between r after, requests = before ++ (k, Ok v) :: between ++ (k, r) :: after -> r = Ok v.
  (** The keys of a sequence of uses, the last used first. *)
  Definition recent (used : list K) : list K :=
    fold_left (fun acc k => k :: filter (fun x => negb (keqb k x)) acc) used [].
  (** The keys that were got, in order. *)
  Definition used (requests : list (K * res V)) (out : list (bool * res V)) : list K :=
    flat_map (fun x => match snd (snd x) with Ok _ => [fst (fst x)] | _ => [] end) (combine requests out).
End Spec.
