(** * Sessions: several datasets and versions in use at once, and crashes. *)
From Verif Require Import Base StreamModel NodeModel SuperModel ArrayModel FixedModel DatasetModel HistoryModel.

(** What a program does with the library. It can use every dataset it has made or
    loaded again and again: [Dataset] values are copied freely ([derive(Clone)] on
    the parts, [Arc] for the rest; methods take [&self] and answer a new dataset,
    dataset.rs 112-160 and 162-384).

    [New]: [Dataset::new]. [Open c]: [Resolver::get_dataset]. [Do i e]: the call
    [e] (HistoryModel.v) on the dataset number [i]; [Reload] is a commit followed by
    a load. [Crash n]: the process ends and a new one starts, which has no dataset
    yet and finds only the first [n] objects that were in the store. *)
Inductive action :=
  | New (coords : coordinate * coordinate * coordinate) (rows cols : nat)
  | Open (c : cid)
  | Do (i : nat) (e : event)
  | Crash (n : nat).

(** The objects in the store, oldest first; every object that was ever written, with
    those that a crash lost; and the datasets that can be used. *)
Record session := mkSession { se_store : store; se_ever : store; se_open : list dataset }.
Definition session_start : session := mkSession [] [] [].

Section Sessions.
  Variables (hash : bytes -> cid) (lc : nat -> nat) (lg : f64 -> nat) (order : list call -> list call) (fuel : nat).

  (** A call that fails or panics leaves no dataset, but what it wrote stays. *)
  Definition run_action (x : session) (a : action) : session :=
    match a with
    | New coords rows cols => mkSession (se_store x) (se_ever x) (se_open x ++ [dataset_new coords rows cols])
    | Open c =>
        match get_dataset (se_store x) c with
        | Ok d => mkSession (se_store x) (se_ever x) (se_open x ++ [d])
        | _ => x
        end
    | Do i e =>
        match nth_error (se_open x) i with
        | Some d =>
            let '(st, r) := run_event hash lc lg order fuel d e (se_store x) in
            mkSession st (se_ever x ++ skipn (length (se_store x)) st)
              (match r with Ok d' => se_open x ++ [d'] | _ => se_open x end)
        | None => x
        end
    | Crash n => mkSession (firstn n (se_store x)) (se_ever x) []
    end.
  Definition run_session (x : session) (l : list action) : session := fold_left run_action l x.
End Sessions.

(** ** Where datasets come from

    Nothing of this is in the code: it says which calls led to each dataset, for the
    statements of theorems. *)
Record story := mkStory { sy_coords : coordinate * coordinate * coordinate; sy_rows : nat; sy_cols : nat; sy_events : list event }.
Definition and_then (s : story) (e : event) : story := mkStory (sy_coords s) (sy_rows s) (sy_cols s) (sy_events s ++ [e]).

(** A session, the stories of the datasets that can be used, and of the datasets among
    the objects of the store. *)
Record told := mkTold { to_session : session; to_open : list (option story); to_store : list (option story) }.
Definition told_start : told := mkTold session_start [] [].

Section Stories.
  Variables (hash : bytes -> cid) (lc : nat -> nat) (lg : f64 -> nat) (order : list call -> list call) (fuel : nat).

  (** The story of the object that [store_get] finds. *)
  Definition story_at (st : store) (l : list (option story)) (c : cid) : option story :=
    match find (fun p => cid_eqb c (fst (fst p))) (combine st l) with Some (_, o) => o | None => None end.

  (** A dataset made by a call has the story of the one that was called, and the call. A
      commit stores the story of what it commits; to load it is, for the story, the end of
      a [Reload]. *)
  Definition tell (y : told) (a : action) : told :=
    let x := to_session y in
    let x' := run_action hash lc lg order fuel x a in
    match a with
    | New coords rows cols => mkTold x' (to_open y ++ [Some (mkStory coords rows cols [])]) (to_store y)
    | Open c =>
        match get_dataset (se_store x) c with
        | Ok _ => mkTold x' (to_open y ++ [option_map (fun s => and_then s Reload) (story_at (se_store x) (to_store y) c)]) (to_store y)
        | _ => mkTold x' (to_open y) (to_store y)
        end
    | Do i e =>
        match nth_error (se_open x) i, nth_error (to_open y) i with
        | Some d, Some o =>
            let '(st, r) := run_event hash lc lg order fuel d e (se_store x) in
            mkTold x' (match r with Ok _ => to_open y ++ [option_map (fun s => and_then s e) o] | _ => to_open y end)
              (to_store y ++ match e with Commit | Reload => [o] | _ => repeat None (length st - length (se_store x)) end)
        | _, _ => mkTold x' (to_open y) (to_store y)
        end
    | Crash n => mkTold x' [] (firstn n (to_store y))
    end.
  Definition run_told (y : told) (l : list action) : told := fold_left tell l y.
End Stories.
