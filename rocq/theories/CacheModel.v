(** * Model of [dcdf/src/cache.rs]: the cache of loaded objects, with its linked
    list and its synchronisation of concurrent loads.

    Sizes are natural numbers: [self.size] is taken not to overflow a u64. The
    [HashMap]s are association lists and functions: the code uses no order of
    their elements. *)
From Verif Require Import Base.

Section Cache.
  Context {K V : Type}.
  Variables (keqb : K -> K -> bool) (size : V -> nat).

  (** [CacheEntry], cache.rs 101-119, and [CacheEntry::update], 396-404. *)
  Record entry := mkEntry { en_key : K; en_obj : V; en_more : option K; en_less : option K; en_size : nat }.
  Definition en_update (e : entry) (more less : option K) : entry := mkEntry (en_key e) (en_obj e) more less (en_size e).

  (** [HashMap<K, CacheEntry<K, V>>] *)
  Definition emap := list (K * entry).
  Definition eget (m : emap) (k : K) : option entry :=
    match find (fun p => keqb k (fst p)) m with Some p => Some (snd p) | None => None end.
  Definition etake (m : emap) (k : K) : emap := filter (fun p => negb (keqb k (fst p))) m.
  Definition eput (m : emap) (k : K) (e : entry) : emap := (k, e) :: etake m k.

  (** [Entries], cache.rs 77-98, and [Cache::new], 129-140. *)
  Record entries := mkEntries { es_limit : nat; es_size : nat; es_map : emap; es_most : option K; es_least : option K }.
  Definition entries_new (limit : nat) : entries := mkEntries limit 0 [] None None.

  Definition unwrap {A} (x : option A) : res A := match x with Some a => Ok a | None => Panic end.

  (** [Entries::push_most_recent], cache.rs 293-319. *)
  Definition push_most_recent (s : entries) (e : entry) : res entries :=
    let place m :=
      Ok (mkEntries (es_limit s) (es_size s) (eput m (en_key e) (en_update e None (es_most s))) (Some (en_key e))
                    (match es_least s with None => Some (en_key e) | Some k => Some k end)) in
    match es_most s with
    | Some head =>
        if keqb head (en_key e) then Ok s
        else
          old <- unwrap (eget (es_map s) head) ;;
          place (eput (es_map s) head (en_update old (Some (en_key e)) (en_less old)))
    | None => place (es_map s)
    end.

  (** [Entries::remove], cache.rs 323-354. *)
  Definition remove (s : entries) (k : K) : res (entries * option entry) :=
    match eget (es_map s) k with
    | None => Ok (s, None)
    | Some e =>
        let m := etake (es_map s) k in
        most <- unwrap (es_most s) ;;
        let most' := if keqb most (en_key e) then en_less e else es_most s in
        least <- unwrap (es_least s) ;;
        let least' := if keqb least (en_key e) then en_more e else es_least s in
        m <- match en_less e with
             | Some x => y <- unwrap (eget m x) ;; Ok (eput m x (en_update y (en_more e) (en_less y)))
             | None => Ok m
             end ;;
        m <- match en_more e with
             | Some x => y <- unwrap (eget m x) ;; Ok (eput m x (en_update y (en_more y) (en_less e)))
             | None => Ok m
             end ;;
        Ok (mkEntries (es_limit s) (es_size s) m most' least', Some e)
    end.

  (** The loop of [Entries::insert], cache.rs 368-371. Each turn takes an entry out
      of the map, so that its length bounds the number of turns. *)
  Fixpoint evict (fuel : nat) (s : entries) : res entries :=
    match fuel with
    | 0 => Diverge
    | S fuel' =>
        if es_limit s <? es_size s then
          k <- unwrap (es_least s) ;;
          x <- remove s k ;;
          let '(s', e) := x in
          e <- unwrap e ;;
          n <- usub (es_size s') (en_size e) ;;
          evict fuel' (mkEntries (es_limit s') n (es_map s') (es_most s') (es_least s'))
        else Ok s
    end.

  (** [Entries::insert], cache.rs 361-372, with [CacheEntry::new], 380-389. *)
  Definition insert (s : entries) (k : K) (v : V) : res entries :=
    let e := mkEntry k v None None (size v) in
    s <- push_most_recent (mkEntries (es_limit s) (es_size s + en_size e) (es_map s) (es_most s) (es_least s)) e ;;
    evict (S (length (es_map s))) s.

  (** [Cache::lookup], cache.rs 163-174. *)
  Definition lookup (s : entries) (k : K) : res (entries * option V) :=
    x <- remove s k ;;
    let '(s', e) := x in
    match e with
    | None => Ok (s', None)
    | Some e => s'' <- push_most_recent s' e ;; Ok (s'', Some (en_obj e))
    end.

  (** [Cache::get], cache.rs 148-158, when no other task is using the cache: the
      answer, whether [load] was called, and the cache left. [r] is what [load]
      answers if it is called; cache.rs 199-232. *)
  Definition cache_get (s : entries) (k : K) (r : res V) : res (entries * bool * res V) :=
    x <- lookup s k ;;
    let '(s', o) := x in
    match o with
    | Some v => Ok (s', false, Ok v)
    | None =>
        match r with
        | Ok v => s'' <- insert s' k v ;; Ok (s'', true, Ok v)
        | Err e => Ok (s', true, Err e)
        | Panic => Panic
        | Diverge => Diverge
        end
    end.

  (** A sequence of gets, each with what [load] answers if it is called: for each get,
      whether [load] was called and the answer. *)
  Fixpoint gets (s : entries) (requests : list (K * res V)) : res (entries * list (bool * res V)) :=
    match requests with
    | [] => Ok (s, [])
    | (k, r) :: rest =>
        x <- cache_get s k r ;;
        let '(s1, loaded, a) := x in
        y <- gets s1 rest ;;
        let '(s2, out) := y in Ok (s2, (loaded, a) :: out)
    end.

  (** ** Concurrent gets

      A task that has called [get], by what it does next. Each step takes the locks
      that the code takes at one place and does what it does before letting go of
      them. [Loader]s, cache.rs 62-72, are numbered. *)
  Inductive task :=
    | TLookup (k : K)                       (* about to call [lookup], line 152 *)
    | TRegister (k : K)                     (* about to lock [loaders], 184 *)
    | TLoading (k : K) (l : nat)            (* awaiting [load], 199 *)
    | TInsert (k : K) (l : nat) (v : V)     (* loaded, about to insert, 204 *)
    | TFinish (k : K) (l : nat) (r : res V) (* about to set [object], 250-253 *)
    | TNotify (k : K) (l : nat) (r : res V) (* about to lock [waiters], 254 *)
    | TRemove (k : K) (l : nat) (r : res V) (* about to remove the loader, 208, 217, 225 *)
    | TWait (k : K) (l : nat)               (* about to lock [waiters], 270 *)
    | TBlocked (k : K) (l : nat)            (* awaiting [receive], 283 *)
    | TDone (k : K) (r : res V)             (* has returned *)
    | TGone (k : K).                        (* was dropped before it returned *)

  Record state := mkState
    { c_entries : entries;
      c_loaders : K -> option nat;          (* [loaders] *)
      c_next : nat;                         (* the number of the next [Loader] *)
      c_object : nat -> option (res V);     (* [Loader::object] *)
      c_waiters : nat -> list nat;          (* [Loader::waiters]: the tasks waiting *)
      c_task : nat -> task }.

  Definition kset {A} (f : K -> A) (k : K) (x : A) : K -> A := fun k' => if keqb k k' then x else f k'.
  Definition nset {A} (f : nat -> A) (i : nat) (x : A) : nat -> A := fun j => if i =? j then x else f j.
  Definition with_task (s : state) (t : nat) (x : task) : state :=
    mkState (c_entries s) (c_loaders s) (c_next s) (c_object s) (c_waiters s) (nset (c_task s) t x).
  Definition with_entries (s : state) (e : entries) : state :=
    mkState e (c_loaders s) (c_next s) (c_object s) (c_waiters s) (c_task s).

  (** What tasks that waited are told: [Error::Load] for any error, 250-262. *)
  Definition told (r : res V) : res V := match r with Err _ => Err ELoad | _ => r end.
  (** [waiter.send(..)] to every waiter: their [get] returns. *)
  Definition wake (f : nat -> task) (r : res V) (ws : list nat) : nat -> task :=
    fold_left (fun f w => match f w with TBlocked k _ => nset f w (TDone k r) | _ => f end) ws f.

  Definition gone (x : task) : bool := match x with TGone _ => true | _ => false end.

  (** One step of task [t]. [r] is what [load] answers if this step is the end of the
      load. [None]: the task cannot go on, because it waits or has returned. [Panic]:
      the step panics; the model ends there. *)
  Definition step (s : state) (t : nat) (r : res V) : option (res state) :=
    match c_task s t with
    | TLookup k =>
        Some (x <- lookup (c_entries s) k ;;
              let '(e, o) := x in
              Ok (with_task (with_entries s e) t
                    (match o with Some v => TDone k (Ok v) | None => TRegister k end)))
    | TRegister k =>
        Some (Ok (match c_loaders s k with
                  | Some l => with_task s t (TWait k l)
                  | None => mkState (c_entries s) (kset (c_loaders s) k (Some (c_next s))) (S (c_next s))
                                    (nset (c_object s) (c_next s) None) (nset (c_waiters s) (c_next s) [])
                                    (nset (c_task s) t (TLoading k (c_next s)))
                  end))
    | TLoading k l =>
        Some (match r with
              | Ok v => Ok (with_task s t (TInsert k l v))
              | Err e => Ok (with_task s t (TFinish k l (Err e)))
              | _ => Panic
              end)
    | TInsert k l v =>
        Some (e <- insert (c_entries s) k v ;; Ok (with_task (with_entries s e) t (TFinish k l (Ok v))))
    | TFinish k l r =>
        Some (Ok (mkState (c_entries s) (c_loaders s) (c_next s) (nset (c_object s) l (Some (told r))) (c_waiters s)
                          (nset (c_task s) t (TNotify k l r))))
    | TNotify k l r =>
        Some (if existsb (fun w => gone (c_task s w)) (c_waiters s l) then Panic (* "Other end hung up!", 261 *)
              else Ok (mkState (c_entries s) (c_loaders s) (c_next s) (c_object s) (nset (c_waiters s) l [])
                               (nset (wake (c_task s) (told r) (c_waiters s l)) t (TRemove k l r))))
    | TRemove k l r =>
        Some (Ok (mkState (c_entries s) (kset (c_loaders s) k None) (c_next s) (c_object s) (c_waiters s)
                          (nset (c_task s) t (TDone k r))))
    | TWait k l =>
        Some (Ok (match c_object s l with
                  | Some r => with_task s t (TDone k r)
                  | None => mkState (c_entries s) (c_loaders s) (c_next s) (c_object s)
                                    (nset (c_waiters s) l (c_waiters s l ++ [t])) (nset (c_task s) t (TBlocked k l))
                  end))
    | TBlocked _ _ | TDone _ _ | TGone _ => None
    end.

  (** The future of task [t] is dropped while it awaits, as [Span::fill_cell] and
      [Span::fill_window] do with the futures that are left when one of them fails,
      span.rs 171-174, 218-221. Nothing in cache.rs runs when that happens, but
      [receive] is closed. *)
  Definition drop_task (s : state) (t : nat) : state :=
    match c_task s t with
    | TLookup k | TLoading k _ | TBlocked k _ => with_task s t (TGone k)
    | _ => s
    end.

  (** A schedule says which task moves next, and what its load answers. It ends
      early if a step panics; a task that cannot go on does nothing. *)
  Fixpoint exec (s : state) (schedule : list (nat * res V)) : res state :=
    match schedule with
    | [] => Ok s
    | (t, r) :: rest => match step s t r with None => exec s rest | Some x => s' <- x ;; exec s' rest end
    end.

  (** A schedule in which gets are also given up. *)
  Inductive happening := Moves (t : nat) (r : res V) | Dropped (t : nat).
  Fixpoint exec_dropping (s : state) (schedule : list happening) : res state :=
    match schedule with
    | [] => Ok s
    | Moves t r :: rest => match step s t r with None => exec_dropping s rest | Some x => s' <- x ;; exec_dropping s' rest end
    | Dropped t :: rest => exec_dropping (drop_task s t) rest
    end.

  (** How many times a schedule makes a task go on. *)
  Fixpoint moved (s : state) (schedule : list (nat * res V)) : nat :=
    match schedule with
    | [] => 0
    | (t, r) :: rest => match step s t r with None => moved s rest | Some (Ok s') => S (moved s' rest) | Some _ => 1 end
    end.

  (** On an executor with one thread, a task runs until it awaits: one turn. *)
  Definition awaits (x : task) : bool :=
    match x with TLoading _ _ | TBlocked _ _ | TDone _ _ | TGone _ => true | _ => false end.
  Fixpoint run_on (n : nat) (s : state) (t : nat) (r : res V) : res state :=
    match n with
    | 0 => Diverge
    | S n' => if awaits (c_task s t) then Ok s
              else match step s t r with None => Ok s | Some x => s' <- x ;; run_on n' s' t r end
    end.
  Definition turn (s : state) (t : nat) (r : res V) : res state :=
    match step s t r with None => Ok s | Some x => s' <- x ;; run_on 5 s' t r end.
  Fixpoint turns (s : state) (schedule : list (nat * res V)) : res state :=
    match schedule with [] => Ok s | (t, r) :: rest => s' <- turn s t r ;; turns s' rest end.

  (** Turns on one thread, and gets that are given up in between. *)
  Fixpoint turns_dropping (s : state) (schedule : list happening) : res state :=
    match schedule with
    | [] => Ok s
    | Moves t r :: rest => s' <- turn s t r ;; turns_dropping s' rest
    | Dropped t :: rest => turns_dropping (drop_task s t) rest
    end.

  (** In such a run, the task [u] was given up while it waited for the load number [lo]. This is
      not in the code: it is for the statements of theorems. *)
  Definition gave_up (s0 : state) (schedule : list happening) (u lo : nat) : Prop :=
    exists before after s k, schedule = before ++ Dropped u :: after /\ turns_dropping s0 before = Ok s /\ c_task s u = TBlocked k lo.

  (** The keys for which [load] is called, in order. *)
  Definition begins (s s' : state) (t : nat) : list K :=
    match c_task s t, c_task s' t with TLookup k, TLoading _ _ => [k] | _, _ => [] end.
  Fixpoint loads (s : state) (schedule : list (nat * res V)) : list K :=
    match schedule with
    | [] => []
    | (t, r) :: rest => match turn s t r with Ok s' => begins s s' t ++ loads s' rest | _ => [] end
    end.

  (** The tasks [0], [1], ... get the keys of a list, from an empty cache. *)
  Definition start (limit : nat) (keys : list K) (other : K) : state :=
    mkState (entries_new limit) (fun _ => None) 0 (fun _ => None) (fun _ => [])
            (fun t => match nth_error keys t with Some k => TLookup k | None => TDone other (Err ELoad) end).
End Cache.
Arguments entry : clear implicits.
Arguments entries : clear implicits.
Arguments task : clear implicits.
Arguments state : clear implicits.
