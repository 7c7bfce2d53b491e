(** The two read-write locks between searches and the update loop of one Searcher:
    searcher.go:117-135 (s.lck), 343-391; index.go:118-125, 146-150 (n.lck of each Index). Model/Swap.v
    says what is done under the locks; here is who waits for whom.

    sync.RWMutex: RLock takes the lock at once unless a writer holds it or waits for it, and
    queues behind that writer otherwise; Lock keeps new readers out and waits for those that have
    the lock; Unlock gives the lock to all readers in the queue. Each lock has one writer here, the
    update loop. One step is one lock operation, one access to s.idx, or a piece of work; how much
    work there is (searching, pulling and building, destroying) is any number, and given in advance.
    Left out: failures that end the process, and all that is not about locks. *)
From Verif Require Import Model.Base.

(** A search; [k]: the work of searching that is left. *)
Inductive sphase :=
  | SNew
  | SCalled (k : nat)          (* about to s.lck.RLock, 132 *)
  | SQueue (k : nat)           (* in the queue of s.lck *)
  | SLocked (k : nat)          (* s.lck read-locked; about to read s.idx, 134 *)
  | SHas (i k : nat)           (* about to n.lck.RLock of index i, index.go:149 *)
  | SQueued (i k : nat)        (* in the queue of that lock *)
  | SRuns (i k : nat)          (* it has that lock too *)
  | SLeft                      (* index.go:150, the deferred RUnlock, is done *)
  | SDone.                     (* so is that of 133 *)
(** The update loop; [n]: the new index, [old]: the one it replaces. *)
Inductive uphase :=
  | UIdle
  | UWork (k : nat)            (* 358-375 *)
  | UBuilt (n : nat)           (* about to s.lck.Lock, 118 *)
  | UWantS (n : nat)           (* waiting for the readers of s.lck *)
  | UHoldS (n : nat)           (* 121-122 *)
  | USet (n old : nat)         (* about to lock the old index, index.go:119 *)
  | UWantI (n old k : nat)     (* waiting for its readers *)
  | UHoldI (n old k : nat)     (* index.go:121-124 *)
  | UResult (n : nat) (ok : bool)  (* its lock is free again; s.lck held *)
  | UUndo (n : nat)            (* 384: about to lock the new index *)
  | UWantU (n k : nat)         (* waiting for its readers *)
  | UHoldU (n k : nat).

Record state := mkState { cur : nat; made : nat; search : nat -> sphase; up : uphase }.

(** RLock can take the lock at once. *)
Definition s_free (u : uphase) : bool :=
  match u with
  | UWantS _ | UHoldS _ | USet _ _ | UWantI _ _ _ | UHoldI _ _ _ | UResult _ _ => false
  | _ => true
  end.
Definition i_free (i : nat) (u : uphase) : bool :=
  match u with
  | UWantI _ j _ | UHoldI _ j _ | UWantU j _ | UHoldU j _ => negb (Nat.eqb i j)
  | _ => true
  end.
(** Who has the lock as a reader. *)
Definition reads_s (p : sphase) : bool :=
  match p with SLocked _ | SHas _ _ | SQueued _ _ | SRuns _ _ | SLeft => true | _ => false end.
Definition reads_i (i : nat) (p : sphase) : bool := match p with SRuns j _ => Nat.eqb i j | _ => false end.
(** Unlock. *)
Definition wake_s (p : sphase) : sphase := match p with SQueue k => SLocked k | _ => p end.
Definition wake_i (i : nat) (p : sphase) : sphase :=
  match p with SQueued j k => if Nat.eqb i j then SRuns j k else p | _ => p end.

Definition set_search (s : state) (t : nat) (p : sphase) : state :=
  mkState (cur s) (made s) (fun t' => if Nat.eqb t' t then p else search s t') (up s).
Definition set_up (s : state) (u : uphase) : state := mkState (cur s) (made s) (search s) u.
Definition set_up_wake (s : state) (w : sphase -> sphase) (u : uphase) : state := mkState (cur s) (made s) (fun t => w (search s t)) u.

Inductive event := Call (t : nat) | Return (t : nat) | Begun | Ended.
Inductive actor := Search (t : nat) | Updater | Env.

Inductive step : actor -> state -> list event -> state -> Prop :=
  | st_call s t k : search s t = SNew -> step Env s [Call t] (set_search s t (SCalled k))
  | st_begin s k : up s = UIdle -> step Env s [Begun] (set_up s (UWork k))
  | st_idle s : step Env s [] s
  (* searcher.go:132 *)
  | st_rlock s t k : search s t = SCalled k ->
      step (Search t) s [] (set_search s t (if s_free (up s) then SLocked k else SQueue k))
  (* 134 *)
  | st_read s t k : search s t = SLocked k -> step (Search t) s [] (set_search s t (SHas (cur s) k))
  (* index.go:149 *)
  | st_irlock s t i k : search s t = SHas i k ->
      step (Search t) s [] (set_search s t (if i_free i (up s) then SRuns i k else SQueued i k))
  | st_run s t i k : search s t = SRuns i (S k) -> step (Search t) s [] (set_search s t (SRuns i k))
  (* index.go:150, searcher.go:133 *)
  | st_irunlock s t i : search s t = SRuns i 0 -> step (Search t) s [] (set_search s t SLeft)
  | st_runlock s t : search s t = SLeft -> step (Search t) s [Return t] (set_search s t SDone)
  (* searcher.go:358-380 *)
  | st_work s k : up s = UWork (S k) -> step Updater s [] (set_up s (UWork k))
  | st_nothing s : up s = UWork 0 -> step Updater s [Ended] (set_up s UIdle)
  | st_built s : up s = UWork 0 -> step Updater s [] (mkState (cur s) (S (made s)) (search s) (UBuilt (made s)))
  (* 118 *)
  | st_lock s n : up s = UBuilt n -> step Updater s [] (set_up s (UWantS n))
  | st_locked s n : up s = UWantS n -> (forall t, reads_s (search s t) = false) -> step Updater s [] (set_up s (UHoldS n))
  (* 121-122 *)
  | st_set s n : up s = UHoldS n -> step Updater s [] (mkState n (made s) (search s) (USet n (cur s)))
  (* index.go:119-125 *)
  | st_ilock s n old k : up s = USet n old -> step Updater s [] (set_up s (UWantI n old k))
  | st_ilocked s n old k : up s = UWantI n old k -> (forall t, reads_i old (search s t) = false) -> step Updater s [] (set_up s (UHoldI n old k))
  | st_destroy s n old k : up s = UHoldI n old (S k) -> step Updater s [] (set_up s (UHoldI n old k))
  | st_iunlock s n old ok : up s = UHoldI n old 0 -> step Updater s [] (set_up_wake s (wake_i old) (UResult n ok))
  (* searcher.go:119 *)
  | st_unlock s n ok : up s = UResult n ok ->
      step Updater s (if ok then [Ended] else []) (set_up_wake s wake_s (if ok then UIdle else UUndo n))
  (* 384, index.go:119-125 *)
  | st_ulock s n k : up s = UUndo n -> step Updater s [] (set_up s (UWantU n k))
  | st_ulocked s n k : up s = UWantU n k -> (forall t, reads_i n (search s t) = false) -> step Updater s [] (set_up s (UHoldU n k))
  | st_udestroy s n k : up s = UHoldU n (S k) -> step Updater s [] (set_up s (UHoldU n k))
  | st_uunlock s n : up s = UHoldU n 0 -> step Updater s [Ended] (set_up_wake s (wake_i n) UIdle).

(** The searcher has been made, with index 0. *)
Definition initial : state := mkState 0 1 (fun _ => SNew) UIdle.

(** Infinite executions in which every goroutine that is not blocked for good gets its turn. *)
Record execution := mkExecution { st : nat -> state; ac : nat -> actor; ev : nat -> list event }.
Definition enabled (a : actor) (s : state) : Prop := exists es s', step a s es s'.
Definition is_execution (x : execution) : Prop := st x 0 = initial /\ forall k, step (ac x k) (st x k) (ev x k) (st x (S k)).
Definition fair (x : execution) : Prop := forall a, a <> Env -> forall k,
  (exists j, k <= j /\ ac x j = a) \/ (exists j, k <= j /\ forall j', j <= j' -> ~ enabled a (st x j')).
