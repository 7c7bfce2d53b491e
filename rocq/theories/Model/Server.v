(** searcher.go: the goroutines of the server. MakeAll (285-327) starts one worker per
    configured repository (newSearcherConcurrent, 506-530); every searcher has one update loop
    (457-498, 343-391); requests call Update (149-162), the shutdown handler calls Stop
    (165-171). One step is one channel or shared-memory operation; what pulls and builds do is
    a choice of outcomes here.

    The [n] repositories are numbered. Channels with a buffer of one are a boolean, the
    limiter (59-69) is a count. Goroutines of MakeAll's loop exist from the start (they may
    wait as long as they like). Memory is sequentially consistent. Logging, garbage collection
    and memory reports are left out. *)
From Coq Require Import Permutation.
From Verif Require Import Model.Base.

(** [poll], [push]: PollUpdatesEnabled and PushUpdatesEnabled. [timed]: polling is enabled and
    the delay is positive (470, 186). *)
Record settings := mkSettings { poll : bool; push : bool; timed : bool }.

Inductive worker :=
  | WStart                 (* about to lim.Acquire *)
  | WHeld                  (* slot held, newSearcher not begun *)
  | WBusy                  (* in newSearcher *)
  | WSend (ok : bool)      (* newSearcher has returned *)
  | WSent                  (* result sent; about to lim.Release *)
  | WDone.
Inductive poller :=
  | PNone                  (* not started *)
  | PGate                  (* <-s.updateCh, 460 *)
  | PWait                  (* in waitForUpdate *)
  | PCheck                 (* about to read shutdownRequested *)
  | PAcquire               (* in updateAndReindex, about to lim.Acquire *)
  | PHeld                  (* slot held *)
  | PPull | PBuild | PSwap
  | PRelease               (* the deferred lim.Release *)
  | PDone.                 (* doneCh closed *)

Record repo := mkRepo {
  conf : settings; wk : worker; pl : poller;
  updateCh : bool; shutdownCh : bool; flag : bool (* shutdownRequested *);
  stopping : nat (* calls of Stop between the send and the write of the flag *) }.

Inductive main :=
  | MCollect                       (* 306-315 *)
  | MClean                         (* 317 *)
  | MBegin (todo : list nat)       (* 322-324 *)
  | MServe | MFailed.

Record server := mkServer {
  n : nat; cap : nat; slots : nat; results : list (nat * bool);
  searchers : list nat; errs : list nat; at_main : main; repos : nat -> repo }.

Inductive event :=
  | Work (i : nat)                 (* a pull begins, at startup or in an update *)
  | Rest (i : nat)                 (* pulling and indexing are over *)
  | Attempt (i : nat)              (* the pull of an update begins; comes with Work *)
  | Made (i : nat) (ok : bool)     (* newSearcher has returned *)
  | Began (i : nat) | Started (i : nat)   (* begin has sent; the loop has passed the gate *)
  | TookUpdate (i : nat) | TookStop (i : nat)
  | Ack (i : nat)                  (* Update has returned true *)
  | StopSent (i : nat) | StopWritten (i : nat) | StopIgnored (i : nat)
  | Done (i : nat)
  | Return (searchers errs : list nat) | Fail.   (* MakeAll's results *)

Inductive actor := Worker (i : nat) | Main | Poller (i : nat) | Stopper (i : nat) | Env.

(** Updates of one repository. *)
Definition set_repo (f : nat -> repo) i r := fun j => if Nat.eqb j i then r else f j.
Definition with_repo s i r :=
  mkServer (n s) (cap s) (slots s) (results s) (searchers s) (errs s) (at_main s) (set_repo (repos s) i r).
Definition with_slots s k i r :=
  mkServer (n s) (cap s) k (results s) (searchers s) (errs s) (at_main s) (set_repo (repos s) i r).
Definition set_wk r w := mkRepo (conf r) w (pl r) (updateCh r) (shutdownCh r) (flag r) (stopping r).
Definition set_pl r p := mkRepo (conf r) (wk r) p (updateCh r) (shutdownCh r) (flag r) (stopping r).
Definition set_made r (ok : bool) :=
  mkRepo (conf r) (WSend ok) (if ok then PGate else PNone) false false false 0.
Definition take_update r p := mkRepo (conf r) (wk r) p false (shutdownCh r) (flag r) (stopping r).
Definition take_stop r p := mkRepo (conf r) (wk r) p (updateCh r) false (flag r) (stopping r).
Definition put_update r := mkRepo (conf r) (wk r) (pl r) true (shutdownCh r) (flag r) (stopping r).
Definition put_stop r := mkRepo (conf r) (wk r) (pl r) (updateCh r) true (flag r) (S (stopping r)).
Definition put_flag r := mkRepo (conf r) (wk r) (pl r) (updateCh r) (shutdownCh r) true (pred (stopping r)).

Inductive step : actor -> server -> list event -> server -> Prop :=
  (* 514 *)
  | st_wacquire s i : i < n s -> wk (repos s i) = WStart -> slots s < cap s ->
      step (Worker i) s [] (with_slots s (S (slots s)) i (set_wk (repos s i) WHeld))
  (* 517, 411 *)
  | st_wwork s i : i < n s -> wk (repos s i) = WHeld ->
      step (Worker i) s [Work i] (with_repo s i (set_wk (repos s i) WBusy))
  (* 411-500: on success the channels are made and the loop is started, held at its gate *)
  | st_wmade s i ok : i < n s -> wk (repos s i) = WBusy ->
      step (Worker i) s [Rest i; Made i ok] (with_repo s i (set_made (repos s i) ok))
  (* 519-529; the channel has room for n results *)
  | st_wsend s i ok : i < n s -> wk (repos s i) = WSend ok -> length (results s) < n s ->
      step (Worker i) s []
        (mkServer (n s) (cap s) (slots s) (results s ++ [(i, ok)]) (searchers s) (errs s) (at_main s)
           (set_repo (repos s) i (set_wk (repos s i) WSent)))
  (* 515 *)
  | st_wrelease s i : i < n s -> wk (repos s i) = WSent ->
      step (Worker i) s [] (with_slots s (pred (slots s)) i (set_wk (repos s i) WDone))
  (* 307-315 *)
  | st_collect s i ok rest : at_main s = MCollect -> length (searchers s) + length (errs s) < n s ->
      results s = (i, ok) :: rest ->
      step Main s []
        (mkServer (n s) (cap s) (slots s) rest (if ok then searchers s ++ [i] else searchers s)
           (if ok then errs s else errs s ++ [i]) (at_main s) (repos s))
  | st_collected s : at_main s = MCollect -> length (searchers s) + length (errs s) = n s ->
      step Main s []
        (mkServer (n s) (cap s) (slots s) (results s) (searchers s) (errs s) MClean (repos s))
  (* 317-319 *)
  | st_cleanfail s : at_main s = MClean ->
      step Main s [Fail]
        (mkServer (n s) (cap s) (slots s) (results s) (searchers s) (errs s) MFailed (repos s))
  (* the order of a map's keys is any order *)
  | st_clean s todo : at_main s = MClean -> Permutation todo (searchers s) ->
      step Main s []
        (mkServer (n s) (cap s) (slots s) (results s) (searchers s) (errs s) (MBegin todo) (repos s))
  (* 322-324, 199-201: blocks while an update is pending *)
  | st_begin s i todo : at_main s = MBegin (i :: todo) -> updateCh (repos s i) = false ->
      step Main s [Began i]
        (mkServer (n s) (cap s) (slots s) (results s) (searchers s) (errs s) (MBegin todo)
           (set_repo (repos s) i (put_update (repos s i))))
  | st_return s : at_main s = MBegin [] ->
      step Main s [Return (searchers s) (errs s)]
        (mkServer (n s) (cap s) (slots s) (results s) (searchers s) (errs s) MServe (repos s))
  (* 460-466 *)
  | st_gate s i : i < n s -> pl (repos s i) = PGate -> updateCh (repos s i) = true ->
      step (Poller i) s
        (if poll (conf (repos s i)) || push (conf (repos s i)) then [Started i] else [Started i; Done i])
        (with_repo s i (take_update (repos s i)
           (if poll (conf (repos s i)) || push (conf (repos s i)) then PWait else PDone)))
  (* 191-195 *)
  | st_update s i : i < n s -> pl (repos s i) = PWait -> updateCh (repos s i) = true ->
      step (Poller i) s [TookUpdate i] (with_repo s i (take_update (repos s i) PCheck))
  | st_timer s i : i < n s -> pl (repos s i) = PWait -> timed (conf (repos s i)) = true ->
      step (Poller i) s [] (with_repo s i (set_pl (repos s i) PCheck))
  | st_stop s i : i < n s -> pl (repos s i) = PWait -> shutdownCh (repos s i) = true ->
      step (Poller i) s [TookStop i] (with_repo s i (take_stop (repos s i) PCheck))
  (* 477-480 *)
  | st_quit s i : i < n s -> pl (repos s i) = PCheck -> flag (repos s i) = true ->
      step (Poller i) s [Done i] (with_repo s i (set_pl (repos s i) PDone))
  | st_go s i : i < n s -> pl (repos s i) = PCheck -> flag (repos s i) = false ->
      step (Poller i) s [] (with_repo s i (set_pl (repos s i) PAcquire))
  (* 354 *)
  | st_acquire s i : i < n s -> pl (repos s i) = PAcquire -> slots s < cap s ->
      step (Poller i) s [] (with_slots s (S (slots s)) i (set_pl (repos s i) PHeld))
  (* 358 *)
  | st_work s i : i < n s -> pl (repos s i) = PHeld ->
      step (Poller i) s [Attempt i; Work i] (with_repo s i (set_pl (repos s i) PPull))
  (* 360-367 *)
  | st_pulled_none s i : i < n s -> pl (repos s i) = PPull ->
      step (Poller i) s [Rest i] (with_repo s i (set_pl (repos s i) PRelease))
  | st_pulled s i : i < n s -> pl (repos s i) = PPull ->
      step (Poller i) s [] (with_repo s i (set_pl (repos s i) PBuild))
  (* 370-380 *)
  | st_build_none s i : i < n s -> pl (repos s i) = PBuild ->
      step (Poller i) s [Rest i] (with_repo s i (set_pl (repos s i) PRelease))
  | st_built s i : i < n s -> pl (repos s i) = PBuild ->
      step (Poller i) s [] (with_repo s i (set_pl (repos s i) PSwap))
  (* 382-390 *)
  | st_swapped s i : i < n s -> pl (repos s i) = PSwap ->
      step (Poller i) s [Rest i] (with_repo s i (set_pl (repos s i) PRelease))
  (* 355, then round the loop *)
  | st_release s i : i < n s -> pl (repos s i) = PRelease ->
      step (Poller i) s [] (with_slots s (pred (slots s)) i (set_pl (repos s i) PWait))
  (* 155-161: nobody knows the searchers before MakeAll has returned them *)
  | st_ack s i : at_main s = MServe -> In i (searchers s) -> push (conf (repos s i)) = true ->
      updateCh (repos s i) = false ->
      step Env s [Ack i] (with_repo s i (put_update (repos s i)))
  | st_ack_full s i : at_main s = MServe -> In i (searchers s) -> push (conf (repos s i)) = true ->
      updateCh (repos s i) = true -> step Env s [Ack i] s
  (* 166-170 *)
  | st_stopsend s i : at_main s = MServe -> In i (searchers s) -> shutdownCh (repos s i) = false ->
      step Env s [StopSent i] (with_repo s i (put_stop (repos s i)))
  | st_stopwrite s i k : i < n s -> stopping (repos s i) = S k ->
      step (Stopper i) s [StopWritten i] (with_repo s i (put_flag (repos s i)))
  | st_stopfull s i : at_main s = MServe -> In i (searchers s) -> shutdownCh (repos s i) = true ->
      step Env s [StopIgnored i] s
  | st_idle s : step Env s [] s.

(** [confs] are the repositories' settings, [c] is max-concurrent-indexers. *)
Definition initial (k c : nat) (confs : nat -> settings) : server :=
  mkServer k c 0 [] [] [] MCollect (fun i => mkRepo (confs i) WStart PNone false false false 0).

Inductive runs : server -> list event -> server -> Prop :=
  | runs_nil s : runs s [] s
  | runs_step s tr s1 a es s2 : runs s tr s1 -> step a s1 es s2 -> runs s (tr ++ es) s2.

(** Infinite executions. Every goroutine that is not blocked for good gets its turn (the
    scheduler of Go, and the queues of its channels, give at least this). *)
Record execution := mkExecution { st : nat -> server; ac : nat -> actor; ev : nat -> list event }.
Definition enabled (a : actor) (s : server) : Prop := exists es s', step a s es s'.
Definition is_execution (x : execution) (s0 : server) : Prop :=
  st x 0 = s0 /\ forall k, step (ac x k) (st x k) (ev x k) (st x (S k)).
Definition fair (x : execution) : Prop := forall a, a <> Env -> forall k,
  (exists j, k <= j /\ ac x j = a) \/ (exists j, k <= j /\ forall j', j <= j' -> ~ enabled a (st x j')).
