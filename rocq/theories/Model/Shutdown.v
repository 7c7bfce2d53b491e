(** cmds/houndd/main.go:60-81 and 146-160: the handler of SIGTERM, put beside the goroutines of
    Model/Server.v. The signal is registered before MakeAll is called and taken from its channel
    (a buffer of one) by a goroutine started afterwards, which calls Stop and then Wait
    (searcher.go:164-175) for each searcher. Nobody else calls Stop. A signal that comes before
    the registration, and the ends of the process in web.go, are left out. os.Exit is the event
    [Exit]; steps after it are not excluded here, but mean nothing. *)
From Coq Require Import Permutation.
From Verif Require Import Model.Base Model.Server.

Inductive handler :=
  | HOff                            (* handleShutdown not yet called *)
  | HIdle                           (* <-shutdownCh, 62 *)
  | HStop (todo : list nat)         (* 64-66 *)
  | HWrite (i : nat) (todo : list nat)   (* in Stop, between the send and the write of the flag *)
  | HJoin (todo : list nat)         (* 68-70 *)
  | HExit.

Record process := mkProcess { srv : server; hd : handler; sig : bool }.

Inductive pevent :=
  | Srv (e : event)
  | Signal                          (* SIGTERM arrives *)
  | Begun                           (* the handler has taken it *)
  | Joined (i : nat)                (* Wait has returned *)
  | Exit.                           (* os.Exit(0), 72 *)
Inductive pactor := Actor (a : actor) | Handler | Outside.

(** Not a step of Stop. *)
Definition quiet (es : list event) : Prop :=
  forall i, ~ In (StopSent i) es /\ ~ In (StopWritten i) es /\ ~ In (StopIgnored i) es.

Inductive pstep : pactor -> process -> list pevent -> process -> Prop :=
  | ps_server a s es s' h g : step a s es s' -> quiet es ->
      pstep (Actor a) (mkProcess s h g) (map Srv es) (mkProcess s' h g)
  (* a second signal is dropped while the first one waits *)
  | ps_signal s h g : pstep Outside (mkProcess s h g) [Signal] (mkProcess s h true)
  (* 160 *)
  | ps_start s g : at_main s = MServe -> pstep Handler (mkProcess s HOff g) [] (mkProcess s HIdle g)
  (* 62; the order of a map's keys is any order *)
  | ps_take s todo : Permutation todo (searchers s) ->
      pstep Handler (mkProcess s HIdle true) [Begun] (mkProcess s (HStop todo) false)
  (* searcher.go:166-170 *)
  | ps_send s s' i todo g : step Env s [StopSent i] s' ->
      pstep Handler (mkProcess s (HStop (i :: todo)) g) [Srv (StopSent i)] (mkProcess s' (HWrite i todo) g)
  | ps_full s s' i todo g : step Env s [StopIgnored i] s' ->
      pstep Handler (mkProcess s (HStop (i :: todo)) g) [Srv (StopIgnored i)] (mkProcess s' (HStop todo) g)
  | ps_write s s' i todo g : step (Stopper i) s [StopWritten i] s' ->
      pstep Handler (mkProcess s (HWrite i todo) g) [Srv (StopWritten i)] (mkProcess s' (HStop todo) g)
  | ps_stopped s todo g : Permutation todo (searchers s) ->
      pstep Handler (mkProcess s (HStop []) g) [] (mkProcess s (HJoin todo) g)
  (* searcher.go:174: the channel is closed *)
  | ps_join s i todo g : pl (repos s i) = PDone ->
      pstep Handler (mkProcess s (HJoin (i :: todo)) g) [Joined i] (mkProcess s (HJoin todo) g)
  | ps_exit s g : pstep Handler (mkProcess s (HJoin []) g) [Exit] (mkProcess s HExit g).

Definition started (k c : nat) (confs : nat -> settings) : process := mkProcess (initial k c confs) HOff false.

Inductive pruns : process -> list pevent -> process -> Prop :=
  | pruns_nil p : pruns p [] p
  | pruns_step p tr p1 a es p2 : pruns p tr p1 -> pstep a p1 es p2 -> pruns p (tr ++ es) p2.

Record pexecution := mkPExecution { pst : nat -> process; pac : nat -> pactor; pev : nat -> list pevent }.
Definition penabled (a : pactor) (p : process) : Prop := exists es p', pstep a p es p'.
Definition is_pexecution (x : pexecution) (p0 : process) : Prop :=
  pst x 0 = p0 /\ forall k, pstep (pac x k) (pst x k) (pev x k) (pst x (S k)).
(** Nothing is asked of requests and signals. *)
Definition pfair (x : pexecution) : Prop := forall a, a <> Actor Env -> a <> Outside -> forall k,
  (exists j, k <= j /\ pac x j = a) \/ (exists j, k <= j /\ forall j', j <= j' -> ~ penabled a (pst x j')).
