(** The life of houndd: cmds/houndd/main.go:127-188 with web/web.go:54-85. The goroutines are main,
    the listener (web.go:63-65), the handler of SIGTERM (main.go:60-74), the workers of
    makeSearchers and the update loops. A piece of work on a repository (a clone, a pull, an index
    build) is a beginning and an end; what it does is in other models (C28 to C31), as is the
    way the handler stops the loops (C60) and what is answered (C46, C71). [None] for [over]: the
    process runs. Not modelled: the flags, logging, the webpack server of dev mode. *)
From Verif Require Import Model.Base.

(** main.go: before 145, 150, 154, in 155, before 165, before 187, in web.go at 84 *)
Inductive place := Loading | Starting | Registering | Making | Handling | Serving | Waiting.
(** web.go:64: before ListenAndServe has the port, afterwards, and with its error in hand *)
Inductive listener := LOff | LTrying | LUp | LFailed (e : str) | LTaken.
Inductive handler := HOff | HIdle | HStopping.

(** How the process ends: by the signal as nobody asked for it; by a panic; by os.Exit(0). *)
Inductive ending := Killed | Panicked (e : str) | Exited.

Record life := mkLife {
  main : place; lis : listener; hand : handler;
  registered : bool;        (* signal.Notify has been called *)
  waiting : bool;           (* a signal is in the channel *)
  working : nat;            (* pieces of work begun and not ended *)
  over : option ending }.
Definition born : life := mkLife Loading LOff HOff false false 0 None.

Inductive event :=
  | LoadFailed (e : str) | Loaded
  | ListenFailed (e : str) | Listening
  | Sigterm
  | WorkBegun | WorkEnded
  | MakeFailed (e : str) | Made
  | ContentFailed (e : str) | Ready
  | Ended (how : ending).

Inductive actor := Main | Listener | Handler | Worker | Outside.

Inductive step : actor -> life -> list event -> life -> Prop :=
  (* 145-147: panic(err) *)
  | s_load_failed e l h r w n : step Main (mkLife Loading l h r w n None) [LoadFailed e; Ended (Panicked e)] (mkLife Loading l h r w n (Some (Panicked e)))
  | s_load l h r w n : step Main (mkLife Loading l h r w n None) [Loaded] (mkLife Starting l h r w n None)
  (* 150, web.go:63 *)
  | s_start h r w n : step Main (mkLife Starting LOff h r w n None) [] (mkLife Registering LTrying h r w n None)
  (* web.go:64 *)
  | s_listen m h r w n : step Listener (mkLife m LTrying h r w n None) [Listening] (mkLife m LUp h r w n None)
  | s_listen_failed m h r w n e : step Listener (mkLife m LTrying h r w n None) [ListenFailed e] (mkLife m (LFailed e) h r w n None)
  | s_listen_stopped m h r w n e : step Listener (mkLife m LUp h r w n None) [ListenFailed e] (mkLife m (LFailed e) h r w n None)
  (* 76-80, 154 *)
  | s_register l h r w n : step Main (mkLife Registering l h r w n None) [] (mkLife Making l h true w n None)
  (* SIGTERM: the default ends the process; otherwise it is put into the channel, which has room
     for one *)
  | s_killed m l h w n : step Outside (mkLife m l h false w n None) [Sigterm; Ended Killed] (mkLife m l h false w n (Some Killed))
  | s_signal m l h w n : step Outside (mkLife m l h true w n None) [Sigterm] (mkLife m l h true true n None)
  (* 155, makeSearchers; afterwards the update loops, until they are stopped *)
  | s_work m l h r w n : m <> Loading -> m <> Starting -> m <> Registering -> h <> HStopping ->
      step Worker (mkLife m l h r w n None) [WorkBegun] (mkLife m l h r w (S n) None)
  | s_worked m l h r w n : step Worker (mkLife m l h r w (S n) None) [WorkEnded] (mkLife m l h r w n None)
  (* 156-158: log.Panic(err); before the workers are started (main.go:36-40, searcher.go:289-292) or
     after all have ended (317-319) *)
  | s_make_failed l h r w e : step Main (mkLife Making l h r w 0 None) [MakeFailed e; Ended (Panicked e)] (mkLife Making l h r w 0 (Some (Panicked e)))
  (* all results are there (searcher.go:307-315); the update loops are started (322-324) *)
  | s_made l h r w : step Main (mkLife Making l h r w 0 None) [Made] (mkLife Handling l h r w 0 None)
  (* 165 *)
  | s_handle l h r w n : step Main (mkLife Handling l h r w n None) [] (mkLife Serving l HIdle r w n None)
  (* 187, web.go:73-76 *)
  | s_content_failed l h r w n e : step Main (mkLife Serving l h r w n None) [ContentFailed e; Ended (Panicked e)] (mkLife Serving l h r w n (Some (Panicked e)))
  (* web.go:78-82 *)
  | s_ready l h r w n : step Main (mkLife Serving l h r w n None) [Ready] (mkLife Waiting l h r w n None)
  (* web.go:84, 64, main.go:187: panic(<-s.ch) *)
  | s_failed h r w n e : step Main (mkLife Waiting (LFailed e) h r w n None) [Ended (Panicked e)] (mkLife Waiting LTaken h r w n (Some (Panicked e)))
  (* 62-72 *)
  | s_take m l r n : step Handler (mkLife m l HIdle r true n None) [] (mkLife m l HStopping r false n None)
  | s_exit m l r w : step Handler (mkLife m l HStopping r w 0 None) [Ended Exited] (mkLife m l HStopping r w 0 (Some Exited)).

Inductive lives : list event -> life -> Prop :=
  | lives_born : lives [] born
  | lives_step a tr s es s' : lives tr s -> step a s es s' -> lives (tr ++ es) s'.

(** Infinite runs: as long as the process runs somebody moves; afterwards nothing happens. *)
Record run := mkRun { st : nat -> life; who : nat -> actor; evs : nat -> list event }.
Definition is_run (x : run) : Prop :=
  st x 0 = born /\ forall k, step (who x k) (st x k) (evs x k) (st x (S k)) \/
    (over (st x k) <> None /\ evs x k = [] /\ st x (S k) = st x k).
Definition can (a : actor) (s : life) : Prop := exists es s', step a s es s'.
(** main and the handler are not held up for ever. *)
Definition fair (x : run) : Prop := forall a, a = Main \/ a = Handler -> forall k,
  (exists j, k <= j /\ who x j = a /\ over (st x j) = None) \/ (exists j, k <= j /\ ~ can a (st x j)).
