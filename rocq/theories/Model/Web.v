(** web/web.go: the server before and after the indexes are ready. Any number of requests
    run concurrently with the calls of serveWith; one step is one shared-memory or lock
    operation. The answers of the mux itself are abstract ([Served]). sync.RWMutex: readers
    exclude the writer; its preference for a waiting writer is left out (more schedules). *)
From Verif Require Import Model.Base.

Inductive response := Healthy (* 200 *) | Unavailable (* 503 *) | Served.

(** What can be observed from outside. [Ready]: serveWith has returned. *)
Inductive event :=
  | Begin (id : nat) (path : str)
  | Answer (id : nat) (path : str) (r : response)
  | Ready.

(** web.go:26-41. *)
Inductive phase :=
  | Fresh                                  (* not begun *)
  | Begun (path : str)
  | Waiting (path : str)                   (* not the health check: about to RLock *)
  | Locked (path : str)                    (* holds the read lock *)
  | Chosen (path : str) (r : response)     (* has read s.mux, holds the read lock *)
  | Replied                                (* has answered, holds the read lock *)
  | Finished.
Definition reading (p : phase) : Prop :=
  match p with Locked _ | Chosen _ _ | Replied => True | _ => False end.

(** web.go:43-47: serveWith *)
Inductive writer := Off | Exclusive | Written.

Record server := mkServer { health : str; mux : bool; who : nat -> phase; wr : writer }.
Definition upd (f : nat -> phase) id p := fun i => if Nat.eqb i id then p else f i.
Definition set_who s id p := mkServer (health s) (mux s) (upd (who s) id p) (wr s).

Definition initial (h : str) : server := mkServer h false (fun _ => Fresh) Off.

Inductive step : server -> option event -> server -> Prop :=
  | st_begin s id path : who s id = Fresh ->
      step s (Some (Begin id path)) (set_who s id (Begun path))
  (* web.go:27-30 *)
  | st_health s id path : who s id = Begun path -> path = health s ->
      step s (Some (Answer id path Healthy)) (set_who s id Finished)
  | st_other s id path : who s id = Begun path -> path <> health s ->
      step s None (set_who s id (Waiting path))
  (* web.go:32 *)
  | st_rlock s id path : who s id = Waiting path -> wr s = Off ->
      step s None (set_who s id (Locked path))
  (* web.go:34 *)
  | st_read s id path : who s id = Locked path ->
      step s None (set_who s id (Chosen path (if mux s then Served else Unavailable)))
  (* web.go:35-40 *)
  | st_answer s id path r : who s id = Chosen path r ->
      step s (Some (Answer id path r)) (set_who s id Replied)
  (* web.go:33 *)
  | st_runlock s id : who s id = Replied -> step s None (set_who s id Finished)
  (* web.go:44-46: Lock, s.mux = m (never nil), Unlock *)
  | st_lock s : wr s = Off -> (forall id, ~ reading (who s id)) ->
      step s None (mkServer (health s) (mux s) (who s) Exclusive)
  | st_write s : wr s = Exclusive ->
      step s None (mkServer (health s) true (who s) Written)
  | st_unlock s : wr s = Written ->
      step s (Some Ready) (mkServer (health s) (mux s) (who s) Off).

(** The observations so far, in order. *)
Inductive reach (h : str) : list event -> server -> Prop :=
  | reach_init : reach h [] (initial h)
  | reach_silent tr s s' : reach h tr s -> step s None s' -> reach h tr s'
  | reach_event tr s e s' : reach h tr s -> step s (Some e) s' -> reach h (tr ++ [e]) s'.
