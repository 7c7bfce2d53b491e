(** What may be observed of the goroutines of the server. *)
From Verif Require Import Model.Base Model.Server.

Fixpoint works (tr : list event) : nat :=
  match tr with [] => O | Work _ :: r => S (works r) | _ :: r => works r end.
Fixpoint rests (tr : list event) : nat :=
  match tr with [] => O | Rest _ :: r => S (rests r) | _ :: r => rests r end.

(** Outside the part between Acquire and Release. *)
Definition worker_out (w : worker) : Prop := w = WStart \/ w = WDone.
Definition poller_out (p : poller) : Prop :=
  p = PNone \/ p = PGate \/ p = PWait \/ p = PCheck \/ p = PAcquire \/ p = PDone.

(** The events before step [m]. *)
Definition before (x : execution) (m : nat) : list event := flat_map (ev x) (seq 0 m).
(** Only a request or a signal from outside can change anything any more. *)
Definition at_rest (s : server) : Prop := forall a, a <> Env -> ~ enabled a s.
