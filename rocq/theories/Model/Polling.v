(** searcher.go:462-473, 184-188: what the update loop makes of the settings of its repository.
    A time.Duration is an int64 of nanoseconds, whose arithmetic wraps; an int has 64 bits. *)
From Verif Require Import Model.Base Model.Config Model.Server.
Local Open Scope Z_scope.

Definition wrap64 (z : Z) : Z := (z + 2 ^ 63) mod 2 ^ 64 - 2 ^ 63.
(** 468-471: time.Duration(repo.MsBetweenPolls) * time.Millisecond *)
Definition delay (r : Config.repo) : Z := if PollUpdatesEnabled r then wrap64 (r_ms r * 1000000) else 0.
(** 463, 155; 186: without a positive delay there is no timer. *)
Definition settings_of (r : Config.repo) : settings := mkSettings (PollUpdatesEnabled r) (PushUpdatesEnabled r) (0 <? delay r).
