(** C96: searches and updates of a repository do not block each other for good. *)
From Verif Require Import Model.Base Model.Locks Proofs.LockProofs Proofs.LockExamples.
From Coq Require Import Lia.

(** Every search that has been called returns, however many others there are and whatever the
    update loop is doing. *)
Theorem C96_search_returns : forall x, is_execution x -> fair x -> forall t m, In (Call t) (ev x m) -> exists j, m < j /\ In (Return t) (ev x j).
Proof. exact call_returns. Qed.
Print Assumptions C96_search_returns.

(** Every update that has begun ends, even if searches keep coming. *)
Theorem C96_update_ends : forall x, is_execution x -> fair x -> forall m, In Begun (ev x m) -> exists j, m < j /\ In Ended (ev x j).
Proof. exact update_ends. Qed.
Print Assumptions C96_update_ends.

(** An execution with waiting on both locks, on both sides, and an update that fails half-way. *)
Example C96_example : is_execution waiting /\ fair waiting /\
  In (Call 1) (ev waiting 7) /\ search (st waiting 9) 1 = SQueue 0 /\ search (st waiting 22) 1 = SQueued 1 0 /\ In (Return 1) (ev waiting 32) /\
  In Begun (ev waiting 2) /\ up (st waiting 7) = UWantS 1 /\ up (st waiting 13) = UWantS 1 /\ In Ended (ev waiting 26).
Proof.
  split; [exact waiting_runs|]. split; [exact waiting_fair|].
  repeat (split; [first [reflexivity|left; reflexivity]|]). left. reflexivity.
Qed.
