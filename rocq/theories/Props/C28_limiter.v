(** C28: concurrent indexing is bounded. *)
From Verif Require Import Model.Base Model.Server Spec.ServerSpec Proofs.ServerProofs Proofs.ServerCounts Proofs.ServerLive Proofs.ServerExamples.
From Coq Require Import Lia.

(** In every run (so at every moment of it), with any number [k] of repositories and any
    outcomes, no more than [c] pulls have begun whose pulling and indexing are not over. *)
Theorem C28_bounded : forall k c confs tr s, runs (initial k c confs) tr s -> rests tr <= works tr /\ works tr <= rests tr + c.
Proof. exact bounded_work. Qed.

(** When no goroutine is between Acquire and Release, no slot is taken, whatever has failed. *)
Theorem C28_no_leak : forall k c confs tr s, runs (initial k c confs) tr s ->
  (forall i, i < k -> worker_out (wk (repos s i)) /\ poller_out (pl (repos s i))) -> slots s = 0.
Proof. exact no_leak. Qed.

(** Whoever waits for a slot gets one. *)
Theorem C28_turn : forall k c confs x, 1 <= c -> is_execution x (initial k c confs) -> fair x ->
  forall i m, i < k ->
  (wk (repos (st x m) i) = WStart -> exists j, m <= j /\ wk (repos (st x (S j)) i) = WHeld) /\
  (pl (repos (st x m) i) = PAcquire -> exists j, m <= j /\ pl (repos (st x (S j)) i) = PHeld).
Proof.
  intros k c confs x C EX FA i m L. split; intros E.
  - exact (worker_turn k c confs x C EX FA i m L E).
  - exact (poller_turn k c confs x C EX FA i m L E).
Qed.

(** Two repositories and one slot: the bound is reached, and the server gets on. *)
Example C28_case : (exists s, runs (initial 2 1 (fun _ => push_only)) [Work 1] s) /\
  (exists s, runs (initial 2 1 (fun _ => push_only)) [Work 1; Rest 1; Made 1 false; Work 0] s) /\
  exists x, is_execution x (initial 2 1 (fun _ => push_only)) /\ fair x.
Proof.
  split; [|split].
  - exact (scripted_runs _ _ 2 mixed_run).
  - exact (scripted_runs _ _ 8 mixed_run).
  - destruct mixed_run as (x & A & B & _). exists x. auto.
Qed.

Print Assumptions C28_bounded.
Print Assumptions C28_no_leak.
Print Assumptions C28_turn.
