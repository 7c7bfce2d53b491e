(** C29: every configured repository ends up either searchable or in the error map. *)
From Verif Require Import Model.Base Model.Server Spec.ServerSpec Proofs.ServerProofs Proofs.ServerStart Proofs.ServerExamples.

(** When MakeAll returns, its two maps together hold every repository exactly once; a searcher
    for those whose newSearcher succeeded, an error for those for which it failed. *)
Theorem C29_reports : forall k c confs tr s ss es, runs (initial k c confs) tr s -> In (Return ss es) tr ->
  NoDup (ss ++ es) /\ (forall i, In i (ss ++ es) <-> i < k) /\
  (forall i, In i ss <-> In (Made i true) tr) /\ (forall i, In i es <-> In (Made i false) tr).
Proof. exact reports. Qed.

(** MakeAll does return, or fails as a whole when the index directories cannot be cleaned. *)
Theorem C29_ends : forall k c confs x, 1 <= c -> is_execution x (initial k c confs) -> fair x ->
  exists m, at_main (st x m) = MServe \/ at_main (st x m) = MFailed.
Proof. exact startup_ends. Qed.

Example C29_case : (exists tr s, runs (initial 2 1 (fun _ => push_only)) tr s /\ In (Return [0] [1]) tr) /\
  exists x, is_execution x (initial 2 1 (fun _ => push_only)) /\ fair x.
Proof.
  split.
  - destruct (scripted_runs _ _ 17 mixed_run) as (s & R). eexists. exists s. split; [exact R|]. cbn. tauto.
  - destruct mixed_run as (x & A & B & _). exists x. auto.
Qed.

Print Assumptions C29_reports.
Print Assumptions C29_ends.
