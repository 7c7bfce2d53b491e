(** C01 for the queries in memory (C61): every text an expression matches passes the
    query that the process holds for it, after any number of further patterns. *)
From Verif Require Import Model.Base Model.Syntax Model.Query Model.Analyze Model.QueryHeap Model.AnalyzeHeap
  Spec.QueryHeapSpec Spec.QueriesSpec Spec.QuerySpec Spec.RegexSpec Proofs.AnalyzeTop Proofs.QueriesProofs.
Local Open Scope N_scope.

(** The second condition is that of C01, and so is what is missing. *)
Theorem C01_in_memory_partial : forall grow fold orbit_max res,
  Forall (fun re => wf_re fold orbit_max re /\ st_shared (fst (regexp_query grow fold orbit_max re)) = false) res ->
  exists h ps, ends_with (fun fuel => queries_run grow fold orbit_max fuel res heap0) (h, ps) /\
    Forall2 (fun p re => forall pre w post, rmatch fold re pre w post -> hsat h (trigram_in (pre ++ w ++ post)) p) ps res.
Proof. exact queries_pass. Qed.
Print Assumptions C01_in_memory_partial.

Definition abc : str := [97; 98; 99].
Definition xyz : str := [120; 121; 122].
Definition uvw : str := [117; 118; 119].
Definition rst : str := [114; 115; 116].
Definition no_fold (c : N) : N := c.
Example patterns_case : Forall (fun re => wf_re no_fold 4 re /\ st_shared (fst (regexp_query go_grow no_fold 4 re)) = false)
  [RAlternate [RConcat [RLiteral false abc; RStar RAny; RLiteral false xyz]; RLiteral false uvw]; RLiteral false rst].
Proof. repeat constructor; vm_compute; repeat split; auto. Qed.
