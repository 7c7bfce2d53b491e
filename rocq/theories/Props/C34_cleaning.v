(** C34: startup garbage collection removes exactly the unused index directories. *)
From Verif Require Import Model.Base Model.Startup Spec.StartupSpec Proofs.StartupProofs Proofs.StartupResults Proofs.StartupExamples.

(** When MakeAll returns, a directory found at the start is there exactly if it was reused. A
    pull never gives an empty revision of an empty Url. *)
Theorem C34_exact : forall W tr s es s' t1 cfg f t2, runs W tr s -> step W s es s' -> In Ready es ->
  tr = t1 ++ Start cfg f :: t2 -> (forall e, In e t2 -> is_start e = false) -> (forall i, ~ In (Pulled i [] []) t2) ->
  forall d x, f d = Some x -> (disk s' d <> None <-> exists i, In (Reused i d) t2).
Proof. exact cleaned. Qed.

(** Until then no step touches the directory of a live index. *)
Theorem C34_in_use : forall W tr s p es s' i d, runs W tr s -> proc s = Some p -> at_phase p <> Serving -> live_dir s i d ->
  step W s es s' -> disk s' d = disk s d /\ disk s d <> None.
Proof. exact in_use_kept. Qed.

(** Two directories, one of a repository that is configured no longer. *)
Example C34_case : exists t1 cfg f t2 s s' x y, runs W0 (t1 ++ Start cfg f :: t2) s /\ step W0 s [Ready] s' /\
  (forall e, In e t2 -> is_start e = false) /\ (forall i, ~ In (Pulled i [] []) t2) /\
  f 0 = Some x /\ f 1 = Some y /\ In (Reused 0 1) t2 /\ (forall i, ~ In (Reused i 0) t2) /\ live_dir s 0 1.
Proof. exact dropped_run. Qed.

Print Assumptions C34_exact.
Print Assumptions C34_in_use.
