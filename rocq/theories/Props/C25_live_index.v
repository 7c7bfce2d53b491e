(** C25: a search never touches a destroyed index. [Touch t i good] is an access of search
    [t] to index [i]; [good]: the index is mapped and its directory complete.
    [C25_refuted]: when destroying the old index fails, the code destroys the new one, which
    is already live. Without such a failure the claim holds ([C25_open_partial]); and in every
    execution no index changes under a search that is reading it. *)
From Verif Require Import Model.Base Model.Swap Spec.SwapSpec Proofs.SwapProofs Proofs.SwapExamples.

Theorem C25_open_partial : forall r0 tr s, runs (initial r0) tr s ->
  forall t1 t i good t2, tr = t1 ++ Touch t i good :: t2 -> no_failed_swap t1 -> good = true.
Proof. exact good_search. Qed.
Print Assumptions C25_open_partial.

Theorem C25_stable_partial : forall r0 tr s, runs (initial r0) tr s ->
  forall t i b j c, In (Touch t i b) tr -> In (Touch t j c) tr -> i = j /\ b = c.
Proof. exact stable_search. Qed.
Print Assumptions C25_stable_partial.

Theorem C25_refuted : exists r0 tr s t i, runs (initial r0) tr s /\ In (Touch t i false) tr.
Proof. destruct bad_search as (tr & s & H). exists [97%N], tr, s, 0, 1. exact H. Qed.
Print Assumptions C25_refuted.

(** The locks never block everybody: while an update or a search is under way, one of them
    can take a step. *)
Theorem C25_no_deadlock : forall r0 tr s, runs (initial r0) tr s -> alive s = true ->
  up s <> UIdle \/ (exists t, search s t <> SNew /\ search s t <> SDone) ->
  exists o s', step s o s' /\ advances s s'.
Proof. exact no_deadlock. Qed.
Print Assumptions C25_no_deadlock.

Example C25_example : exists s, runs (initial [97%N])
  [Call 0; Touch 0 0 true; Touch 0 0 true; Answer 0 0 [97%N]; Call 1; Publish 1 [98%N]; Updated 1;
   Touch 1 1 true; Answer 1 1 [98%N]] s.
Proof. exact good_run. Qed.
