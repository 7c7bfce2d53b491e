(** C26: a search sees one revision only, and never one older than the last published.
    Each search uses one index, the one published last. That all files of an index were read
    at its revision needs distinct Urls ([C26_tree_partial]): repositories with one Url share
    a working copy ([C26_tree_refuted]). *)
From Verif Require Import Model.Base Model.Swap Spec.SwapSpec Proofs.SwapProofs Proofs.SwapNew Proofs.SwapExamples.
From Verif Require Model.Shared Proofs.SharedProofs.

Theorem C26_one_index : forall r0 tr s, runs (initial r0) tr s ->
  forall t i b j r, In (Touch t i b) tr -> In (Answer t j r) tr -> i = j.
Proof. exact one_index. Qed.
Print Assumptions C26_one_index.

(** The answer carries the revision published last before it. *)
Theorem C26_latest : forall r0 tr s, runs (initial r0) tr s ->
  forall t1 t i r t2, tr = t1 ++ Answer t i r :: t2 ->
  published r0 t1 i r /\ In (Call t) t1 /\ (forall j q, ~ In (Answer t j q) t1).
Proof. exact latest. Qed.
Print Assumptions C26_latest.

(** So an answer after index i was published comes from it or from one published later. *)
Theorem C26_not_stale : forall r0 tr s, runs (initial r0) tr s ->
  forall t1 i r t2 t j q t3, tr = t1 ++ Publish i r :: t2 ++ Answer t j q :: t3 ->
  (j = i /\ q = r) \/ In (Publish j q) t2.
Proof. exact not_stale. Qed.
Print Assumptions C26_not_stale.

(** While no swap fails, an index is replaced only by one of another revision. *)
Theorem C26_only_new : forall r0 tr s, runs (initial r0) tr s -> no_failed_swap tr ->
  forall t1 i r t2 j q, tr = t1 ++ Publish i r :: t2 -> published r0 t1 j q -> q <> r.
Proof. intros r0 tr s R NF t1 i r t2 j q E P. exact (only_new r0 tr s R t1 i r t2 j q E NF P). Qed.
Print Assumptions C26_only_new.

(** Search 1 is called before index 1 is published and answered from it. *)
Example C26_example : exists s, runs (initial [97%N])
  [Call 0; Touch 0 0 true; Touch 0 0 true; Answer 0 0 [97%N]; Call 1; Publish 1 [98%N]; Updated 1;
   Touch 1 1 true; Answer 1 1 [98%N]] s.
Proof. exact good_run. Qed.

(** [seen] lists the revisions at which the files of the index were read. *)
Theorem C26_tree_partial : forall url : nat -> str, (forall j k, url j = url k -> j = k) ->
  forall tr s, Shared.runs url tr s ->
  forall k r seen, In (Shared.Built k r seen) tr -> Forall (eq r) seen.
Proof. intros url INJ tr s R. apply (SharedProofs.one_tree url INJ tr s R). Qed.
Print Assumptions C26_tree_partial.

Theorem C26_tree_refuted : exists url tr s k r seen, Shared.runs url tr s /\ In (Shared.Built k r seen) tr /\ ~ Forall (eq r) seen.
Proof.
  destruct SharedProofs.mixed as (s & R). eexists. eexists. exists s. eexists. eexists. eexists.
  split; [exact R|]. split; [left; reflexivity|]. intros F. apply Forall_inv_tail, Forall_inv in F. discriminate.
Qed.
Print Assumptions C26_tree_refuted.

Example C26_tree_example : exists s, Shared.runs (fun k => [N.of_nat k]) [Shared.Built 0 [97%N] [[97%N]; [97%N]]] s.
Proof. exact SharedProofs.unmixed. Qed.
