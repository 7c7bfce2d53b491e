(** C51: the index in use reflects the configured options. Holds for indexes built by the
    running process; one found on disk may have been built under other options. *)
From Verif Require Import Model.Base Model.Startup Spec.StartupSpec Proofs.StartupProofs Proofs.StartupResults Proofs.StartupExamples.

(** What becomes live after a build has the configured options. *)
Theorem C51_partial : forall W tr s es s' i d, runs W tr s -> step W s es s' -> In (Live i d) es ->
  exists p u o r x, proc s = Some p /\ nth_error (config p) i = Some (u, o) /\ disk s' d = Some x /\ complete W u r o x.
Proof. exact live_good. Qed.
(** What is found on disk has options once configured for this Url. Missing: the options of now.
    The manifest does not say under which options an index was built. *)
Theorem C51_reused_partial : forall W tr s es s' i d, runs W tr s -> step W s es s' -> In (Reused i d) es -> ~ interrupted d tr ->
  exists u r o x, In (Pulled i u r) es /\ configured u o tr /\ disk s' d = Some x /\ complete W u r o x.
Proof.
  intros W tr s es s' i d R ST IN NI. destruct (reused_good W tr s es s' i d R ST IN) as (u & r & x & A & B & _ & [X|(o & C & D)]); [contradiction|].
  exists u, r, o, x. auto.
Qed.

(** The options of the repository change and the server is restarted, the revision is still the
    same: the old index is used. *)
Theorem C51_refuted : exists W t f s s' i d x u r o, runs W (t ++ [Start [(u, o)] f]) s /\ step W s [Pulled i u r; Reused i d] s' /\
  disk s' d = Some x /\ ~ complete W u r o x.
Proof.
  destruct stale_run as (tr & s & s' & x & R & (t & f & ->) & ST & D & _ & N). exists W0, t, f, s, s', 0, 0, x, ua, r1, 1. auto.
Qed.

Example C51_case : exists tr s s', runs W0 tr s /\ step W0 s [Pulled 0 ua r1; Reused 0 0] s' /\ ~ interrupted 0 tr.
Proof. exact again_run. Qed.

Print Assumptions C51_partial.
Print Assumptions C51_reused_partial.
Print Assumptions C51_refuted.
