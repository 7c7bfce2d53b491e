(** C35: each index directory belongs to one repository. Holds for configurations in which no
    two repositories have the same Url. *)
From Verif Require Import Model.Base Model.Startup Spec.StartupSpec Proofs.StartupProofs Proofs.StartupResults Proofs.StartupExamples.

(** Missing: configurations with equal Urls. *)
Theorem C35_partial : forall W tr s i j d, runs W tr s -> distinct_urls tr -> live_dir s i d -> live_dir s j d -> i = j.
Proof. exact one_owner. Qed.

(** As long as an index is live nothing in its directory changes. *)
Theorem C35_untouched_partial : forall W tr s es s' i d, runs W tr s -> distinct_urls tr -> live_dir s i d -> step W s es s' -> disk s' d = disk s d.
Proof. exact live_untouched. Qed.

(** Two repositories with one Url: after a restart both use the same directory, and the first
    update of one removes the index under the other. *)
Theorem C35_refuted : exists W tr s s' i j d d', runs W tr s /\ i <> j /\ live_dir s i d' /\ live_dir s j d /\ disk s d <> None /\
  step W s [Removed d] s' /\ live_dir s' j d /\ disk s' d = None.
Proof. destruct twin_run as (tr & s & s' & A & B & C & D & E & F & G). exists W0, tr, s, s', 0, 1, 0, 2. repeat (split; [first [assumption | discriminate]|]). exact G. Qed.

(** Two repositories, a restart and an update. *)
Example C35_case : exists tr s, runs W0 tr s /\ distinct_urls tr /\ live_dir s 0 2 /\ live_dir s 1 1 /\ disk s 1 <> None.
Proof. exact pair_run. Qed.

Print Assumptions C35_partial.
Print Assumptions C35_untouched_partial.
Print Assumptions C35_refuted.
