(** C27: a failed update leaves the repository searchable. True of failing pulls and builds
    that return an error ([_partial]). False when destroying the old index fails: the new
    one, already live, is destroyed ([C27_swap_refuted]), and from then on every update fails
    in the same way ([C27_never_recovers]). False also of the many errors on which the index
    package ends the process ([C27_exit_refuted]). *)
From Verif Require Import Model.Base Model.Swap Spec.SwapSpec Proofs.SwapProofs Proofs.SwapNew Proofs.SwapExamples.

Theorem C27_partial : forall r0 tr s, runs (initial r0) tr s ->
  no_failed_swap tr -> ~ In Exit tr -> searchable s.
Proof. exact stays_searchable. Qed.
Print Assumptions C27_partial.

(** And is tried again: a pull leads to a build exactly if it finds another revision than the one
    that is searched, whatever has failed before. *)
Theorem C27_tries_again_partial : forall r0 tr s i q r, runs (initial r0) tr s -> no_failed_swap tr -> alive s = true -> up s = UIdle ->
  published r0 tr i q -> (r <> q <-> exists s', step s None s' /\ up s' = UPulled r).
Proof. exact tries_again. Qed.
Print Assumptions C27_tries_again_partial.

Theorem C27_swap_refuted : exists r0 tr s, runs (initial r0) tr s /\ ~ In Exit tr /\ up s = UIdle /\ ~ searchable s.
Proof.
  destruct bad_run as (s & R & E1 & E2 & E3 & E4 & E5 & E6).
  exists [97%N]. eexists. exists s. split; [exact R|]. split; [cbn; intuition discriminate|]. split; [exact E1|].
  intros (_ & x & X & Y). rewrite E5 in X. rewrite E6 in X. injection X as <-. discriminate.
Qed.
Print Assumptions C27_swap_refuted.

(** [dead s i]: index [i] is unmapped. [undone_well]: destroying a new index always works. *)
Theorem C27_never_recovers : forall s tr s', runs s tr s' -> up s = UIdle -> dead s (cur s) -> undone_well tr ->
  (forall i, ~ In (Updated i) tr) /\ (up s' = UIdle -> ~ searchable s').
Proof. exact never_recovers. Qed.
Print Assumptions C27_never_recovers.

Theorem C27_exit_refuted : exists r0 tr s, runs (initial r0) tr s /\ no_failed_swap tr /\ ~ searchable s.
Proof.
  destruct exit_run as (s & R & E). exists [97%N]. eexists. exists s. split; [exact R|]. split.
  - intros i [X|[]]. discriminate.
  - intros (X & _). congruence.
Qed.
Print Assumptions C27_exit_refuted.

(** The hypotheses of [C27_never_recovers] are met by a reachable state. *)
Example C27_example : exists s, runs (initial [97%N]) [Publish 1 [98%N]; SwapFailed 1; Undone 1 true] s /\
  up s = UIdle /\ dead s (cur s).
Proof.
  destruct bad_run as (s & R & E1 & E2 & E3 & E4 & E5 & E6). exists s. split; [exact R|]. split; [exact E1|].
  exists (mkIndex [98%N] false false). rewrite E5. auto.
Qed.
(** Failing pulls and builds. *)
Example C27_example_partial : exists s, runs (initial [97%N]) [PullFailed; BuildFailed; PullSame] s /\ alive s = true /\ up s = UIdle /\
  published [97%N] [PullFailed; BuildFailed; PullSame] 0 [97%N].
Proof.
  pose proof (runs_nil (initial [97%N])) as R.
  eapply runs_event in R; [|apply st_pullfail; reflexivity].
  eapply runs_silent in R; [|apply (st_pull _ [98%N]); [reflexivity|reflexivity|discriminate]].
  eapply runs_event in R; [|eapply st_buildfail; reflexivity].
  eapply runs_event in R; [|apply st_pullsame; reflexivity].
  eexists. split; [exact R|]. split; [reflexivity|]. split; [reflexivity|]. left. split; [reflexivity|]. split; [reflexivity|].
  intros i r [X|[X|[X|[]]]]; discriminate.
Qed.
