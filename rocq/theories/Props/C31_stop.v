(** C31: Stop eventually stops the searcher. True when the loop does not take the signal before
    the flag is written, and for repositories that are polled. *)
From Verif Require Import Model.Base Model.Server Spec.ServerSpec Proofs.ServerProofs Proofs.ServerTrace Proofs.ServerExamples.
From Coq Require Import Lia.

(** Stop sends to the channel, then writes the flag. If the loop does not receive between the
    two, it ends, in every fair execution, whatever it was doing and without any further event
    from outside (fairness asks for none). Missing: receptions in between. *)
Theorem C31_partial : forall k c confs x, 1 <= c -> is_execution x (initial k c confs) -> fair x ->
  forall i m1 m2, m1 < m2 -> In (StopSent i) (ev x m1) -> In (StopWritten i) (ev x m2) ->
  (forall j, m1 < j -> j < m2 -> ~ In (TookStop i) (ev x j)) -> exists j, In (Done i) (ev x j).
Proof. exact stop_happens. Qed.

(** With polling the loop ends in any case, at the latest one full update and one delay later. *)
Theorem C31_polled_partial : forall k c confs x, 1 <= c -> is_execution x (initial k c confs) -> fair x ->
  forall i m, timed (confs i) = true -> In (StopWritten i) (ev x m) -> exists j, In (Done i) (ev x j).
Proof. exact timed_stop_happens. Qed.

(** The loop receives the signal, reads the flag, which is not yet written, makes one more
    update and waits for ever: Wait never returns. *)
Theorem C31_refuted : exists k c confs x i, 1 <= c /\ is_execution x (initial k c confs) /\ fair x /\
  (exists m1 m2, m1 < m2 /\ In (StopSent i) (ev x m1) /\ In (StopWritten i) (ev x m2)) /\
  forall j, ~ In (Done i) (ev x j).
Proof.
  destruct deaf_run as (x & A & B & L). exists 1, 1, (fun _ => push_only), x, 0.
  assert (E : forall j, ev x j = snd (nth j deaf (Env, []))) by (intros j; rewrite <- L; reflexivity).
  split; [lia|]. split; [exact A|]. split; [exact B|]. split.
  - exists 11, 14. rewrite !E. cbn. split; [lia|]. auto.
  - intros j. rewrite E. do 19 (destruct j as [|j]; [cbn; intuition discriminate|]).
    replace (nth _ deaf (Env, [])) with (Env, @nil event) by (destruct j; reflexivity). cbn. auto.
Qed.

Example C31_case : exists x, is_execution x (initial 1 1 (fun _ => push_only)) /\ fair x /\
  In (StopSent 0) (ev x 16) /\ In (StopWritten 0) (ev x 17) /\ (forall j, 16 < j -> j < 17 -> ~ In (TookStop 0) (ev x j)) /\
  In (Done 0) (ev x 22).
Proof.
  destruct stopped_run as (x & A & B & L). exists x.
  assert (E : forall j, ev x j = snd (nth j stopped (Env, []))) by (intros j; rewrite <- L; reflexivity).
  rewrite !E. cbn. split; [exact A|]. split; [exact B|]. split; [auto|]. split; [auto|]. split; [intros; lia|auto].
Qed.
Example C31_case_polled : exists x, is_execution x (initial 1 1 (fun _ => polled)) /\ fair x /\
  In (StopWritten 0) (ev x 14) /\ In (TookStop 0) (ev x 12) /\ In (Done 0) (ev x 20).
Proof.
  destruct late_run as (x & A & B & L). exists x.
  assert (E : forall j, ev x j = snd (nth j late_stop (Env, []))) by (intros j; rewrite <- L; reflexivity).
  rewrite !E. cbn. split; [exact A|]. split; [exact B|]. auto.
Qed.

Print Assumptions C31_partial.
Print Assumptions C31_polled_partial.
Print Assumptions C31_refuted.
