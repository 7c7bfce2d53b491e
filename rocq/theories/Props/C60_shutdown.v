(** C60: SIGTERM ends the process, and not in the middle of work on a repository. The second
    part holds; the first part fails when a loop takes the token of Stop before the flag is
    written and has no timer to wake it. *)
From Verif Require Import Model.Base Model.Server Model.Shutdown Spec.ServerSpec Proofs.ServerExamples Proofs.ShutdownProofs Proofs.ShutdownLive Proofs.ShutdownExamples.
From Coq Require Import Lia.

(** When the process exits, a signal has arrived, MakeAll has returned, the loop of each of its
    searchers has ended, and no clone, pull or index build that has begun is unfinished. *)
Theorem C60_exit_idle : forall k c confs tr p a p', pruns (started k c confs) tr p -> pstep a p [Exit] p' ->
  In Signal tr /\
  (exists ss es, In (Srv (Return ss es)) tr /\ (forall i, In i ss -> In (Srv (Done i)) tr)) /\
  (forall i t1 t2, tr = t1 ++ Srv (Work i) :: t2 -> In (Srv (Rest i)) t2).
Proof. exact exit_idle. Qed.

(** No Stop of the handler is dropped. *)
Theorem C60_stop_heeded : forall k c confs tr p, pruns (started k c confs) tr p -> forall i, ~ In (Srv (StopIgnored i)) tr.
Proof. exact stop_heeded. Qed.

(** A signal leads to the exit unless startup fails. Missing: loops without a timer that take
    the token of Stop between the send and the write of the flag. *)
Theorem C60_exits_partial : forall k c confs x, 1 <= c -> is_pexecution x (started k c confs) -> pfair x ->
  (exists m, In Signal (pev x m)) ->
  (forall i ss es m, In (Srv (Return ss es)) (pev x m) -> In i ss ->
    timed (confs i) = true \/ poll (confs i) || push (confs i) = false \/
    (forall m1 m2, In (Srv (StopSent i)) (pev x m1) -> In (Srv (StopWritten i)) (pev x m2) ->
      forall j, m1 < j -> j < m2 -> ~ In (Srv (TookStop i)) (pev x j))) ->
  (exists m, In (Srv Fail) (pev x m)) \/ (exists m, In Exit (pev x m)).
Proof. exact exits. Qed.

(** One repository updated on request only: startup returns, the signal comes and is taken, and
    the process never exits. *)
Theorem C60_exits_refuted : exists k c confs x, 1 <= c /\ is_pexecution x (started k c confs) /\ pfair x /\
  (exists m, In Signal (pev x m)) /\ (exists m, In Begun (pev x m)) /\ forall m, ~ In (Srv Fail) (pev x m) /\ ~ In Exit (pev x m).
Proof.
  destruct stays_run as (x & A & B & L). exists 1, 1, (fun _ => push_only), x.
  assert (E : forall j, pev x j = snd (nth j stays (Actor Env, []))) by (intros j; rewrite <- L; reflexivity).
  split; [lia|]. split; [exact A|]. split; [exact B|]. split; [exists 11; rewrite E; cbn; auto|]. split; [exists 13; rewrite E; cbn; auto|].
  intros j. rewrite E. do 23 (destruct j as [|j]; [cbn; intuition discriminate|]).
  replace (nth _ stays (Actor Env, [])) with (Actor Env, @nil pevent) by (destruct j; reflexivity). cbn. auto.
Qed.

(** A signal during a pull: the exit comes after its end. *)
Example C60_case : exists x, is_pexecution x (started 1 1 (fun _ => push_only)) /\ pfair x /\
  In Signal (pev x 10) /\ In (Srv (Work 0)) (pev x 17) /\ In Begun (pev x 18) /\ In (Srv (Rest 0)) (pev x 22) /\ pev x 27 = [Exit] /\
  (forall m1 m2, In (Srv (StopSent 0)) (pev x m1) -> In (Srv (StopWritten 0)) (pev x m2) ->
      forall j, m1 < j -> j < m2 -> ~ In (Srv (TookStop 0)) (pev x j)).
Proof.
  destruct leaves_run as (x & A & B & L). exists x.
  assert (E : forall j, pev x j = snd (nth j leaves (Actor Env, []))) by (intros j; rewrite <- L; reflexivity).
  split; [exact A|]. split; [exact B|]. rewrite !E. cbn. do 5 (split; [auto|]).
  assert (T : forall j, In (Srv (TookStop 0)) (pev x j) -> j = 24).
  { intros j. rewrite E. do 28 (destruct j as [|j]; [cbn; intuition discriminate|]).
    replace (nth _ leaves (Actor Env, [])) with (Actor Env, @nil pevent) by (destruct j; reflexivity). intros []. }
  assert (W : forall j, In (Srv (StopWritten 0)) (pev x j) -> j = 20).
  { intros j. rewrite E. do 28 (destruct j as [|j]; [cbn; intuition discriminate|]).
    replace (nth _ leaves (Actor Env, [])) with (Actor Env, @nil pevent) by (destruct j; reflexivity). intros []. }
  intros m1 m2 _ I2 j _ J I. apply W in I2. apply T in I. lia.
Qed.

Print Assumptions C60_exit_idle.
Print Assumptions C60_stop_heeded.
Print Assumptions C60_exits_partial.
Print Assumptions C60_exits_refuted.
