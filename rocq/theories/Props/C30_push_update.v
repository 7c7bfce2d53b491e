(** C30: an accepted push update is eventually carried out. True once the update loop has
    passed its gate; a request acknowledged before that is lost. *)
From Verif Require Import Model.Base Model.Server Spec.ServerSpec Proofs.ServerProofs Proofs.ServerTrace Proofs.ServerExamples.
From Coq Require Import Lia.

(** After a request acknowledged while the loop is running, the loop begins an update, or it
    ends, which it only does after Stop has been called. Missing: requests made before the loop
    has passed its gate. *)
Theorem C30_partial : forall k c confs x i m, 1 <= c -> is_execution x (initial k c confs) -> fair x ->
  In (Ack i) (ev x m) -> In (Started i) (before x m) -> ~ In (Done i) (before x m) ->
  exists j, m < j /\ (In (Attempt i) (ev x j) \/ (In (Done i) (ev x j) /\ In (StopSent i) (before x j))).
Proof. exact update_happens. Qed.

(** A request of a repository that accepts them is acknowledged without waiting. *)
Theorem C30_never_blocks : forall s i, at_main s = MServe -> In i (searchers s) -> push (conf (repos s i)) = true ->
  exists s', step Env s [Ack i] s'.
Proof. exact update_enabled. Qed.

(** At most one request is pending: the loop is not woken twice by requests without a request
    in between. *)
Theorem C30_one_pending : forall k c confs i t1 t2 t3 s,
  runs (initial k c confs) (t1 ++ TookUpdate i :: t2 ++ TookUpdate i :: t3) s -> In (Ack i) t2.
Proof. exact one_pending. Qed.

(** MakeAll's own token is still in the channel when a request arrives: the request is
    acknowledged, the loop takes the token for the permission to start, and waits. *)
Theorem C30_refuted : exists k c confs x i m, 1 <= c /\ is_execution x (initial k c confs) /\ fair x /\
  In (Return [i] []) (before x m) /\ In (Ack i) (ev x m) /\
  forall j, ~ In (Attempt i) (ev x j) /\ ~ In (StopSent i) (ev x j) /\ ~ In (Done i) (ev x j).
Proof.
  destruct lost_run as (x & A & B & L). exists 1, 1, (fun _ => push_only), x, 0, 10.
  assert (E : forall j, ev x j = snd (nth j lost (Env, []))) by (intros j; rewrite <- L; reflexivity).
  split; [lia|]. split; [exact A|]. split; [exact B|]. split; [|split].
  - unfold before. cbn [seq flat_map]. rewrite !E. cbn. tauto.
  - rewrite E. cbn. auto.
  - intros j. rewrite E. do 12 (destruct j as [|j]; [cbn; intuition discriminate|]).
    replace (nth _ lost (Env, [])) with (Env, @nil event) by (destruct j; reflexivity). cbn. auto.
Qed.

Example C30_case : exists x, is_execution x (initial 1 1 (fun _ => push_only)) /\ fair x /\
  In (Ack 0) (ev x 11) /\ In (Started 0) (before x 11) /\ ~ In (Done 0) (before x 11) /\ In (Attempt 0) (ev x 16).
Proof.
  destruct served_run as (x & A & B & L). exists x.
  assert (E : forall j, ev x j = snd (nth j served (Env, []))) by (intros j; rewrite <- L; reflexivity).
  unfold before. cbn [seq flat_map]. rewrite !E. cbn. split; [exact A|]. split; [exact B|]. intuition discriminate.
Qed.
Example C30_case_wakes : exists s t1 t2 t3, runs (initial 1 1 (fun _ => push_only)) (t1 ++ TookUpdate 0 :: t2 ++ TookUpdate 0 :: t3) s.
Proof.
  assert (R : scripted S0 (firstn 21 served ++ [(Env, [Ack 0]); (Poller 0, [TookUpdate 0]); (Poller 0, []); (Poller 0, []);
    (Poller 0, [Attempt 0; Work 0]); (Poller 0, [Rest 0]); (Poller 0, [])])).
  { unfold served, booted; cbn [app firstn]. boot. go st_gate. go st_ack. go st_ack_full. go st_update. go st_go. go st_acquire. go st_work.
    go st_pulled. go st_built. go st_swapped. go st_release. go st_ack. go st_update. go st_go. go st_acquire. go st_work. go st_pulled_none. go st_release.
    apply scripted_stop. apply rest_wait; reflexivity. }
  destruct (scripted_runs _ _ 23 R) as (s & Q). exists s.
  exists [Work 0; Rest 0; Made 0 true; Began 0; Return [0] []; Started 0; Ack 0; Ack 0], [Attempt 0; Work 0; Rest 0; Ack 0], []. exact Q.
Qed.

Print Assumptions C30_partial.
Print Assumptions C30_never_blocks.
Print Assumptions C30_one_pending.
Print Assumptions C30_refuted.
