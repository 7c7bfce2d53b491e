(** C95: a repository that is polled is fetched again and again. True of delays that a time.Duration
    can hold; false of a negative ms-between-poll and of one that overflows: the loop waits for ever. *)
From Verif Require Import Model.Base Model.Config Model.Server Model.Polling Spec.ServerSpec Spec.PollSpec Proofs.ServerProofs Proofs.ServerTrace Proofs.ServerExamples Proofs.PollProofs Proofs.PollExamples.
From Coq Require Import Lia ZArith.

Definition of_config (rs : nat -> Config.repo) (i : nat) : settings := settings_of (init_repo (rs i)).

(** Polling is on unless the configuration says otherwise. From any time on there is another pull,
    unless the loop has ended, which it only does after Stop. Missing: other delays. *)
Theorem C95_polled_partial : forall k c rs x i m0 ss es, 1 <= c -> is_execution x (initial k c (of_config rs)) -> fair x ->
  In (Return ss es) (ev x m0) -> In i ss -> r_poll (rs i) <> Some false -> (0 <= r_ms (rs i) <= 9223372036854)%Z ->
  forall m, (exists j, m <= j /\ In (Attempt i) (ev x j)) \/ (exists j, In (Done i) (ev x j) /\ In (StopSent i) (before x j)).
Proof.
  intros k c rs x i m0 ss es C1 EX FA R I P (M1 & M2).
  assert (PE : PollUpdatesEnabled (init_repo (rs i)) = true).
  { unfold PollUpdatesEnabled, init_repo. cbn [r_poll]. destruct (r_poll (rs i)) as [[]|]; [reflexivity|contradiction|reflexivity]. }
  apply (polled_again k c (of_config rs) x C1 EX FA i m0 ss es R I).
  - unfold of_config, settings_of. cbn [timed]. unfold delay. rewrite PE. apply Z.ltb_lt. unfold init_repo. cbn [r_ms]. unfold or_default_int.
    destruct (Z.eqb_spec (r_ms (rs i)) 0) as [E|E]; [vm_compute; reflexivity|]. unfold wrap64. rewrite Z.mod_small by lia. lia.
  - exact PE.
Qed.
Print Assumptions C95_polled_partial.

(** The two kinds of delay that end it. *)
Lemma never : forall r, scripted (one_repo r) silent -> exists x, is_execution x (initial 1 1 (of_config (fun _ => r))) /\ fair x /\ In (Return [0] []) (ev x 9) /\
  forall j, ~ In (Attempt 0) (ev x j) /\ ~ In (StopSent 0) (ev x j) /\ ~ In (Done 0) (ev x j).
Proof.
  intros r (x & A & B & L). exists x. assert (E : forall j, ev x j = snd (nth j silent (Env, []))) by (intros j; rewrite <- L; reflexivity).
  split; [exact A|]. split; [exact B|]. split; [rewrite E; left; reflexivity|].
  intros j. rewrite E. do 11 (destruct j as [|j]; [cbn; intuition discriminate|]).
  replace (nth _ silent (Env, [])) with (Env, @nil event) by (destruct j; reflexivity). cbn. auto.
Qed.
Theorem C95_negative_refuted : exists r x, r_poll r <> Some false /\ r_ms r = (-1)%Z /\
  is_execution x (initial 1 1 (of_config (fun _ => r))) /\ fair x /\ In (Return [0] []) (ev x 9) /\
  forall j, ~ In (Attempt 0) (ev x j) /\ ~ In (StopSent 0) (ev x j) /\ ~ In (Done 0) (ev x j).
Proof.
  destruct (never _ negative_run) as (x & H). exists (some_repo (-1) None None), x. split; [discriminate|]. split; [reflexivity|exact H].
Qed.
Print Assumptions C95_negative_refuted.
Theorem C95_overflow_refuted : exists r x, r_poll r <> Some false /\ (r_ms r = 9223372036855)%Z /\
  is_execution x (initial 1 1 (of_config (fun _ => r))) /\ fair x /\ In (Return [0] []) (ev x 9) /\
  forall j, ~ In (Attempt 0) (ev x j) /\ ~ In (StopSent 0) (ev x j) /\ ~ In (Done 0) (ev x j).
Proof.
  destruct (never _ overflow_run) as (x & H). exists (some_repo 9223372036855 None None), x. split; [discriminate|]. split; [reflexivity|exact H].
Qed.
Print Assumptions C95_overflow_refuted.

(** Without polling: no more pulls than were asked for. *)
Theorem C95_only_asked : forall k c rs tr s i, runs (initial k c (of_config rs)) tr s -> r_poll (rs i) = Some false -> attempts i tr <= asked i tr.
Proof.
  intros k c rs tr s i R P. apply (only_asked k c (of_config rs) tr s i R). unfold of_config, settings_of, delay, PollUpdatesEnabled, init_repo. cbn [timed r_poll].
  rewrite P. reflexivity.
Qed.
Print Assumptions C95_only_asked.
(** Without any updates: none. *)
Theorem C95_disabled : forall k c rs tr s i, runs (initial k c (of_config rs)) tr s -> r_poll (rs i) = Some false -> r_push (rs i) <> Some true -> ~ In (Attempt i) tr.
Proof.
  intros k c rs tr s i R P Q. apply (never_asked k c (of_config rs) tr s i R). unfold of_config, settings_of, PollUpdatesEnabled, PushUpdatesEnabled, init_repo.
  cbn [poll push r_poll r_push]. rewrite P. destruct (r_push (rs i)) as [[]|]; [contradiction|reflexivity|reflexivity].
Qed.
Print Assumptions C95_disabled.

(** A repository with the default settings, never stopped. *)
Example C95_example : exists x, is_execution x (initial 1 1 (of_config (fun _ => some_repo 0 None None))) /\ fair x /\ In (Return [0] []) (ev x 9) /\
  forall m, exists j, m <= j /\ In (Attempt 0) (ev x j).
Proof.
  destruct polled_run as (x & A & B & L & NS). exists x. split; [exact A|]. split; [exact B|].
  assert (E : forall j, j < 11 -> ev x j = snd (nth j silent (Env, []))) by (intros j J; rewrite <- L by exact J; reflexivity).
  assert (R : In (Return [0] []) (ev x 9)) by (rewrite E by lia; left; reflexivity). split; [exact R|].
  intros m. destruct (C95_polled_partial 1 1 (fun _ => some_repo 0 None None) x 0 9 [0] [] (le_n 1) A B R (or_introl eq_refl) ltac:(discriminate) ltac:(cbn; lia) m) as [H|(j & _ & H)]; [exact H|].
  exfalso. apply (in_before 1 x (le_n 1)) in H. destruct H as (q & _ & H). destruct (Nat.lt_ge_cases q 11) as [LT|GE].
  - rewrite (E q LT) in H. do 11 (destruct q as [|q]; [cbn in H; intuition discriminate|]). lia.
  - replace q with (length silent + (q - 11)) in H by (cbn; lia). exact (NS _ H).
Qed.
(** One without polling, updated once on request. *)
Example C95_asked_example : exists s tr, runs (initial 1 1 (of_config (fun _ => some_repo 0 (Some false) (Some true)))) tr s /\ attempts 0 tr = 1 /\ asked 0 tr = 2.
Proof.
  assert (R : scripted (one_repo (some_repo 0 (Some false) (Some true))) served).
  { unfold served, booted; cbn [app]. boot. go st_gate. go st_ack. go st_ack_full. go st_update. go st_go. go st_acquire. go st_work.
    go st_pulled. go st_built. go st_swapped. go st_release. apply scripted_stop. apply rest_wait; reflexivity. }
  destruct (scripted_runs _ _ 21 R) as (s & Q). exists s. eexists. split; [exact Q|]. split; reflexivity.
Qed.
