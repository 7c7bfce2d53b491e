(** C89: how a houndd process ends. *)
From Coq Require Import String Ascii List Lia.
From Verif Require Import Model.Base Spec.Names Model.Life Proofs.LifeProofs.
Import ListNotations.

Definition begins (x : event) : bool := match x with WorkBegun => true | _ => false end.
Definition ends (x : event) : bool := match x with WorkEnded => true | _ => false end.
Definition count (p : event -> bool) (tr : list event) : nat := length (filter p tr).
Lemma work_counted : forall tr s, lives tr s -> count begins tr = count ends tr + working s.
Proof.
  intros tr s L. induction L as [|a tr s es s' L IH ST]; [reflexivity|].
  unfold count in *. rewrite !filter_app, !app_length. inversion ST; subst; cbn [filter begins ends length working] in *; lia.
Qed.

(** SIGTERM only kills the process outright when no work on any repository has begun yet. *)
Theorem C89_killed : forall tr s, lives tr s -> over s = Some Killed -> ~ In WorkBegun tr.
Proof. exact killed_early. Qed.
Print Assumptions C89_killed.

(** Exit status 0 takes a SIGTERM, a finished startup, and no work in progress. *)
Theorem C89_exited : forall tr s, lives tr s -> over s = Some Exited ->
  In Sigterm tr /\ In Made tr /\ count begins tr = count ends tr.
Proof.
  intros tr s L O. destruct (exited_clean tr s L O) as (A & B & C). split; [exact A|]. split; [exact B|].
  rewrite (work_counted tr s L), C. lia.
Qed.
Print Assumptions C89_exited.

(** A panic passes on one of four errors. *)
Theorem C89_panicked : forall tr s e, lives tr s -> over s = Some (Panicked e) ->
  In (LoadFailed e) tr \/ In (MakeFailed e) tr \/ In (ContentFailed e) tr \/ (In (ListenFailed e) tr /\ In Ready tr).
Proof. exact panicked_why. Qed.
Print Assumptions C89_panicked.

(** The end is the last event, and there is only one. *)
Theorem C89_once : forall tr s, lives tr s ->
  match over s with None => forall h, ~ In (Ended h) tr
  | Some how => exists tr', tr = tr' ++ [Ended how] /\ forall h, ~ In (Ended h) tr' end.
Proof. exact ends_once. Qed.
Print Assumptions C89_once.

(** When nobody can listen any more the process ends, if its startup ends. *)
Theorem C89_failure_partial : forall x, is_run x -> fair x -> forall k1 k2 e,
  In (ListenFailed e) (evs x k1) -> In Made (evs x k2) -> exists j, over (st x j) <> None.
Proof. intros x R F k1 k2 e H1 H2. exact (failure_ends x R F k1 k2 e H1 H2). Qed.
Print Assumptions C89_failure_partial.

(** It does not end at once: a taken port is only noticed after the startup, however much work
    that is. *)
Definition stuck (w : nat) : life := mkLife Making (LFailed (text "in use")) HOff true false w None.
Fixpoint cycles (n : nat) : list event := match n with 0 => [] | S n => cycles n ++ [WorkBegun] ++ [WorkEnded] end.
Lemma stuck_lives : forall n, lives ([Loaded; ListenFailed (text "in use")] ++ cycles n) (stuck 0).
Proof.
  induction n; intros.
  - change ([Loaded; ListenFailed (text "in use")] ++ cycles 0) with (((([] ++ [Loaded]) ++ []) ++ [ListenFailed (text "in use")]) ++ []).
    eapply lives_step; [|apply s_register].
    eapply lives_step; [|apply s_listen_failed]. eapply lives_step; [|apply s_start].
    eapply lives_step; [|apply s_load]. exact lives_born.
  - cbn [cycles]. rewrite !app_assoc. eapply lives_step; [|apply s_worked].
    eapply lives_step; [exact IHn|]. apply s_work; discriminate.
Qed.
Theorem C89_at_once_refuted : forall n, exists e tr s, lives ([Loaded; ListenFailed e] ++ tr) s /\ over s = None /\
  count ends tr = n.
Proof.
  intros n. exists (text "in use"), (cycles n), (stuck 0). split; [apply stuck_lives|]. split; [reflexivity|].
  unfold count. induction n; [reflexivity|]. cbn [cycles]. rewrite !filter_app, !app_length, IHn. cbn [filter ends length]. lia.
Qed.
Print Assumptions C89_at_once_refuted.

(** The panic for the listener does not wait for the work of the update loops. *)
Theorem C89_interrupted_refuted : exists tr s e, lives tr s /\ over s = Some (Panicked e) /\ count ends tr < count begins tr.
Proof.
  exists (((((((((([] ++ [Loaded]) ++ []) ++ [Listening]) ++ []) ++ [Made]) ++ []) ++ [Ready]) ++ [WorkBegun]) ++ [ListenFailed (text "lost")]) ++ [Ended (Panicked (text "lost"))]).
  exists (mkLife Waiting LTaken HIdle true false 1 (Some (Panicked (text "lost")))), (text "lost").
  split; [|split; [reflexivity|vm_compute; lia]].
  eapply lives_step; [|apply s_failed]. eapply lives_step; [|apply s_listen_stopped].
  eapply lives_step; [|apply s_work; discriminate]. eapply lives_step; [|apply s_ready].
  eapply lives_step; [|apply s_handle]. eapply lives_step; [|apply s_made]. eapply lives_step; [|apply s_register].
  eapply lives_step; [|apply s_listen]. eapply lives_step; [|apply s_start]. eapply lives_step; [|apply s_load]. exact lives_born.
Qed.
Print Assumptions C89_interrupted_refuted.

(** A life that ends by SIGTERM while a repository is updated: the exit comes after the work. *)
Example C89_example : exists s, lives [Loaded; Listening; Made; Ready; WorkBegun; Sigterm; WorkEnded; Ended Exited] s /\ over s = Some Exited.
Proof.
  eexists (mkLife Waiting LUp HStopping true false 0 (Some Exited)). split; [|reflexivity].
  change [Loaded; Listening; Made; Ready; WorkBegun; Sigterm; WorkEnded; Ended Exited] with
    (((((((((((([] ++ [Loaded]) ++ []) ++ [Listening]) ++ []) ++ [Made]) ++ []) ++ [Ready]) ++ [WorkBegun]) ++ [Sigterm]) ++ []) ++ [WorkEnded]) ++ [Ended Exited]).
  eapply lives_step; [|apply s_exit]. eapply lives_step; [|apply s_worked]. eapply lives_step; [|apply s_take].
  eapply lives_step; [|apply s_signal].
  eapply lives_step; [|apply s_work; discriminate]. eapply lives_step; [|apply s_ready].
  eapply lives_step; [|apply s_handle]. eapply lives_step; [|apply s_made]. eapply lives_step; [|apply s_register].
  eapply lives_step; [|apply s_listen]. eapply lives_step; [|apply s_start]. eapply lives_step; [|apply s_load]. exact lives_born.
Qed.

(** A fair run in which the port is taken. *)
Definition taken : str := text "address already in use".
Definition failing (k : nat) : life := match k with
  | 0 => born | 1 => mkLife Starting LOff HOff false false 0 None | 2 => mkLife Registering LTrying HOff false false 0 None
  | 3 => mkLife Registering (LFailed taken) HOff false false 0 None | 4 => mkLife Making (LFailed taken) HOff true false 0 None
  | 5 => mkLife Handling (LFailed taken) HOff true false 0 None | 6 => mkLife Serving (LFailed taken) HIdle true false 0 None
  | 7 => mkLife Waiting (LFailed taken) HIdle true false 0 None
  | _ => mkLife Waiting LTaken HIdle true false 0 (Some (Panicked taken)) end.
Definition told_by (k : nat) : list event := match k with
  | 0 => [Loaded] | 2 => [ListenFailed taken] | 4 => [Made] | 6 => [Ready] | 7 => [Ended (Panicked taken)] | _ => [] end.
Definition unlucky : run := mkRun failing (fun k => match k with 2 => Listener | _ => Main end) told_by.
Example C89_failure_example : is_run unlucky /\ fair unlucky /\ In (ListenFailed taken) (evs unlucky 2) /\ In Made (evs unlucky 4).
Proof.
  split; [|split; [|split; left; reflexivity]].
  - split; [reflexivity|]. intros k. cbn [unlucky who st evs].
    do 8 (destruct k as [|k]; [left; cbn; constructor|]). right. split; [discriminate|split; reflexivity].
  - intros a _ k. right. exists (8 + k). split; [lia|]. intros (es & s' & ST). apply step_over in ST. discriminate ST.
Qed.
