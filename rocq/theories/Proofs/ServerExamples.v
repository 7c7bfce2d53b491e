(** Executions of a server with one or two repositories. *)
From Verif Require Import Model.Base Model.Server Spec.ServerSpec Proofs.ServerProofs Proofs.ServerTrace.
From Coq Require Import Lia Permutation.

(** ** Building fair executions step by step *)
Definition scripted (s : server) (l : list (actor * list event)) : Prop :=
  exists x, is_execution x s /\ fair x /\ forall j, (ac x j, ev x j) = nth j l (Env, []).

Lemma scripted_stop : forall s, at_rest s -> scripted s [].
Proof.
  intros s R. exists (mkExecution (fun _ => s) (fun _ => Env) (fun _ => [])). split; [split; [reflexivity|intros j; apply st_idle]|]. split.
  - intros a NE j. right. exists j. split; [lia|]. intros j' _. apply R. exact NE.
  - intros [|j]; reflexivity.
Qed.
Lemma scripted_cons : forall a s es s' l, step a s es s' -> scripted s' l -> scripted s ((a, es) :: l).
Proof.
  intros a s es s' l ST (x & (E1 & E2) & FA & L).
  exists (mkExecution (fun j => match j with O => s | S j => st x j end) (fun j => match j with O => a | S j => ac x j end)
    (fun j => match j with O => es | S j => ev x j end)). split; [split; [reflexivity|]|split].
  - intros [|j]; cbn; [rewrite E1; exact ST|apply E2].
  - intros b NE j. destruct (FA b NE (pred j)) as [(i & I1 & I2)|(i & I1 & I2)]; [left|right]; exists (S i); cbn; (split; [lia|]).
    + exact I2.
    + intros [|j'] J; [lia|]. apply I2. lia.
  - intros [|j]; cbn; [reflexivity|apply L].
Qed.

Lemma scripted_runs : forall s l m, scripted s l -> exists s', runs s (flat_map snd (firstn m l)) s'.
Proof.
  intros s l m (x & (E1 & E2) & _ & L). exists (st x (Nat.min m (length l))).
  induction m as [|m IH].
  - cbn. rewrite E1. constructor.
  - destruct (Nat.lt_ge_cases m (length l)) as [LT|GE].
    + rewrite Nat.min_l by lia. rewrite Nat.min_l in IH by lia.
      assert (EQ : firstn (S m) l = firstn m l ++ [nth m l (Env, [])]).
      { clear -LT. revert m LT. induction l as [|a l IHl]; intros m LT; cbn in LT; [lia|].
        destruct m as [|m]; [reflexivity|]. change (a :: firstn (S m) l = a :: (firstn m l ++ [nth m l (Env, [])])). f_equal. apply IHl. lia. }
      rewrite EQ, flat_map_app. cbn [flat_map]. rewrite app_nil_r, <- L. cbn [snd]. eapply runs_step; [exact IH|apply E2].
    + rewrite firstn_all2 by lia. rewrite firstn_all2 in IH by lia. rewrite Nat.min_r in * by lia. exact IH.
Qed.

(** ** One repository, updated on request only *)
Definition push_only : settings := mkSettings false true false.
Definition S0 : server := initial 1 1 (fun _ => push_only).

Ltac norm := match goal with |- scripted ?s ?l => let s' := eval lazy in s in change (scripted s' l) end.
Tactic Notation "go" uconstr(c) := eapply scripted_cons; [eapply c; first [reflexivity | cbn; lia | cbn; auto; fail]|]; norm.

Lemma rest_wait : forall s, n s = 1 -> wk (repos s 0) = WDone -> pl (repos s 0) = PWait -> updateCh (repos s 0) = false ->
  shutdownCh (repos s 0) = false -> timed (conf (repos s 0)) = false -> stopping (repos s 0) = 0 -> at_main s = MServe -> at_rest s.
Proof.
  intros s E1 E2 E3 E4 E5 E6 E7 E8 a NE (es & s' & ST).
  destruct ST; try congruence; try (assert (i = 0) as -> by lia; congruence).
Qed.
Lemma rest_done : forall s, n s = 1 -> wk (repos s 0) = WDone -> pl (repos s 0) = PDone -> 
  stopping (repos s 0) = 0 -> at_main s = MServe -> at_rest s.
Proof.
  intros s E1 E3 E4 E5 E8 a NE (es & s' & ST).
  destruct ST; try congruence; try (assert (i = 0) as -> by lia; congruence).
Qed.

Definition booted : list (actor * list event) :=
  [(Worker 0, []); (Worker 0, [Work 0]); (Worker 0, [Rest 0; Made 0 true]); (Worker 0, []); (Worker 0, []);
   (Main, []); (Main, []); (Main, []); (Main, [Began 0]); (Main, [Return [0] []])].

Ltac boot :=
  go st_wacquire; go st_wwork; go (st_wmade _ _ true); go st_wsend; go st_wrelease;
  go st_collect; go st_collected; eapply scripted_cons; [apply (st_clean _ [0]); [reflexivity|apply Permutation_refl]|]; norm; go st_begin; go st_return.

(** A request is carried out. *)
Definition served : list (actor * list event) :=
  booted ++ [(Poller 0, [Started 0]); (Env, [Ack 0]); (Env, [Ack 0]); (Poller 0, [TookUpdate 0]); (Poller 0, []); (Poller 0, []);
             (Poller 0, [Attempt 0; Work 0]); (Poller 0, []); (Poller 0, []); (Poller 0, [Rest 0]); (Poller 0, [])].
Lemma served_run : scripted S0 served.
Proof.
  unfold served, booted; cbn [app]. boot. go st_gate. go st_ack. go st_ack_full. go st_update. go st_go. go st_acquire. go st_work.
  go st_pulled. go st_built. go st_swapped. go st_release. apply scripted_stop. apply rest_wait; reflexivity.
Qed.

(** A request made before the loop has passed its gate is lost. *)
Definition lost : list (actor * list event) := booted ++ [(Env, [Ack 0]); (Poller 0, [Started 0])].
Lemma lost_run : scripted S0 lost.
Proof.
  unfold lost, booted; cbn [app]. boot. go st_ack_full. go st_gate. apply scripted_stop. apply rest_wait; reflexivity.
Qed.

(** A stop that works. *)
Definition stopped : list (actor * list event) :=
  booted ++ [(Poller 0, [Started 0]); (Env, [Ack 0]); (Poller 0, [TookUpdate 0]); (Poller 0, []); (Poller 0, []);
             (Poller 0, [Attempt 0; Work 0]); (Env, [StopSent 0]); (Stopper 0, [StopWritten 0]); (Env, [StopIgnored 0]);
             (Poller 0, [Rest 0]); (Poller 0, []); (Poller 0, [TookStop 0]); (Poller 0, [Done 0])].
Lemma stopped_run : scripted S0 stopped.
Proof.
  unfold stopped, booted; cbn [app]. boot. go st_gate. go st_ack. go st_update. go st_go. go st_acquire. go st_work.
  go st_stopsend. go st_stopwrite. go st_stopfull. go st_pulled_none. go st_release. go st_stop. go st_quit. apply scripted_stop. apply rest_done; reflexivity.
Qed.

(** A stop whose signal is taken before the flag is written. *)
Definition deaf : list (actor * list event) :=
  booted ++ [(Poller 0, [Started 0]); (Env, [StopSent 0]); (Poller 0, [TookStop 0]); (Poller 0, []); (Stopper 0, [StopWritten 0]);
             (Poller 0, []); (Poller 0, [Attempt 0; Work 0]); (Poller 0, [Rest 0]); (Poller 0, [])].
Lemma deaf_run : scripted S0 deaf.
Proof.
  unfold deaf, booted; cbn [app]. boot. go st_gate. go st_stopsend. go st_stop. go st_go. go st_stopwrite. go st_acquire. go st_work.
  go st_pulled_none. go st_release. apply scripted_stop. apply rest_wait; reflexivity.
Qed.

(** A polled repository that is stopped in the same unlucky way, but wakes by itself. *)
Definition polled : settings := mkSettings true false true.
Definition S2 : server := initial 1 1 (fun _ => polled).
Definition late_stop : list (actor * list event) :=
  booted ++ [(Poller 0, [Started 0]); (Env, [StopSent 0]); (Poller 0, [TookStop 0]); (Poller 0, []); (Stopper 0, [StopWritten 0]);
             (Poller 0, []); (Poller 0, [Attempt 0; Work 0]); (Poller 0, [Rest 0]); (Poller 0, []); (Poller 0, []); (Poller 0, [Done 0])].
Lemma late_run : scripted S2 late_stop.
Proof.
  unfold late_stop, booted; cbn [app]. boot. go st_gate. go st_stopsend. go st_stop. go st_go. go st_stopwrite. go st_acquire. go st_work.
  go st_pulled_none. go st_release. go st_timer. go st_quit. apply scripted_stop. apply rest_done; reflexivity.
Qed.

(** ** Two repositories, one slot; the second one fails and finishes first *)
Definition S3 : server := initial 2 1 (fun _ => push_only).
Definition mixed : list (actor * list event) :=
  [(Worker 1, []); (Worker 1, [Work 1]); (Worker 1, [Rest 1; Made 1 false]); (Worker 1, []); (Worker 1, []);
   (Worker 0, []); (Main, []); (Worker 0, [Work 0]); (Worker 0, [Rest 0; Made 0 true]); (Worker 0, []); (Worker 0, []);
   (Main, []); (Main, []); (Main, []); (Main, [Began 0]); (Main, [Return [0] [1]]); (Poller 0, [Started 0])].
Lemma mixed_run : scripted S3 mixed.
Proof.
  unfold mixed.
  go st_wacquire; go st_wwork; go (st_wmade _ _ false); go st_wsend; go st_wrelease.
  go st_wacquire. go st_collect. go st_wwork; go (st_wmade _ _ true); go st_wsend; go st_wrelease.
  go st_collect; go st_collected; eapply scripted_cons; [apply (st_clean _ [0]); [reflexivity|apply Permutation_refl]|]; norm; go st_begin; go st_return.
  go st_gate. apply scripted_stop.
  intros a NE (es & s' & ST). match type of ST with step _ ?t _ _ => remember t as s eqn:ES end.
  destruct ST; try (subst s; discriminate); try contradiction;
  try (assert (i = 0 \/ i = 1) as [-> | ->] by (subst s; cbn in *; lia); subst s; discriminate).
Qed.
