(** An execution in which everybody has to wait (C96): search 0 keeps the update loop waiting, search 1
    queues behind the update loop; destroying the old index fails, and search 1, which has come upon
    the new index, queues again while that is destroyed; search 2 comes last. *)
From Verif Require Import Model.Base Model.Locks.
From Coq Require Import Lia.

Definition script : list (actor * list event * (state -> state)) := [
  (Env, [Call 0], fun s => set_search s 0 (SCalled 1));
  (Search 0, [], fun s => set_search s 0 (SLocked 1));
  (Env, [Begun], fun s => set_up s (UWork 1));
  (Search 0, [], fun s => set_search s 0 (SHas 0 1));
  (Updater, [], fun s => set_up s (UWork 0));
  (Updater, [], fun s => mkState (cur s) (S (made s)) (search s) (UBuilt (made s)));
  (Updater, [], fun s => set_up s (UWantS 1));
  (Env, [Call 1], fun s => set_search s 1 (SCalled 0));
  (Search 1, [], fun s => set_search s 1 (SQueue 0));
  (Search 0, [], fun s => set_search s 0 (SRuns 0 1));
  (Search 0, [], fun s => set_search s 0 (SRuns 0 0));
  (Search 0, [], fun s => set_search s 0 SLeft);
  (Search 0, [Return 0], fun s => set_search s 0 SDone);
  (Updater, [], fun s => set_up s (UHoldS 1));
  (Updater, [], fun s => mkState 1 (made s) (search s) (USet 1 (cur s)));
  (Updater, [], fun s => set_up s (UWantI 1 0 0));
  (Updater, [], fun s => set_up s (UHoldI 1 0 0));
  (Updater, [], fun s => set_up_wake s (wake_i 0) (UResult 1 false));
  (Updater, [], fun s => set_up_wake s wake_s (UUndo 1));
  (Search 1, [], fun s => set_search s 1 (SHas 1 0));
  (Updater, [], fun s => set_up s (UWantU 1 1));
  (Search 1, [], fun s => set_search s 1 (SQueued 1 0));
  (Updater, [], fun s => set_up s (UHoldU 1 1));
  (Updater, [], fun s => set_up s (UHoldU 1 0));
  (Env, [Call 2], fun s => set_search s 2 (SCalled 0));
  (Search 2, [], fun s => set_search s 2 (SLocked 0));
  (Updater, [Ended], fun s => set_up_wake s (wake_i 1) UIdle);
  (Search 2, [], fun s => set_search s 2 (SHas 1 0));
  (Search 2, [], fun s => set_search s 2 (SRuns 1 0));
  (Search 2, [], fun s => set_search s 2 SLeft);
  (Search 1, [], fun s => set_search s 1 SLeft);
  (Search 2, [Return 2], fun s => set_search s 2 SDone);
  (Search 1, [Return 1], fun s => set_search s 1 SDone)].
Definition nothing : actor * list event * (state -> state) := (Env, [], fun s => s).
Fixpoint state_after (n : nat) : state := match n with 0 => initial | S n' => snd (nth n' script nothing) (state_after n') end.
Definition waiting : execution := mkExecution state_after (fun n => fst (fst (nth n script nothing))) (fun n => snd (fst (nth n script nothing))).

Lemma nth_late : forall n, 33 <= n -> nth n script nothing = nothing.
Proof. intros n L. apply nth_overflow. exact L. Qed.
Ltac nobody := intros t; destruct t as [|[|[|t]]]; reflexivity.
Lemma rlock_free : forall s t k, search s t = SCalled k -> s_free (up s) = true -> step (Search t) s [] (set_search s t (SLocked k)).
Proof. intros s t k E F. pose proof (st_rlock s t k E) as X. rewrite F in X. exact X. Qed.
Lemma rlock_queue : forall s t k, search s t = SCalled k -> s_free (up s) = false -> step (Search t) s [] (set_search s t (SQueue k)).
Proof. intros s t k E F. pose proof (st_rlock s t k E) as X. rewrite F in X. exact X. Qed.
Lemma irlock_free : forall s t i k, search s t = SHas i k -> i_free i (up s) = true -> step (Search t) s [] (set_search s t (SRuns i k)).
Proof. intros s t i k E F. pose proof (st_irlock s t i k E) as X. rewrite F in X. exact X. Qed.
Lemma irlock_queue : forall s t i k, search s t = SHas i k -> i_free i (up s) = false -> step (Search t) s [] (set_search s t (SQueued i k)).
Proof. intros s t i k E F. pose proof (st_irlock s t i k E) as X. rewrite F in X. exact X. Qed.
Lemma read_is : forall s t i k, search s t = SLocked k -> cur s = i -> step (Search t) s [] (set_search s t (SHas i k)).
Proof. intros s t i k E <-. apply st_read. exact E. Qed.
Lemma waiting_runs : is_execution waiting.
Proof.
  split; [reflexivity|]. intros n. cbn [waiting ac ev st].
  change (state_after (S n)) with (snd (nth n script nothing) (state_after n)).
  destruct (Nat.lt_ge_cases n 33) as [L|L]; [|rewrite nth_late by exact L; apply st_idle].
  do 33 (destruct n as [|n]; [cbn [nth script fst snd];
    first [apply st_call; reflexivity|apply st_begin; reflexivity|apply rlock_free; reflexivity|apply rlock_queue; reflexivity|apply read_is; reflexivity
      |apply irlock_free; reflexivity|apply irlock_queue; reflexivity
      |eapply st_run; reflexivity|eapply st_irunlock; reflexivity|eapply st_runlock; reflexivity|eapply st_work; reflexivity|eapply st_built; reflexivity
      |eapply st_lock; reflexivity|eapply st_locked; [reflexivity|nobody]|eapply (st_set _ 1); reflexivity|eapply st_ilock; reflexivity|eapply st_ilocked; [reflexivity|nobody]
      |eapply st_destroy; reflexivity|eapply st_iunlock; reflexivity|apply (st_unlock _ 1 false); reflexivity|eapply st_ulock; reflexivity|eapply st_ulocked; [reflexivity|nobody]
      |eapply st_udestroy; reflexivity|eapply st_uunlock; reflexivity]|]).
  lia.
Qed.
Lemma at_rest : forall n, 33 <= n -> (forall t, search (state_after n) t = SNew \/ search (state_after n) t = SDone) /\ up (state_after n) = UIdle.
Proof.
  intros n L. induction L as [|n L (A & B)].
  - split; [|reflexivity]. intros t. destruct t as [|[|[|t]]]; [right; reflexivity|right; reflexivity|right; reflexivity|left; reflexivity].
  - change (state_after (S n)) with (snd (nth n script nothing) (state_after n)). rewrite nth_late by exact L. split; [exact A|exact B].
Qed.
Lemma waiting_fair : fair waiting.
Proof.
  intros a NE k. right. exists (k + 33). split; [lia|]. intros j L (es & s' & ST). cbn [waiting st] in ST.
  destruct (at_rest j ltac:(lia)) as (A & B). inversion ST; subst; try congruence; specialize (A t); destruct A; congruence.
Qed.
