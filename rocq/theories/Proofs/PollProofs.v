(** Polling: the update loop comes round (C95). *)
From Verif Require Import Model.Base Model.Server Spec.ServerSpec Spec.PollSpec Proofs.ServerProofs Proofs.ServerCounts Proofs.ServerStart Proofs.ServerLive Proofs.ServerTrace.
From Coq Require Import Lia.

Lemma done_by_stop : forall k c confs s a es s' i tr, runs (initial k c confs) tr s -> step a s es s' -> In (Done i) es ->
  poll (confs i) || push (confs i) = true -> In (StopSent i) tr.
Proof.
  intros k c confs s a es s' i tr R ST X P. pose proof (runs_inv _ _ _ _ _ R) as IV. pose proof (runs_heard _ _ _ i _ _ R) as HD.
  destruct ST; cbn in X; try (destruct (_ || _) eqn:EP; cbn in X);
    repeat destruct X as [X|X]; try discriminate; try contradiction; injection X as ->.
  - rewrite (v_conf _ _ _ _ IV), P in EP. discriminate.
  - apply (h_flag _ _ _ HD). auto.
Qed.

Section Polled.
Context (k c : nat) (confs : nat -> settings) (x : execution).
Hypothesis (C1 : 1 <= c) (EX : is_execution x (initial k c confs)) (FA : fair x).

Lemma poll_wait : forall i m, i < k -> timed (confs i) = true -> pl (repos (st x m) i) = PWait -> acted x i m.
Proof.
  intros i m L T E. destruct (next k c confs x C1 EX FA i m L) as (j & J1 & J2 & (K & _) & (MV & _)).
  { unfold free. rewrite E, (v_conf _ _ _ _ (inv_at k c confs x EX m)), T, !orb_true_r. reflexivity. }
  rewrite K, E in MV. apply (acted_le c x C1 i m (S j)); [lia|]. apply (act_check k c confs x C1 EX FA); assumption.
Qed.
Lemma poll_busy : forall r i m, i < k -> timed (confs i) = true -> prank (pl (repos (st x m) i)) = S r -> acted x i m.
Proof.
  induction r as [r IH] using lt_wf_ind. intros i m L T PR.
  destruct (next k c confs x C1 EX FA i m L) as (j & J1 & J2 & (K & _) & (MV & _)).
  { unfold free. destruct (pl (repos (st x m) i)); try discriminate PR; reflexivity. }
  apply (acted_le c x C1 i m (S j)); [lia|]. rewrite K in MV.
  destruct (pl (repos (st x m) i)) eqn:EP; try discriminate PR; cbn in PR.
  - destruct MV as (MV & _). apply (IH 3 ltac:(lia)); [exact L|exact T|rewrite MV; reflexivity].
  - destruct MV as [MV|MV]; [apply (IH 2 ltac:(lia))|apply (IH 0 ltac:(lia))]; try exact L; try exact T; rewrite MV; reflexivity.
  - destruct MV as [MV|MV]; [apply (IH 1 ltac:(lia))|apply (IH 0 ltac:(lia))]; try exact L; try exact T; rewrite MV; reflexivity.
  - apply (IH 0 ltac:(lia)); [exact L|exact T|rewrite MV; reflexivity].
  - apply poll_wait; assumption.
Qed.
Lemma poll_past : forall i m, i < k -> timed (confs i) = true -> past (pl (repos (st x m) i)) = true -> pl (repos (st x m) i) <> PDone -> acted x i m.
Proof.
  intros i m L T P D. destruct (prank (pl (repos (st x m) i))) as [|pr] eqn:PR; [|apply (poll_busy pr); assumption].
  destruct (pl (repos (st x m) i)) eqn:E; try contradiction; try discriminate PR; try discriminate P.
  - apply poll_wait; assumption.
  - apply (act_check k c confs x C1 EX FA); assumption.
  - apply (act_acquire k c confs x C1 EX FA); assumption.
Qed.
Lemma poll_gate : forall i m, i < k -> timed (confs i) = true -> pl (repos (st x m) i) = PGate -> updateCh (repos (st x m) i) = true -> acted x i m.
Proof.
  intros i m L T E U. destruct (next k c confs x C1 EX FA i m L) as (j & J1 & J2 & (K & _) & (MV & _)).
  { unfold free. rewrite E. exact U. }
  rewrite K, E in MV. destruct MV as (_ & _ & [(MV & _)|(_ & MV)]).
  - apply (acted_le c x C1 i m (S j)); [lia|]. apply poll_past; [exact L|exact T| |]; rewrite MV; [reflexivity|discriminate].
  - exists j. split; [exact J1|]. right. rewrite MV. right. left. reflexivity.
Qed.

Lemma returned_serves : forall m ss es, In (Return ss es) (ev x m) -> at_main (st x (S m)) = MServe /\ searchers (st x (S m)) = ss.
Proof.
  intros m ss es R. pose proof (step_at k c confs x EX m) as ST. destruct ST; cbn in R; try (destruct (_ || _); cbn in R);
    repeat destruct R as [R|R]; try discriminate; try contradiction. injection R as <- <-. cbn. auto.
Qed.

Theorem polled_again : forall i m0 ss es, In (Return ss es) (ev x m0) -> In i ss -> timed (confs i) = true -> poll (confs i) = true ->
  forall m, (exists j, m <= j /\ In (Attempt i) (ev x j)) \/ (exists j, In (Done i) (ev x j) /\ In (StopSent i) (before x j)).
Proof.
  intros i m0 ss es R I T P m. destruct (returned_serves m0 ss es R) as (M & SS). pose (m' := max m (S m0)).
  destruct (serving_from k c confs x C1 EX (S m0) m' ltac:(unfold m'; lia) M) as (M' & SS').
  assert (I' : In i (searchers (st x m'))) by (rewrite SS', SS; exact I).
  pose proof (inv_at k c confs x EX m') as IV. destruct (searcher_sent _ _ _ _ _ IV I') as (LT & _).
  pose proof (v_srch _ _ _ _ IV i I') as NN. pose proof (v_main _ _ _ _ IV) as G. rewrite M' in G. specialize (G i I').
  assert (DN : forall j, In (Done i) (ev x j) -> In (StopSent i) (before x j)).
  { intros j D. apply (done_by_stop k c confs (st x j) (ac x j) (ev x j) (st x (S j)) i); [apply (runs_before k c confs x EX)|apply (step_at k c confs x EX)|exact D|rewrite P; reflexivity]. }
  assert (AC : acted x i m' -> (exists j, m <= j /\ In (Attempt i) (ev x j)) \/ (exists j, In (Done i) (ev x j) /\ In (StopSent i) (before x j))).
  { intros (j & J & [A|A]); [left; exists j; split; [unfold m' in J; lia|exact A]|right; exists j; auto]. }
  destruct (pl (repos (st x m') i)) eqn:E; try contradiction.
  - apply AC. apply poll_gate; auto.
  - apply AC. apply poll_past; auto; rewrite E; [reflexivity|discriminate].
  - apply AC. apply poll_past; auto; rewrite E; [reflexivity|discriminate].
  - apply AC. apply poll_past; auto; rewrite E; [reflexivity|discriminate].
  - apply AC. apply poll_past; auto; rewrite E; [reflexivity|discriminate].
  - apply AC. apply poll_past; auto; rewrite E; [reflexivity|discriminate].
  - apply AC. apply poll_past; auto; rewrite E; [reflexivity|discriminate].
  - apply AC. apply poll_past; auto; rewrite E; [reflexivity|discriminate].
  - apply AC. apply poll_past; auto; rewrite E; [reflexivity|discriminate].
  - right. pose proof (runs_heard _ _ _ i _ _ (runs_before k c confs x EX m')) as HD.
    assert (Y : In (Done i) (before x m')) by (apply (h_done _ _ _ HD); rewrite E; reflexivity).
    apply (in_before c x C1) in Y. destruct Y as (j & _ & Y). exists j. auto.
Qed.
End Polled.

(** * Without a timer *)
Lemma attempts_app : forall i a b, attempts i (a ++ b) = attempts i a + attempts i b.
Proof. induction a as [|e a IH]; intros b; [reflexivity|]. cbn [app]. destruct e; cbn [attempts]; try apply IH. destruct (Nat.eq_dec i i0); rewrite IH; reflexivity. Qed.
Lemma asked_app : forall i a b, asked i (a ++ b) = asked i a + asked i b.
Proof. induction a as [|e a IH]; intros b; [reflexivity|]. cbn [app]. destruct e; cbn [asked]; try apply IH; destruct (Nat.eq_dec i i0); rewrite IH; reflexivity. Qed.
Definition one (b : bool) : nat := if b then 1 else 0.
Definition owed (r : repo) : nat :=
  (match pl r with PCheck | PAcquire | PHeld => 1 | _ => 0 end) + one (past (pl r) && updateCh r) + one (shutdownCh r).

Lemma owed_step : forall k c confs a s es s' i, inv k c confs s -> step a s es s' -> timed (confs i) = false ->
  attempts i es + owed (repos s' i) <= owed (repos s i) + asked i es.
Proof.
  intros k c confs a s es s' i IV ST T. pose proof (v_conf _ _ _ _ IV i) as CF.
  destruct ST; cbn [with_repo with_slots repos attempts asked]; try (cbn; lia);
    try (match goal with |- context [set_repo _ ?j _ _] => destruct (Nat.eq_dec i j) as [->|NE]; [rewrite set_same|rewrite set_other by exact NE] end);
    try (destruct (Nat.eq_dec i i); [|congruence]);
    try (match goal with |- context [Nat.eq_dec ?a ?b] => destruct (Nat.eq_dec a b); [congruence|] end);
    try (cbn; lia);
    unfold owed; cbn [set_wk set_pl take_update take_stop put_update put_stop put_flag set_made pl updateCh shutdownCh];
    try (match goal with H : pl _ = _ |- _ => rewrite H end; cbn [past one andb];
         try (match goal with H : updateCh _ = _ |- _ => rewrite H end); try (match goal with H : shutdownCh _ = _ |- _ => rewrite H end); cbn [past one andb];
         try (destruct (updateCh _)); try (destruct (shutdownCh _)); cbn [one]; lia).
  all: try (rewrite Nat.add_0_r; apply Nat.le_refl).
  - destruct ok; cbn [past one andb]; lia.
  - pose proof (v_main _ _ _ _ IV) as M. rewrite H in M. destruct M as (_ & _ & M & _). destruct (M i0 (or_introl eq_refl)) as ([P|P] & _); rewrite P; cbn [past andb one]; lia.
  - match goal with H : pl _ = _ |- _ => rewrite H end. destruct (_ || _); cbn [attempts asked past andb one]; lia.
  - destruct (_ || _); cbn [attempts asked]; lia.
  - rewrite CF, T in *. discriminate.
  - match goal with H : updateCh _ = _ |- _ => rewrite H end. destruct (past _); cbn [andb one]; lia.
  - match goal with H : shutdownCh _ = _ |- _ => rewrite H end. cbn [one]. lia.
Qed.
Theorem only_asked : forall k c confs tr s i, runs (initial k c confs) tr s -> timed (confs i) = false -> attempts i tr <= asked i tr.
Proof.
  intros k c confs tr s i R T. enough (attempts i tr + owed (repos s i) <= asked i tr) by lia.
  remember (initial k c confs) as s0 eqn:E. induction R as [s|s tr s1 a es s2 R IH ST]; subst; [cbn; lia|].
  specialize (IH eq_refl). rewrite attempts_app, asked_app. pose proof (owed_step k c confs a s1 es s2 i (runs_inv _ _ _ _ _ R) ST T). lia.
Qed.
(** * Without updates *)
Theorem never_asked : forall k c confs tr s i, runs (initial k c confs) tr s -> poll (confs i) || push (confs i) = false -> ~ In (Attempt i) tr.
Proof.
  intros k c confs tr s i R F. remember (initial k c confs) as s0 eqn:E. induction R as [s|s tr s1 a es s2 R IH ST]; subst; [tauto|].
  specialize (IH eq_refl). intros I. apply in_app_or in I. destruct I as [I|I]; [exact (IH I)|].
  pose proof (runs_heard _ _ _ i _ _ R) as HD. pose proof (runs_inv _ _ _ _ _ R) as IV.
  revert F. destruct ST; cbn in I; try (destruct (poll _ || push _) in I; cbn in I); repeat destruct I as [I|I]; try discriminate; try contradiction.
  injection I as ->. intros F. pose proof (h_idle _ _ _ HD) as X. rewrite (v_conf _ _ _ _ IV) in X. specialize (X F). rewrite H0 in X. specialize (X eq_refl). discriminate.
Qed.
