(** What the events of a run say about the state (C30, C31). *)
From Verif Require Import Model.Base Model.Server Spec.ServerSpec Proofs.ServerProofs Proofs.ServerCounts Proofs.ServerStart Proofs.ServerLive.
From Coq Require Import Lia.

Definition past (p : poller) : bool := match p with PNone | PGate => false | _ => true end.
Definition ended (p : poller) : bool := match p with PDone => true | _ => false end.
Record heard (i : nat) (tr : list event) (r : repo) : Prop := {
  h_started : In (Started i) tr <-> past (pl r) = true;
  h_done : In (Done i) tr <-> ended (pl r) = true;
  h_flag : flag r = true \/ stopping r <> 0 -> In (StopSent i) tr;
  h_written : In (StopWritten i) tr -> flag r = true;
  h_idle : poll (conf r) || push (conf r) = false -> past (pl r) = true -> pl r = PDone }.

(** Events that say nothing of repository i. *)
Lemma heard_other : forall i tr es r r', heard i tr r ->
  (forall e, In e es -> e <> Started i /\ e <> Done i /\ e <> StopSent i /\ e <> StopWritten i) ->
  past (pl r') = past (pl r) -> ended (pl r') = ended (pl r) -> conf r' = conf r -> flag r' = flag r -> stopping r' = stopping r ->
  heard i (tr ++ es) r'.
Proof.
  intros i tr es r r' [A1 A2 A3 A4 A5] N E1 E2 E3 E4 E5.
  assert (NO : forall e, (e = Started i \/ e = Done i \/ e = StopSent i \/ e = StopWritten i) -> In e (tr ++ es) <-> In e tr).
  { intros e He. rewrite in_app_iff. split; [|auto]. intros [X|X]; [exact X|]. destruct (N e X) as (N1 & N2 & N3 & N4). destruct He as [He|[He|[He|He]]]; contradiction. }
  split.
  - rewrite NO, E1 by auto. exact A1.
  - rewrite NO, E2 by auto. exact A2.
  - rewrite NO, E4, E5 by auto. exact A3.
  - rewrite NO, E4 by auto. exact A4.
  - rewrite E3, E1. intros X Y. specialize (A5 X Y). rewrite A5 in E2. destruct (pl r'); try discriminate. reflexivity.
Qed.

Lemma heard_step : forall k c confs i tr s a es s', inv k c confs s -> heard i tr (repos s i) -> step a s es s' ->
  heard i (tr ++ es) (repos s' i).
Proof.
  intros k c confs i tr s a es s' IV HD ST.
  destruct ST; cbn [with_repo with_slots repos];
  try (apply (heard_other i tr _ (repos s i)); auto; intros e He; cbn in He; repeat destruct He as [<-|He]; repeat split; try discriminate; contradiction);
  try (repo_case i i0;
    [|apply (heard_other i tr _ (repos s i)); auto; intros e He; try destruct (_ || _); cbn in He; repeat destruct He as [<-|He]; repeat split; try discriminate; try contradiction; intros X; congruence]).
  all: try (apply (heard_other i0 tr _ (repos s i0)); auto; try (cbn; rewrite H0; reflexivity);
      intros e He; cbn in He; repeat destruct He as [<-|He]; repeat split; try discriminate; contradiction).
  - (* made *)
    destruct (v_early _ _ _ _ IV i0) as (E1 & (_ & _ & E2 & E3)); [rewrite H0; reflexivity|].
    apply (heard_other i0 tr _ (repos s i0)); auto.
    + intros e He; cbn in He; repeat destruct He as [<-|He]; repeat split; try discriminate; contradiction.
    + rewrite E1. destruct ok; reflexivity.
    + rewrite E1. destruct ok; reflexivity.
  - (* gate *)
    destruct HD as [A1 A2 A3 A4 A5]. rewrite H0 in A1, A2. cbn in A1, A2.
    destruct (_ || _) eqn:EP; split; cbn; rewrite ?in_app_iff; cbn.
    + split; auto.
    + split; [|discriminate]. intros [X|[X|X]]; try discriminate; try contradiction. apply A2. exact X.
    + auto.
    + intros [X|[X|X]]; try discriminate; try contradiction. apply A4; exact X.
    + congruence.
    + split; auto.
    + split; auto.
    + auto.
    + intros [X|[X|[X|X]]]; try discriminate; try contradiction. apply A4; exact X.
    + auto.
  - (* quit *)
    destruct HD as [A1 A2 A3 A4 A5]. rewrite H0 in A1. cbn in A1. split; cbn; rewrite ?in_app_iff; cbn.
    + rewrite A1. split; auto.
    + split; auto.
    + auto.
    + intros [X|[X|X]]; try discriminate; try contradiction. apply A4; exact X.
    + auto.
  - (* stopsend *)
    destruct HD as [A1 A2 A3 A4 A5]. split; cbn; rewrite ?in_app_iff; cbn.
    + rewrite A1. split; [intros [X|[X|X]]; try discriminate; try contradiction; exact X|auto].
    + rewrite A2. split; [intros [X|[X|X]]; try discriminate; try contradiction; exact X|auto].
    + auto.
    + intros [X|[X|X]]; try discriminate; try contradiction. auto.
    + exact A5.
  - (* stopwrite *)
    destruct HD as [A1 A2 A3 A4 A5]. split; cbn; rewrite ?in_app_iff; cbn.
    + rewrite A1. split; [intros [X|[X|X]]; try discriminate; try contradiction; exact X|auto].
    + rewrite A2. split; [intros [X|[X|X]]; try discriminate; try contradiction; exact X|auto].
    + intros _. left. apply A3. right. lia.
    + reflexivity.
    + exact A5.
Qed.
Lemma runs_heard : forall k c confs i tr s, runs (initial k c confs) tr s -> heard i tr (repos s i).
Proof.
  intros k c confs i tr s R. remember (initial k c confs) as s0 eqn:E. induction R; subst.
  - split; cbn; try tauto; try discriminate; try (split; [tauto|discriminate]). intros [X|X]; [discriminate|contradiction].
  - apply (heard_step k c confs i tr s1 a es s2); auto. apply (runs_inv _ _ _ _ _ R).
Qed.

(** ** C30 *)
Lemma ack_step : forall a s es s' i, step a s es s' -> In (Ack i) es ->
  at_main s = MServe /\ In i (searchers s) /\ push (conf (repos s i)) = true /\
  pl (repos s' i) = pl (repos s i) /\ updateCh (repos s' i) = true.
Proof.
  intros a s es s' i ST X. destruct ST; cbn in X; try (destruct (_ || _); cbn in X); 
    repeat destruct X as [X|X]; try discriminate; try contradiction; injection X as ->;
    cbn; rewrite ?set_same; cbn; auto.
Qed.
Lemma done_step : forall k c confs s a es s' i tr, runs (initial k c confs) tr s -> step a s es s' -> In (Done i) es ->
  push (confs i) = true -> In (StopSent i) tr.
Proof.
  intros k c confs s a es s' i tr R ST X P. pose proof (runs_inv _ _ _ _ _ R) as IV. pose proof (runs_heard _ _ _ i _ _ R) as HD.
  destruct ST; cbn in X; try (destruct (_ || _) eqn:EP; cbn in X); 
    repeat destruct X as [X|X]; try discriminate; try contradiction; injection X as ->.
  - rewrite (v_conf _ _ _ _ IV), P, orb_true_r in EP. discriminate.
  - apply (h_flag _ _ _ HD). auto.
Qed.

Lemma update_happens : forall k c confs x i m, 1 <= c -> is_execution x (initial k c confs) -> fair x ->
  In (Ack i) (ev x m) -> In (Started i) (before x m) -> ~ In (Done i) (before x m) ->
  exists j, m < j /\ (In (Attempt i) (ev x j) \/ (In (Done i) (ev x j) /\ In (StopSent i) (before x j))).
Proof.
  intros k c confs x i m C1 EX FA AK SD ND.
  pose proof (runs_before k c confs x EX m) as R. pose proof (inv_at k c confs x EX m) as IV.
  pose proof (runs_heard _ _ _ i _ _ R) as HD.
  destruct (ack_step _ _ _ _ _ (step_at k c confs x EX m) AK) as (A1 & A2 & A3 & A4 & A5).
  apply (h_started _ _ _ HD) in SD. rewrite (h_done _ _ _ HD) in ND.
  destruct (searcher_sent _ _ _ _ _ IV A2) as (LT & _).
  destruct (act_any k c confs x C1 EX FA i (S m) LT A5) as (j & J1 & J2);
    try (rewrite A4; intros X; rewrite X in *; cbn in *; congruence).
  exists j. split; [lia|]. destruct J2 as [J2|J2]; [left; exact J2|right]. split; [exact J2|].
  apply (done_step k c confs (st x j) (ac x j) (ev x j) (st x (S j)) i); auto.
  - apply (runs_before k c confs x EX).
  - apply (step_at k c confs x EX).
  - rewrite <- (v_conf _ _ _ _ IV). exact A3.
Qed.

(** Update never blocks. *)
Lemma update_enabled : forall s i, at_main s = MServe -> In i (searchers s) -> push (conf (repos s i)) = true ->
  exists s', step Env s [Ack i] s'.
Proof.
  intros s i M I P. destruct (updateCh (repos s i)) eqn:U; eexists; [apply st_ack_full|apply st_ack]; assumption.
Qed.

(** At most one request is pending: between two wakes by the update channel there is a
    request, and all the requests since the last wake make one more. *)
Definition fresh (i : nat) (tr : list event) (s : server) : Prop :=
  forall t1 t2, tr = t1 ++ TookUpdate i :: t2 -> ~ In (Ack i) t2 ->
    updateCh (repos s i) = false /\ past (pl (repos s i)) = true /\ ~ In (TookUpdate i) t2.

Lemma split_app : forall {A} (tr es t1 t2 : list A) e, tr ++ es = t1 ++ e :: t2 ->
  (exists t2', tr = t1 ++ e :: t2' /\ t2 = t2' ++ es) \/ (exists t1', es = t1' ++ e :: t2).
Proof.
  intros A tr. induction tr as [|a tr IH]; intros es t1 t2 e H; cbn in H.
  - right. exists t1. exact H.
  - destruct t1 as [|b t1]; cbn in H.
    + injection H as -> <-. left. exists tr. auto.
    + injection H as -> H. destruct (IH _ _ _ _ H) as [(t2' & -> & ->)|(t1' & X)]; [left; exists t2'; auto|right; exists t1'; exact X].
Qed.

Lemma took_step : forall a s es s' i, step a s es s' -> In (TookUpdate i) es ->
  es = [TookUpdate i] /\ updateCh (repos s i) = true /\ updateCh (repos s' i) = false /\ pl (repos s' i) = PCheck.
Proof.
  intros a s es s' i ST X. destruct ST; cbn in X; try (destruct (_ || _); cbn in X); 
    repeat destruct X as [X|X]; try discriminate; try contradiction; injection X as ->;
    cbn; rewrite ?set_same; cbn; auto.
Qed.
Lemma no_ack_step : forall k c confs a s es s' i, inv k c confs s -> step a s es s' -> past (pl (repos s i)) = true -> ~ In (Ack i) es ->
  updateCh (repos s i) = false -> updateCh (repos s' i) = false /\ past (pl (repos s' i)) = true.
Proof.
  intros k c confs a s es s' i IV ST PA NA U.
  assert (NP : pl (repos s i) <> PNone) by (intros X; rewrite X in PA; discriminate).
  assert (NG : pl (repos s i) <> PGate) by (intros X; rewrite X in PA; discriminate).
  destruct ST; cbn [with_repo with_slots repos]; auto;
  try (repo_case i i0; [|auto]; cbn; auto; fail).
  - repo_case i i0; [|auto]. destruct (v_early _ _ _ _ IV i0) as (E & _); [rewrite H0; reflexivity|contradiction].
  - (* begin *)
    pose proof (v_main _ _ _ _ IV) as M. rewrite H in M. destruct M as (_ & _ & M & _).
    destruct (M i0 (or_introl eq_refl)) as (Q & _). repo_case i i0; [|auto]. destruct Q; contradiction.
  - destruct (Nat.eq_dec i i0) as [->|NE]; [|rewrite set_other by assumption; auto]. destruct NA. left. reflexivity.
Qed.

Lemma runs_fresh : forall k c confs i tr s, runs (initial k c confs) tr s -> fresh i tr s.
Proof.
  intros k c confs i tr s R. remember (initial k c confs) as s0 eqn:E. induction R; subst.
  - intros t1 t2 X. destruct t1; discriminate.
  - specialize (IHR eq_refl). intros t1 t2 X NA. destruct (split_app _ _ _ _ _ X) as [(t2' & X1 & X2)|(t1' & X1)].
    + subst t2. destruct (IHR t1 t2' X1) as (A1 & A2 & A3); [intros Y; apply NA, in_or_app; auto|].
      destruct (no_ack_step _ _ _ _ _ _ _ i (runs_inv _ _ _ _ _ R) H A2) as (B1 & B2); auto; [intros Y; apply NA, in_or_app; auto|].
      split; [exact B1|]. split; [exact B2|]. intros Y. apply in_app_or in Y. destruct Y as [Y|Y]; [contradiction|].
      destruct (took_step _ _ _ _ _ H Y) as (_ & Z & _). congruence.
    + destruct (took_step _ _ _ _ i H) as (E1 & E2 & E3 & E4); [rewrite X1; apply in_or_app; right; left; reflexivity|].
      rewrite E1 in X1. assert (t2 = []) as ->.
      { destruct t1' as [|b [|b' t1']]; cbn in X1; try discriminate. - congruence. }
      split; [exact E3|]. rewrite E4. auto.
Qed.
Lemma one_pending : forall k c confs i t1 t2 t3 s,
  runs (initial k c confs) (t1 ++ TookUpdate i :: t2 ++ TookUpdate i :: t3) s -> In (Ack i) t2.
Proof.
  intros k c confs i t1 t2 t3 s R.
  destruct (in_dec (fun a b : event => ltac:(decide equality; try apply (list_eq_dec Nat.eq_dec); try apply Nat.eq_dec; try apply Bool.bool_dec) : {a = b} + {a <> b}) (Ack i) t2) as [X|X]; [exact X|].
  (* cut the run after the second wake *)
  remember (initial k c confs) as s0 eqn:E0. remember (t1 ++ TookUpdate i :: t2 ++ TookUpdate i :: t3) as tr eqn:ET.
  revert t3 ET. induction R; intros t3 ET; subst.
  - destruct t1; discriminate.
  - specialize (IHR eq_refl).
    assert (ET' : tr ++ es = (t1 ++ TookUpdate i :: t2) ++ TookUpdate i :: t3) by (rewrite ET, <- app_assoc; reflexivity).
    destruct (split_app _ _ _ _ _ ET') as [(t & X1 & X2)|(t & X1)].
    + apply (IHR t). rewrite X1, <- app_assoc. reflexivity.
    + destruct (took_step _ _ _ _ i H) as (E1 & E2 & _); [rewrite X1; apply in_or_app; right; left; reflexivity|].
      rewrite E1 in X1. assert (t3 = [] /\ t = []) as (-> & ->).
      { destruct t as [|b [|b' t]]; cbn in X1; try discriminate. split; congruence. }
      rewrite E1 in ET'. apply app_inj_tail in ET'. destruct ET' as (ET' & _).
      destruct (runs_fresh _ _ _ i _ _ R t1 t2 ET' X) as (A1 & _). congruence.
Qed.

(** ** C31 *)
Lemma stopsent_step : forall a s es s' i, step a s es s' -> In (StopSent i) es ->
  shutdownCh (repos s' i) = true /\ In i (searchers s) /\ at_main s = MServe.
Proof.
  intros a s es s' i ST X. destruct ST; cbn in X; try (destruct (_ || _); cbn in X); 
    repeat destruct X as [X|X]; try discriminate; try contradiction; injection X as ->;
    cbn; rewrite ?set_same; cbn; auto.
Qed.
Lemma stop_kept : forall k c confs a s es s' i, inv k c confs s -> step a s es s' -> shutdownCh (repos s i) = true ->
  ~ In (TookStop i) es -> shutdownCh (repos s' i) = true.
Proof.
  intros k c confs a s es s' i IV ST U NA. destruct ST; cbn [with_repo with_slots repos]; auto;
  try (repo_case i i0; [|auto]; cbn; auto; fail).
  - repo_case i i0; [|auto]. destruct (v_early _ _ _ _ IV i0) as (_ & (_ & E & _)); [rewrite H0; reflexivity|congruence].
  - destruct (Nat.eq_dec i i0) as [->|NE]; [|rewrite set_other by assumption; auto]. destruct NA. left. reflexivity.
Qed.
Lemma serve_kept : forall a s es s', step a s es s' -> at_main s = MServe -> at_main s' = MServe /\ searchers s' = searchers s.
Proof. intros a s es s' ST M. destruct ST; cbn; auto; congruence. Qed.

Section Stopping.
Context (k c : nat) (confs : nat -> settings) (x : execution).
Context (C1 : 1 <= c) (EX : is_execution x (initial k c confs)) (FA : fair x).

Lemma serving_from : forall m j, m <= j -> at_main (st x m) = MServe -> at_main (st x j) = MServe /\ searchers (st x j) = searchers (st x m).
Proof.
  intros m j L M. induction j as [|j IH].
  - assert (m = 0) by lia. subst. auto.
  - destruct (Nat.eq_dec m (S j)) as [->|NE]; [auto|]. destruct IH as (A & B); [lia|].
    destruct (serve_kept _ _ _ _ (step_at k c confs x EX j) A) as (A' & B'). split; congruence.
Qed.
Lemma in_before : forall e m, In e (before x m) <-> exists j, j < m /\ In e (ev x j).
Proof.
  intros e m. unfold before. rewrite in_flat_map. split.
  - intros (j & J & H). apply in_seq in J. exists j. split; [lia|exact H].
  - intros (j & J & H). exists j. split; [apply in_seq; lia|exact H].
Qed.

Lemma stop_from : forall i m, In i (searchers (st x m)) -> at_main (st x m) = MServe -> flag (repos (st x m) i) = true ->
  shutdownCh (repos (st x m) i) = true \/ timed (confs i) = true -> exists j, In (Done i) (ev x j).
Proof.
  intros i m IS M F W. pose proof (inv_at k c confs x EX m) as IV. destruct (searcher_sent _ _ _ _ _ IV IS) as (LT & _).
  destruct (stop_any k c confs x C1 EX FA i m LT F) as [X|(j & _ & X)].
  - destruct W as [W|W]; [left; exact W|right; rewrite (v_conf _ _ _ _ IV); exact W].
  - apply (v_srch _ _ _ _ IV). exact IS.
  - pose proof (v_main _ _ _ _ IV) as Q. rewrite M in Q. apply Q. exact IS.
  - pose proof (runs_heard _ _ _ i _ _ (runs_before k c confs x EX m)) as HD.
    assert (Y : In (Done i) (before x m)) by (apply (h_done _ _ _ HD); rewrite X; reflexivity).
    apply in_before in Y. destruct Y as (j & _ & Y). exists j. exact Y.
  - exists j. exact X.
Qed.

Lemma flag_after : forall i m, In (StopWritten i) (ev x m) -> flag (repos (st x (S m)) i) = true.
Proof.
  intros i m W. apply (h_written _ _ _ (runs_heard _ _ _ i _ _ (runs_before k c confs x EX (S m)))).
  apply in_before. exists m. split; [lia|exact W].
Qed.

Lemma stop_happens : forall i m1 m2, m1 < m2 -> In (StopSent i) (ev x m1) -> In (StopWritten i) (ev x m2) ->
  (forall j, m1 < j -> j < m2 -> ~ In (TookStop i) (ev x j)) -> exists j, In (Done i) (ev x j).
Proof.
  intros i m1 m2 L S1 S2 NT.
  destruct (stopsent_step _ _ _ _ _ (step_at k c confs x EX m1) S1) as (U & IS & M).
  destruct (serving_from m1 (S m2) ltac:(lia) M) as (M' & IS').
  apply (stop_from i (S m2)); [rewrite IS'; exact IS|exact M'|apply flag_after; exact S2|left].
  assert (G : forall j, m1 < j -> j <= S m2 -> shutdownCh (repos (st x j) i) = true); [|apply G; lia].
  induction j as [|j IH]; intros J1 J2; [lia|]. destruct (Nat.eq_dec j m1) as [->|NE]; [exact U|].
  apply (stop_kept k c confs _ _ _ _ i (inv_at k c confs x EX j) (step_at k c confs x EX j)); [apply IH; lia|].
  destruct (Nat.eq_dec j m2) as [->|NE2]; [|apply NT; lia].
  intros X. pose proof (step_at k c confs x EX m2) as ST. remember (ev x m2) as es eqn:EE. clear -ST S2 X.
  destruct ST; cbn in S2; try (destruct (_ || _); cbn in S2); repeat destruct S2 as [S2|S2]; try discriminate; try contradiction.
  destruct X as [X|[]]. discriminate.
Qed.

Lemma timed_stop_happens : forall i m, timed (confs i) = true -> In (StopWritten i) (ev x m) -> exists j, In (Done i) (ev x j).
Proof.
  intros i m T W. pose proof (flag_after i m W) as F.
  pose proof (h_flag _ _ _ (runs_heard _ _ _ i _ _ (runs_before k c confs x EX (S m))) (or_introl F)) as Z.
  apply in_before in Z. destruct Z as (m1 & L & S1).
  destruct (stopsent_step _ _ _ _ _ (step_at k c confs x EX m1) S1) as (U & IS & M).
  destruct (serving_from m1 (S m) ltac:(lia) M) as (M' & IS').
  apply (stop_from i (S m)); [rewrite IS'; exact IS|exact M'|exact F|right; exact T].
Qed.
End Stopping.
