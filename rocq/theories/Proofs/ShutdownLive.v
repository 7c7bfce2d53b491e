(** The shutdown handler comes to its end. *)
From Verif Require Import Model.Base Model.Server Model.Shutdown Spec.ServerSpec Proofs.ServerProofs Proofs.ServerLive Proofs.ServerTrace Proofs.ServerStart Proofs.ShutdownProofs.
From Coq Require Import Lia Permutation.

Lemma handler_only : forall a p es p', pstep a p es p' -> a <> Handler -> hd p' = hd p.
Proof. intros a p es p' ST NE. destruct ST; try reflexivity; contradiction. Qed.
Lemma goroutines_quiet : forall a s es s', step a s es s' -> a <> Env -> (forall i, a <> Stopper i) -> quiet es.
Proof.
  intros a s es s' ST N1 N2. destruct ST; try contradiction; try (exfalso; apply (N2 i); reflexivity); intros j; cbn;
  try (destruct (_ || _); cbn); intuition discriminate.
Qed.
(** What the handler does next. *)
Definition follows (p : process) (es : list pevent) (h' : handler) : Prop :=
  match hd p with
  | HOff => h' = HIdle
  | HIdle => exists todo, h' = HStop todo
  | HStop (i :: todo) => h' = HWrite i todo \/ h' = HStop todo
  | HStop [] => exists todo, h' = HJoin todo
  | HWrite i todo => es = [Srv (StopWritten i)] /\ h' = HStop todo
  | HJoin (i :: todo) => h' = HJoin todo
  | HJoin [] => es = [Exit] /\ h' = HExit
  | HExit => False
  end.
Lemma handler_follows : forall p es p', pstep Handler p es p' -> follows p es (hd p').
Proof. intros p es p' ST. unfold follows. inversion ST; subst; cbn [hd]; eauto. Qed.

Lemma tookstop_step : forall a s es s' i, step a s es s' -> In (TookStop i) es -> pl (repos s i) = PWait.
Proof.
  intros a s es s' i ST I. destruct ST; cbn in I; try (destruct (_ || _); cbn in I); repeat destruct I as [I|I]; try discriminate; try contradiction.
  injection I as ->. assumption.
Qed.
Lemma written_step : forall a s es s' i, step a s es s' -> In (StopWritten i) es -> stopping (repos s i) <> 0.
Proof.
  intros a s es s' i ST I. destruct ST; cbn in I; try (destruct (_ || _); cbn in I); repeat destruct I as [I|I]; try discriminate; try contradiction.
  injection I as ->. congruence.
Qed.
(** A signal is not lost. *)
Definition called (p : process) : Prop := sig p = true \/ (hd p <> HOff /\ hd p <> HIdle).
Lemma called_step : forall a p es p', pstep a p es p' -> called p \/ In Signal es -> called p'.
Proof.
  intros a p es p' ST [C|C]; unfold called in *.
  - destruct ST; cbn [sig hd] in *; auto; try (right; split; discriminate).
    destruct C as [C|C]; [auto|]. destruct C as (C & _). congruence.
  - destruct ST; cbn [sig hd] in *; auto; try (cbn in C; intuition discriminate).
    apply in_map_iff in C. destruct C as (e & X & _). discriminate.
Qed.
Definition late (h : handler) : bool := match h with HJoin _ | HExit => true | _ => false end.
Lemma late_step : forall a p es p', pstep a p es p' -> late (hd p) = true -> late (hd p') = true.
Proof. intros a p es p' ST L. destruct ST; cbn [hd] in *; auto; discriminate. Qed.
Lemma exited_step : forall a p es p', pstep a p es p' -> hd p' = HExit -> hd p = HExit \/ In Exit es.
Proof. intros a p es p' ST L. destruct ST; cbn [hd] in *; try discriminate; auto. right. left. reflexivity. Qed.

Section Live.
Context (k c : nat) (confs : nat -> settings) (x : pexecution).
Context (C1 : 1 <= c) (EX : is_pexecution x (started k c confs)) (FA : pfair x).

Definition pbefore (m : nat) : list pevent := flat_map (pev x) (seq 0 m).
Lemma pbefore_S : forall m, pbefore (S m) = pbefore m ++ pev x m.
Proof. intros m. unfold pbefore. rewrite seq_S, flat_map_app. cbn. rewrite app_nil_r. reflexivity. Qed.
Lemma pruns_at : forall m, pruns (started k c confs) (pbefore m) (pst x m).
Proof.
  destruct EX as (E0 & ES). induction m as [|m IH]; [cbn; rewrite E0; constructor|].
  rewrite pbefore_S. eapply pruns_step; [exact IH|apply ES].
Qed.
Lemma pin_before : forall e m, In e (pbefore m) <-> exists j, j < m /\ In e (pev x j).
Proof.
  intros e m. unfold pbefore. rewrite in_flat_map. split.
  - intros (j & J & H). apply in_seq in J. exists j. split; [lia|exact H].
  - intros (j & J & H). exists j. split; [apply in_seq; lia|exact H].
Qed.
Lemma pinv_at : forall m, pinv (pbefore m) (pst x m).
Proof. intros m. apply (pruns_inv _ _ _ _ _ (pruns_at m)). Qed.

(** The server's own execution. *)
Definition seen : execution :=
  mkExecution (fun m => srv (pst x m)) (fun m => proj_ac (pac x m) (pev x m)) (fun m => proj_ev (pev x m)).
Lemma seen_exec : is_execution seen (initial k c confs).
Proof.
  destruct EX as (E0 & ES). split; [cbn; rewrite E0; reflexivity|]. intros m. apply proj_step, ES.
Qed.
Lemma seen_ev : forall e m, In e (ev seen m) <-> In (Srv e) (pev x m).
Proof. intros e m. apply proj_in. Qed.
Lemma seen_before : forall e m, In e (before seen m) <-> exists j, j < m /\ In e (ev seen j).
Proof.
  intros e m. unfold before. rewrite in_flat_map. split.
  - intros (j & J & H). apply in_seq in J. exists j. split; [lia|exact H].
  - intros (j & J & H). exists j. split; [apply in_seq; lia|exact H].
Qed.
Lemma seen_fair : forall a, a <> Env -> (forall i, a <> Stopper i) -> forall m,
  (exists j, m <= j /\ ac seen j = a) \/ (exists j, m <= j /\ forall j', j <= j' -> ~ enabled a (st seen j')).
Proof.
  intros a N1 N2 m. destruct (FA (Actor a)) with (k := m) as [(j & J1 & J2)|(j & J1 & J2)]; try congruence.
  - left. exists j. split; [exact J1|]. cbn. rewrite J2. reflexivity.
  - right. exists j. split; [exact J1|]. intros j' L (es & s' & ST). apply (J2 j' L).
    cbn in ST. destruct (pst x j') as [s h g]. cbn in ST. exists (map Srv es), (mkProcess s' h g).
    apply ps_server; [exact ST|apply (goroutines_quiet _ _ _ _ ST N1 N2)].
Qed.

(** ** The handler's turns *)
Lemma first_turn : forall m j, m <= j ->
  (exists i, m <= i /\ i < j /\ pac x i = Handler /\ hd (pst x i) = hd (pst x m)) \/ hd (pst x j) = hd (pst x m).
Proof.
  intros m j L. induction j as [|j IH].
  - right. assert (m = 0) by lia. subst. reflexivity.
  - destruct (Nat.eq_dec m (S j)) as [->|NE]; [auto|]. destruct IH as [(i & A & B & D & F)|E]; [lia| |].
    + left. exists i. repeat split; auto. 
    + assert (D : pac x j = Handler \/ pac x j <> Handler) by (destruct (pac x j); auto; right; discriminate).
      destruct D as [D|D].
      * left. exists j. split; [lia|]. split; [lia|]. split; [exact D|exact E].
      * right. rewrite <- E. apply (handler_only _ _ _ _ (proj2 EX j) D).
Qed.
Lemma turn : forall m, (exists m0, forall j, m0 <= j -> hd (pst x j) = hd (pst x m) -> penabled Handler (pst x j)) ->
  exists j, m <= j /\ follows (pst x m) (pev x j) (hd (pst x (S j))) /\ pac x j = Handler.
Proof.
  intros m (m0 & EN).
  assert (G : exists j, m <= j /\ pac x j = Handler /\ hd (pst x j) = hd (pst x m)).
  { destruct (FA Handler ltac:(discriminate) ltac:(discriminate) (Nat.max m m0)) as [(j & J1 & J2)|(j & J1 & J2)].
    - destruct (first_turn m j ltac:(lia)) as [(i & A & B & D & F)|E]; [exists i; auto|]. exists j. split; [lia|auto].
    - destruct (first_turn m j ltac:(lia)) as [(i & A & B & D & F)|E]; [exists i; auto|].
      exfalso. apply (J2 j (Nat.le_refl j)). apply EN; [lia|exact E]. }
  destruct G as (j & L & A & E). exists j. split; [exact L|]. split; [|exact A].
  pose proof (proj2 EX j) as ST. rewrite A in ST. apply handler_follows in ST. unfold follows in *. rewrite <- E. exact ST.
Qed.

Lemma kept : forall (P : process -> Prop), (forall a p es p', pstep a p es p' -> P p -> P p') -> forall m j, m <= j -> P (pst x m) -> P (pst x j).
Proof.
  intros P K m j L. induction j as [|j IH]; intros H.
  - assert (m = 0) by lia. subst. exact H.
  - destruct (Nat.eq_dec m (S j)) as [->|NE]; [exact H|]. apply (K _ _ _ _ (proj2 EX j)). apply IH; [lia|exact H].
Qed.
Lemma serves : forall m j, m <= j -> at_main (srv (pst x m)) = MServe ->
  at_main (srv (pst x j)) = MServe /\ searchers (srv (pst x j)) = searchers (srv (pst x m)).
Proof.
  intros m j L M. apply (kept (fun p => at_main (srv p) = MServe /\ searchers (srv p) = searchers (srv (pst x m)))) with (m := m); [|exact L|auto].
  intros a p es p' ST (A & B). destruct (serve_kept _ _ _ _ (proj_step _ _ _ _ ST) A) as (A' & B'). split; congruence.
Qed.

(** From the call of Stop on the first searcher to the end of that loop. *)
Lemma stops : forall r m todo, length todo <= r -> hd (pst x m) = HStop todo -> exists j, m <= j /\ late (hd (pst x j)) = true.
Proof.
  induction r as [r IH] using lt_wf_ind. intros m todo L E. destruct todo as [|i todo].
  - destruct (turn m) as (j & J & F & _).
    + exists 0. intros j _ EJ. pose proof (pi_stage _ _ (pinv_at j)) as SG. unfold stage in SG. rewrite EJ, E in SG.
      destruct (pst x j) as [s h g]. cbn [hd srv] in *. rewrite EJ, E.
      eexists _, _. apply (ps_stopped s (searchers s) g). apply Permutation_refl.
    + unfold follows in F. rewrite E in F. destruct F as (todo & F). exists (S j). split; [lia|]. rewrite F. reflexivity.
  - assert (SH : forall m2, m <= m2 -> hd (pst x m2) = HStop todo -> exists j, m <= j /\ late (hd (pst x j)) = true).
    { intros m2 L2 E2. destruct (IH (length todo)) with (m := m2) (todo := todo) as (j & J1 & J2); [cbn in L; lia|lia|exact E2|]. exists j. split; [lia|exact J2]. }
    destruct (turn m) as (j & J & F & _).
    + exists 0. intros j _ EJ. pose proof (pi_stage _ _ (pinv_at j)) as SG. unfold stage in SG. rewrite EJ, E in SG.
      destruct (pst x j) as [s h g]. cbn [hd srv] in *. rewrite EJ, E. destruct SG as (M & ND & IC & _).
      assert (IS : In i (searchers s)) by (apply IC; left; reflexivity).
      destruct (shutdownCh (repos s i)) eqn:SC.
      * eexists _, _. apply ps_full. apply st_stopfull; assumption.
      * eexists _, _. eapply ps_send. apply st_stopsend; assumption.
    + unfold follows in F. rewrite E in F. destruct F as [F|F]; [|apply (SH (S j)); [lia|exact F]].
      destruct (turn (S j)) as (j2 & J2 & F2 & _).
      * exists 0. intros j' _ EJ. pose proof (pi_stage _ _ (pinv_at j')) as SG. unfold stage in SG. rewrite EJ, F in SG.
        pose proof (runs_inv _ _ _ _ _ (proj_runs _ _ _ _ _ (pruns_at j'))) as IV.
        destruct (pst x j') as [s h g]. cbn [hd srv] in *. rewrite EJ, F. destruct SG as (M & ND & IC & SP & _).
        assert (IS : In i (searchers s)) by (apply IC; left; reflexivity).
        destruct (searcher_sent _ _ _ _ _ IV IS) as (LT & _).
        eexists _, _. eapply ps_write. eapply (st_stopwrite s i 0); [rewrite (v_n _ _ _ _ IV); exact LT|exact SP].
      * unfold follows in F2. rewrite F in F2. destruct F2 as (_ & F2). apply (SH (S j2)); [lia|exact F2].
Qed.
Lemma stops_all : forall m, called (pst x m) -> at_main (srv (pst x m)) = MServe -> exists j, m <= j /\ late (hd (pst x j)) = true.
Proof.
  assert (IDLE : forall m, called (pst x m) -> at_main (srv (pst x m)) = MServe -> hd (pst x m) = HIdle -> exists j, m <= j /\ late (hd (pst x j)) = true).
  { intros m C M E. destruct (turn m) as (j & J & F & _).
    - exists m. intros j L EJ. assert (CJ : called (pst x j)) by (apply (kept called (fun a p es p' ST X => called_step a p es p' ST (or_introl X)) m j L C)).
      destruct (pst x j) as [s h g]. unfold called in CJ. cbn [hd sig] in *. rewrite E in EJ. subst h.
      destruct CJ as [->|(_ & X)]; [|congruence]. eexists _, _. apply (ps_take s (searchers s)), Permutation_refl.
    - unfold follows in F. rewrite E in F. destruct F as (todo & F). destruct (stops _ (S j) todo (Nat.le_refl _) F) as (j2 & A & B).
      exists j2. split; [lia|exact B]. }
  intros m C M. destruct (hd (pst x m)) as [| |todo|i todo|todo|] eqn:E.
  - destruct (turn m) as (j & J & F & _).
    + exists m. intros j L EJ. destruct (serves m j L M) as (MJ & _). destruct (pst x j) as [s h g]. cbn [hd srv] in *. rewrite E in EJ. subst h.
      eexists _, _. apply ps_start. exact MJ.
    + unfold follows in F. rewrite E in F. destruct (IDLE (S j)) as (j2 & A & B).
      * apply (kept called (fun a p es p' ST X => called_step a p es p' ST (or_introl X)) m (S j)); [lia|exact C].
      * apply (serves m); [lia|exact M].
      * exact F.
      * exists j2. split; [lia|exact B].
  - apply IDLE; assumption.
  - apply (stops _ _ todo (Nat.le_refl _) E).
  - destruct (turn m) as (j2 & J2 & F2 & _).
    + exists 0. intros j' _ EJ. pose proof (pi_stage _ _ (pinv_at j')) as SG. unfold stage in SG. rewrite EJ, E in SG.
      pose proof (runs_inv _ _ _ _ _ (proj_runs _ _ _ _ _ (pruns_at j'))) as IV.
      destruct (pst x j') as [s h g]. cbn [hd srv] in *. rewrite EJ, E. destruct SG as (M' & ND & IC & SP & _).
      assert (IS : In i (searchers s)) by (apply IC; left; reflexivity).
      destruct (searcher_sent _ _ _ _ _ IV IS) as (LT & _).
      eexists _, _. eapply ps_write. eapply (st_stopwrite s i 0); [rewrite (v_n _ _ _ _ IV); exact LT|exact SP].
    + unfold follows in F2. rewrite E in F2. destruct F2 as (_ & F2). destruct (stops _ (S j2) todo (Nat.le_refl _) F2) as (j & A & B).
      exists j. split; [lia|exact B].
  - exists m. rewrite E. auto.
  - exists m. rewrite E. auto.
Qed.

(** Once every Stop has returned, the server's own execution is fair. *)
Lemma late_fair : forall m, late (hd (pst x m)) = true -> fair seen.
Proof.
  intros m L a NE k0. destruct a as [i| |i|i|]; try (apply seen_fair; [discriminate|intros; discriminate]); [|contradiction].
  right. exists (Nat.max k0 m). split; [lia|]. intros j J (es & s' & ST).
  assert (LJ : late (hd (pst x j)) = true).
  { apply (kept (fun p => late (hd p) = true) late_step m j); [lia|exact L]. }
  inversion ST; subst. cbn in *. destruct (pi_writing _ _ (pinv_at j) i) as (todo & X); [congruence|]. rewrite X in LJ. discriminate.
Qed.

Lemma no_stop_taken : forall i m, poll (confs i) || push (confs i) = false -> ~ In (TookStop i) (ev seen m).
Proof.
  intros i m D I. pose proof (step_at k c confs seen seen_exec m) as ST. pose proof (inv_at k c confs seen seen_exec m) as IV.
  pose proof (h_idle _ _ _ (runs_heard _ _ _ i _ _ (runs_before k c confs seen seen_exec m))) as HI. rewrite (v_conf _ _ _ _ IV) in HI. specialize (HI D).
  rewrite (tookstop_step _ _ _ _ _ ST I) in HI. discriminate (HI eq_refl).
Qed.

(** ** Joining *)
Definition wakes (i : nat) : Prop :=
  timed (confs i) = true \/ poll (confs i) || push (confs i) = false \/
  (forall m1 m2, In (Srv (StopSent i)) (pev x m1) -> In (Srv (StopWritten i)) (pev x m2) ->
    forall j, m1 < j -> j < m2 -> ~ In (Srv (TookStop i)) (pev x j)).
Lemma loop_ends : forall m i, late (hd (pst x m)) = true -> In i (searchers (srv (pst x m))) -> wakes i ->
  exists m', forall j, m' <= j -> pl (repos (srv (pst x j)) i) = PDone.
Proof.
  intros m i L IS W. pose proof (late_fair m L) as FS.
  assert (PD : forall j, In (Done i) (ev seen j) -> forall j', S j <= j' -> pl (repos (srv (pst x j')) i) = PDone).
  { intros j D j' LJ. pose proof (runs_heard _ _ _ i _ _ (runs_before k c confs seen seen_exec j')) as HD.
    assert (X : ended (pl (repos (st seen j') i)) = true) by (apply (h_done _ _ _ HD), seen_before; exists j; split; [lia|exact D]).
    cbn in X. destruct (pl (repos (srv (pst x j')) i)); try discriminate. reflexivity. }
  assert (DN : exists j, In (Done i) (ev seen j)); [|destruct DN as (j & D); exists (S j); apply (PD j D)].
  pose proof (pi_stage _ _ (pinv_at m)) as SG. unfold stage in SG.
  destruct (hd (pst x m)) as [| |todo|i0 todo|todo|] eqn:E; try discriminate L.
  - destruct SG as (M & IC & SW & _). specialize (SW i IS). apply pin_before in SW. destruct SW as (m2 & _ & W2). apply seen_ev in W2.
    destruct W as [W|W]; [apply (timed_stop_happens k c confs seen C1 seen_exec FS i m2 W W2)|].
    assert (X : exists m1, m1 < m2 /\ In (StopSent i) (ev seen m1)).
    { pose proof (step_at k c confs seen seen_exec m2) as ST.
      pose proof (h_flag _ _ _ (runs_heard _ _ _ i _ _ (runs_before k c confs seen seen_exec m2))) as HF.
      apply seen_before. apply HF. right.
      apply (written_step _ _ _ _ _ ST W2). }
    destruct X as (m1 & L1 & S1). apply (stop_happens k c confs seen C1 seen_exec FS i m1 m2 L1 S1 W2).
    intros j J1 J2. destruct W as [W|W]; [apply no_stop_taken; exact W|].
    rewrite seen_ev. apply (W m1 m2); [apply seen_ev; exact S1|apply seen_ev; exact W2|exact J1|exact J2].
  - destruct SG as (M & SD). specialize (SD i IS).
    pose proof (runs_heard _ _ _ i _ _ (runs_before k c confs seen seen_exec m)) as HD.
    assert (Y : In (Done i) (before seen m)) by (apply (h_done _ _ _ HD); cbn; rewrite SD; reflexivity).
    apply seen_before in Y. destruct Y as (j & _ & Y). exists j. exact Y.
Qed.
Lemma all_end : forall m l, late (hd (pst x m)) = true -> incl l (searchers (srv (pst x m))) -> (forall i, In i l -> wakes i) ->
  exists m', forall j i, m' <= j -> In i l -> pl (repos (srv (pst x j)) i) = PDone.
Proof.
  intros m l L. induction l as [|i l IH]; intros IC W.
  - exists 0. intros j i _ [].
  - destruct IH as (m1 & A); [intros j J; apply IC; right; exact J|intros j J; apply W; right; exact J|].
    destruct (loop_ends m i L (IC i (or_introl eq_refl)) (W i (or_introl eq_refl))) as (m2 & B).
    exists (Nat.max m1 m2). intros j i' J [<-|I]; [apply B; lia|apply A; [lia|exact I]].
Qed.
Lemma joins : forall m0 r m todo, (forall j i, m0 <= j -> In i todo -> pl (repos (srv (pst x j)) i) = PDone) ->
  length todo <= r -> hd (pst x m) = HJoin todo -> exists j, In Exit (pev x j).
Proof.
  intros m0. induction r as [|r IH]; intros m todo AD L E.
  - destruct todo as [|]; [|cbn in L; lia]. destruct (turn m) as (j & J & F & _).
    + exists 0. intros j _ EJ. destruct (pst x j) as [s h g]. cbn [hd] in *. rewrite EJ, E. eexists _, _. apply ps_exit.
    + unfold follows in F. rewrite E in F. destruct F as (F & _). exists j. rewrite F. left. reflexivity.
  - destruct todo as [|i todo]; [apply (IH m []); [intros ? ? _ []|cbn; lia|exact E]|].
    destruct (turn m) as (j & J & F & _).
    + exists m0. intros j LJ EJ. specialize (AD j i LJ (or_introl eq_refl)). destruct (pst x j) as [s h g]. cbn [hd srv] in *. rewrite EJ, E.
      eexists _, _. apply ps_join. exact AD.
    + unfold follows in F. rewrite E in F. apply (IH (S j) todo); [intros j' i' J' I'; apply AD; [exact J'|right; exact I']|cbn in L; lia|exact F].
Qed.
Lemma exits_after : forall m, called (pst x m) -> at_main (srv (pst x m)) = MServe ->
  (forall i, In i (searchers (srv (pst x m))) -> wakes i) -> exists j, In Exit (pev x j).
Proof.
  intros m CA M W. destruct (stops_all m CA M) as (j & J & L). destruct (serves m j J M) as (MJ & SJ).
  pose proof (pi_stage _ _ (pinv_at j)) as SG. unfold stage in SG.
  destruct (hd (pst x j)) as [| |todo|i0 todo|todo|] eqn:E; try discriminate L.
  - destruct SG as (_ & IC & _). destruct (all_end j todo) as (m0 & A); [rewrite E; reflexivity|exact IC|intros i I; apply W; rewrite <- SJ; apply IC, I|].
    apply (joins m0 _ j todo A (Nat.le_refl _) E).
  - clear -EX E. revert E. induction j as [|j IH]; intros E; [rewrite (proj1 EX) in E; discriminate|].
    destruct (exited_step _ _ _ _ (proj2 EX j) E) as [X|X]; [apply IH; exact X|exists j; exact X].
Qed.

Theorem exits : (exists m, In Signal (pev x m)) ->
  (forall i ss es m, In (Srv (Return ss es)) (pev x m) -> In i ss -> wakes i) ->
  (exists m, In (Srv Fail) (pev x m)) \/ (exists m, In Exit (pev x m)).
Proof.
  intros (ms & SG) W.
  destruct (startup_ends_for k c confs seen C1 seen_exec) as (m & [M|M]).
  - intros a SA. apply seen_fair; intros; intros ->; discriminate.
  - right. apply (exits_after (Nat.max m (S ms))).
    + apply (kept called (fun a p es p' ST X => called_step a p es p' ST (or_introl X)) (S ms)); [lia|].
      apply (called_step _ _ _ _ (proj2 EX ms)). right. exact SG.
    + apply (serves m); [lia|exact M].
    + intros i I. assert (MM : at_main (srv (pst x (Nat.max m (S ms)))) = MServe) by (apply (serves m); [lia|exact M]).
      pose proof (main_returned _ _ _ _ _ (proj_runs _ _ _ _ _ (pruns_at (Nat.max m (S ms)))) MM) as R.
      apply proj_in, pin_before in R. destruct R as (j & _ & R). apply (W i _ _ j R I).
  - left. assert (R : In Fail (before seen m)).
    { pose proof (runs_before k c confs seen seen_exec m) as R. remember (initial k c confs) as s0 eqn:E0. revert M.
      induction R as [|s0 tr s1 a es s2 R IH ST]; subst; intros M; [discriminate|].
      destruct ST; cbn in *; try discriminate; try (apply in_or_app; left; apply IH; auto; fail); try congruence.
      apply in_or_app. right. left. reflexivity. }
    apply seen_before in R. destruct R as (j & _ & R). exists j. apply seen_ev. exact R.
Qed.
End Live.
