(** What happens eventually (C28, C30, C31). *)
From Verif Require Import Model.Base Model.Server Spec.ServerSpec Proofs.ServerProofs Proofs.ServerCounts Proofs.ServerStart.
From Coq Require Import Lia.

Definition is_poller (a : actor) (i : nat) : bool := match a with Poller j => Nat.eqb i j | _ => false end.
Definition is_worker (a : actor) (i : nat) : bool := match a with Worker j => Nat.eqb i j | _ => false end.

(** Others leave a poller where it is, and only add to its channels. *)
Definition keep (r r' : repo) : Prop :=
  pl r' = pl r /\ (updateCh r = true -> updateCh r' = true) /\ (shutdownCh r = true -> shutdownCh r' = true) /\
  (flag r = true -> flag r' = true) /\ conf r' = conf r.
Lemma keep_refl : forall r, keep r r. Proof. intros r. repeat split; auto. Qed.
Lemma keep_trans : forall a b c, keep a b -> keep b c -> keep a c.
Proof. intros a b c (A1 & A2 & A3 & A4 & A5) (B1 & B2 & B3 & B4 & B5). repeat split; auto; congruence. Qed.

Lemma other_step : forall k c confs s a es s' i, inv k c confs s -> step a s es s' -> is_poller a i = false ->
  pl (repos s i) <> PNone -> keep (repos s i) (repos s' i).
Proof.
  intros k c confs s a es s' i IV ST NP PN.
  destruct ST; cbn [with_repo with_slots repos]; try apply keep_refl;
  try (repo_case i i0; [|apply keep_refl]; try (cbn in NP; rewrite Nat.eqb_refl in NP; discriminate);
       try (repeat split; cbn; auto; fail)).
  (* made *)
  destruct (v_early _ _ _ _ IV i0) as (E & _); [rewrite H0; reflexivity|contradiction].
Qed.

Lemma other_worker : forall k c confs s a es s' i, inv k c confs s -> step a s es s' -> is_worker a i = false ->
  wk (repos s' i) = wk (repos s i).
Proof.
  intros k c confs s a es s' i IV ST NP.
  destruct ST; cbn [with_repo with_slots repos]; try reflexivity;
  try (repo_case i i0; [|reflexivity]; try (cbn in NP; rewrite Nat.eqb_refl in NP; discriminate); reflexivity).
Qed.

Section Execution.
Context (k c : nat) (confs : nat -> settings) (x : execution).
Context (C1 : 1 <= c) (EX : is_execution x (initial k c confs)) (FA : fair x).

Lemma step_at : forall m, step (ac x m) (st x m) (ev x m) (st x (S m)).
Proof. apply (proj2 EX). Qed.
Lemma runs_before : forall m, runs (initial k c confs) (before x m) (st x m).
Proof.
  induction m as [|m IH].
  - cbn. rewrite (proj1 EX). constructor.
  - unfold before. rewrite seq_S, flat_map_app. cbn. rewrite app_nil_r. eapply runs_step; [exact IH|apply step_at].
Qed.
Lemma inv_at : forall m, inv k c confs (st x m).
Proof. intros m. apply (runs_inv _ _ _ _ _ (runs_before m)). Qed.

Lemma first_of : forall (f : actor -> bool) m j, m <= j ->
  (exists a, m <= a /\ a < j /\ f (ac x a) = true /\ forall i, m <= i -> i < a -> f (ac x i) = false) \/
  (forall i, m <= i -> i < j -> f (ac x i) = false).
Proof.
  intros f m j L. induction j as [|j IH].
  - right. intros i A B. lia.
  - destruct (Nat.eq_dec m (S j)) as [->|NE]; [right; intros i A B; lia|].
    destruct IH as [(a & M1 & M2 & M3)|IH]; [lia|left; exists a; split; [lia|]; split; [lia|exact M3]|].
    destruct (f (ac x j)) eqn:E.
    + left. exists j. split; [lia|]. split; [lia|]. split; [exact E|]. intros i A B. apply IH; lia.
    + right. intros i A B. destruct (Nat.eq_dec i j) as [->|]; [exact E|apply IH; lia].
Qed.

Lemma stays : forall (P : server -> Prop) (f : actor -> bool) m,
  (forall j, P (st x j) -> f (ac x j) = false -> P (st x (S j))) ->
  P (st x m) -> forall j, m <= j -> (forall i, m <= i -> i < j -> f (ac x i) = false) -> P (st x j).
Proof.
  intros P f m HP PM j L. induction j as [|j IH]; intros Q.
  - assert (m = 0) by lia. subst. exact PM.
  - destruct (Nat.eq_dec m (S j)) as [->|NE]; [exact PM|]. apply HP; [apply IH; [lia|intros; apply Q; lia]|apply Q; lia].
Qed.

(** An actor that stays enabled until it moves, moves. *)
Lemma moves : forall a (P : server -> Prop) (f : actor -> bool) m, a <> Env -> (forall b, f b = true <-> b = a) ->
  (forall j, P (st x j) -> f (ac x j) = false -> P (st x (S j))) ->
  (forall j, m <= j -> exists j', j <= j' /\ (P (st x j') -> enabled a (st x j'))) ->
  P (st x m) -> exists j, m <= j /\ ac x j = a /\ P (st x j).
Proof.
  intros a P f m NE F HP HE PM.
  destruct (FA a NE m) as [(j & J1 & J2)|(j & J1 & J2)].
  - destruct (first_of f m j J1) as [(i & I1 & I2 & I3 & I4)|I].
    + exists i. split; [exact I1|]. split; [apply F; exact I3|]. apply (stays P f m); auto.
    + exists j. split; [exact J1|]. split; [exact J2|]. apply (stays P f m); auto.
  - destruct (HE j J1) as (j' & L & EN).
    destruct (first_of f m j' ltac:(lia)) as [(i & I1 & I2 & I3 & I4)|I].
    + exists i. split; [exact I1|]. split; [apply F; exact I3|]. apply (stays P f m); auto.
    + exfalso. apply (J2 j' L). apply EN. apply (stays P f m); auto. lia.
Qed.

Lemma is_poller_iff : forall i b, is_poller b i = true <-> b = Poller i.
Proof. intros i b. destruct b; cbn; split; try discriminate. - intros E. apply Nat.eqb_eq in E. congruence. - intros E. injection E as ->. apply Nat.eqb_refl. Qed.
Lemma is_worker_iff : forall i b, is_worker b i = true <-> b = Worker i.
Proof. intros i b. destruct b; cbn; split; try discriminate. - intros E. apply Nat.eqb_eq in E. congruence. - intros E. injection E as ->. apply Nat.eqb_refl. Qed.

Lemma follow : forall i m, i < k -> pl (repos (st x m) i) <> PNone ->
  (forall j, m <= j -> exists j', j <= j' /\ (keep (repos (st x m) i) (repos (st x j') i) -> enabled (Poller i) (st x j'))) ->
  exists j, m <= j /\ ac x j = Poller i /\ keep (repos (st x m) i) (repos (st x j) i).
Proof.
  intros i m L NP HE.
  apply (moves (Poller i) (fun s => keep (repos (st x m) i) (repos s i)) (fun a => is_poller a i)); auto.
  - discriminate.
  - intros b. apply is_poller_iff.
  - intros j KJ NJ. eapply keep_trans; [exact KJ|].
    apply (other_step k c confs _ _ _ _ _ (inv_at j) (step_at j) NJ). destruct KJ as (-> & _). exact NP.
  - apply keep_refl.
Qed.

(** Phases that never block. *)
Definition free (r : repo) : bool :=
  match pl r with
  | PCheck | PHeld | PPull | PBuild | PSwap | PRelease => true
  | PWait => updateCh r || shutdownCh r || timed (conf r)
  | PGate => updateCh r
  | _ => false end.
Lemma free_enabled : forall s i, i < n s -> free (repos s i) = true -> enabled (Poller i) s.
Proof.
  intros s i L F. unfold free in F. destruct (pl (repos s i)) eqn:E; try discriminate.
  - eexists. eexists. apply st_gate; assumption.
  - apply orb_prop in F. destruct F as [F|F]; [apply orb_prop in F; destruct F as [F|F]|].
    + eexists. eexists. apply st_update; assumption.
    + eexists. eexists. apply st_stop; assumption.
    + eexists. eexists. apply st_timer; assumption.
  - destruct (flag (repos s i)) eqn:G; [eexists; eexists; apply st_quit|eexists; eexists; apply st_go]; assumption.
  - eexists. eexists. apply st_work; assumption.
  - eexists. eexists. apply st_pulled; assumption.
  - eexists. eexists. apply st_built; assumption.
  - eexists. eexists. apply st_swapped; assumption.
  - eexists. eexists. apply st_release; assumption.
Qed.
Lemma free_keep : forall r r', keep r r' -> free r = true -> free r' = true.
Proof.
  intros r r' (K1 & K2 & K3 & K4 & K5). unfold free. rewrite K1, K5. destruct (pl r); auto.
  intros H. apply orb_prop in H. destruct H as [H|H]; [|rewrite H, !orb_true_r; reflexivity].
  apply orb_prop in H. destruct H as [H|H]; [rewrite (K2 H); reflexivity|rewrite (K3 H), orb_true_r; reflexivity].
Qed.

Lemma goes : forall i m, i < k -> free (repos (st x m) i) = true ->
  exists j, m <= j /\ ac x j = Poller i /\ keep (repos (st x m) i) (repos (st x j) i).
Proof.
  intros i m L F. apply follow; [exact L| |].
  - intros E. unfold free in F. rewrite E in F. discriminate.
  - intros j J. exists j. split; [lia|]. intros K. apply free_enabled; [rewrite (v_n _ _ _ _ (inv_at j)); exact L|].
    apply (free_keep _ _ K F).
Qed.

(** What a poller's step does. *)
Definition moved (i : nat) (r : repo) (es : list event) (r' : repo) : Prop :=
  match pl r with
  | PGate => updateCh r = true /\ shutdownCh r' = shutdownCh r /\
      ((pl r' = PWait /\ es = [Started i]) \/ (pl r' = PDone /\ es = [Started i; Done i]))
  | PWait => pl r' = PCheck
  | PCheck => (flag r = true /\ es = [Done i]) \/ (flag r = false /\ pl r' = PAcquire)
  | PAcquire => pl r' = PHeld
  | PHeld => pl r' = PPull /\ In (Attempt i) es
  | PPull => pl r' = PBuild \/ pl r' = PRelease
  | PBuild => pl r' = PSwap \/ pl r' = PRelease
  | PSwap => pl r' = PRelease
  | PRelease => pl r' = PWait
  | PNone | PDone => False
  end /\
  (pl r <> PWait -> pl r <> PGate -> updateCh r' = updateCh r /\ shutdownCh r' = shutdownCh r) /\
  flag r' = flag r /\ conf r' = conf r.

Lemma poller_moved : forall i s es s', step (Poller i) s es s' -> moved i (repos s i) es (repos s' i).
Proof.
  intros i s es s' ST. remember (Poller i) as a eqn:EA.
  destruct ST; inversion EA; subst i0; cbn [with_repo with_slots repos]; rewrite set_same; unfold moved; rewrite H0; cbn; repeat split; auto; try congruence.
  destruct (_ || _); auto.
Qed.

Lemma next : forall i m, i < k -> free (repos (st x m) i) = true ->
  exists j, m <= j /\ ac x j = Poller i /\ keep (repos (st x m) i) (repos (st x j) i) /\
    moved i (repos (st x j) i) (ev x j) (repos (st x (S j)) i).
Proof.
  intros i m L F. destruct (goes i m L F) as (j & J1 & J2 & J3). exists j. repeat (split; [assumption|]).
  apply poller_moved with (s := st x j) (s' := st x (S j)). rewrite <- J2. apply step_at.
Qed.

(** ** A slot becomes free *)
Definition prank (p : poller) : nat :=
  match p with PHeld => 5 | PPull => 4 | PBuild => 3 | PSwap => 2 | PRelease => 1 | _ => 0 end.

Lemma slots_le : forall m, slots (st x m) <= c.
Proof. intros m. apply (runs_counts _ _ _ _ _ (runs_before m)). Qed.

Lemma poller_releases : forall r i m, i < k -> prank (pl (repos (st x m) i)) = S r ->
  exists j, m <= j /\ slots (st x j) < c.
Proof.
  induction r as [r IH] using lt_wf_ind. intros i m L PR.
  assert (F : free (repos (st x m) i) = true) by (unfold free; destruct (pl (repos (st x m) i)); try discriminate PR; reflexivity).
  destruct (next i m L F) as (j & J1 & J2 & (K & _) & (MV & _)). pose proof (step_at j) as SJ. rewrite J2 in SJ.
  rewrite K in MV. destruct (pl (repos (st x m) i)) eqn:EP; try discriminate PR; cbn in PR.
  - destruct MV as (MV & _). destruct (IH 3 ltac:(lia) i (S j) L) as (a & A1 & A2); [rewrite MV; reflexivity|exists a; split; [lia|exact A2]].
  - destruct MV as [MV|MV].
    + destruct (IH 2 ltac:(lia) i (S j) L) as (a & A1 & A2); [rewrite MV; reflexivity|exists a; split; [lia|exact A2]].
    + destruct (IH 0 ltac:(lia) i (S j) L) as (a & A1 & A2); [rewrite MV; reflexivity|exists a; split; [lia|exact A2]].
  - destruct MV as [MV|MV].
    + destruct (IH 1 ltac:(lia) i (S j) L) as (a & A1 & A2); [rewrite MV; reflexivity|exists a; split; [lia|exact A2]].
    + destruct (IH 0 ltac:(lia) i (S j) L) as (a & A1 & A2); [rewrite MV; reflexivity|exists a; split; [lia|exact A2]].
  - destruct (IH 0 ltac:(lia) i (S j) L) as (a & A1 & A2); [rewrite MV; reflexivity|exists a; split; [lia|exact A2]].
  - exists (S j). split; [lia|]. pose proof (slots_le j) as SL. remember (Poller i) as a eqn:EA. remember (st x (S j)) as s' eqn:ES.
    destruct SJ; inversion EA; subst i0; try congruence. cbn. destruct (slots s); cbn; lia.
Qed.

Lemma worker_releases : forall r i m, i < k -> wholds (wk (repos (st x m) i)) = 1 -> wrank (wk (repos (st x m) i)) = r ->
  exists j, m <= j /\ slots (st x j) < c.
Proof.
  induction r as [r IH] using lt_wf_ind. intros i m L WH WR.
  destruct (moves (Worker i) (fun s => wk (repos s i) = wk (repos (st x m) i)) (fun a => is_worker a i) m) as (j & J1 & J2 & J3).
  - discriminate.
  - intros b. apply is_worker_iff.
  - intros j E NW. rewrite (other_worker k c confs _ _ _ _ _ (inv_at j) (step_at j) NW). exact E.
  - intros j J. exists j. split; [lia|]. intros E. pose proof (inv_at j) as IV. pose proof (v_n _ _ _ _ IV) as EN.
    rewrite <- E in WH. destruct (wk (repos (st x j) i)) eqn:EW; try discriminate WH.
    + eexists. eexists. apply st_wwork; [lia|exact EW].
    + eexists. eexists. apply (st_wmade _ _ true); [lia|exact EW].
    + eexists. eexists. apply (st_wsend _ _ ok); [lia|exact EW|].
      assert (X : length (i :: map fst (results (st x j))) <= length (seq 0 k)).
      { apply NoDup_incl_length.
        - pose proof (v_nodup _ _ _ _ IV) as ND. unfold listed in ND. constructor; [|apply NoDup_left in ND; exact ND].
          intros X. assert (Y : In i (listed (st x j))) by (unfold listed; apply in_or_app; left; exact X).
          apply (v_listed _ _ _ _ IV) in Y. rewrite EW in Y. destruct Y. discriminate.
        - intros a [<-|X]; apply in_seq; [lia|]. assert (Y : In a (listed (st x j))) by (unfold listed; apply in_or_app; left; exact X).
          apply (v_listed _ _ _ _ IV) in Y. lia. }
      cbn in X. rewrite map_length, seq_length in X. lia.
    + eexists. eexists. apply st_wrelease; [lia|exact EW].
  - reflexivity.
  - pose proof (step_at j) as SJ. rewrite J2 in SJ. pose proof (slots_le j) as SL.
    assert (DN : (wholds (wk (repos (st x (S j)) i)) = 1 /\ wrank (wk (repos (st x (S j)) i)) < r) \/ slots (st x (S j)) < c).
    { remember (Worker i) as a eqn:EA. remember (st x (S j)) as s' eqn:ES.
      destruct SJ; inversion EA; subst i0; rewrite <- J3, H0 in WH, WR; try discriminate WH; cbn [with_repo with_slots repos slots];
        rewrite set_same; cbn in WR |- *; try (left; split; [reflexivity|lia]).
      right. destruct (slots s); cbn; lia. }
    destruct DN as [(D1 & D2)|D].
    + destruct (IH _ D2 i (S j) L D1 eq_refl) as (a & A1 & A2). exists a. split; [lia|exact A2].
    + exists (S j). split; [lia|exact D].
Qed.

Lemma slot_frees : forall m, exists j, m <= j /\ slots (st x j) < c.
Proof.
  intros m. destruct (runs_counts _ _ _ _ _ (runs_before m)) as (A1 & A2 & _).
  destruct (Nat.eq_dec (slots (st x m)) c) as [E|E]; [|exists m; split; [lia|lia]].
  assert (P : 0 < Hs (st x m)) by lia. apply sum_pos in P. destruct P as (i & I1 & I2). cbn in I2.
  rewrite (v_n _ _ _ _ (inv_at m)) in I1. unfold holds in I2.
  destruct (wholds (wk (repos (st x m) i))) eqn:W.
  - destruct (prank (pl (repos (st x m) i))) as [|pr] eqn:PR; [|apply (poller_releases pr i m I1 PR)].
    destruct (pl (repos (st x m) i)); cbn in *; lia.
  - apply (worker_releases (wrank (wk (repos (st x m) i))) i m I1); [|reflexivity].
    destruct (wk (repos (st x m) i)); cbn in *; congruence.
Qed.

Lemma acquires : forall i m, i < k -> pl (repos (st x m) i) = PAcquire ->
  exists j, m <= j /\ keep (repos (st x m) i) (repos (st x j) i) /\
    moved i (repos (st x j) i) (ev x j) (repos (st x (S j)) i).
Proof.
  intros i m L E. destruct (follow i m L) as (j & J1 & J2 & J3).
  - rewrite E. discriminate.
  - intros j J. destruct (slot_frees j) as (j' & L1 & L2). exists j'. split; [exact L1|]. intros (K & _).
    pose proof (inv_at j') as IV. eexists. eexists. apply st_acquire; [rewrite (v_n _ _ _ _ IV); exact L|congruence|].
    rewrite (v_cap _ _ _ _ IV). exact L2.
  - exists j. split; [exact J1|]. split; [exact J3|]. apply poller_moved with (s := st x j) (s' := st x (S j)). rewrite <- J2. apply step_at.
Qed.

(** A startup worker gets its slot too. *)
Lemma worker_turn : forall i m, i < k -> wk (repos (st x m) i) = WStart -> exists j, m <= j /\ wk (repos (st x (S j)) i) = WHeld.
Proof.
  intros i m L E.
  destruct (moves (Worker i) (fun s => wk (repos s i) = WStart) (fun a => is_worker a i) m) as (j & J1 & J2 & J3); auto.
  - discriminate.
  - intros b. apply is_worker_iff.
  - intros j EJ NW. rewrite (other_worker k c confs _ _ _ _ _ (inv_at j) (step_at j) NW). exact EJ.
  - intros j J. destruct (slot_frees j) as (j' & L1 & L2). exists j'. split; [exact L1|]. intros EJ. pose proof (inv_at j') as IV.
    eexists. eexists. apply st_wacquire; [rewrite (v_n _ _ _ _ IV); exact L|exact EJ|rewrite (v_cap _ _ _ _ IV); exact L2].
  - exists j. split; [exact J1|]. pose proof (step_at j) as SJ. rewrite J2 in SJ. remember (Worker i) as a eqn:EA. remember (st x (S j)) as s' eqn:ES.
    destruct SJ; inversion EA; subst i0; try congruence. cbn. rewrite set_same. reflexivity.
Qed.
Lemma poller_turn : forall i m, i < k -> pl (repos (st x m) i) = PAcquire -> exists j, m <= j /\ pl (repos (st x (S j)) i) = PHeld.
Proof.
  intros i m L E. destruct (acquires i m L E) as (j & J1 & (K & _) & (MV & _)). exists j. split; [exact J1|]. rewrite K, E in MV. exact MV.
Qed.

(** ** An update request is carried out *)
Definition acted (i m : nat) : Prop := exists j, m <= j /\ (In (Attempt i) (ev x j) \/ In (Done i) (ev x j)).
Lemma acted_le : forall i m m', m <= m' -> acted i m' -> acted i m.
Proof. intros i m m' L (j & J & H). exists j. split; [lia|exact H]. Qed.

Lemma act_held : forall i m, i < k -> pl (repos (st x m) i) = PHeld -> acted i m.
Proof.
  intros i m L E. destruct (next i m L) as (j & J1 & J2 & (K & _) & (MV & _)); [unfold free; rewrite E; reflexivity|].
  rewrite K, E in MV. destruct MV as (_ & MV). exists j. auto.
Qed.
Lemma act_acquire : forall i m, i < k -> pl (repos (st x m) i) = PAcquire -> acted i m.
Proof.
  intros i m L E. destruct (poller_turn i m L E) as (j & J1 & J2). apply (acted_le i m (S j)); [lia|]. apply act_held; assumption.
Qed.
Lemma act_check : forall i m, i < k -> pl (repos (st x m) i) = PCheck -> acted i m.
Proof.
  intros i m L E. destruct (next i m L) as (j & J1 & J2 & (K & _) & (MV & _)); [unfold free; rewrite E; reflexivity|].
  rewrite K, E in MV. destruct MV as [(_ & MV)|(_ & MV)].
  - exists j. split; [exact J1|]. right. rewrite MV. left. reflexivity.
  - apply (acted_le i m (S j)); [lia|]. apply act_acquire; assumption.
Qed.
Lemma act_wait : forall i m, i < k -> pl (repos (st x m) i) = PWait -> updateCh (repos (st x m) i) = true -> acted i m.
Proof.
  intros i m L E U. destruct (next i m L) as (j & J1 & J2 & (K & _) & (MV & _)); [unfold free; rewrite E, U; reflexivity|].
  rewrite K, E in MV. apply (acted_le i m (S j)); [lia|]. apply act_check; assumption.
Qed.
Lemma act_busy : forall r i m, i < k -> prank (pl (repos (st x m) i)) = S r -> updateCh (repos (st x m) i) = true -> acted i m.
Proof.
  induction r as [r IH] using lt_wf_ind. intros i m L PR U.
  destruct (next i m L) as (j & J1 & J2 & (K & KU & _) & (MV & MU & _)).
  { unfold free. destruct (pl (repos (st x m) i)); try discriminate PR; reflexivity. }
  apply (acted_le i m (S j)); [lia|]. rewrite K in MV, MU. 
  assert (U' : updateCh (repos (st x (S j)) i) = true).
  { destruct MU as (-> & _); [| |apply KU; exact U]; intros X; rewrite X in PR; discriminate. }
  destruct (pl (repos (st x m) i)) eqn:EP; try discriminate PR; cbn in PR.
  - destruct MV as (MV & _). apply (IH 3 ltac:(lia)); [exact L|rewrite MV; reflexivity|exact U'].
  - destruct MV as [MV|MV]; [apply (IH 2 ltac:(lia))|apply (IH 0 ltac:(lia))]; try exact L; try exact U'; rewrite MV; reflexivity.
  - destruct MV as [MV|MV]; [apply (IH 1 ltac:(lia))|apply (IH 0 ltac:(lia))]; try exact L; try exact U'; rewrite MV; reflexivity.
  - apply (IH 0 ltac:(lia)); [exact L|rewrite MV; reflexivity|exact U'].
  - apply act_wait; assumption.
Qed.

Lemma act_any : forall i m, i < k -> updateCh (repos (st x m) i) = true ->
  pl (repos (st x m) i) <> PNone -> pl (repos (st x m) i) <> PGate -> pl (repos (st x m) i) <> PDone -> acted i m.
Proof.
  intros i m L U N1 N2 N3. destruct (prank (pl (repos (st x m) i))) as [|pr] eqn:PR; [|apply (act_busy pr); assumption].
  destruct (pl (repos (st x m) i)) eqn:E; try contradiction; try discriminate PR.
  - apply act_wait; assumption.
  - apply act_check; assumption.
  - apply act_acquire; assumption.
Qed.

(** ** A requested stop happens *)
Definition stops (i m : nat) : Prop := exists j, m <= j /\ In (Done i) (ev x j).
Lemma stops_le : forall i m m', m <= m' -> stops i m' -> stops i m.
Proof. intros i m m' L (j & J & H). exists j. split; [lia|exact H]. Qed.

Lemma stop_check : forall i m, i < k -> pl (repos (st x m) i) = PCheck -> flag (repos (st x m) i) = true -> stops i m.
Proof.
  intros i m L E F. destruct (next i m L) as (j & J1 & J2 & (K & _ & _ & KF & _) & (MV & _)); [unfold free; rewrite E; reflexivity|].
  rewrite K, E in MV. destruct MV as [(_ & MV)|(MF & _)]; [|rewrite (KF F) in MF; discriminate].
  exists j. split; [exact J1|]. rewrite MV. left. reflexivity.
Qed.
Definition woken (r : repo) : Prop := shutdownCh r = true \/ timed (conf r) = true.
Lemma woken_keep : forall r r', keep r r' -> woken r -> woken r'.
Proof. intros r r' (_ & _ & K3 & _ & K5) [H|H]; [left; auto|right; congruence]. Qed.

Lemma stop_wait : forall i m, i < k -> pl (repos (st x m) i) = PWait -> flag (repos (st x m) i) = true ->
  woken (repos (st x m) i) -> stops i m.
Proof.
  intros i m L E F W. destruct (next i m L) as (j & J1 & J2 & (K & _ & _ & KF & _) & (MV & _ & MF & _)).
  { unfold free. rewrite E. destruct W as [W|W]; rewrite W, ?orb_true_r; reflexivity. }
  rewrite K, E in MV. apply (stops_le i m (S j)); [lia|]. apply stop_check; [exact L|exact MV|]. rewrite MF. auto.
Qed.
Lemma stop_busy : forall r i m, i < k -> prank (pl (repos (st x m) i)) = S r -> flag (repos (st x m) i) = true ->
  woken (repos (st x m) i) -> stops i m.
Proof.
  induction r as [r IH] using lt_wf_ind. intros i m L PR F W.
  destruct (next i m L) as (j & J1 & J2 & KK & (MV & MU & MF & MC)).
  { unfold free. destruct (pl (repos (st x m) i)); try discriminate PR; reflexivity. }
  pose proof KK as (K & _ & _ & KF & KC).
  apply (stops_le i m (S j)); [lia|]. rewrite K in MV, MU.
  assert (F' : flag (repos (st x (S j)) i) = true) by (rewrite MF; auto).
  assert (W' : woken (repos (st x (S j)) i)).
  { destruct MU as (_ & MS); [intros X; rewrite X in PR; discriminate|intros X; rewrite X in PR; discriminate|].
    destruct (woken_keep _ _ KK W) as [W'|W']; [left; congruence|right; congruence]. }
  destruct (pl (repos (st x m) i)) eqn:EP; try discriminate PR; cbn in PR.
  - destruct MV as (MV & _). apply (IH 3 ltac:(lia)); auto. rewrite MV; reflexivity.
  - destruct MV as [MV|MV]; [apply (IH 2 ltac:(lia))|apply (IH 0 ltac:(lia))]; auto; rewrite MV; reflexivity.
  - destruct MV as [MV|MV]; [apply (IH 1 ltac:(lia))|apply (IH 0 ltac:(lia))]; auto; rewrite MV; reflexivity.
  - apply (IH 0 ltac:(lia)); auto. rewrite MV; reflexivity.
  - apply stop_wait; assumption.
Qed.
Lemma stop_acquire : forall i m, i < k -> pl (repos (st x m) i) = PAcquire -> flag (repos (st x m) i) = true ->
  woken (repos (st x m) i) -> stops i m.
Proof.
  intros i m L E F W. destruct (acquires i m L E) as (j & J1 & KK & (MV & MU & MF & MC)). pose proof KK as (K & _ & _ & KF & KC).
  rewrite K, E in MV, MU. apply (stops_le i m (S j)); [lia|]. apply (stop_busy 4); auto; [rewrite MV; reflexivity|rewrite MF; auto|].
  destruct MU as (_ & MS); [discriminate|discriminate|]. destruct (woken_keep _ _ KK W) as [W'|W']; [left|right]; congruence.
Qed.
Lemma stop_any : forall i m, i < k -> flag (repos (st x m) i) = true -> woken (repos (st x m) i) ->
  pl (repos (st x m) i) <> PNone -> (pl (repos (st x m) i) = PGate -> updateCh (repos (st x m) i) = true) ->
  pl (repos (st x m) i) = PDone \/ stops i m.
Proof.
  intros i m L F W N1 G. destruct (prank (pl (repos (st x m) i))) as [|pr] eqn:PR; [|right; apply (stop_busy pr); assumption].
  destruct (pl (repos (st x m) i)) eqn:E; try contradiction; try discriminate PR.
  - right. destruct (next i m L) as (j & J1 & J2 & KK & (MV & MU & MF & MC)); [unfold free; rewrite E; apply G; reflexivity|].
    pose proof KK as (K & _ & _ & KF & KC). rewrite K, E in MV. destruct MV as (_ & MS & [(MV & _)|(_ & MV)]).
    + apply (stops_le i m (S j)); [lia|]. apply stop_wait; [exact L|exact MV|rewrite MF; auto|].
      destruct (woken_keep _ _ KK W) as [W'|W']; [left|right]; congruence.
    + exists j. split; [exact J1|]. rewrite MV. right. left. reflexivity.
  - right. apply stop_wait; assumption.
  - right. apply stop_check; assumption.
  - right. apply stop_acquire; assumption.
  - left. reflexivity.
Qed.
End Execution.
