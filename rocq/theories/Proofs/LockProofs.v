(** Nobody waits for ever (C96). *)
From Verif Require Import Model.Base Model.Locks.
From Coq Require Import Lia.

(** * Invariants *)
Record linv (s : state) : Prop := {
  l_few : exists b, forall t, b <= t -> search s t = SNew;
  (* in a queue only while the writer is there *)
  l_queue : forall t k, search s t = SQueue k -> s_free (up s) = false;
  l_queued : forall t i k, search s t = SQueued i k -> i_free i (up s) = false;
  (* with the update loop in possession of s.lck there is no reader *)
  l_excl : match up s with UHoldS _ | USet _ _ | UWantI _ _ _ | UHoldI _ _ _ | UResult _ _ => forall t, reads_s (search s t) = false | _ => True end }.
Lemma set_search_same : forall s t p, search (set_search s t p) t = p.
Proof. intros. cbn. rewrite Nat.eqb_refl. reflexivity. Qed.
Lemma set_search_other : forall s t p t', t' <> t -> search (set_search s t p) t' = search s t'.
Proof. intros. cbn. destruct (Nat.eqb_spec t' t); congruence. Qed.
Lemma few_set : forall s t p, (exists b, forall t, b <= t -> search s t = SNew) -> exists b, forall t', b <= t' -> search (set_search s t p) t' = SNew.
Proof.
  intros s t p (b & B). exists (max b (S t)). intros t' L. rewrite set_search_other by lia. apply B. lia.
Qed.
(** A search moves. *)
Lemma linv_search : forall s t p, linv s -> (forall k, p = SQueue k -> s_free (up s) = false) -> (forall i k, p = SQueued i k -> i_free i (up s) = false) ->
  (reads_s p = true -> reads_s (search s t) = true \/ s_free (up s) = true) -> linv (set_search s t p).
Proof.
  intros s t p [A B C D] H1 H2 H3. split.
  - apply few_set. exact A.
  - intros t' k. cbn. destruct (Nat.eqb_spec t' t) as [->|N]; [intros ->; eapply H1; reflexivity|apply B].
  - intros t' i k. cbn. destruct (Nat.eqb_spec t' t) as [->|N]; [intros ->; eapply H2; reflexivity|apply C].
  - cbn [set_search up]. assert (G : (forall t, reads_s (search s t) = false) -> s_free (up s) = false -> forall t', reads_s (search (set_search s t p) t') = false).
    { intros E F t'. cbn. destruct (Nat.eqb_spec t' t) as [->|N]; [|apply E]. destruct (reads_s p) eqn:R; [|reflexivity].
      destruct (H3 eq_refl) as [X|X]; [rewrite E in X; discriminate|congruence]. }
    destruct (up s) eqn:U; try exact Logic.I; apply G; auto.
Qed.
(** The update loop moves, without giving a lock back. *)
Lemma linv_up : forall s c m u, linv s -> (s_free u = true -> s_free (up s) = true) -> (forall i, i_free i u = true -> i_free i (up s) = true) ->
  match u with UHoldS _ | USet _ _ | UWantI _ _ _ | UHoldI _ _ _ | UResult _ _ => forall t, reads_s (search s t) = false | _ => True end ->
  linv (mkState c m (search s) u).
Proof.
  intros s c m u [A B C D] H1 H2 H3. split; cbn [search up]; auto.
  - intros t k Q. specialize (B t k Q). destruct (s_free u); [rewrite H1 in B by reflexivity; discriminate|reflexivity].
  - intros t i k Q. specialize (C t i k Q). destruct (i_free i u) eqn:F; [rewrite (H2 i F) in C; discriminate|reflexivity].
Qed.
Lemma wake_i_reads : forall i p, reads_s (wake_i i p) = reads_s p.
Proof. intros i p. destruct p; cbn; try reflexivity. destruct (Nat.eqb i i0); reflexivity. Qed.
Lemma linv_step : forall a s es s', linv s -> step a s es s' -> linv s'.
Proof.
  intros a s es s' IV ST. pose proof IV as [A B C D]. destruct ST.
  - apply linv_search; try discriminate. exact IV.
  - apply linv_up; cbn; auto; rewrite H; auto.
  - exact IV.
  - apply linv_search; [exact IV| | |]; destruct (s_free (up s)) eqn:F; try discriminate; auto.
  - apply linv_search; [exact IV|discriminate|discriminate|]. intros _. rewrite H. auto.
  - apply linv_search; [exact IV| | |]; destruct (i_free i (up s)) eqn:F; try discriminate.
    + intros i' k' E. injection E as <- <-. exact F.
    + rewrite H. auto.
    + rewrite H. auto.
  - apply linv_search; [exact IV|discriminate|discriminate|]. intros _. rewrite H. auto.
  - apply linv_search; [exact IV|discriminate|discriminate|]. intros _. rewrite H. auto.
  - apply linv_search; [exact IV|discriminate|discriminate|]. discriminate.
  - apply linv_up; cbn; auto; rewrite H; auto.
  - apply linv_up; cbn; auto; rewrite H; auto.
  - apply linv_up; cbn; auto; rewrite H; auto.
  - apply linv_up; cbn; auto; rewrite H; auto.
  - apply linv_up; cbn; auto; rewrite H; auto.
  - rewrite H in D. apply linv_up; cbn; auto; rewrite H; auto.
  - rewrite H in D. apply linv_up; cbn; auto; try rewrite H; auto.
  - rewrite H in D. apply linv_up; cbn; auto; rewrite H; auto.
  - rewrite H in D. apply linv_up; cbn; auto; rewrite H; auto.
  - rewrite H in D. split; cbn [set_up_wake search up].
    + destruct A as (b & A). exists b. intros t L. rewrite (A t L). reflexivity.
    + reflexivity.
    + intros t i k Q. destruct (search s t) eqn:E; cbn in Q; try discriminate. destruct (Nat.eqb_spec old i0) as [->|N]; [discriminate|].
      exfalso. pose proof (C t _ _ E) as X. rewrite H in X. cbn in X. apply Bool.negb_false_iff, Nat.eqb_eq in X. congruence.
    + intros t. rewrite wake_i_reads. apply D.
  - rewrite H in D. split; cbn [set_up_wake search up].
    + destruct A as (b & A). exists b. intros t L. rewrite (A t L). reflexivity.
    + intros t k Q. destruct (search s t); discriminate.
    + intros t i k Q. destruct (search s t) eqn:E; cbn in Q; try discriminate. pose proof (C t _ _ E) as X. rewrite H in X. discriminate.
    + destruct ok; exact Logic.I.
  - apply linv_up; cbn; auto; rewrite H; auto.
  - apply linv_up; cbn; auto; rewrite H; auto.
  - apply linv_up; cbn; auto; rewrite H; auto.
  - split; cbn [set_up_wake search up].
    + destruct A as (b & A). exists b. intros t L. rewrite (A t L). reflexivity.
    + intros t k Q. destruct (search s t) eqn:E; cbn in Q; try discriminate; [|destruct (Nat.eqb n i); discriminate]. pose proof (B t _ E) as X. rewrite H in X. discriminate.
    + intros t i k Q. destruct (search s t) eqn:E; cbn in Q; try discriminate. destruct (Nat.eqb_spec n i0) as [->|N]; [discriminate|].
      exfalso. pose proof (C t _ _ E) as X. rewrite H in X. cbn in X. apply Bool.negb_false_iff, Nat.eqb_eq in X. congruence.
    + exact Logic.I.
Qed.

Lemma actor_dec : forall a b : actor, {a = b} + {a <> b}.
Proof. decide equality. apply Nat.eq_dec. Qed.

(** * What others leave alone *)
Lemma up_kept : forall a s es s', step a s es s' -> a <> Updater -> up s <> UIdle -> up s' = up s.
Proof. intros a s es s' ST NU NI. destruct ST; try congruence; reflexivity. Qed.
Definition still (p : sphase) : Prop := match p with SNew | SQueue _ | SQueued _ _ => False | _ => True end.
Lemma wake_s_still : forall p, still p -> wake_s p = p.
Proof. intros p. destruct p; cbn; tauto. Qed.
Lemma wake_i_still : forall i p, still p -> wake_i i p = p.
Proof. intros i p. destruct p; cbn; tauto. Qed.
Lemma search_kept : forall a s es s' t, step a s es s' -> a <> Search t -> still (search s t) -> search s' t = search s t.
Proof.
  intros a s es s' t ST NT SL.
  destruct ST; cbn [set_up set_up_wake search]; try reflexivity;
    try (apply set_search_other; congruence);
    try (apply wake_i_still; exact SL); try (apply wake_s_still; exact SL).
  apply set_search_other. intros ->. rewrite H in SL. exact SL.
Qed.
(** Who does not read, does not come to while the writer waits. *)
Lemma stays_out_s : forall a s es s' n t, step a s es s' -> a <> Updater -> up s = UWantS n -> reads_s (search s t) = false -> reads_s (search s' t) = false.
Proof.
  intros a s es s' n t ST NU U R. destruct ST; try congruence; cbn [set_up search set_search];
    destruct (Nat.eqb_spec t t0) as [->|N]; auto; try (rewrite H in R; discriminate).
  rewrite U. reflexivity.
Qed.
Lemma stays_out_i : forall a s es s' i t, step a s es s' -> a <> Updater -> i_free i (up s) = false -> reads_i i (search s t) = false -> reads_i i (search s' t) = false.
Proof.
  intros a s es s' i t ST NU U R. destruct ST; try congruence; cbn [set_up search set_search];
    try (destruct (Nat.eqb_spec t t0) as [->|N]; [|exact R]); auto; try (rewrite H in R; exact R).
  - destruct (s_free (up s)); reflexivity.
  - destruct (i_free i0 (up s)) eqn:F; [|reflexivity]. cbn. destruct (Nat.eqb_spec i i0) as [->|N]; [congruence|reflexivity].
Qed.

Section Execution.
Context (x : execution) (EX : is_execution x) (FA : fair x).

Lemma l_at : forall m, step (ac x m) (st x m) (ev x m) (st x (S m)).
Proof. apply (proj2 EX). Qed.
Lemma linv_at : forall m, linv (st x m).
Proof.
  induction m as [|m IH]; [|eapply linv_step; [exact IH|apply l_at]]. rewrite (proj1 EX). split; cbn; try discriminate; [|exact Logic.I].
  exists 0. reflexivity.
Qed.
(** Up to [j], either [a] has acted or what others keep has been kept. *)
Lemma till : forall a (P : state -> Prop) m, (forall j, P (st x j) -> ac x j <> a -> P (st x (S j))) -> P (st x m) ->
  forall j, m <= j -> (exists i, m <= i /\ i < j /\ ac x i = a /\ P (st x i)) \/ P (st x j).
Proof.
  intros a P m K PM j L. induction j as [|j IH].
  - right. replace 0 with m by lia. exact PM.
  - destruct (Nat.eq_dec m (S j)) as [<-|NE]; [right; exact PM|]. destruct IH as [(i & I1 & I2 & I3)|IH]; [lia|left; exists i; split; [lia|split; [lia|exact I3]]|].
    destruct (actor_dec (ac x j) a) as [A|A]; [left; exists j; split; [lia|split; [lia|auto]]|right; apply K; auto].
Qed.
Lemma turn : forall a (P : state -> Prop) m, a <> Env -> (forall j, P (st x j) -> ac x j <> a -> P (st x (S j))) ->
  (forall s, P s -> enabled a s) -> P (st x m) -> exists j, m <= j /\ ac x j = a /\ P (st x j).
Proof.
  intros a P m NE K EN PM. destruct (FA a NE m) as [(j & L & A)|(j & L & D)].
  - destruct (till a P m K PM j L) as [(i & I1 & I2 & I3 & I4)|PJ]; [exists i; auto|exists j; auto].
  - destruct (till a P m K PM j L) as [(i & I1 & I2 & I3 & I4)|PJ]; [exists i; auto|]. exfalso. apply (D j (le_n j)). apply EN. exact PJ.
Qed.
(** A search that is not queueing takes its next step. *)
Lemma search_turn : forall t p m, still p -> (forall s, search s t = p -> enabled (Search t) s) -> search (st x m) t = p ->
  exists j, m <= j /\ ac x j = Search t /\ search (st x j) t = p.
Proof.
  intros t p m SL EN P. apply (turn (Search t) (fun s => search s t = p) m); auto; try discriminate.
  intros j PJ A. rewrite (search_kept _ _ _ _ t (l_at j) A); [exact PJ|rewrite PJ; exact SL].
Qed.
Lemma up_turn : forall u m, u <> UIdle -> (forall s, up s = u -> enabled Updater s) -> up (st x m) = u ->
  exists j, m <= j /\ ac x j = Updater /\ up (st x j) = u.
Proof.
  intros u m NI EN P. apply (turn Updater (fun s => up s = u) m); auto; try discriminate.
  intros j PJ A. rewrite (up_kept _ _ _ _ (l_at j) A); [exact PJ|rewrite PJ; exact NI].
Qed.

(** ** Searches that have both locks *)
Lemma left_returns : forall t m, search (st x m) t = SLeft -> exists j, m <= j /\ In (Return t) (ev x j) /\ search (st x (S j)) t = SDone.
Proof.
  intros t m L. destruct (search_turn t SLeft m) as (j & J1 & J2 & J3); auto; [exact Logic.I|intros s E; eexists; eexists; apply st_runlock; exact E|].
  exists j. split; [exact J1|]. pose proof (l_at j) as ST. rewrite J2 in ST. inversion ST; subst; try congruence.
  split; [left; reflexivity|apply set_search_same].
Qed.
Lemma runs_leave : forall t i k m, search (st x m) t = SRuns i k -> exists j, m <= j /\ search (st x j) t = SLeft.
Proof.
  intros t i k. induction k as [|k IH]; intros m R.
  - destruct (search_turn t (SRuns i 0) m) as (j & J1 & J2 & J3); auto; [exact Logic.I|intros s E; eexists; eexists; eapply st_irunlock; exact E|].
    exists (S j). split; [lia|]. pose proof (l_at j) as ST. rewrite J2 in ST. inversion ST; subst; try congruence. apply set_search_same.
  - destruct (search_turn t (SRuns i (S k)) m) as (j & J1 & J2 & J3); auto; [exact Logic.I|intros s E; eexists; eexists; eapply st_run; exact E|].
    destruct (IH (S j)) as (j' & L' & Q); [|exists j'; split; [lia|exact Q]].
    pose proof (l_at j) as ST. rewrite J2 in ST. inversion ST; subst; try congruence. rewrite set_search_same. congruence.
Qed.

(** ** A writer that waits gets the lock *)
Lemma drain : forall (w : uphase) (rd : sphase -> bool), w <> UIdle -> rd SNew = false ->
  (forall a s es s' t, step a s es s' -> a <> Updater -> up s = w -> rd (search s t) = false -> rd (search s' t) = false) ->
  (forall m t, rd (search (st x m) t) = true -> exists j, m <= j /\ rd (search (st x j) t) = false) ->
  (forall s, up s = w -> (forall t, rd (search s t) = false) -> enabled Updater s) ->
  forall m, up (st x m) = w -> exists j, m <= j /\ ac x j = Updater /\ up (st x j) = w.
Proof.
  intros w rd NI NW OUT LV EN m U. destruct (l_few _ (linv_at m)) as (b & FEW).
  set (P := fun c s => up s = w /\ (forall t, b <= t -> rd (search s t) = false) /\ forall t, t < c -> rd (search s t) = false).
  assert (KP : forall c j, P c (st x j) -> ac x j <> Updater -> P c (st x (S j))).
  { intros c j (P1 & P2 & P3) A. split; [rewrite (up_kept _ _ _ _ (l_at j) A); congruence|].
    split; intros t T; (eapply OUT; [apply l_at|exact A|exact P1|auto]). }
  assert (D : forall c, (exists j, m <= j /\ ac x j = Updater /\ up (st x j) = w) \/ exists j, m <= j /\ P c (st x j)).
  { induction c as [|c [IH|(j & L & PJ)]]; [right; exists m; split; [lia|]|left; exact IH|].
    - split; [exact U|]. split; [intros t T; rewrite FEW by exact T; exact NW|intros; lia].
    - destruct (rd (search (st x j) c)) eqn:R.
      + destruct (LV _ _ R) as (j' & L' & R'). destruct (till Updater (P c) j (KP c) PJ j' L') as [(i & I1 & I2 & I3 & I4)|(P1 & P2 & P3)].
        * left. exists i. split; [lia|]. split; [exact I3|apply I4].
        * right. exists j'. split; [lia|]. split; [exact P1|]. split; [exact P2|]. intros t T. destruct (Nat.eq_dec t c) as [->|]; [exact R'|apply P3; lia].
      + right. exists j. destruct PJ as (P1 & P2 & P3). split; [exact L|]. split; [exact P1|]. split; [exact P2|].
        intros t T. destruct (Nat.eq_dec t c) as [->|]; [exact R|apply P3; lia]. }
  destruct (D b) as [X|(j & L & PJ)]; [exact X|].
  destruct (turn Updater (P b) j) as (j' & L' & A & P1 & _); auto; [discriminate| |exists j'; split; [lia|auto]].
  intros s (P1 & P2 & P3). apply EN; [exact P1|]. intros t. destruct (Nat.lt_ge_cases t b); auto.
Qed.
Lemma reads_i_leave : forall i m t, reads_i i (search (st x m) t) = true -> exists j, m <= j /\ reads_i i (search (st x j) t) = false.
Proof.
  intros i m t R. destruct (search (st x m) t) eqn:E; try discriminate. destruct (runs_leave _ _ _ _ E) as (j & L & Q).
  exists j. split; [exact L|]. rewrite Q. reflexivity.
Qed.
(** The undoing ends. *)
Lemma hold_u : forall n k m, up (st x m) = UHoldU n k -> exists j, m <= j /\ ac x j = Updater /\ up (st x j) = UHoldU n 0.
Proof.
  intros n k. induction k as [|k IH]; intros m U.
  - apply up_turn; auto; [discriminate|]. intros s E. eexists. eexists. eapply st_uunlock. exact E.
  - destruct (up_turn (UHoldU n (S k)) m) as (j & J1 & J2 & J3); auto; [discriminate|intros s E; eexists; eexists; eapply st_udestroy; exact E|].
    destruct (IH (S j)) as (j' & L' & Q); [|exists j'; split; [lia|exact Q]].
    pose proof (l_at j) as ST. rewrite J2 in ST. inversion ST; subst; try congruence. cbn. congruence.
Qed.
Lemma want_u : forall n k m, up (st x m) = UWantU n k -> exists j, m <= j /\ ac x j = Updater /\ up (st x j) = UHoldU n 0.
Proof.
  intros n k m U. destruct (drain (UWantU n k) (reads_i n)) with (m := m) as (j & J1 & J2 & J3); auto; try discriminate.
  - intros a s es s' t ST A W. apply (stays_out_i _ _ _ _ n t ST A). rewrite W. cbn. rewrite Nat.eqb_refl. reflexivity.
  - apply reads_i_leave.
  - intros s W R. eexists. eexists. eapply st_ulocked; [exact W|exact R].
  - destruct (hold_u n k (S j)) as (j' & L' & Q); [|exists j'; split; [lia|exact Q]].
    pose proof (l_at j) as ST. rewrite J2 in ST. inversion ST; subst; try congruence. cbn. congruence.
Qed.
(** So whoever queues for the lock of an index gets it. *)
Lemma queued_or : forall t i k m, search (st x m) t = SQueued i k -> forall j, m <= j ->
  search (st x j) t = SQueued i k \/ exists j0, m <= j0 /\ search (st x j0) t = SRuns i k.
Proof.
  intros t i k m Q j L. induction j as [|j IH]; [left; replace 0 with m by lia; exact Q|].
  destruct (Nat.eq_dec m (S j)) as [<-|NE]; [left; exact Q|]. destruct IH as [IH|IH]; [lia| |right; exact IH].
  assert (G : search (st x (S j)) t = SQueued i k \/ search (st x (S j)) t = SRuns i k).
  { pose proof (l_at j) as ST. destruct ST; cbn [set_up set_up_wake search set_search]; auto;
      try (destruct (Nat.eqb_spec t t0) as [->|N]; [congruence|auto]); rewrite IH; cbn; auto;
      match goal with |- context [Nat.eqb ?a ?b] => destruct (Nat.eqb a b); auto end. }
  destruct G as [G|G]; [left; exact G|right; exists (S j); split; [lia|exact G]].
Qed.
Lemma queued_runs : forall t i k m, search (st x m) t = SQueued i k -> exists j, m <= j /\ search (st x j) t = SRuns i k.
Proof.
  intros t i k m Q.
  assert (G : exists j, m <= j /\ ac x j = Updater /\ up (st x j) = UHoldU i 0).
  { pose proof (l_queued _ (linv_at m) _ _ _ Q) as F. pose proof (l_excl _ (linv_at m)) as X.
    assert (R : reads_s (search (st x m) t) = true) by (rewrite Q; reflexivity).
    destruct (up (st x m)) eqn:U; cbn in F; try discriminate; try (rewrite X in R; discriminate);
      apply Bool.negb_false_iff, Nat.eqb_eq in F; subst.
    - eapply want_u. exact U.
    - eapply hold_u. exact U. }
  destruct G as (j & L & A & U). destruct (queued_or _ _ _ _ Q j L) as [Y|(j0 & L0 & Y)]; [|exists j0; auto].
  exists (S j). split; [lia|]. pose proof (l_at j) as ST. rewrite A in ST. inversion ST; subst; try congruence.
  cbn. rewrite Y. cbn. replace n with i by congruence. rewrite Nat.eqb_refl. reflexivity.
Qed.

(** ** Searches that have s.lck return *)
Lemma runs_return : forall t i k m, search (st x m) t = SRuns i k -> exists j, m <= j /\ In (Return t) (ev x j) /\ search (st x (S j)) t = SDone.
Proof.
  intros t i k m R. destruct (runs_leave _ _ _ _ R) as (j & L & Q). destruct (left_returns _ _ Q) as (j' & L' & Z). exists j'. split; [lia|exact Z].
Qed.
Lemma has_returns : forall t i k m, search (st x m) t = SHas i k -> exists j, m <= j /\ In (Return t) (ev x j) /\ search (st x (S j)) t = SDone.
Proof.
  intros t i k m R. destruct (search_turn t (SHas i k) m) as (j & J1 & J2 & J3); auto; [exact Logic.I|intros s E; eexists; eexists; eapply st_irlock; exact E|].
  pose proof (l_at j) as ST. rewrite J2 in ST. inversion ST as [| | | | |s0 t0 i0 k0 E0 E1 E2 E3 E4| | | | | | | | | | | | | | | | | |]; subst; try congruence.
  rewrite J3 in E0. injection E0 as <- <-.
  assert (G : exists j1, S j <= j1 /\ search (st x j1) t = SRuns i k).
  { destruct (i_free i (up (st x j))).
    - exists (S j). split; [lia|]. rewrite <- E4. apply set_search_same.
    - apply queued_runs. rewrite <- E4. apply set_search_same. }
  destruct G as (j1 & L1 & G). destruct (runs_return _ _ _ _ G) as (j' & L' & Z). exists j'. split; [lia|exact Z].
Qed.
Lemma locked_returns : forall t k m, search (st x m) t = SLocked k -> exists j, m <= j /\ In (Return t) (ev x j) /\ search (st x (S j)) t = SDone.
Proof.
  intros t k m R. destruct (search_turn t (SLocked k) m) as (j & J1 & J2 & J3); auto; [exact Logic.I|intros s E; eexists; eexists; eapply st_read; exact E|].
  pose proof (l_at j) as ST. rewrite J2 in ST. inversion ST as [| | | |s0 t0 k0 E0 E1 E2 E3 E4| | | | | | | | | | | | | | | | | | |]; subst; try congruence.
  destruct (has_returns t (cur (st x j)) k0 (S j)) as (j' & L' & Z); [rewrite <- E4; apply set_search_same|]. exists j'. split; [lia|exact Z].
Qed.
Lemma reader_returns : forall t m, reads_s (search (st x m) t) = true -> exists j, m <= j /\ In (Return t) (ev x j) /\ search (st x (S j)) t = SDone.
Proof.
  intros t m R. destruct (search (st x m) t) eqn:E; try discriminate.
  - eapply locked_returns; exact E.
  - eapply has_returns; exact E.
  - destruct (queued_runs _ _ _ _ E) as (j & L & Q). destruct (runs_return _ _ _ _ Q) as (j' & L' & Z). exists j'. split; [lia|exact Z].
  - eapply runs_return; exact E.
  - apply left_returns; exact E.
Qed.
Lemma reads_s_leave : forall m t, reads_s (search (st x m) t) = true -> exists j, m <= j /\ reads_s (search (st x j) t) = false.
Proof.
  intros m t R. destruct (reader_returns _ _ R) as (j & L & _ & D). exists (S j). split; [lia|]. rewrite D. reflexivity.
Qed.

(** ** The update loop gives s.lck back *)
Ltac next_phase j J1 J2 J3 := let ST := fresh "ST" in pose proof (l_at j) as ST; rewrite J2 in ST; inversion ST; subst; try congruence.
Lemma result_at : forall n ok m, up (st x m) = UResult n ok -> exists j, m <= j /\ ac x j = Updater /\ up (st x j) = UResult n ok.
Proof. intros n ok m U. apply up_turn; auto; [discriminate|]. intros s E. eexists. eexists. eapply st_unlock. exact E. Qed.
Lemma hold_i : forall n old k m, up (st x m) = UHoldI n old k -> exists ok j, m <= j /\ ac x j = Updater /\ up (st x j) = UResult n ok.
Proof.
  intros n old k. induction k as [|k IH]; intros m U.
  - destruct (up_turn (UHoldI n old 0) m) as (j & J1 & J2 & J3); auto; [discriminate|intros s E; eexists; eexists; eapply (st_iunlock _ _ _ true); exact E|].
    assert (G : exists ok, up (st x (S j)) = UResult n ok) by (next_phase j J1 J2 J3; exists ok; cbn; congruence).
    destruct G as (ok & G). destruct (result_at _ _ _ G) as (j' & L' & Q). exists ok, j'. split; [lia|exact Q].
  - destruct (up_turn (UHoldI n old (S k)) m) as (j & J1 & J2 & J3); auto; [discriminate|intros s E; eexists; eexists; eapply st_destroy; exact E|].
    destruct (IH (S j)) as (ok & j' & L' & Q); [next_phase j J1 J2 J3; cbn; congruence|]. exists ok, j'. split; [lia|exact Q].
Qed.
Lemma want_i : forall n old k m, up (st x m) = UWantI n old k -> exists ok j, m <= j /\ ac x j = Updater /\ up (st x j) = UResult n ok.
Proof.
  intros n old k m U. destruct (drain (UWantI n old k) (reads_i old)) with (m := m) as (j & J1 & J2 & J3); auto; try discriminate.
  - intros a s es s' t ST A W. apply (stays_out_i _ _ _ _ old t ST A). rewrite W. cbn. rewrite Nat.eqb_refl. reflexivity.
  - apply reads_i_leave.
  - intros s W R. eexists. eexists. eapply st_ilocked; [exact W|exact R].
  - destruct (hold_i n old k (S j)) as (ok & j' & L' & Q); [next_phase j J1 J2 J3; cbn; congruence|]. exists ok, j'. split; [lia|exact Q].
Qed.
Lemma set_at : forall n old m, up (st x m) = USet n old -> exists ok j, m <= j /\ ac x j = Updater /\ up (st x j) = UResult n ok.
Proof.
  intros n old m U. destruct (up_turn (USet n old) m) as (j & J1 & J2 & J3); auto; [discriminate|intros s E; eexists; eexists; eapply (st_ilock _ _ _ 0); exact E|].
  assert (G : exists k, up (st x (S j)) = UWantI n old k) by (next_phase j J1 J2 J3; exists k; cbn; congruence).
  destruct G as (k & G). destruct (want_i _ _ _ _ G) as (ok & j' & L' & Q). exists ok, j'. split; [lia|exact Q].
Qed.
Lemma hold_s : forall n m, up (st x m) = UHoldS n -> exists ok j, m <= j /\ ac x j = Updater /\ up (st x j) = UResult n ok.
Proof.
  intros n m U. destruct (up_turn (UHoldS n) m) as (j & J1 & J2 & J3); auto; [discriminate|intros s E; eexists; eexists; eapply st_set; exact E|].
  destruct (set_at n (cur (st x j)) (S j)) as (ok & j' & L' & Q); [next_phase j J1 J2 J3; cbn; congruence|]. exists ok, j'. split; [lia|exact Q].
Qed.
Lemma want_s : forall n m, up (st x m) = UWantS n -> exists ok j, m <= j /\ ac x j = Updater /\ up (st x j) = UResult n ok.
Proof.
  intros n m U. destruct (drain (UWantS n) reads_s) with (m := m) as (j & J1 & J2 & J3); auto; try discriminate.
  - intros a s es s' t ST A W. eapply stays_out_s; eauto.
  - apply reads_s_leave.
  - intros s W R. eexists. eexists. eapply st_locked; [exact W|exact R].
  - destruct (hold_s n (S j)) as (ok & j' & L' & Q); [next_phase j J1 J2 J3; cbn; congruence|]. exists ok, j'. split; [lia|exact Q].
Qed.
Lemma unlocks : forall m, s_free (up (st x m)) = false -> exists n ok j, m <= j /\ ac x j = Updater /\ up (st x j) = UResult n ok.
Proof.
  intros m F. destruct (up (st x m)) eqn:U; try discriminate; eexists.
  - eapply want_s; exact U.
  - eapply hold_s; exact U.
  - eapply set_at; exact U.
  - eapply want_i; exact U.
  - eapply hold_i; exact U.
  - eexists. eapply result_at; exact U.
Qed.

(** ** Every search returns *)
Lemma queue_or : forall t k m, search (st x m) t = SQueue k -> forall j, m <= j ->
  search (st x j) t = SQueue k \/ exists j0, m <= j0 /\ search (st x j0) t = SLocked k.
Proof.
  intros t k m Q j L. induction j as [|j IH]; [left; replace 0 with m by lia; exact Q|].
  destruct (Nat.eq_dec m (S j)) as [<-|NE]; [left; exact Q|]. destruct IH as [IH|IH]; [lia| |right; exact IH].
  assert (G : search (st x (S j)) t = SQueue k \/ search (st x (S j)) t = SLocked k).
  { pose proof (l_at j) as ST. destruct ST; cbn [set_up set_up_wake search set_search]; auto;
      try (destruct (Nat.eqb_spec t t0) as [->|N]; [congruence|auto]); rewrite IH; cbn; auto. }
  destruct G as [G|G]; [left; exact G|right; exists (S j); split; [lia|exact G]].
Qed.
Lemma queue_returns : forall t k m, search (st x m) t = SQueue k -> exists j, m <= j /\ In (Return t) (ev x j).
Proof.
  intros t k m Q. destruct (unlocks m (l_queue _ (linv_at m) _ _ Q)) as (n & ok & j & L & A & U).
  assert (G : exists j0, m <= j0 /\ search (st x j0) t = SLocked k).
  { destruct (queue_or _ _ _ Q j L) as [Y|Y]; [|exact Y]. exists (S j). split; [lia|].
    next_phase j L A U. cbn. rewrite Y. reflexivity. }
  destruct G as (j0 & L0 & G). destruct (locked_returns _ _ _ G) as (j' & L' & Z & _). exists j'. split; [lia|exact Z].
Qed.
Theorem call_returns : forall t m, In (Call t) (ev x m) -> exists j, m < j /\ In (Return t) (ev x j).
Proof.
  intros t m C. assert (G : exists k, search (st x (S m)) t = SCalled k).
  { pose proof (l_at m) as ST. inversion ST as [s0 t0 k0 E0 E1 E2 E3 E4| | | | | | | | | | | | | | | | | | |s0 n0 ok0 E0 E1 E2 E3 E4| | | |]; subst;
      try (match goal with E : _ = ev x m |- _ => rewrite <- E in C end); cbn in C; try tauto.
    - destruct C as [C|[]]. injection C as ->. exists k0. apply set_search_same.
    - destruct C as [C|[]]; discriminate.
    - destruct C as [C|[]]; discriminate.
    - destruct C as [C|[]]; discriminate.
    - destruct ok0; cbn in C; [destruct C as [C|[]]; discriminate|tauto].
    - destruct C as [C|[]]; discriminate. }
  destruct G as (k & G). destruct (search_turn t (SCalled k) (S m)) as (j & J1 & J2 & J3); auto; [exact Logic.I|intros s E; eexists; eexists; eapply st_rlock; exact E|].
  pose proof (l_at j) as ST. rewrite J2 in ST. inversion ST as [| | |s0 t0 k0 E0 E1 E2 E3 E4| | | | | | | | | | | | | | | | | | | |]; subst; try congruence.
  destruct (s_free (up (st x j))).
  - destruct (locked_returns t k0 (S j)) as (j' & L' & Z & _); [rewrite <- E4; apply set_search_same|]. exists j'. split; [lia|exact Z].
  - destruct (queue_returns t k0 (S j)) as (j' & L' & Z); [rewrite <- E4; apply set_search_same|]. exists j'. split; [lia|exact Z].
Qed.

(** ** Every update ends *)
Lemma hold_u_ends : forall n m, ac x m = Updater -> up (st x m) = UHoldU n 0 -> In Ended (ev x m).
Proof. intros n m A U. next_phase m A A U. left. reflexivity. Qed.
Lemma undo_ends : forall n m, up (st x m) = UUndo n -> exists j, m <= j /\ In Ended (ev x j).
Proof.
  intros n m U. destruct (up_turn (UUndo n) m) as (j & J1 & J2 & J3); auto; [discriminate|intros s E; eexists; eexists; eapply (st_ulock _ _ 0); exact E|].
  assert (G : exists k, up (st x (S j)) = UWantU n k) by (next_phase j J1 J2 J3; exists k; cbn; congruence).
  destruct G as (k & G). destruct (want_u _ _ _ G) as (j' & L' & A & Q). exists j'. split; [lia|]. eapply hold_u_ends; eauto.
Qed.
Lemma result_ends : forall n ok m, ac x m = Updater -> up (st x m) = UResult n ok -> exists j, m <= j /\ In Ended (ev x j).
Proof.
  intros n ok m A U. destruct ok.
  - exists m. split; [lia|]. pose proof (l_at m) as ST. rewrite A in ST. inversion ST as [| | | | | | | | | | | | | | | | | | |s0 n0 ok0 E0 E1 E2 E3 E4| | | |]; subst; try congruence.
    assert (ok0 = true) by congruence. subst. left. reflexivity.
  - destruct (undo_ends n (S m)) as (j & L & Z); [|exists j; split; [lia|exact Z]].
    pose proof (l_at m) as ST. rewrite A in ST. inversion ST as [| | | | | | | | | | | | | | | | | | |s0 n0 ok0 E0 E1 E2 E3 E4| | | |]; subst; try congruence.
    assert (ok0 = false) by congruence. subst. cbn. congruence.
Qed.
Lemma work_ends : forall k m, up (st x m) = UWork k -> exists j, m <= j /\ In Ended (ev x j).
Proof.
  intros k. induction k as [|k IH]; intros m U.
  - destruct (up_turn (UWork 0) m) as (j & J1 & J2 & J3); auto; [discriminate|intros s E; eexists; eexists; eapply st_nothing; exact E|].
    assert (G : In Ended (ev x j) \/ exists n, up (st x (S j)) = UBuilt n).
    { next_phase j J1 J2 J3; [left; left; reflexivity|right; eexists; reflexivity]. }
    destruct G as [G|(n & G)]; [exists j; auto|].
    destruct (up_turn (UBuilt n) (S j)) as (i & I1 & I2 & I3); auto; [discriminate|intros s E; eexists; eexists; eapply st_lock; exact E|].
    destruct (want_s n (S i)) as (ok & i' & L' & A & Q); [next_phase i I1 I2 I3; cbn; congruence|].
    destruct (result_ends _ _ _ A Q) as (i2 & L2 & Z). exists i2. split; [lia|exact Z].
  - destruct (up_turn (UWork (S k)) m) as (j & J1 & J2 & J3); auto; [discriminate|intros s E; eexists; eexists; eapply st_work; exact E|].
    destruct (IH (S j)) as (j' & L' & Q); [next_phase j J1 J2 J3; cbn; congruence|]. exists j'. split; [lia|exact Q].
Qed.
Theorem update_ends : forall m, In Begun (ev x m) -> exists j, m < j /\ In Ended (ev x j).
Proof.
  intros m B. assert (G : exists k, up (st x (S m)) = UWork k).
  { pose proof (l_at m) as ST. inversion ST as [|s0 k0 E0 E1 E2 E3 E4| | | | | | | | | | | | | | | | | |s0 n0 ok0 E0 E1 E2 E3 E4| | | |]; subst;
      try (match goal with E : _ = ev x m |- _ => rewrite <- E in B end); cbn in B; try tauto.
    - destruct B as [B|[]]; discriminate.
    - exists k0. reflexivity.
    - destruct B as [B|[]]; discriminate.
    - destruct B as [B|[]]; discriminate.
    - destruct ok0; cbn in B; [destruct B as [B|[]]; discriminate|tauto].
    - destruct B as [B|[]]; discriminate. }
  destruct G as (k & G). destruct (work_ends _ _ G) as (j & L & Z). exists j. split; [lia|exact Z].
Qed.
End Execution.
