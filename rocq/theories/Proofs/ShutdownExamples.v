(** Executions of a process with one repository that is told to stop. *)
From Verif Require Import Model.Base Model.Server Model.Shutdown Spec.ServerSpec Proofs.ServerProofs Proofs.ServerTrace Proofs.ServerExamples.
From Coq Require Import Lia Permutation.

Definition pscripted (p : process) (l : list (pactor * list pevent)) : Prop :=
  exists x, is_pexecution x p /\ pfair x /\ forall j, (pac x j, pev x j) = nth j l (Actor Env, []).
Definition pat_rest (p : process) : Prop := forall a, a <> Actor Env -> a <> Outside -> ~ penabled a p.

Lemma pscripted_stop : forall p, pat_rest p -> pscripted p [].
Proof.
  intros [s h g] R. exists (mkPExecution (fun _ => mkProcess s h g) (fun _ => Actor Env) (fun _ => [])). split.
  - split; [reflexivity|]. intros j. apply (ps_server Env s [] s h g); [apply st_idle|]. intros i. cbn. tauto.
  - split.
    + intros a N1 N2 j. right. exists j. split; [lia|]. intros j' _. apply R; assumption.
    + intros [|j]; reflexivity.
Qed.
Lemma pscripted_cons : forall a p es p' l, pstep a p es p' -> pscripted p' l -> pscripted p ((a, es) :: l).
Proof.
  intros a p es p' l ST (x & (E1 & E2) & FA & L).
  exists (mkPExecution (fun j => match j with O => p | S j => pst x j end) (fun j => match j with O => a | S j => pac x j end)
    (fun j => match j with O => es | S j => pev x j end)). split; [split; [reflexivity|]|split].
  - intros [|j]; cbn; [rewrite E1; exact ST|apply E2].
  - intros b N1 N2 j. destruct (FA b N1 N2 (pred j)) as [(i & I1 & I2)|(i & I1 & I2)]; [left|right]; exists (S i); cbn; (split; [lia|]).
    + exact I2.
    + intros [|j'] J; [lia|]. apply I2. lia.
  - intros [|j]; cbn; [reflexivity|apply L].
Qed.
Lemma pscripted_server : forall a s es ps s' h g l, step a s es s' -> ps = map Srv es -> quiet es -> pscripted (mkProcess s' h g) l ->
  pscripted (mkProcess s h g) ((Actor a, ps) :: l).
Proof. intros a s es ps s' h g l ST -> Q P. eapply pscripted_cons; [apply ps_server; eassumption|exact P]. Qed.

Definition lift (l : list (actor * list event)) : list (pactor * list pevent) := map (fun e => (Actor (fst e), map Srv (snd e))) l.

Ltac pnorm := match goal with |- pscripted ?p ?l => let p' := eval lazy in p in change (pscripted p' l) end.
Ltac isquiet := intros ?i; cbn; intuition discriminate.
Ltac side := first [reflexivity | cbn; lia | cbn; auto; fail].
(** a step of the server *)
Tactic Notation "sgo" uconstr(c) := eapply pscripted_server; [eapply c; side|reflexivity|isquiet|]; pnorm.
Tactic Notation "hgo" uconstr(c) := eapply pscripted_cons; [eapply c; side|]; pnorm.
Ltac pboot :=
  sgo st_wacquire; sgo st_wwork; sgo (st_wmade _ _ true); sgo st_wsend; sgo st_wrelease;
  sgo st_collect; sgo st_collected;
  eapply pscripted_server; [apply (st_clean _ [0]); [reflexivity|apply Permutation_refl]|reflexivity|isquiet|]; pnorm; sgo st_begin; sgo st_return.

(** The handler takes the signal while the repository is being pulled, waits for it, and exits. *)
Definition leaves : list (pactor * list pevent) :=
  lift booted ++ [(Outside, [Signal]); (Handler, []); (Actor (Poller 0), [Srv (Started 0)]); (Actor Env, [Srv (Ack 0)]);
    (Actor (Poller 0), [Srv (TookUpdate 0)]); (Actor (Poller 0), []); (Actor (Poller 0), []); (Actor (Poller 0), [Srv (Attempt 0); Srv (Work 0)]);
    (Handler, [Begun]); (Handler, [Srv (StopSent 0)]); (Handler, [Srv (StopWritten 0)]); (Handler, []);
    (Actor (Poller 0), [Srv (Rest 0)]); (Actor (Poller 0), []); (Actor (Poller 0), [Srv (TookStop 0)]); (Actor (Poller 0), [Srv (Done 0)]);
    (Handler, [Joined 0]); (Handler, [Exit])].
Lemma leaves_run : pscripted (started 1 1 (fun _ => push_only)) leaves.
Proof.
  unfold leaves, booted, lift; cbn [app map fst snd]. pnorm. pboot.
  hgo ps_signal. hgo ps_start. sgo st_gate. sgo (st_ack _ 0). sgo st_update. sgo st_go. sgo st_acquire. sgo st_work.
  eapply pscripted_cons; [apply (ps_take _ [0]); apply Permutation_refl|]; pnorm.
  eapply pscripted_cons; [eapply ps_send; apply st_stopsend; side|]; pnorm.
  eapply pscripted_cons; [eapply ps_write; eapply st_stopwrite; side|]; pnorm.
  eapply pscripted_cons; [apply (ps_stopped _ [0]); apply Permutation_refl|]; pnorm.
  sgo st_pulled_none. sgo st_release. sgo st_stop. sgo st_quit. hgo ps_join. hgo ps_exit.
  apply pscripted_stop. intros a N1 N2 (es & p' & ST). inversion ST as [b s es' s' h g STS Q| | | | | | | | |]; subst; try contradiction.
  match type of STS with step _ ?s _ _ => refine (rest_done s _ _ _ _ _ b _ _); try reflexivity; [congruence|exists es', s'; exact STS] end.
Qed.

(** The repository's loop takes the token of Stop before the flag is written, goes round once
    more and waits; the handler waits for it. *)
Definition stays : list (pactor * list pevent) :=
  lift booted ++ [(Handler, []); (Outside, [Signal]); (Actor (Poller 0), [Srv (Started 0)]); (Handler, [Begun]);
    (Handler, [Srv (StopSent 0)]); (Actor (Poller 0), [Srv (TookStop 0)]); (Actor (Poller 0), []); (Handler, [Srv (StopWritten 0)]);
    (Actor (Poller 0), []); (Actor (Poller 0), [Srv (Attempt 0); Srv (Work 0)]); (Actor (Poller 0), [Srv (Rest 0)]); (Actor (Poller 0), []);
    (Handler, [])].
Lemma stays_run : pscripted (started 1 1 (fun _ => push_only)) stays.
Proof.
  unfold stays, booted, lift; cbn [app map fst snd]. pnorm. pboot.
  hgo ps_start. hgo ps_signal. sgo st_gate.
  eapply pscripted_cons; [apply (ps_take _ [0]); apply Permutation_refl|]; pnorm.
  eapply pscripted_cons; [eapply ps_send; apply st_stopsend; side|]; pnorm.
  sgo st_stop. sgo st_go.
  eapply pscripted_cons; [eapply ps_write; eapply st_stopwrite; side|]; pnorm.
  sgo st_acquire. sgo st_work. sgo st_pulled_none. sgo st_release.
  eapply pscripted_cons; [apply (ps_stopped _ [0]); apply Permutation_refl|]; pnorm.
  apply pscripted_stop. intros a N1 N2 (es & p' & ST). inversion ST as [b s es' s' h g STS Q| | | | | | | | |]; subst; try contradiction; try discriminate.
  match type of STS with step _ ?s _ _ => refine (rest_wait s _ _ _ _ _ _ _ _ b _ _); try reflexivity; [congruence|exists es', s'; exact STS] end.
Qed.
