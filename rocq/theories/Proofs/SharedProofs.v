From Verif Require Import Model.Base Model.Shared Proofs.StrLemmas.

Definition phase_ok (url : nat -> str) (s : system) : Prop := forall k,
  match phases s k with
  | Idle | Reset => True
  | Pulled r => tree s (url k) = r
  | Building r seen => tree s (url k) = r /\ Forall (eq r) seen
  end.

Lemma one_tree : forall url, (forall j k, url j = url k -> j = k) -> forall tr s, runs url tr s ->
  phase_ok url s /\ forall k r seen, In (Built k r seen) tr -> Forall (eq r) seen.
Proof.
  intros url INJ tr s R. induction R as [t|tr s1 s2 R IH ST|tr s1 e s2 R IH ST].
  - split; [intros k; exact I|]. intros k r seen [].
  - destruct IH as (P & T). split; [|exact T]. intros j. pose proof (P j) as PJ.
    remember None as o eqn:EO. destruct ST; inversion EO; cbn; unfold set_phase, set_tree; pose proof (P k) as PK;
      destruct (Nat.eqb_spec j k) as [->|NE]; cbn; auto.
    + destruct (str_eqb (url j) (url k)) eqn:E; [|exact PJ]. apply str_eqb_eq in E. apply INJ in E. contradiction.
    + rewrite H in PK. auto.
    + rewrite H in PK. destruct PK as (PK & F). split; [exact PK|]. apply Forall_app. split; [exact F|]. constructor; auto.
  - destruct IH as (P & T). remember (Some e) as o eqn:EO. destruct ST; inversion EO; subst e. split.
    + intros j. pose proof (P j) as PJ. cbn. unfold set_phase. destruct (Nat.eqb_spec j k) as [->|NE]; cbn; auto.
    + intros k0 r0 seen0 X. apply in_app_or in X. destruct X as [X|[X|[]]]; [apply (T _ _ _ X)|].
      pose proof (P k) as PK. rewrite H in PK. destruct PK as (_ & F). congruence.
Qed.

(** Two branches of one repository. *)
Lemma mixed : exists s, runs (fun _ => [117%N]) [Built 0 [97%N] [[97%N]; [98%N]]] s.
Proof.
  pose proof (runs_init (fun _ => [117%N]) (fun _ => [])) as R.
  eapply runs_silent in R; [|apply (st_reset _ _ 0 [97%N]); reflexivity].
  eapply runs_silent in R; [|apply (st_rev _ _ 0); reflexivity].
  eapply runs_silent in R; [|apply (st_start _ _ 0 [97%N]); reflexivity].
  eapply runs_silent in R; [|apply (st_file _ _ 0 [97%N] []); reflexivity].
  eapply runs_silent in R; [|apply (st_reset _ _ 1 [98%N]); reflexivity].
  eapply runs_silent in R; [|apply (st_file _ _ 0 [97%N] [[97%N]]); reflexivity].
  eapply runs_event in R; [|apply (st_built _ _ 0 [97%N] [[97%N]; [98%N]]); reflexivity].
  eexists. exact R.
Qed.

Lemma unmixed : exists s, runs (fun k => [N.of_nat k]) [Built 0 [97%N] [[97%N]; [97%N]]] s.
Proof.
  pose proof (runs_init (fun k => [N.of_nat k]) (fun _ => [])) as R.
  eapply runs_silent in R; [|apply (st_reset _ _ 0 [97%N]); reflexivity].
  eapply runs_silent in R; [|apply (st_rev _ _ 0); reflexivity].
  eapply runs_silent in R; [|apply (st_start _ _ 0 [97%N]); reflexivity].
  eapply runs_silent in R; [|apply (st_file _ _ 0 [97%N] []); reflexivity].
  eapply runs_silent in R; [|apply (st_reset _ _ 1 [98%N]); reflexivity].
  eapply runs_silent in R; [|apply (st_file _ _ 0 [97%N] [[97%N]]); reflexivity].
  eapply runs_event in R; [|apply (st_built _ _ 0 [97%N] [[97%N]; [97%N]]); reflexivity].
  eexists. exact R.
Qed.
