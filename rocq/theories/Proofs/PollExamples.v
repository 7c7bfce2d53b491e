(** Executions of a server with one repository that is polled, or should be (C95). *)
From Verif Require Import Model.Base Model.Config Model.Server Model.Polling Spec.ServerSpec Proofs.ServerProofs Proofs.ServerTrace Proofs.ServerExamples.
From Coq Require Import Lia Permutation ZArith.

Definition some_repo (ms : Z) (poll push : option bool) : Config.repo := Config.mkRepo [] [] ms [] None None false poll push None.
Definition one_repo (r : Config.repo) : server := initial 1 1 (fun _ => settings_of (init_repo r)).

(** ** The loop that waits for ever *)
Definition silent : list (actor * list event) := booted ++ [(Poller 0, [Started 0])].
Lemma negative_run : scripted (one_repo (some_repo (-1) None None)) silent.
Proof. unfold silent, booted; cbn [app]. boot. go st_gate. apply scripted_stop. apply rest_wait; reflexivity. Qed.
Lemma overflow_run : scripted (one_repo (some_repo 9223372036855 None None)) silent.
Proof. unfold silent, booted; cbn [app]. boot. go st_gate. apply scripted_stop. apply rest_wait; reflexivity. Qed.

(** ** The loop that goes round *)
Definition round (s : server) : list event * server :=
  let r := repos s 0 in
  match pl r with
  | PWait => ([], with_repo s 0 (set_pl r PCheck))
  | PCheck => ([], with_repo s 0 (set_pl r PAcquire))
  | PAcquire => ([], with_slots s (S (slots s)) 0 (set_pl r PHeld))
  | PHeld => ([Attempt 0; Work 0], with_repo s 0 (set_pl r PPull))
  | PPull => ([Rest 0], with_repo s 0 (set_pl r PRelease))
  | _ => ([], with_slots s (pred (slots s)) 0 (set_pl r PWait))
  end.
Record turning (s : server) : Prop := {
  t_n : n s = 1; t_cap : cap s = 1; t_main : at_main s = MServe; t_wk : wk (repos s 0) = WDone;
  t_flag : flag (repos s 0) = false; t_stop : stopping (repos s 0) = 0; t_timed : timed (conf (repos s 0)) = true;
  t_pl : match pl (repos s 0) with PWait | PCheck | PAcquire => slots s = 0 | PHeld | PPull | PRelease => slots s = 1 | _ => False end }.
Lemma turning_step : forall s, turning s -> step (Poller 0) s (fst (round s)) (snd (round s)) /\ turning (snd (round s)).
Proof.
  intros s [A B C D E F G H]. unfold round. destruct (pl (repos s 0)) eqn:P; try contradiction; cbn [fst snd]; (split; [|]).
  1: apply st_timer; [lia|exact P|exact G].
  2: apply st_go; [lia|exact P|exact E].
  3: apply st_acquire; [lia|exact P|lia].
  4: apply st_work; [lia|exact P].
  5: apply st_pulled_none; [lia|exact P].
  6: apply st_release; [lia|exact P].
  all: split; cbn [with_repo with_slots n cap slots at_main repos]; try assumption; rewrite set_same; cbn [set_pl wk flag stopping conf pl]; try assumption; lia.
Qed.
Lemma turning_only : forall s a, turning s -> a <> Env -> a <> Poller 0 -> ~ enabled a s.
Proof.
  intros s a [A B C D E F G H] N1 N2 (es & s' & ST). destruct ST; try congruence; try (assert (i = 0) as -> by lia; congruence).
Qed.
(** From [s], after the script [l], the loop goes round for ever. *)
Definition then_turns (s : server) (l : list (actor * list event)) : Prop :=
  exists x, is_execution x s /\ fair x /\ (forall j, j < length l -> (ac x j, ev x j) = nth j l (Env, [])) /\
    forall j, ~ In (StopSent 0) (ev x (length l + j)).
Lemma turns : forall s, turning s -> then_turns s [].
Proof.
  intros s T. assert (I : forall j, turning (Nat.iter j (fun s => snd (round s)) s)).
  { induction j as [|j IH]; [exact T|]. cbn [Nat.iter]. apply turning_step. exact IH. }
  exists (mkExecution (fun j => Nat.iter j (fun s => snd (round s)) s) (fun _ => Poller 0) (fun j => fst (round (Nat.iter j (fun s => snd (round s)) s)))).
  split; [split; [reflexivity|]|split; [|split]]; cbn [st ac ev].
  - intros j. apply turning_step. apply I.
  - intros a NE j. assert (D : a = Poller 0 \/ a <> Poller 0).
    { destruct a; try (right; discriminate). destruct (Nat.eq_dec i 0) as [->|N]; [left; reflexivity|right; congruence]. }
    destruct D as [->|D]; [left; exists j; split; [lia|reflexivity]|]. right. exists j. split; [lia|]. intros j' _. apply turning_only; [apply I|exact NE|exact D].
  - intros j L. cbn in L. lia.
  - intros j. unfold round. destruct (pl _); cbn; intuition discriminate.
Qed.
Lemma turns_cons : forall a s es s' l, step a s es s' -> then_turns s' l -> then_turns s ((a, es) :: l).
Proof.
  intros a s es s' l ST (x & (E1 & E2) & FA & L & NS).
  exists (mkExecution (fun j => match j with O => s | S j => st x j end) (fun j => match j with O => a | S j => ac x j end)
    (fun j => match j with O => es | S j => ev x j end)). split; [split; [reflexivity|]|split; [|split]].
  - intros [|j]; cbn; [rewrite E1; exact ST|apply E2].
  - intros b NE j. destruct (FA b NE (pred j)) as [(i & I1 & I2)|(i & I1 & I2)]; [left|right]; exists (S i); cbn; (split; [lia|]).
    + exact I2.
    + intros [|j'] J; [lia|]. apply I2. lia.
  - intros [|j] J; cbn; [reflexivity|]. apply L. cbn in J. lia.
  - intros j. cbn. apply NS.
Qed.
Ltac norm' := match goal with |- then_turns ?s ?l => let s' := eval lazy in s in change (then_turns s' l) end.
Tactic Notation "turn" uconstr(c) := eapply turns_cons; [eapply c; first [reflexivity | cbn; lia | cbn; auto; fail]|]; norm'.
Lemma polled_run : then_turns (one_repo (some_repo 0 None None)) silent.
Proof.
  unfold silent, booted; cbn [app]. turn st_wacquire; turn st_wwork; turn (st_wmade _ _ true); turn st_wsend; turn st_wrelease;
  turn st_collect; turn st_collected. eapply turns_cons; [apply (st_clean _ [0]); [reflexivity|apply Permutation_refl]|]. norm'. turn st_begin. turn st_return.
  turn st_gate. apply turns. split; reflexivity.
Qed.
