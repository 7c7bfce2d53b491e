(** The matcher as a whole. *)
From Verif Require Import Model.Base Model.Matcher Spec.MatchSpec Proofs.MatcherProofs Proofs.CacheProofs
  Proofs.LineProofs.
Local Open Scope N_scope.

(** A matcher for [p] that may have been used before. *)
Inductive used (fuel : nat) (p : prog) : matcher -> Prop :=
| used_init : forall m, matcher_init fuel p = Some m -> used fuel p m
| used_match : forall m b bt et m' r, used fuel p m ->
    match_bytes fuel m b bt et = Some (m', r) -> used fuel p m'.

(** Recursion depth that always suffices. *)
Definition depth_ok (fuel : nat) (p : prog) : Prop := (32 * 2 ^ length (p_inst p) < fuel)%nat.

Lemma depth_bound : forall fuel p, depth_ok fuel p -> (dfa_bound p <= fuel)%nat.
Proof. intros. unfold depth_ok, dfa_bound in *. lia. Qed.

Lemma init_total : forall fuel p, wf_prog p -> depth_ok fuel p -> matcher_init fuel p <> None.
Proof.
  intros fuel p WF D. destruct (init_ok p fuel WF (depth_bound _ _ D)) as (m & E & _). congruence.
Qed.

Lemma used_ok : forall fuel p m, wf_prog p -> depth_ok fuel p -> used fuel p m -> matcher_ok p m.
Proof.
  intros fuel p m WF D U. induction U as [m E|m b bt et m' r U IH E].
  - destruct (init_ok p fuel WF (depth_bound _ _ D)) as (m' & E' & O). congruence.
  - destruct (match_ok p fuel m b bt et WF (depth_bound _ _ D) IH) as (m2 & E2 & O & _). congruence.
Qed.

Lemma match_first_line : forall fuel p m b bt et, wf_prog p -> depth_ok fuel p -> used fuel p m ->
  exists m' r, match_bytes fuel m b bt et = Some (m', r) /\ first_hit (line_match p) bt et b r.
Proof.
  intros fuel p m b bt et WF D U. pose proof (used_ok fuel p m WF D U) as O.
  destruct (match_ok p fuel m b bt et WF (depth_bound _ _ D) O) as (m' & E & _).
  exists m', (answer p m b bt et). split; [assumption|]. apply answer_spec; assumption.
Qed.

Lemma match_reuse : forall fuel p m1 m2 b bt et m1' r1 m2' r2, wf_prog p -> depth_ok fuel p ->
  used fuel p m1 -> used fuel p m2 ->
  match_bytes fuel m1 b bt et = Some (m1', r1) -> match_bytes fuel m2 b bt et = Some (m2', r2) -> r1 = r2.
Proof.
  intros fuel p m1 m2 b bt et m1' r1 m2' r2 WF D U1 U2 E1 E2.
  pose proof (used_ok fuel p m1 WF D U1) as O1. pose proof (used_ok fuel p m2 WF D U2) as O2.
  destruct (match_ok p fuel m1 b bt et WF (depth_bound _ _ D) O1) as (x1 & X1 & _).
  destruct (match_ok p fuel m2 b bt et WF (depth_bound _ _ D) O2) as (x2 & X2 & _).
  destruct (start_keys p m1 m2 O1 O2) as [S1 S2].
  rewrite E1 in X1. rewrite E2 in X2. injection X1 as _ ->. injection X2 as _ ->.
  unfold answer. rewrite S1, S2. reflexivity.
Qed.
