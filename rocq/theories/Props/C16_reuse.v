(** C16: the answer of a compiled expression does not depend on its earlier uses. *)
From Verif Require Import Model.Base Model.Matcher Spec.MatchSpec Proofs.MatchTop.
Local Open Scope N_scope.

Theorem C16_history_independent : forall fuel p m1 m2 b bt et m1' r1 m2' r2,
  wf_prog p -> depth_ok fuel p -> used fuel p m1 -> used fuel p m2 ->
  match_bytes fuel m1 b bt et = Some (m1', r1) -> match_bytes fuel m2 b bt et = Some (m2', r2) ->
  r1 = r2.
Proof. exact match_reuse. Qed.
Print Assumptions C16_history_independent.

(** Reuse never fails either. *)
Theorem C16_always_answers : forall fuel p m b bt et,
  wf_prog p -> depth_ok fuel p -> used fuel p m -> match_bytes fuel m b bt et <> None.
Proof.
  intros fuel p m b bt et WF D U. destruct (match_first_line fuel p m b bt et WF D U) as (m' & r & E & _).
  congruence.
Qed.
Print Assumptions C16_always_answers.

(** The program of "ab": a matcher used on "xaab\nb" and "aa" has grown its table but
    answers like a new one. *)
Definition C16_prog := mkProg [IFail; IByte 97 97 false 2; IByte 98 98 false 3; IMatch] 1.
Example C16_example :
  wf_prog C16_prog /\ depth_ok 520 C16_prog /\
  exists m0 m1 m2 r1 r2 r3 m3 m4, matcher_init 520 C16_prog = Some m0 /\
    match_bytes 520 m0 [120;97;97;98;10;98] true true = Some (m1, r1) /\
    match_bytes 520 m1 [97;97] true true = Some (m2, r2) /\
    (length (m_dstate m0) < length (m_dstate m2))%nat /\
    match_bytes 520 m2 [98;10;97;98;10] true true = Some (m3, r3) /\
    match_bytes 520 m0 [98;10;97;98;10] true true = Some (m4, Some 4%nat) /\ r3 = Some 4%nat.
Proof.
  split; [|split].
  - split; [reflexivity|]. split; [reflexivity|]. intros i I.
    cbn in I. decompose [or] I; subst; repeat constructor; contradiction.
  - unfold depth_ok. apply Nat.ltb_lt. vm_compute. reflexivity.
  - do 8 eexists. split; [vm_compute; reflexivity|]. split; [vm_compute; reflexivity|].
    split; [vm_compute; reflexivity|]. split; [apply Nat.ltb_lt; vm_compute; reflexivity|].
    split; [vm_compute; reflexivity|]. split; vm_compute; reflexivity.
Qed.
