(** Several clients, several patterns: nobody disturbs anybody. *)
From Verif Require Import Model.Base Model.Syntax Model.Query Model.QueryHeap Model.Analyze Model.AnalyzeHeap.
From Verif Require Import Spec.QueryHeapSpec Spec.QueriesSpec Spec.RegexSpec Spec.QuerySpec.
From Verif Require Import Proofs.QueryHeapBase Proofs.QueryHeapCombine Proofs.QueryHeapTrigrams Proofs.QueryHeapSteps Proofs.AnalyzeHeapProofs Proofs.AnalyzeTop.
Local Open Scope nat_scope.

Definition kept_at (h : heap) (p : nat) (q : query) : Prop := exists F, rep h p q F /\ owned h F.

Lemma kept_next : forall h h' p q, kept_at h p q -> frame h h' [] -> kept_at h' p q.
Proof.
  intros h h' p q [F [R O]] Fr. exists F. split; [| eapply owned_le; [exact O | apply Fr]].
  eapply rep_frame; [exact R | exact Fr | intros x _ [] | exact O].
Qed.

Section Proofs.
Variable grow : nat -> nat -> nat.
Variable simple_fold : N -> N.
Variable orbit_max : nat.

Lemma queries_ref : forall res h, glob h ->
  exists h' ps, ends_with (fun fuel => queries_run grow simple_fold orbit_max fuel res h) (h', ps) /\
    glob h' /\ frame h h' [] /\
    Forall2 (fun p re => kept_at h' p (snd (regexp_query grow simple_fold orbit_max re))) ps res.
Proof.
  induction res as [| re res IH]; intros h G; cbn [queries_run].
  - exists h, []. split; [exists 0; reflexivity |]. split; [exact G | split; [apply frame_refl | constructor]].
  - destruct (regexp_query_ref grow simple_fold orbit_max re h G) as [h1 [p1 [[n1 A] [F1 [[B1 [B2 B3]] [B4 B5]]]]]].
    destruct (IH h1 B1) as [h2 [ps [[n2 C] [D1 [D2 D3]]]]].
    exists h2, (p1 :: ps). split; [| split; [exact D1 | split]].
    + exists (n1 + n2). intros fuel L. rewrite A by lia. cbn [bind]. rewrite C by lia. reflexivity.
    + eapply frame_trans; [exact B5 | exact D2 |]. intros x [].
    + constructor; [| exact D3]. eapply kept_next; [exists F1; split; eassumption | exact D2].
Qed.

Theorem queries_ok : forall res, exists h ps,
  ends_with (fun fuel => queries_run grow simple_fold orbit_max fuel res heap0) (h, ps) /\
  Forall2 (fun p re => forall T, hsat h T p <-> sat T (snd (regexp_query grow simple_fold orbit_max re))) ps res /\
  same heap0 h p_all /\ same heap0 h p_none.
Proof.
  intros res. destruct (queries_ref res heap0 glob0) as [h [ps [A [B [C D]]]]].
  exists h, ps. split; [exact A |]. split; [| split; (apply C; [cbn; unfold p_all, p_none; lia | intros []])].
  clear A. induction D as [| p re ps res [F [R O]] D IH]; constructor; [| exact IH].
  intros T. exact (hsat_sat h T p _ F B R).
Qed.

Theorem queries_pass : forall res,
  Forall (fun re => wf_re simple_fold orbit_max re /\ st_shared (fst (regexp_query grow simple_fold orbit_max re)) = false) res ->
  exists h ps, ends_with (fun fuel => queries_run grow simple_fold orbit_max fuel res heap0) (h, ps) /\
    Forall2 (fun p re => forall pre w post, rmatch simple_fold re pre w post -> hsat h (trigram_in (pre ++ w ++ post)) p) ps res.
Proof.
  intros res W. destruct (queries_ok res) as [h [ps [A [B _]]]]. exists h, ps. split; [exact A |]. clear A.
  induction B as [| p re ps res K B IH]; constructor.
  - intros pre w post M. apply K. destruct (Forall_inv W) as [W1 W2].
    destruct (regexp_query grow simple_fold orbit_max re) as [s q] eqn:E.
    exact (prefilter grow simple_fold orbit_max re s q W1 E W2 pre w post M).
  - apply IH. exact (Forall_inv_tail W).
Qed.

Lemma reps_below : forall h h' ps qs F, reps h ps qs F -> owned h F -> frame h h' [] -> reps h' ps qs F.
Proof. intros h h' ps qs F R O Fr. eapply reps_frame; [exact R | exact Fr | intros x _ [] | intros x I; apply O; exact I]. Qed.

Theorem clients_ok : forall s1 m1 s2 m2, steps_meaning s1 [] = Some m1 -> steps_meaning s2 [] = Some m2 ->
  exists h1 p1 h2 p2,
    ends_with (fun fuel => steps_run grow fuel s1 (heap0, [])) (h1, p1) /\
    ends_with (fun fuel => steps_run grow fuel s2 (h1, [])) (h2, p2) /\
    Forall2 (fun p (m : meaning) => forall T, hsat h1 T p <-> m T) p1 m1 /\
    Forall2 (fun p (m : meaning) => forall T, hsat h2 T p <-> m T) (p1 ++ p2) (m1 ++ m2) /\
    same heap0 h2 p_all /\ same heap0 h2 p_none.
Proof.
  intros s1 m1 s2 m2 E1 E2.
  assert (forall h, glob h -> pool h [] [] []) as P0.
  { intros h G. split; [exact G |]. split; [split; [constructor | intros x []] |]. exists []. split; constructor. }
  destruct (steps_ok grow s1 heap0 [] [] [] m1 (P0 _ glob0) E1) as [h1 [p1 [A1 [F1 [B1 [C1 D1]]]]]].
  destruct (steps_ok grow s2 h1 [] [] [] m2 (P0 _ (proj1 B1)) E2) as [h2 [p2 [A2 [F2 [B2 [C2 D2]]]]]].
  exists h1, p1, h2, p2. split; [exact A1 | split; [exact A2 |]].
  split; [eapply pool_means; exact B1 |]. split.
  - apply Forall2_app; [| eapply pool_means; exact B2].
    destruct B1 as [G [O [qs [R Fo]]]].
    apply (pool_means h2 p1 m1 F1). split; [apply B2 | split].
    + eapply owned_le; [exact O | apply D2].
    + exists qs. split; [eapply reps_below; eassumption | exact Fo].
  - assert (frame heap0 h2 []) as K by (eapply frame_trans; [exact D1 | exact D2 | intros x []]).
    split; (apply K; [cbn; unfold p_all, p_none; lia | intros []]).
Qed.

End Proofs.
