(** Any sequence of combinations means what it should. *)
From Coq Require Import Permutation.
From Verif Require Import Model.Base Model.Query Model.QueryHeap Spec.QuerySpec Spec.QueryHeapSpec.
From Verif Require Import Proofs.ListLemmas Proofs.QueryProofs Proofs.QueryHeapBase Proofs.QueryHeapOps
  Proofs.QueryHeapFactor Proofs.QueryHeapCombine Proofs.QueryHeapTrigrams.
Local Open Scope nat_scope.

Lemma in_trigrams_of : forall w x, In x (trigrams_of w) <-> tri_of x w.
Proof.
  induction w as [| a w IH]; intros x.
  - cbn. split; [intros [] |]. intros [u [v [E L]]].
    destruct u; [| discriminate]. destruct x; [cbn in L; lia | discriminate].
  - destruct w as [| b [| c w]].
    1-2: cbn [trigrams_of In]; split; [intros [] |]; intros [u [v [E L]]];
      apply (f_equal (@length _)) in E; rewrite !app_length in E; cbn [length] in E; lia.
    change (trigrams_of (a :: b :: c :: w)) with ([a; b; c] :: trigrams_of (b :: c :: w)).
    cbn [In]. rewrite IH. split.
    + intros [<- | [u [v [E L]]]].
      * exists [], w. auto.
      * exists (a :: u), v. cbn [app]. rewrite <- E. auto.
    + intros [u [v [E L]]]. destruct u as [| y u].
      * left. destruct x as [| x1 [| x2 [| x3 [| x4 x]]]]; cbn in L; try lia.
        cbn [app] in E. congruence.
      * right. exists u, v. cbn [app] in E. split; [congruence | exact L].
Qed.

Lemma min_len_in : forall l, l <> [] -> exists w, In w l /\ min_len l = length w.
Proof.
  intros l NE. destruct l as [| x l]; [contradiction |]. unfold min_len.
  assert (forall r m, (exists w, In w (x :: l) /\ m = length w) -> incl r (x :: l) ->
    exists w, In w (x :: l) /\
    fold_left (fun (m : nat) s => if Nat.ltb (length s) m then length s else m) r m = length w) as K.
  { induction r as [| y r IH]; intros m M I; [exact M |]. cbn [fold_left]. apply IH.
    - destruct (Nat.ltb (length y) m); [exists y; split; [apply I; left; reflexivity | reflexivity] | exact M].
    - intros z J. apply I. right. exact J. }
  apply K; [exists x; split; [left; reflexivity | reflexivity] | intros y I; exact I].
Qed.

Lemma some_string_iff : forall l (T : tset),
  (min_len l < 3 \/ exists w, In w l /\ forall x, In x (trigrams_of w) -> T x) <-> some_string l T.
Proof.
  intros l T. unfold some_string. split.
  - intros [L | [w [I K]]].
    + destruct l as [| y l]; [left; reflexivity | right; left].
      destruct (min_len_in (y :: l)) as [w [I E]]; [discriminate |]. exists w. split; [exact I | lia].
    + right. right. exists w. split; [exact I |]. intros x J. apply K. apply in_trigrams_of. exact J.
  - intros [-> | [[w [I L]] | [w [I K]]]].
    + left. cbn. lia.
    + left. pose proof (min_len_le l w I). lia.
    + right. exists w. split; [exact I |]. intros x J. apply K. apply in_trigrams_of. exact J.
Qed.

Lemma reps_take : forall h i ps qs F p ps', reps h ps qs F -> take i ps = Some (p, ps') ->
  exists q qs' F1 F', take i qs = Some (q, qs') /\ rep h p q F1 /\ reps h ps' qs' F' /\ Permutation F (F1 ++ F').
Proof.
  intros h i ps qs F p ps' R. revert i p ps'. induction R as [| p0 q0 F0 ps qs G R0 R IH]; intros i p ps' E.
  - destruct i; discriminate.
  - destruct i as [| i]; cbn [take] in *.
    + injection E as <- <-. exists q0, qs, F0, G. auto.
    + destruct (take i ps) as [[y r]|] eqn:T; [| discriminate]. injection E as <- <-.
      destruct (IH _ _ _ T) as [q [qs' [F1 [F' [A [B [C D]]]]]]]. rewrite A.
      exists q, (q0 :: qs'), F1, (F0 ++ F'). split; [reflexivity |]. split; [exact B |].
      split; [constructor; assumption |].
      eapply Permutation_trans; [apply Permutation_app_head; exact D |].
      rewrite !app_assoc. apply Permutation_app_tail. apply Permutation_app_comm.
Qed.

Lemma take_forall2 : forall A B (P : A -> B -> Prop) l m i x r, Forall2 P l m -> take i m = Some (x, r) ->
  exists y r', take i l = Some (y, r') /\ P y x /\ Forall2 P r' r.
Proof.
  intros A B P l m i x r F. revert i x r. induction F as [| a b l m Pa F IH]; intros i x r E.
  - destruct i; discriminate.
  - destruct i as [| i]; cbn [take] in *.
    + injection E as <- <-. eauto.
    + destruct (take i m) as [[y s]|] eqn:T; [| discriminate]. injection E as <- <-.
      destruct (IH _ _ _ T) as [z [r' [E1 [E2 E3]]]]. rewrite E1. exists z, (a :: r'). split; [reflexivity | split; [exact E2 | constructor; assumption]].
Qed.

Lemma owned_perm : forall h F G, owned h F -> Permutation F G -> owned h G.
Proof.
  intros h F G [N O] P. split; [eapply Permutation_NoDup; eauto |].
  intros x I. apply O. eapply Permutation_in; [apply Permutation_sym; exact P | exact I].
Qed.

Definition means (q : query) (m : meaning) : Prop := wf_query q /\ forall T, sat T q <-> m T.

(** The queries a client holds. *)
Definition pool (h : heap) (ps : list nat) (ms : list meaning) (F : list nat) : Prop :=
  glob h /\ owned h F /\ exists qs, reps h ps qs F /\ Forall2 means qs ms.

Section Steps.
Variable grow : nat -> nat -> nat.

Lemma pool_put : forall h h' p q m ps ms F G, glob h' -> result h F h' p q -> means q m ->
  owned h (F ++ G) -> (exists qs, reps h ps qs G /\ Forall2 means qs ms) ->
  exists F', pool h' (p :: ps) (m :: ms) F' /\ within h (F ++ G) F' /\ frame h h' (F ++ G).
Proof.
  intros h h' p q m ps ms F G G' [F1 [A [B [C D]]]] M Ow [qs [R Fo]].
  pose proof Ow as Ow'. apply (proj1 (owned_app _ _ _)) in Ow'. destruct Ow' as [O1 [O2 Ap]].
  assert (next h <= next h') as L by apply D.
  exists (F1 ++ G). split; [| split].
  - split; [exact G' |]. split.
    + rewrite owned_app. split; [exact B |]. split; [eapply owned_le; eassumption |].
      intros x I J. destruct (C x I) as [K | K]; [exact (Ap x K J) |]. apply O2 in J. lia.
    + exists (q :: qs). split; [| constructor; assumption].
      constructor; [exact A |]. eapply reps_frame; [exact R | exact D | |].
      * intros x I J. exact (Ap x J I).
      * intros x I. apply O2. exact I.
  - intros x I. apply in_app_or in I. destruct I as [I | I].
    + destruct (C x I) as [K | K]; [left; apply in_or_app; left; exact K | right; exact K].
    + left. apply in_or_app. right. exact I.
  - eapply frame_weaken; [exact D |]. intros x I. apply in_or_app. left. exact I.
Qed.

Lemma within_perm : forall h F G K, Permutation F G -> within h G K -> within h F K.
Proof.
  intros h F G K P W x I. destruct (W x I) as [J | J]; [left | right; exact J].
  eapply Permutation_in; [apply Permutation_sym; exact P | exact J].
Qed.
Lemma frame_perm : forall h h' F G, Permutation F G -> frame h h' G -> frame h h' F.
Proof. intros h h' F G P Fr. eapply frame_weaken; [exact Fr |]. intros x I. eapply Permutation_in; [apply Permutation_sym; exact P | exact I]. Qed.

Lemma binary_step : forall h ps ms F i j a b rm rm' op (m : meaning), (op = QAnd \/ op = QOr) ->
  pool h ps ms F -> take i ms = Some (a, rm) -> take j rm = Some (b, rm') ->
  (forall q1 q2, means q1 a -> means q2 b -> means (and_or q1 q2 op) m) ->
  exists p1 r p2 r' h' p', take i ps = Some (p1, r) /\ take j r = Some (p2, r') /\
    runs_to (fun fuel => and_or_h grow fuel h p1 p2 op) (h', p') /\
    exists F', pool h' (p' :: r') (m :: rm') F' /\ within h F F' /\ frame h h' F.
Proof.
  intros h ps ms F i j a b rm rm' op m Hop [G [Ow [qs [R Fo]]]] Ta Tb M.
  destruct (take_forall2 _ _ _ _ _ _ _ _ Fo Ta) as [q1 [qs1 [A1 [A2 A3]]]].
  destruct (take_forall2 _ _ _ _ _ _ _ _ A3 Tb) as [q2 [qs2 [B1 [B2 B3]]]].
  assert (forall ps qs F, reps h ps qs F -> forall i q qs', take i qs = Some (q, qs') ->
    exists p ps', take i ps = Some (p, ps')) as Back.
  { clear. intros ps qs F R. induction R as [| p0 q0 F0 ps qs G R0 R IH]; intros i q qs' E.
    - destruct i; discriminate.
    - destruct i as [| i]; cbn [take] in *; [eauto |].
      destruct (take i qs) as [[y r]|] eqn:T; [| discriminate].
      destruct (IH _ _ _ T) as [p [ps' ->]]. eauto. }
  destruct (Back _ _ _ R _ _ _ A1) as [p1 [r T1]].
  destruct (reps_take _ _ _ _ _ _ _ R T1) as [q1' [qs1' [F1 [F1' [C1 [C2 [C3 C4]]]]]]].
  assert (q1' = q1 /\ qs1' = qs1) as [-> ->] by (split; congruence).
  destruct (Back _ _ _ C3 _ _ _ B1) as [p2 [r' T2]].
  destruct (reps_take _ _ _ _ _ _ _ C3 T2) as [q2' [qs2' [F2 [F2' [D1 [D2 [D3 D4]]]]]]].
  assert (q2' = q2 /\ qs2' = qs2) as [-> ->] by (split; congruence).
  assert (Permutation F ((F1 ++ F2) ++ F2')) as P.
  { eapply Permutation_trans; [exact C4 |]. rewrite <- app_assoc. apply Permutation_app_head. exact D4. }
  pose proof (owned_perm _ _ _ Ow P) as Ow1.
  pose proof Ow1 as Ow2. apply (proj1 (owned_app _ _ _)) in Ow2. destruct Ow2 as [Ow2 _].
  destruct (and_or_ref grow h p1 p2 q1 q2 F1 F2 op Hop G C2 D2 Ow2) as [h' [p' [E1 [E2 E3]]]].
  exists p1, r, p2, r', h', p'. split; [exact T1 | split; [exact T2 | split; [exact E1 |]]].
  destruct (pool_put h h' p' _ m r' rm' (F1 ++ F2) F2' E3 E2 (M _ _ A2 B2) Ow1) as [F' [X [Y Z]]]; [eauto |].
  exists F'. split; [exact X | split; [eapply within_perm; eauto | eapply frame_perm; eauto]].
Qed.

Lemma step_ok : forall s h ps ms F ms', pool h ps ms F -> step_meaning s ms = Some ms' ->
  exists h' ps', runs_to (fun fuel => step_run grow fuel s (h, ps)) (h', ps') /\
    exists F', pool h' ps' ms' F' /\ within h F F' /\ frame h h' F.
Proof.
  intros s h ps ms F ms' P E. destruct s as [| | i j | i j | i w]; cbn [step_meaning step_run] in *.
  - injection E as <-. exists h, (p_all :: ps). split; [exists 0; reflexivity |].
    destruct P as [G [Ow [qs [R Fo]]]].
    exists F. split; [| split; [apply within_refl | apply frame_refl]].
    split; [exact G | split; [exact Ow |]]. exists (all_query :: qs).
    split; [apply (reps_cons h p_all all_query []); [constructor | exact R] |].
    constructor; [| exact Fo]. split; [cbn; auto | intros T; cbn; tauto].
  - injection E as <-. exists h, (p_none :: ps). split; [exists 0; reflexivity |].
    destruct P as [G [Ow [qs [R Fo]]]].
    exists F. split; [| split; [apply within_refl | apply frame_refl]].
    split; [exact G | split; [exact Ow |]]. exists (none_query :: qs).
    split; [apply (reps_cons h p_none none_query []); [constructor | exact R] |].
    constructor; [| exact Fo]. split; [cbn; auto | intros T; cbn; tauto].
  - destruct (take i ms) as [[a rm]|] eqn:Ta; [| discriminate].
    destruct (take j rm) as [[b rm']|] eqn:Tb; [| discriminate]. injection E as <-.
    destruct (binary_step h ps ms F i j a b rm rm' QAnd (fun T => a T /\ b T) (or_introl eq_refl) P Ta Tb)
      as [p1 [r [p2 [r' [h' [p' [A [B [[n C] D]]]]]]]]].
    { intros q1 q2 [W1 M1] [W2 M2]. split; [apply and_or_wf; auto |]. intros T.
      rewrite (and_or_sat T q1 q2 QAnd (or_introl eq_refl) W1 W2), M1, M2. reflexivity. }
    exists h', (p' :: r'). split; [| exact D]. exists n. intros fuel L.
    rewrite A. cbn [bind]. rewrite B. cbn [bind]. rewrite C by exact L. reflexivity.
  - destruct (take i ms) as [[a rm]|] eqn:Ta; [| discriminate].
    destruct (take j rm) as [[b rm']|] eqn:Tb; [| discriminate]. injection E as <-.
    destruct (binary_step h ps ms F i j a b rm rm' QOr (fun T => a T \/ b T) (or_intror eq_refl) P Ta Tb)
      as [p1 [r [p2 [r' [h' [p' [A [B [[n C] D]]]]]]]]].
    { intros q1 q2 [W1 M1] [W2 M2]. split; [apply and_or_wf; auto |]. intros T.
      rewrite (and_or_sat T q1 q2 QOr (or_intror eq_refl) W1 W2), M1, M2. reflexivity. }
    exists h', (p' :: r'). split; [| exact D]. exists n. intros fuel L.
    rewrite A. cbn [bind]. rewrite B. cbn [bind]. rewrite C by exact L. reflexivity.
  - destruct (take i ms) as [[a rm]|] eqn:Ta; [| discriminate]. injection E as <-.
    destruct P as [G [Ow [qs [R Fo]]]].
    destruct (take_forall2 _ _ _ _ _ _ _ _ Fo Ta) as [q1 [qs1 [A1 [[W1 M1] A3]]]].
    assert (exists p1 r, take i ps = Some (p1, r)) as [p1 [r T1]].
    { clear - R A1. revert i q1 qs1 A1. induction R as [| p0 q0 F0 ps qs G R0 R IH]; intros i q qs' E.
      - destruct i; discriminate.
      - destruct i as [| i]; cbn [take] in *; [eauto |].
        destruct (take i qs) as [[y r]|] eqn:T; [| discriminate].
        destruct (IH _ _ _ T) as [p [ps' ->]]. eauto. }
    destruct (reps_take _ _ _ _ _ _ _ R T1) as [q1' [qs1' [F1 [F1' [C1 [C2 [C3 C4]]]]]]].
    assert (q1' = q1 /\ qs1' = qs1) as [-> ->] by (split; congruence).
    pose proof (owned_perm _ _ _ Ow C4) as Ow1.
    pose proof Ow1 as Ow2. apply (proj1 (owned_app _ _ _)) in Ow2. destruct Ow2 as [Ow2 _].
    destruct (and_trigrams_ref grow h p1 q1 F1 w G C2 Ow2) as [h' [p' [[n E1] [E2 E3]]]].
    exists h', (p' :: r). split.
    { exists n. intros fuel L. rewrite T1. cbn [bind]. rewrite E1 by exact L. reflexivity. }
    destruct (pool_put h h' p' _ (fun T => a T /\ some_string w T) r rm F1 F1' E3 E2) as [F' [X [Y Z]]].
    + split; [apply (and_trigrams_spec (fun _ => True) q1 w W1) |]. intros T.
      destruct (and_trigrams_spec T q1 w W1) as [_ K]. rewrite K, M1, some_string_iff. reflexivity.
    + exact Ow1.
    + eauto.
    + exists F'. split; [exact X | split; [eapply within_perm; eauto | eapply frame_perm; eauto]].
Qed.

Lemma steps_ok : forall s h ps ms F ms', pool h ps ms F -> steps_meaning s ms = Some ms' ->
  exists h' ps', runs_to (fun fuel => steps_run grow fuel s (h, ps)) (h', ps') /\
    exists F', pool h' ps' ms' F' /\ within h F F' /\ frame h h' F.
Proof.
  induction s as [| x s IH]; intros h ps ms F ms' P E; cbn [steps_meaning steps_run] in *.
  - injection E as <-. exists h, ps. split; [exists 0; reflexivity |]. exists F.
    split; [exact P | split; [apply within_refl | apply frame_refl]].
  - destruct (step_meaning x ms) as [ms1|] eqn:S1; [| discriminate].
    destruct (step_ok x h ps ms F ms1 P S1) as [h1 [ps1 [[n1 A] [F1 [B [C D]]]]]].
    destruct (IH h1 ps1 ms1 F1 ms' B E) as [h2 [ps2 [[n2 A2] [F2 [B2 [C2 D2]]]]]].
    assert (next h <= next h1) as L by apply D.
    exists h2, ps2. split.
    + exists (n1 + n2). intros fuel Lf. rewrite A by lia. cbn [bind]. apply A2. lia.
    + exists F2. split; [exact B2 | split].
      * intros y I. destruct (C2 y I) as [K | K]; [apply C; exact K | right; lia].
      * eapply frame_trans; [exact D | exact D2 | exact C].
Qed.

Lemma pool_means : forall h ps ms F, pool h ps ms F ->
  Forall2 (fun p (m : meaning) => forall T, hsat h T p <-> m T) ps ms.
Proof.
  intros h ps ms F [G [_ [qs [R Fo]]]]. revert ms Fo. induction R as [| p q F ps qs G' R0 R IH]; intros ms Fo.
  - inversion Fo. constructor.
  - inversion Fo as [| ? m ? ms' [W M] Fo' E1 E2]. subst. constructor; [| apply IH; exact Fo'].
    intros T. rewrite (hsat_sat h T p q F G R0). apply M.
Qed.

(** From a fresh start. *)
Lemma client_ok : forall s ms, steps_meaning s [] = Some ms ->
  exists h ps, runs_to (fun fuel => steps_run grow fuel s (heap0, [])) (h, ps) /\
    Forall2 (fun p (m : meaning) => forall T, hsat h T p <-> m T) ps ms /\
    same heap0 h p_all /\ same heap0 h p_none.
Proof.
  intros s ms E.
  assert (pool heap0 [] [] []) as P.
  { split; [apply glob0 |]. split; [split; [constructor | intros x []] |].
    exists []. split; constructor. }
  destruct (steps_ok s heap0 [] [] [] ms P E) as [h [ps [A [F [B [C D]]]]]].
  exists h, ps. split; [exact A |]. split; [eapply pool_means; exact B |].
  split; (apply D; [cbn; unfold p_all, p_none; lia | intros []]).
Qed.

(** Two clients one after the other: what the first made is as it was. *)
Lemma client_frame : forall s ms h ps l m F, pool h l m F -> steps_meaning s [] = Some ms ->
  ps = [] -> exists h' ps', runs_to (fun fuel => steps_run grow fuel s (h, ps)) (h', ps') /\
    Forall2 (fun p (m : meaning) => forall T, hsat h' T p <-> m T) ps' ms /\
    forall x, x < next h -> same h h' x.
Proof.
  intros s ms h ps l m F [G _] E ->.
  assert (pool h [] [] []) as P.
  { split; [exact G |]. split; [split; [constructor | intros x []] |]. exists []. split; constructor. }
  destruct (steps_ok s h [] [] [] ms P E) as [h' [ps' [A [F' [B [C D]]]]]].
  exists h', ps'. split; [exact A |]. split; [eapply pool_means; exact B |].
  intros x L. apply D; [exact L | intros []].
Qed.

End Steps.
