(** andTrigrams on the memory, and sequences of combinations. *)
From Verif Require Import Model.Base Model.Query Model.QueryHeap Spec.QuerySpec Spec.QueryHeapSpec.
From Verif Require Import Proofs.ListLemmas Proofs.QueryProofs Proofs.QueryHeapBase Proofs.QueryHeapOps
  Proofs.QueryHeapFactor Proofs.QueryHeapCombine.
Local Open Scope nat_scope.

(** One run gives [h'] and [p'] for every bound from some point on. *)
Definition runs_to {A} (f : nat -> option A) (x : A) : Prop := exists n, forall fuel, n <= fuel -> f fuel = Some x.

Lemma result_trans : forall h F h1 p1 t1 F1 h2 p2 t2 G,
  rep h1 p1 t1 F1 -> within h F F1 -> frame h h1 F ->
  result h1 G h2 p2 t2 -> (forall x, In x G -> In x F1 \/ In x F \/ next h <= x) -> result h F h2 p2 t2.
Proof.
  intros h F h1 p1 t1 F1 h2 p2 t2 G _ W Fr [F2 [A [B [C D]]]] In1.
  assert (next h <= next h1) as L by apply Fr.
  assert (within h F G) as W2.
  { intros x I. destruct (In1 x I) as [K | [K | K]]; [apply W; exact K | left; exact K | right; exact K]. }
  exists F2. split; [exact A | split; [exact B | split]].
  - intros x I. destruct (C x I) as [K | K]; [apply W2; exact K | right; lia].
  - eapply frame_trans; [exact Fr | exact D | exact W2].
Qed.

Section Trigrams.
Variable grow : nat -> nat -> nat.

Lemma and_or_ref : forall h p r q1 q2 F1 F2 op, (op = QAnd \/ op = QOr) -> glob h ->
  rep h p q1 F1 -> rep h r q2 F2 -> owned h (F1 ++ F2) ->
  exists h' p', runs_to (fun fuel => and_or_h grow fuel h p r op) (h', p') /\
    result h (F1 ++ F2) h' p' (and_or q1 q2 op) /\ glob h'.
Proof.
  intros h p r q1 q2 F1 F2 op Hop G R1 R2 Ow.
  destruct (and_or_h_spec grow _ h p r q1 q2 F1 F2 op _ Hop G R1 R2 Ow (and_or_some q1 q2 op)) as [n [h' [p' [A B]]]].
  exists h', p'. split; [exists n; exact A |]. split; [exact B | eapply glob_result; eauto].
Qed.

Lemma adds_spec : forall l h s h' s', s_ok h s ->
  fold_left (fun hs x => append_s grow (fst hs) (snd hs) [x]) l (h, s) = (h', s') ->
  s_new h h' s s' /\ elems_s h' s' = elems_s h s ++ l.
Proof.
  induction l as [| x l IH]; intros h s h' s' Ok E; cbn [fold_left fst snd] in E.
  - injection E as <- <-. split; [apply s_new_refl | symmetry; apply app_nil_r].
  - destruct (append_s grow h s [x]) as [h1 s1] eqn:A. apply append_s_spec in A; [| exact Ok]. destruct A as [A1 A2].
    apply IH in E; [| apply A1; exact Ok]. destruct E as [E1 E2].
    split; [eapply s_new_trans; eauto |]. rewrite E2, A2, <- app_assoc. reflexivity.
Qed.

Lemma trig_h_spec : forall h w h' s, trig_h grow h w = (h', s) ->
  frame h h' [] /\ next h <= s_arr s /\ s_arr s < next h' /\ s_ok h' s /\
  elems_s h' s = clean_list false (trigrams_of w).
Proof.
  intros h w h' s E. unfold trig_h in E.
  destruct (nil_s h) as [h1 s1] eqn:N. unfold nil_s in N. apply alloc_s_spec in N.
  destruct N as [N1 [N2 [N3 [N4 [N5 [N6 N7]]]]]].
  destruct (fold_left _ (trigrams_of w) (h1, s1)) as [h2 s2] eqn:A. apply adds_spec in A; [| exact N6].
  destruct A as [A1 A2]. apply clean_s_spec in E. destruct E as [E1 E2].
  pose proof (s_new_trans _ _ _ _ _ _ A1 E1) as [B1 [_ [_ [B4 [B5 B6]]]]].
  assert (next h1 <= next h') as L by apply B1.
  split; [| split; [| split; [| split]]].
  - destruct B1 as [_ B1]. destruct N1 as [_ N1]. split; [lia |]. intros x Lx _.
    eapply same_trans; [apply N1; [exact Lx | intros []] |]. apply B1; [lia |]. intros [I | []]. lia.
  - destruct B4 as [B4 | B4]; lia.
  - apply B5. lia.
  - apply B6. exact N6.
  - rewrite E2, A2, N7. reflexivity.
Qed.

Lemma or_trigrams_ref : forall t h o qo F, glob h -> rep h o qo F -> owned h F ->
  exists h' p', runs_to (fun fuel => or_trigrams_h grow fuel h o t) (h', p') /\
    result h F h' p' (fold_left (fun q w => and_or q (Query QAnd (clean_list false (trigrams_of w)) []) QOr) t qo) /\
    glob h'.
Proof.
  induction t as [| w t IH]; intros h o qo F G R Ow.
  - exists h, o. split; [exists 0; reflexivity |]. split; [| exact G].
    exists F. split; [exact R | split; [exact Ow | split; [apply within_refl | apply frame_refl]]].
  - cbn [or_trigrams_h fold_left].
    destruct (trig_h grow h w) as [h1 s] eqn:A. apply trig_h_spec in A. destruct A as [A1 [A2 [A3 [A4 A5]]]].
    destruct (nil_p h1) as [h2 ns] eqn:B. unfold nil_p in B. apply alloc_p_spec in B.
    destruct B as [B1 [B2 [B3 [B4 [B5 [B6 B7]]]]]].
    destruct (alloc_n h2 (mkNode QAnd s ns)) as [h3 n] eqn:C.
    pose proof (alloc_n_spec _ _ _ _ C) as [C1 [_ [_ [_ [C2 _]]]]].
    assert (next h <= next h1) as L1 by apply A1.
    assert (3 <= next h) as L3 by apply G.
    assert (frame h h3 []) as Fr.
    { apply (frame_step h h1); [exact A1 |]. apply (frame_step h1 h2); assumption. }
    eapply (new_node_rep h2 h3 QAnd s ns n (clean_list false (trigrams_of w)) [] []) in C.
    + destruct C as [D1 [D2 D3]].
      assert (glob h3) as G3 by (eapply glob_frame; [exact G | exact Fr | intros x []]).
      assert (rep h3 o qo F) as R3 by (eapply rep_frame; [exact R | exact Fr | intros x _ [] | exact Ow]).
      assert (owned h3 (F ++ [n; s_arr s; s_arr ns])) as Ow3.
      { rewrite owned_app. split; [eapply owned_le; [exact Ow | lia] |]. split; [exact D2 |].
        intros x I J. apply Ow in I. cbn [In] in J. lia. }
      destruct (and_or_ref h3 o n qo _ _ _ QOr (or_intror eq_refl) G3 R3 D1 Ow3) as [h4 [p4 [[n4 X1] [X2 X3]]]].
      destruct X2 as [F4 [Y1 [Y2 [Y3 Y4]]]].
      destruct (IH h4 p4 _ F4 X3 Y1 Y2) as [h5 [p5 [[n5 Z1] [Z2 Z3]]]].
      exists h5, p5. split; [| split; [| exact Z3]].
      * exists (n4 + n5). intros fuel L. rewrite X1 by lia. cbn [bind]. apply Z1. lia.
      * assert (within h F F4) as W4.
        { intros x I. destruct (Y3 x I) as [K | K].
          - apply in_app_or in K. destruct K as [K | K]; [left; exact K | right]. cbn [In] in K. lia.
          - right. lia. }
        assert (frame h h4 F) as Fr4.
        { eapply (frame_trans h h3 h4 F); [apply (frame_weaken _ _ _ _ Fr); sub_list | exact Y4 |].
          intros x K. apply in_app_or in K. destruct K as [K | K]; [left; exact K | right]. cbn [In] in K. lia. }
        eapply result_trans; [exact Y1 | exact W4 | exact Fr4 | exact Z2 |]. auto.
    + unfold s_ok in *. rewrite B3. exact A4.
    + exact B6.
    + unfold elems_s in *. rewrite B3. exact A5.
    + rewrite B7. constructor.
    + rewrite B4. split.
      * constructor; [| constructor; [intros [] | constructor]]. intros [I | []]. lia.
      * intros x [<- | [<- | []]]; lia.
Qed.

Lemma and_trigrams_ref : forall h p q F t, glob h -> rep h p q F -> owned h F ->
  exists h' p', runs_to (fun fuel => and_trigrams_h grow fuel h p t) (h', p') /\
    result h F h' p' (and_trigrams q t) /\ glob h'.
Proof.
  intros h p q F t G R Ow. unfold and_trigrams_h, and_trigrams.
  destruct (Nat.ltb (min_len t) 3).
  { exists h, p. split; [exists 0; reflexivity |]. split; [| exact G].
    exists F. split; [exact R | split; [exact Ow | split; [apply within_refl | apply frame_refl]]]. }
  destruct (or_trigrams_ref t h p_none none_query [] G (rep_none h)) as [h1 [p1 [[n1 A] [B C]]]].
  { split; [constructor | intros x []]. }
  destruct B as [F1 [B1 [B2 [B3 B4]]]].
  assert (rep h1 p q F) as R1 by (eapply rep_frame; [exact R | exact B4 | intros x _ [] | exact Ow]).
  assert (next h <= next h1) as L by apply B4.
  assert (owned h1 (F ++ F1)) as Ow1.
  { rewrite owned_app. split; [eapply owned_le; [exact Ow | exact L] |]. split; [exact B2 |].
    intros x I J. apply Ow in I. destruct (B3 x J) as [[] | K]. lia. }
  destruct (and_or_ref h1 p p1 q _ F F1 QAnd (or_introl eq_refl) C R1 B1 Ow1) as [h2 [p2 [[n2 D] [E K]]]].
  exists h2, p2. split; [| split; [| exact K]].
  - exists (n1 + n2). intros fuel Lf. rewrite A by lia. cbn [bind]. apply D. lia.
  - eapply result_trans; [exact B1 | | | exact E |].
    + intros x I. destruct (B3 x I) as [[] | W]. right. exact W.
    + apply (frame_weaken _ _ _ _ B4). sub_list.
    + intros x I. apply in_app_or in I. tauto.
Qed.

End Trigrams.
