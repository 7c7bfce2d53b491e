(** andOr on the memory builds what andOr on trees builds, out of the storage of its
    arguments and new storage only. *)
From Verif Require Import Model.Base Model.Query Model.QueryHeap Spec.QuerySpec Spec.QueryHeapSpec.
From Verif Require Import Proofs.ListLemmas Proofs.QueryProofs Proofs.QueryHeapBase Proofs.QueryHeapOps
  Proofs.QueryHeapFactor.
Local Open Scope nat_scope.

Lemma NoDup_app_iff : forall (F G : list nat), NoDup (F ++ G) <-> NoDup F /\ NoDup G /\ apart F G.
Proof.
  induction F as [| x F IH]; intros G.
  - split; [| intros [_ [A _]]; exact A]. intros A. split; [constructor | split; [exact A |]]. intros x [].
  - cbn [app]. rewrite !NoDup_cons_iff, IH, in_app_iff. unfold apart. split.
    + intros [A [B [C D]]]. split; [tauto |]. split; [exact C |].
      intros y [<- | I]; [tauto | apply D; exact I].
    + intros [[A B] [C D]]. split; [| split; [exact B | split; [exact C |]]].
      * intros [I | I]; [exact (A I) | exact (D x (or_introl eq_refl) I)].
      * intros y I. apply D. right. exact I.
Qed.

Lemma owned_app : forall h F G, owned h (F ++ G) <-> owned h F /\ owned h G /\ apart F G.
Proof.
  intros. unfold owned. rewrite NoDup_app_iff. split.
  - intros [[A [B C]] D]. split; [split; [exact A |] | split; [split; [exact B |] | exact C]];
      intros x I; apply D; apply in_or_app; auto.
  - intros [[A B] [[C D] E]]. split; [auto |]. intros x I. apply in_app_or in I. destruct I; auto.
Qed.

(** The parts of a node that is not a constant. *)
Definition node_rep (h : heap) (p : nat) (q : query) (G : list nat) : Prop :=
  s_ok h (n_tri (node h p)) /\ p_ok h (n_sub (node h p)) /\
  reps h (elems_p h (n_sub (node h p))) (q_sub q) G /\
  q = Query (n_op (node h p)) (elems_s h (n_tri (node h p))) (q_sub q).
Definition foot (h : heap) (p : nat) (G : list nat) : list nat :=
  p :: s_arr (n_tri (node h p)) :: s_arr (n_sub (node h p)) :: G.

Lemma rep_inv : forall h p q F, rep h p q F -> q_op q = QAnd \/ q_op q = QOr ->
  exists G, F = foot h p G /\ node_rep h p q G.
Proof.
  intros h p q F R O. destruct R as [| | p subs F So Po R].
  - destruct O; discriminate.
  - destruct O; discriminate.
  - exists F. split; [reflexivity |]. split; [exact So |]. split; [exact Po |]. split; [exact R | reflexivity].
Qed.

Lemma rep_build : forall h p o t s tri subs G, node h p = mkNode o t s -> s_ok h t -> p_ok h s ->
  elems_s h t = tri -> reps h (elems_p h s) subs G ->
  rep h p (Query o tri subs) (p :: s_arr t :: s_arr s :: G).
Proof.
  intros h p o t s tri subs G N So Po E R. subst tri.
  assert (K : rep h p (Query (n_op (node h p)) (elems_s h (n_tri (node h p))) subs)
            (p :: s_arr (n_tri (node h p)) :: s_arr (n_sub (node h p)) :: G)).
  { apply rep_node; rewrite N; assumption. }
  rewrite N in K. exact K.
Qed.

Lemma reps_app : forall h ps qs F ps' qs' F', reps h ps qs F -> reps h ps' qs' F' ->
  reps h (ps ++ ps') (qs ++ qs') (F ++ F').
Proof.
  intros h ps qs F ps' qs' F' R R'. induction R; [exact R' |].
  cbn [app]. rewrite <- app_assoc. constructor; assumption.
Qed.
Lemma reps_one : forall h p q F, rep h p q F -> reps h [p] [q] F.
Proof. intros. rewrite <- (app_nil_r F). constructor; [assumption | constructor]. Qed.

(** A node given a new (or the same) array for each of its slices. *)
Lemma owned_build : forall h h' p a b a' b' G, next h <= next h' -> owned h (p :: a :: b :: G) ->
  (a' = a \/ next h <= a') -> (b' = b \/ next h <= b') -> a' < next h' -> b' < next h' ->
  (a' < next h \/ b' < next h \/ a' <> b') ->
  owned h' (p :: a' :: b' :: G) /\ within h (p :: a :: b :: G) (p :: a' :: b' :: G).
Proof.
  intros h h' p a b a' b' G L [ND O] A B La Lb AB.
  assert (3 <= p /\ p < next h) as Op by (apply O; left; reflexivity).
  assert (3 <= a /\ a < next h) as Oa by (apply O; right; left; reflexivity).
  assert (3 <= b /\ b < next h) as Ob by (apply O; right; right; left; reflexivity).
  assert (forall x, In x G -> 3 <= x /\ x < next h) as Og by (intros x I; apply O; right; right; right; exact I).
  rewrite !NoDup_cons_iff in ND. cbn [In] in ND. destruct ND as [N1 [N2 [N3 N4]]].
  split.
  - split.
    + rewrite !NoDup_cons_iff. cbn [In]. split; [| split; [| split; [| exact N4]]].
      * intros [E | [E | E]]; [| | tauto]; destruct A as [-> | A]; destruct B as [-> | B]; subst; try tauto; lia.
      * intros [E | E].
        -- destruct A as [-> | A]; destruct B as [-> | B]; subst; try tauto; lia.
        -- destruct A as [-> | A]; [tauto |]. apply Og in E. lia.
      * intros E. destruct B as [-> | B]; [tauto |]. apply Og in E. lia.
    + intros x [<- | [<- | [<- | I]]].
      * lia.
      * destruct A; subst; lia.
      * destruct B; subst; lia.
      * apply Og in I. lia.
  - intros x [<- | [<- | [<- | I]]].
    + left. left. reflexivity.
    + destruct A as [-> | A]; [left; right; left; reflexivity | right; exact A].
    + destruct B as [-> | B]; [left; right; right; left; reflexivity | right; exact B].
    + left. right. right. right. exact I.
Qed.

Lemma owned_incl : forall h F G, owned h F -> NoDup G -> incl G F -> owned h G.
Proof. intros h F G [_ O] N I. split; [exact N |]. intros x J. apply O. apply I. exact J. Qed.
Lemma owned_le : forall h h' F, owned h F -> next h <= next h' -> owned h' F.
Proof. intros h h' F [N O] L. split; [exact N |]. intros x I. apply O in I. lia. Qed.

(** What a combination of the queries made of [F] leaves behind. *)
Definition result (h : heap) (F : list nat) (h' : heap) (p' : nat) (t : query) : Prop :=
  exists F', rep h' p' t F' /\ owned h' F' /\ within h F F' /\ frame h h' F.

Lemma result_weaken : forall h F G h' p' t, result h F h' p' t -> incl F G -> result h G h' p' t.
Proof.
  intros h F G h' p' t [F' [A [B [C D]]]] I. exists F'. split; [exact A |]. split; [exact B |].
  split; [| eapply frame_weaken; eauto]. intros x J. destruct (C x J) as [K | K]; [left; apply I; exact K | right; exact K].
Qed.

Lemma glob_result : forall h F h' p' t, glob h -> owned h F -> result h F h' p' t -> glob h'.
Proof.
  intros h F h' p' t G [_ O] [F' [_ [_ [_ R]]]]. eapply glob_frame; [exact G | exact R |].
  intros x I. apply O in I. lia.
Qed.

Lemma frame_step : forall h1 h2 h3 F, frame h1 h2 F -> frame h2 h3 F -> frame h1 h3 F.
Proof. intros h1 h2 h3 F A B. eapply frame_trans; [exact A | exact B |]. intros x I. left. exact I. Qed.
Ltac sub_list := let x := fresh in let I := fresh in intros x I; cbn [In] in *; tauto.

Section Combine.
Variable grow : nat -> nat -> nat.

(** A node [p] given new contents, with children that were there before. *)
Lemma rebuild : forall h h' p G F o t s tri subs,
  owned h F -> NoDup (foot h p G) -> incl (foot h p G) F ->
  frame h h' [p; s_arr (n_tri (node h p)); s_arr (n_sub (node h p))] ->
  node h' p = mkNode o t s -> s_ok h' t -> p_ok h' s -> elems_s h' t = tri ->
  reps h (elems_p h' s) subs G ->
  (s_arr t = s_arr (n_tri (node h p)) \/ next h <= s_arr t) -> s_arr t < next h' ->
  (s_arr s = s_arr (n_sub (node h p)) \/ next h <= s_arr s) -> s_arr s < next h' ->
  (s_arr t < next h \/ s_arr s < next h \/ s_arr t <> s_arr s) ->
  result h F h' p (Query o tri subs).
Proof.
  intros h h' p G F o t s tri subs Ow ND In1 Fr Nf So Po Et R Ta Tl Sa Sl D.
  assert (owned h (foot h p G)) as Ow1 by (eapply owned_incl; eassumption).
  destruct (owned_build h h' p (s_arr (n_tri (node h p))) (s_arr (n_sub (node h p))) (s_arr t) (s_arr s) G)
    as [B1 B2]; try assumption.
  { apply Fr. }
  exists (p :: s_arr t :: s_arr s :: G). split; [| split; [exact B1 | split]].
  - eapply rep_build; [exact Nf | exact So | exact Po | exact Et |].
    eapply reps_frame; [exact R | exact Fr | |].
    + intros x I J. unfold foot in ND. rewrite !NoDup_cons_iff in ND. cbn [In] in ND, J.
      destruct J as [J | [J | [J | []]]]; subst x; tauto.
    + intros x I. apply Ow1. right. right. right. exact I.
  - intros x I. destruct (B2 x I) as [K | K]; [left; apply In1; exact K | right; exact K].
  - apply (frame_weaken _ _ _ _ Fr). intros x I. apply In1. unfold foot. cbn [In] in *. tauto.
Qed.

Lemma foot_join : forall h p r G1 G2, owned h (foot h p G1 ++ foot h r G2) ->
  NoDup (foot h p (G1 ++ G2)) /\ incl (foot h p (G1 ++ G2)) (foot h p G1 ++ foot h r G2).
Proof.
  intros h p r G1 G2 Ow. apply (proj1 (owned_app _ _ _)) in Ow. destruct Ow as [[ND1 _] [[ND2 _] Ap]]. split.
  - unfold foot in *. rewrite !NoDup_cons_iff in *. cbn [In] in *. rewrite !in_app_iff, NoDup_app_iff.
    destruct ND1 as [X1 [X2 [X3 X4]]]. destruct ND2 as [Y1 [Y2 [Y3 Y4]]]. unfold apart in *.
    assert (forall x, In x G2 -> ~ In x (foot h p G1)) as Z.
    { intros x I J. apply (Ap x J). right. right. right. exact I. }
    unfold foot in Z. cbn [In] in Z.
    split; [| split; [| split; [| split; [exact X4 | split; [exact Y4 |]]]]].
    + intros [E | [E | [E | E]]]; try tauto. apply (Z _ E). tauto.
    + intros [E | [E | E]]; try tauto. apply (Z _ E). tauto.
    + intros [E | E]; try tauto. apply (Z _ E). tauto.
    + intros x I J. apply (Z _ J). tauto.
  - unfold foot. intros x I. cbn [In] in I. apply in_or_app. cbn [In]. rewrite in_app_iff in I. tauto.
Qed.

Lemma foot_lt : forall h p r G1 G2, owned h (foot h p G1 ++ foot h r G2) -> p <> r /\
  s_arr (n_tri (node h p)) < next h /\ s_arr (n_sub (node h p)) < next h /\
  s_arr (n_tri (node h r)) < next h /\ s_arr (n_sub (node h r)) < next h.
Proof.
  intros h p r G1 G2 Ow. apply (proj1 (owned_app _ _ _)) in Ow. destruct Ow as [[_ O1] [[_ O2] Ap]].
  split; [intros ->; exact (Ap r (or_introl eq_refl) (or_introl eq_refl)) |].
  split; [| split; [| split]].
  - apply O1. right. left. reflexivity.
  - apply O1. right. right. left. reflexivity.
  - apply O2. right. left. reflexivity.
  - apply O2. right. right. left. reflexivity.
Qed.

Lemma owned_swap : forall h F G, owned h (F ++ G) -> owned h (G ++ F).
Proof.
  intros h F G Ow. apply (proj1 (owned_app _ _ _)) in Ow. destruct Ow as [A [B C]].
  apply (proj2 (owned_app _ _ _)). split; [exact B | split; [exact A |]]. intros x I J. exact (C x J I).
Qed.

(** regexp.go:94-98 *)
Lemma merge_spec : forall h p r q1 q2 G1 G2 h1 t h2 s,
  node_rep h p q1 G1 -> node_rep h r q2 G2 -> owned h (foot h p G1 ++ foot h r G2) ->
  union_s grow h (n_tri (node h p)) (n_tri (node h r)) = (h1, t) ->
  append_p grow (set_tri h1 p t) (n_sub (node (set_tri h1 p t) p)) (elems_p (set_tri h1 p t) (n_sub (node (set_tri h1 p t) r)))
    = (h2, s) ->
  result h (foot h p G1 ++ foot h r G2) (set_sub h2 p s) p
    (Query (q_op q1) (union_list false (q_tri q1) (q_tri q2)) (q_sub q1 ++ q_sub q2)).
Proof.
  intros h p r q1 q2 G1 G2 h1 t h2 s [So1 [Po1 [R1 E1]]] [So2 [Po2 [R2 E2]]] Ow U A.
  apply union_s_spec in U; [| exact So1]. destruct U as [[U1 [U2 [U3 [U4 [U5 U6]]]]] U7].
  destruct (foot_lt _ _ _ _ _ Ow) as [Dpr [La [Lb _]]]. destruct (foot_join _ _ _ _ _ Ow) as [ND In1].
  assert (node (set_tri h1 p t) p = mkNode (n_op (node h p)) t (n_sub (node h p))) as Np.
  { cbn. rewrite fupd_eq, U2. reflexivity. }
  assert (node (set_tri h1 p t) r = node h r) as Nr.
  { cbn. rewrite fupd_ne, U2 by auto. reflexivity. }
  rewrite Np, Nr in A. cbn [n_sub] in A.
  assert (parr (set_tri h1 p t) = parr h) as Pe by exact U3.
  assert (p_ok (set_tri h1 p t) (n_sub (node h p))) as Po by (unfold p_ok; rewrite Pe; exact Po1).
  apply append_p_spec in A; [| exact Po]. destruct A as [[A1 [A2 [A3 [A4 [A5 A6]]]]] A7].
  assert (sarr (set_sub h2 p s) = sarr h1) as Sf.
  { cbn [set_sub set_node sarr]. rewrite A3. reflexivity. }
  assert (next h <= next h1) as L1 by apply U1.
  assert (next h1 <= next h2) as L2 by apply A1.
  rewrite E1, E2. cbn [q_op q_tri q_sub].
  apply (rebuild h _ p (G1 ++ G2) _ _ t s); try assumption.
  - apply (frame_step h h1); [apply (frame_weaken _ _ _ _ U1); sub_list |].
    apply (frame_step h1 (set_tri h1 p t)); [apply (frame_weaken _ _ _ _ (set_node_frame h1 p _)); sub_list |].
    apply (frame_step (set_tri h1 p t) h2); [apply (frame_weaken _ _ _ _ A1); sub_list |].
    apply (frame_weaken _ _ _ _ (set_node_frame h2 p _)); sub_list.
  - cbn [set_sub set_node node]. rewrite fupd_eq, A2, Np. reflexivity.
  - unfold s_ok. rewrite Sf. apply U6. exact So1.
  - apply A6. exact Po.
  - unfold elems_s at 1. rewrite Sf. exact U7.
  - replace (elems_p (set_sub h2 p s) s) with (elems_p h (n_sub (node h p)) ++ elems_p h (n_sub (node h r))).
    2:{ symmetry. etransitivity; [exact A7 |]. unfold elems_p. rewrite Pe. reflexivity. }
    apply reps_app; assumption.
  - specialize (U5 La). cbn. lia.
  - destruct A4 as [A4 | A4]; [left; exact A4 | right; cbn in A4; lia].
  - cbn in A5. apply A5. lia.
  - destruct (Nat.lt_ge_cases (s_arr t) (next h)) as [L | L]; [left; exact L | right].
    destruct A4 as [A4 | A4]; [left; rewrite A4; exact Lb | right]. specialize (U5 La). cbn in A4. lia.
Qed.

(** New trigrams for a node; regexp.go:99-102, 103-107 *)
Lemma retri_spec : forall h h0 p q G F h1 t o tri,
  node_rep h p q G -> owned h F -> NoDup (foot h p G) -> incl (foot h p G) F ->
  node h0 p = mkNode o (n_tri (node h p)) (n_sub (node h p)) -> frame h h0 [p] ->
  sarr h0 = sarr h -> parr h0 = parr h ->
  s_new h0 h1 (n_tri (node h p)) t -> elems_s h1 t = tri ->
  result h F (set_tri h1 p t) p (Query o tri (q_sub q)).
Proof.
  intros h h0 p q G F h1 t o tri [So [Po [R E]]] Ow ND In1 N0 Fr0 Sa0 Pa0 [U1 [U2 [U3 [U4 [U5 U6]]]]] U7.
  assert (s_arr (n_tri (node h p)) < next h) as La by (apply Ow, In1; right; left; reflexivity).
  assert (s_arr (n_sub (node h p)) < next h) as Lb by (apply Ow, In1; right; right; left; reflexivity).
  assert (next h <= next h0) as L0 by apply Fr0.
  assert (next h0 <= next h1) as L1 by apply U1.
  assert (node (set_tri h1 p t) p = mkNode o t (n_sub (node h p))) as Np.
  { cbn. rewrite fupd_eq, U2, N0. reflexivity. }
  assert (parr (set_tri h1 p t) = parr h) as Pe by (cbn; congruence).
  apply (rebuild h _ p G _ _ t (n_sub (node h p))); try assumption.
  - apply (frame_step h h0); [apply (frame_weaken _ _ _ _ Fr0); sub_list |].
    apply (frame_step _ h1); [apply (frame_weaken _ _ _ _ U1); sub_list |].
    apply (frame_weaken _ _ _ _ (set_node_frame h1 p _)); sub_list.
  - apply U6. unfold s_ok. rewrite Sa0. exact So.
  - unfold p_ok. rewrite Pe. exact Po.
  - unfold elems_p. rewrite Pe. exact R.
  - destruct U4 as [U4 | U4]; [left; exact U4 | right; lia].
  - cbn. apply U5. lia.
  - left. reflexivity.
  - cbn. lia.
  - right. left. exact Lb.
Qed.

(** A new child for a node; regexp.go:110-117 *)
Lemma resub_spec : forall h p q r q2 F2 G h1 s,
  node_rep h p q G -> rep h r q2 F2 -> owned h (foot h p G ++ F2) ->
  append_p grow h (n_sub (node h p)) [r] = (h1, s) ->
  result h (foot h p G ++ F2) (set_sub h1 p s) p (Query (q_op q) (q_tri q) (q_sub q ++ [q2])).
Proof.
  intros h p q r q2 F2 G h1 s [So [Po [R E]]] R2 Ow A.
  apply append_p_spec in A; [| exact Po]. destruct A as [[A1 [A2 [A3 [A4 [A5 A6]]]]] A7].
  pose proof Ow as Ow'. apply (proj1 (owned_app _ _ _)) in Ow'. destruct Ow' as [[ND1 O1] [[ND2 O2] Ap]].
  assert (s_arr (n_tri (node h p)) < next h) as La by (apply O1; right; left; reflexivity).
  assert (s_arr (n_sub (node h p)) < next h) as Lb by (apply O1; right; right; left; reflexivity).
  assert (next h <= next h1) as L1 by apply A1.
  rewrite E. cbn [q_op q_tri q_sub].
  apply (rebuild h _ p (G ++ F2) _ _ (n_tri (node h p)) s); try assumption.
  - assert (forall x, In x F2 -> ~ In x (foot h p G)) as Z by (intros x I J; exact (Ap x J I)).
    unfold foot in *. rewrite !NoDup_cons_iff in *. cbn [In] in *. rewrite !in_app_iff, NoDup_app_iff.
    destruct ND1 as [X1 [X2 [X3 X4]]].
    split; [| split; [| split; [| split; [exact X4 | split; [exact ND2 |]]]]].
    + intros [I | [I | [I | I]]]; try tauto. apply (Z _ I). tauto.
    + intros [I | [I | I]]; try tauto. apply (Z _ I). tauto.
    + intros [I | I]; try tauto. apply (Z _ I). tauto.
    + intros x I J. apply (Z _ J). tauto.
  - unfold foot. intros x I. cbn [In] in I. apply in_or_app. cbn [In]. rewrite in_app_iff in I. tauto.
  - apply (frame_step h h1); [apply (frame_weaken _ _ _ _ A1); sub_list |].
    apply (frame_weaken _ _ _ _ (set_node_frame h1 p _)); sub_list.
  - cbn [set_sub set_node node]. rewrite fupd_eq, A2. reflexivity.
  - unfold s_ok. cbn [set_sub set_node sarr]. rewrite A3. exact So.
  - apply A6. exact Po.
  - unfold elems_s. cbn [set_sub set_node sarr]. rewrite A3. reflexivity.
  - replace (elems_p (set_sub h1 p s) s) with (elems_p h (n_sub (node h p)) ++ [r]) by (symmetry; exact A7).
    apply reps_app; [exact R | apply reps_one; exact R2].
  - left. reflexivity.
  - cbn. lia.
  - apply A5. exact Lb.
  - left. exact La.
Qed.

(** regexp.go:117-146 *)
Lemma factor_common_h_spec : forall h p r q1 q2 G1 G2 h' c cs xs ys,
  node_rep h p q1 G1 -> node_rep h r q2 G2 -> owned h (foot h p G1 ++ foot h r G2) ->
  factor_common_h grow h p r = (h', c) -> factor_common (q_tri q1) (q_tri q2) = (cs, xs, ys) ->
  frame h h' (foot h p G1 ++ foot h r G2) /\
  rep h' p (Query (q_op q1) xs (q_sub q1)) (foot h p G1) /\
  rep h' r (Query (q_op q2) ys (q_sub q2)) (foot h r G2) /\
  next h <= s_arr c /\ s_arr c < next h' /\ s_ok h' c /\ elems_s h' c = cs.
Proof.
  intros h p r q1 q2 G1 G2 h' c cs xs ys [So1 [Po1 [R1 E1]]] [So2 [Po2 [R2 E2]]] Ow E Fc.
  destruct (foot_lt _ _ _ _ _ Ow) as [Dpr [La [Lb [Lc Ld]]]].
  pose proof Ow as Ow'. apply (proj1 (owned_app _ _ _)) in Ow'. destruct Ow' as [[ND1 O1] [[ND2 O2] Ap]].
  unfold factor_common_h in E. destruct (alloc_s h 0 []) as [h1 c1] eqn:Ea.
  apply alloc_s_spec in Ea. destruct Ea as [A1 [A2 [A3 [A4 [A5 [A6 A7]]]]]].
  rewrite A2 in E.
  set (a := s_arr (n_tri (node h p))) in *. set (b := s_arr (n_tri (node h r))) in *.
  set (ql := s_len (n_tri (node h p))) in *. set (rl := s_len (n_tri (node h r))) in *.
  assert (a <> b) as Dab.
  { intros K. apply (Ap a); [right; left; reflexivity | right; left; symmetry; exact K]. }
  assert (sarr h1 a = sarr h a) as Sa by (apply A1; [exact La | intros []]).
  assert (sarr h1 b = sarr h b) as Sb by (apply A1; [exact Lc | intros []]).
  destruct (factor_h grow (ql + rl) h1 a ql b rl 0 0 0 0 c1) as [[[h2 [i wi]] [j wj]] c2] eqn:Ef.
  destruct (move_h (ql - i) h2 a i wi) as [h3 wi'] eqn:Em1.
  destruct (move_h (rl - j) h3 b j wj) as [h4 wj'] eqn:Em2.
  injection E as <- <-.
  assert (q_tri q1 = rest (sarr h1 a) 0 ql) as Q1.
  { rewrite E1. cbn [q_tri]. unfold rest, elems_s. rewrite Nat.sub_0_r, Sa. reflexivity. }
  assert (q_tri q2 = rest (sarr h1 b) 0 rl) as Q2.
  { rewrite E2. cbn [q_tri]. unfold rest, elems_s. rewrite Nat.sub_0_r, Sb. reflexivity. }
  unfold s_ok in So1, So2. fold a ql in So1. fold b rl in So2.
  assert (length (q_tri q1) + length (q_tri q2) = ql + rl) as Lq.
  { rewrite E1, E2. cbn [q_tri]. unfold elems_s. rewrite !firstn_length. unfold a, b, ql, rl in *. lia. }
  unfold factor_common in Fc. rewrite Lq, Q1, Q2 in Fc.
  eapply factor_h_spec in Ef; [| | | | | | | | | | | | | | | exact Fc]; try lia.
  2:{ rewrite Sa. lia. }
  2:{ rewrite Sb. lia. }
  2:{ exact A6. }
  destruct Ef as [[F1 [F2 [F3 [F4 [F5 [F6 F7]]]]]] [[F8 [F9 [F10 F11]]] [F12 [F13 [F14 F15]]]]].
  cbn [firstn app] in F11, F15.
  apply move_h_spec in Em1; [| exact F8 | rewrite F10, Sa; lia].
  destruct Em1 as [M1 [M2 [M3 [M4 [M5 [M6 M7]]]]]].
  assert (next h1 <= next h2) as L12 by apply F1.
  assert (sarr h3 b = sarr h2 b) as Sb3 by (apply M1; [lia | intros [K | []]; exact (Dab K)]).
  apply move_h_spec in Em2; [| exact F12 | rewrite Sb3, F14, Sb; lia].
  destruct Em2 as [K1 [K2 [K3 [K4 [K5 [K6 K7]]]]]].
  assert (sarr h4 a = sarr h3 a) as Sa4 by (apply K1; [lia | intros [K | []]; exact (Dab (eq_sym K))]).
  set (h5 := set_tri (set_tri h4 p (mkHS a wi')) r (mkHS b wj')).
  assert (node h4 = node h) as N4 by congruence.
  assert (node h5 p = mkNode (n_op (node h p)) (mkHS a wi') (n_sub (node h p))) as Np.
  { unfold h5. cbn. rewrite fupd_ne, fupd_eq, N4 by exact Dpr. reflexivity. }
  assert (node h5 r = mkNode (n_op (node h r)) (mkHS b wj') (n_sub (node h r))) as Nr.
  { unfold h5. cbn. rewrite fupd_eq, fupd_ne, N4 by auto. reflexivity. }
  assert (frame h h5 [p; a; r; b]) as Fr.
  { apply (frame_trans h h1 h5 _ [p; a; r; b; next h]).
    - apply (frame_weaken _ _ _ _ A1). sub_list.
    - apply (frame_step h1 h2); [apply (frame_weaken _ _ _ _ F1); rewrite A4; sub_list |].
      apply (frame_step h2 h3); [apply (frame_weaken _ _ _ _ M1); sub_list |].
      apply (frame_step h3 h4); [apply (frame_weaken _ _ _ _ K1); sub_list |].
      apply (frame_step h4 (set_tri h4 p (mkHS a wi')));
        [apply (frame_weaken _ _ _ _ (set_node_frame h4 p _)) | apply (frame_weaken _ _ _ _ (set_node_frame _ r _))]; sub_list.
    - intros x I. cbn [In] in *. destruct I as [I | [I | [I | [I | [I | []]]]]]; [tauto | tauto | tauto | tauto | right; lia]. }
  assert (parr h5 = parr h) as Pe by (unfold h5; cbn; congruence).
  assert (sarr h5 = sarr h4) as Se by reflexivity.
  assert (frame h h5 (foot h p G1 ++ foot h r G2)) as Fr2.
  { apply (frame_weaken _ _ _ _ Fr). intros x I. apply in_or_app. unfold foot. fold a b. cbn [In] in *. tauto. }
  assert (sarr h5 (s_arr c2) = sarr h2 (s_arr c2)) as Sc.
  { rewrite Se. transitivity (sarr h3 (s_arr c2)).
    - apply K1; [lia |]. intros [K | []]. destruct F4 as [F4 | F4]; lia.
    - apply M1; [lia |]. intros [K | []]. destruct F4 as [F4 | F4]; lia. }
  split; [exact Fr2 |]. split; [| split; [| split; [| split; [| split]]]].
  - unfold foot. fold a. rewrite E1. cbn [q_op q_sub]. eapply (rep_build h5 p _ (mkHS a wi')); [exact Np | | | |].
    + unfold s_ok. cbn [s_len s_arr]. rewrite Se, Sa4, M6, F10, Sa. lia.
    + unfold p_ok. rewrite Pe. exact Po1.
    + unfold elems_s. cbn [s_len s_arr]. rewrite Se, Sa4, M7. exact F11.
    + unfold elems_p. rewrite Pe. eapply reps_frame; [exact R1 | exact Fr | |].
      * intros x I J. unfold foot in ND1. fold a in ND1. rewrite !NoDup_cons_iff in ND1. cbn [In] in ND1, J.
        assert (~ In x (foot h r G2)) as Z by (apply Ap; right; right; right; exact I).
        unfold foot in Z. fold b in Z. cbn [In] in Z.
        destruct J as [J | [J | [J | [J | []]]]]; subst x; tauto.
      * intros x I. apply O1. right. right. right. exact I.
  - unfold foot. fold b. rewrite E2. cbn [q_op q_sub]. eapply (rep_build h5 r _ (mkHS b wj')); [exact Nr | | | |].
    + unfold s_ok. cbn [s_len s_arr]. rewrite Se, K6, Sb3, F14, Sb. lia.
    + unfold p_ok. rewrite Pe. exact Po2.
    + unfold elems_s. cbn [s_len s_arr]. rewrite Se, K7, Sb3. exact F15.
    + unfold elems_p. rewrite Pe. eapply reps_frame; [exact R2 | exact Fr | |].
      * intros x I J. unfold foot in ND2. fold b in ND2. rewrite !NoDup_cons_iff in ND2. cbn [In] in ND2, J.
        assert (~ In x (foot h p G1)) as Z by (intros K; apply (Ap x K); right; right; right; exact I).
        unfold foot in Z. fold a in Z. cbn [In] in Z.
        destruct J as [J | [J | [J | [J | []]]]]; subst x; tauto.
      * intros x I. apply O2. right. right. right. exact I.
  - destruct F4 as [F4 | F4]; lia.
  - unfold h5. cbn. lia.
  - unfold s_ok. rewrite Sc. exact F6.
  - unfold elems_s. rewrite Sc. etransitivity; [exact F7 |]. rewrite A7. reflexivity.
Qed.

Lemma within_refl : forall h F, within h F F.
Proof. intros h F x I. left. exact I. Qed.

(** A new node over new or given storage. *)
Lemma new_node_rep : forall h h' o t s n tri subs G, alloc_n h (mkNode o t s) = (h', n) ->
  s_ok h t -> p_ok h s -> elems_s h t = tri -> reps h (elems_p h s) subs G ->
  owned h (s_arr t :: s_arr s :: G) ->
  rep h' n (Query o tri subs) (n :: s_arr t :: s_arr s :: G) /\
  owned h' (n :: s_arr t :: s_arr s :: G) /\ next h <= n.
Proof.
  intros h h' o t s n tri subs G E So Po Et R [ND O].
  apply alloc_n_spec in E. destruct E as [A1 [A2 [A3 [A4 [A5 A6]]]]].
  split; [| split].
  - eapply rep_build; [exact A6 | | | |].
    + unfold s_ok. rewrite A2. exact So.
    + unfold p_ok. rewrite A3. exact Po.
    + unfold elems_s. rewrite A2. exact Et.
    + unfold elems_p. rewrite A3. eapply reps_frame; [exact R | exact A1 | intros x _ [] |].
      intros x I. apply O. right. right. exact I.
  - split.
    + constructor; [| exact ND]. intros I. apply O in I. lia.
    + intros x [<- | I].
      * subst n. split; [| lia].
        destruct (O (s_arr t) (or_introl eq_refl)). lia.
      * apply O in I. lia.
  - lia.
Qed.

Lemma and_or_h_spec : forall k h p r q1 q2 F1 F2 op t, (op = QAnd \/ op = QOr) -> glob h ->
  rep h p q1 F1 -> rep h r q2 F2 -> owned h (F1 ++ F2) -> and_or_f k q1 q2 op = Some t ->
  exists n h' p', (forall fuel, n <= fuel -> and_or_h grow fuel h p r op = Some (h', p')) /\
    result h (F1 ++ F2) h' p' t.
Proof.
  induction k as [| k IH]; intros h p0 r0 q10 q20 F10 F20 op t Hop G R10 R20 Ow0 E; [discriminate |].
  destruct (unwrap_rep _ _ _ _ G R10) as [pre1 [F1 [Ef1 R1]]].
  destruct (unwrap_rep _ _ _ _ G R20) as [pre2 [F2 [Ef2 R2]]].
  assert (owned h (F1 ++ F2)) as Ow.
  { subst F10 F20. rewrite !owned_app in *. destruct Ow0 as [[_ [A _]] [[_ [B _]] C]].
    split; [exact A | split; [exact B |]]. intros x I J.
    apply (C x); apply in_or_app; right; assumption. }
  assert (incl (F1 ++ F2) (F10 ++ F20)) as Inc.
  { subst F10 F20. intros x I. rewrite !in_app_iff in *. tauto. }
  assert (exists n h' p', (forall fuel, n <= fuel -> and_or_h grow fuel h p0 r0 op = Some (h', p')) /\
    result h (F1 ++ F2) h' p' t) as Goal1.
  2:{ destruct Goal1 as [n [h' [p' [A B]]]]. exists n, h', p'. split; [exact A | eapply result_weaken; eauto]. }
  clear Inc Ow0 R10 R20 Ef1 Ef2 pre1 pre2 F10 F20.
  cbn [and_or_f] in E. cbv zeta in E.
  set (q1 := unwrap q10) in *. set (q2 := unwrap q20) in *. clearbody q1 q2. clear q10 q20.
  assert (forall f, and_or_h grow (S f) h p0 r0 op =
    let q := unwrap_h h p0 in let r := unwrap_h h r0 in
    b <- implies_h f h q r ;;
      if b then Some (h, if qop_eqb op QAnd then q else r)
      else
        b <- implies_h f h r q ;;
        if b then Some (h, if qop_eqb op QAnd then r else q)
        else
          let qa := atom_h h q in
          let ra := atom_h h r in
          if is_op_h h q op && (is_op_h h r op || ra) then
            let '(h, t) := union_s grow h (n_tri (node h q)) (n_tri (node h r)) in
            let h := set_tri h q t in
            let '(h, s) := append_p grow h (n_sub (node h q)) (elems_p h (n_sub (node h r))) in
            Some (set_sub h q s, q)
          else if is_op_h h r op && qa then
            let '(h, t) := union_s grow h (n_tri (node h r)) (n_tri (node h q)) in
            Some (set_tri h r t, r)
          else if qa && ra then
            let h := set_op h q op in
            let '(h, t) := append_s grow h (n_tri (node h q)) (elems_s h (n_tri (node h r))) in
            Some (set_tri h q t, q)
          else if is_op_h h q op then
            let '(h, s) := append_p grow h (n_sub (node h q)) [r] in
            Some (set_sub h q s, q)
          else if is_op_h h r op then
            let '(h, s) := append_p grow h (n_sub (node h r)) [q] in
            Some (set_sub h r s, r)
          else
            let '(h, c) := factor_common_h grow h q r in
            if Nat.ltb 0 (s_len c) then
              '(h, s) <- and_or_h grow f h q r op ;;
              let '(h, ns) := nil_p h in
              let '(h, t) := alloc_n h (mkNode (other_op op) c ns) in
              and_or_h grow f h t s (other_op op)
            else
              let '(h, nt) := nil_s h in
              let '(h, s) := alloc_p h 2 [q; r] in
              let '(h, o) := alloc_n h (mkNode op nt s) in
              Some (h, o)) as Unf by reflexivity.
  set (p := unwrap_h h p0) in *. set (r := unwrap_h h r0) in *. clearbody p r. cbv zeta in Unf.
  destruct (implies_rep _ _ _ _ _ _ _ G R1 R2) as [n1 I1].
  destruct (implies_rep _ _ _ _ _ _ _ G R2 R1) as [n2 I2].
  destruct (implies q1 q2) eqn:Im1.
  { exists (S n1), h, (if qop_eqb op QAnd then p else r). split.
    - intros fuel L. destruct fuel as [| f]; [lia |]. rewrite Unf, I1 by lia. reflexivity.
    - injection E as <-. apply (proj1 (owned_app _ _ _)) in Ow. destruct Ow as [O1 [O2 _]]. destruct (qop_eqb op QAnd).
      + exists F1. split; [exact R1 | split; [exact O1 | split; [| apply frame_refl]]].
        intros x I. left. apply in_or_app. left. exact I.
      + exists F2. split; [exact R2 | split; [exact O2 | split; [| apply frame_refl]]].
        intros x I. left. apply in_or_app. right. exact I. }
  destruct (implies q2 q1) eqn:Im2.
  { exists (S (n1 + n2)), h, (if qop_eqb op QAnd then r else p). split.
    - intros fuel L. destruct fuel as [| f]; [lia |]. rewrite Unf, I1 by lia. cbn [bind]. rewrite I2 by lia. reflexivity.
    - injection E as <-. apply (proj1 (owned_app _ _ _)) in Ow. destruct Ow as [O1 [O2 _]]. destruct (qop_eqb op QAnd).
      + exists F2. split; [exact R2 | split; [exact O2 | split; [| apply frame_refl]]].
        intros x I. left. apply in_or_app. right. exact I.
      + exists F1. split; [exact R1 | split; [exact O1 | split; [| apply frame_refl]]].
        intros x I. left. apply in_or_app. left. exact I. }
  destruct (no_implies_ops _ _ Im1 Im2) as [Op1 Op2].
  rewrite (atom_rep _ _ _ _ G R1), (atom_rep _ _ _ _ G R2) in Unf.
  rewrite !(is_op_rep _ _ _ _ op G R1), !(is_op_rep _ _ _ _ op G R2) in Unf.
  destruct (rep_inv _ _ _ _ R1 Op1) as [G1 [-> NR1]].
  destruct (rep_inv _ _ _ _ R2 Op2) as [G2 [-> NR2]].
  pose proof NR1 as [So1 [Po1 [Rs1 E1]]]. pose proof NR2 as [So2 [Po2 [Rs2 E2]]].
  destruct (foot_lt _ _ _ _ _ Ow) as [Dpr _].
  assert (q_tri q1 = elems_s h (n_tri (node h p))) as T1 by (rewrite E1 at 1; reflexivity).
  assert (q_tri q2 = elems_s h (n_tri (node h r))) as T2 by (rewrite E2 at 1; reflexivity).
  assert (q_op q1 = n_op (node h p)) as Oq1 by (rewrite E1 at 1; reflexivity).
  assert (q_op q2 = n_op (node h r)) as Oq2 by (rewrite E2 at 1; reflexivity).
  pose proof Ow as Ow'. apply (proj1 (owned_app _ _ _)) in Ow'. destruct Ow' as [[ND1 O1] [[ND2 O2] Ap]].
  destruct (is_op q1 op && (is_op q2 op || q_atom q2)).
  { destruct (union_s grow h (n_tri (node h p)) (n_tri (node h r))) as [h1 t1] eqn:U.
    destruct (append_p grow (set_tri h1 p t1) (n_sub (node (set_tri h1 p t1) p))
               (elems_p (set_tri h1 p t1) (n_sub (node (set_tri h1 p t1) r)))) as [h2 s2] eqn:A.
    exists (S (n1 + n2)), (set_sub h2 p s2), p. split.
    - intros fuel L. destruct fuel as [| f]; [lia |]. rewrite Unf, I1, I2 by lia. reflexivity.
    - injection E as <-. eapply merge_spec; eauto. }
  destruct (is_op q2 op && q_atom q1).
  { destruct (union_s grow h (n_tri (node h r)) (n_tri (node h p))) as [h1 t1] eqn:U.
    apply union_s_spec in U; [| exact So2]. destruct U as [U1 U2].
    exists (S (n1 + n2)), (set_tri h1 r t1), r. split.
    - intros fuel L. destruct fuel as [| f]; [lia |]. rewrite Unf, I1, I2 by lia. reflexivity.
    - injection E as <-. eapply (retri_spec h h r q2 G2 _ h1 t1); try eassumption; try reflexivity.
      + intros x I. apply in_or_app. right. exact I.
      + rewrite Oq2. destruct (node h r). reflexivity.
      + apply frame_refl.
      + rewrite U2, T1, T2. reflexivity. }
  destruct (q_atom q1 && q_atom q2).
  { destruct (append_s grow (set_op h p op) (n_tri (node (set_op h p op) p))
               (elems_s (set_op h p op) (n_tri (node (set_op h p op) r)))) as [h1 t1] eqn:A.
    assert (node (set_op h p op) p = mkNode op (n_tri (node h p)) (n_sub (node h p))) as Np.
    { cbn. apply fupd_eq. }
    assert (node (set_op h p op) r = node h r) as Nr by (cbn; apply fupd_ne; auto).
    exists (S (n1 + n2)), (set_tri h1 p t1), p. split.
    - intros fuel L. destruct fuel as [| f]; [lia |]. rewrite Unf, I1, I2 by lia. cbn [bind]. reflexivity.
    - injection E as <-. rewrite Np, Nr in A. cbn [n_tri] in A. apply append_s_spec in A; [| exact So1].
      destruct A as [A1 A2].
      eapply (retri_spec h (set_op h p op) p q1 G1 _ h1 t1); try eassumption; try reflexivity.
      + intros x I. apply in_or_app. left. exact I.
      + apply set_node_frame.
      + rewrite A2, T1, T2. reflexivity. }
  destruct (is_op q1 op).
  { destruct (append_p grow h (n_sub (node h p)) [r]) as [h1 s1] eqn:A.
    exists (S (n1 + n2)), (set_sub h1 p s1), p. split.
    - intros fuel L. destruct fuel as [| f]; [lia |]. rewrite Unf, I1, I2 by lia. reflexivity.
    - injection E as <-. eapply resub_spec; eauto. }
  destruct (is_op q2 op).
  { destruct (append_p grow h (n_sub (node h r)) [p]) as [h1 s1] eqn:A.
    exists (S (n1 + n2)), (set_sub h1 r s1), r. split.
    - intros fuel L. destruct fuel as [| f]; [lia |]. rewrite Unf, I1, I2 by lia. reflexivity.
    - injection E as <-. eapply result_weaken; [eapply resub_spec; eauto using owned_swap |].
      intros x I. rewrite in_app_iff in *. tauto. }
  destruct (factor_common (q_tri q1) (q_tri q2)) as [[cs xs] ys] eqn:Fc.
  destruct (factor_common_h grow h p r) as [h1 c] eqn:Fh.
  destruct (factor_common_h_spec _ _ _ _ _ _ _ _ _ _ _ _ NR1 NR2 Ow Fh Fc) as [K1 [K2 [K3 [K4 [K5 [K6 K7]]]]]].
  set (F := foot h p G1 ++ foot h r G2) in *.
  assert (glob h1) as Gl1 by (eapply glob_frame; [exact G | exact K1 |]; intros x I; apply Ow; exact I).
  assert (next h <= next h1) as L1 by apply K1.
  assert (3 <= next h) as L3 by apply G.
  assert (s_len c = length cs) as Lc.
  { rewrite <- K7. unfold elems_s. rewrite firstn_length. unfold s_ok in K6. lia. }
  assert (owned h1 F) as Ow1 by (eapply owned_le; eassumption).
  destruct cs as [| c0 cs].
  - cbn [length] in Lc. destruct (nil_s h1) as [h2 nt] eqn:Ea. destruct (alloc_p h2 2 [p; r]) as [h3 s] eqn:Eb.
    destruct (alloc_n h3 (mkNode op nt s)) as [h4 o] eqn:Ec.
    exists (S (n1 + n2)), h4, o. split.
    + intros fuel L. destruct fuel as [| f]; [lia |]. rewrite Unf, I1, I2 by lia. cbn [bind].
      rewrite Lc. cbn [Nat.ltb Nat.leb]. rewrite ?Ea, ?Eb, ?Ec. reflexivity.
    + injection E as <-. unfold nil_s in Ea. apply alloc_s_spec in Ea. destruct Ea as [A1 [A2 [A3 [A4 [A5 [A6 A7]]]]]].
      apply alloc_p_spec in Eb. destruct Eb as [B1 [B2 [B3 [B4 [B5 [B6 B7]]]]]].
      assert (frame h1 h3 []) as Fr13 by (apply (frame_step h1 h2); assumption).
      pose proof (alloc_n_spec _ _ _ _ Ec) as [C1 _].
      eapply (new_node_rep h3 h4 op nt s o [] [Query (q_op q1) xs (q_sub q1); Query (q_op q2) ys (q_sub q2)] F) in Ec.
      * destruct Ec as [D1 [D2 D3]]. exists (o :: s_arr nt :: s_arr s :: F).
        split; [exact D1 | split; [exact D2 | split]].
        -- intros x [<- | [<- | [<- | I]]]; [right; lia | right; lia | right; lia | left; exact I].
        -- apply (frame_step h h1); [exact K1 |]. apply (frame_step h1 h3); [apply (frame_weaken _ _ _ _ Fr13); sub_list |].
           apply (frame_weaken _ _ _ _ C1); sub_list.
      * unfold s_ok in *. rewrite B3. exact A6.
      * exact B6.
      * unfold elems_s in *. rewrite B3. exact A7.
      * rewrite B7. unfold F. rewrite <- (app_nil_r (foot h r G2)).
        constructor; [| constructor; [| constructor]].
        -- eapply rep_frame; [exact K2 | exact Fr13 | intros x _ [] |].
           eapply owned_incl; [exact Ow1 | exact ND1 |]. intros x I. apply in_or_app. left. exact I.
        -- eapply rep_frame; [exact K3 | exact Fr13 | intros x _ [] |].
           eapply owned_incl; [exact Ow1 | exact ND2 |]. intros x I. apply in_or_app. right. exact I.
      * rewrite A4, B4. destruct Ow1 as [Na Nb]. split.
        -- constructor; [| constructor; [| exact Na]].
           ++ intros [I | I]; [lia | apply Nb in I; lia].
           ++ intros I. apply Nb in I. lia.
        -- intros x [<- | [<- | I]]; [lia | lia | apply Nb in I; lia].
  - change (c0 :: cs) with ([c0] ++ cs) in *. cbn [app] in E.
    destruct (and_or_f k (Query (q_op q1) xs (q_sub q1)) (Query (q_op q2) ys (q_sub q2)) op) as [s|] eqn:Es; [| discriminate].
    cbn [bind] in E.
    destruct (IH h1 p r _ _ _ _ op s Hop Gl1 K2 K3 Ow1 Es) as [m1 [h2 [sp [J1 J2]]]]. fold F in J2.
    assert (glob h2) as Gl2 by (eapply glob_result; [exact Gl1 | exact Ow1 | exact J2]).
    destruct J2 as [Fs [Rs [Os [Ws Fr12]]]].
    destruct (nil_p h2) as [h3 ns] eqn:Ea. destruct (alloc_n h3 (mkNode (other_op op) c ns)) as [h4 tp] eqn:Ec.
    pose proof (alloc_n_spec _ _ _ _ Ec) as [C1 [_ [_ [_ [C2 _]]]]].
    pose proof Ea as Ea0. pose proof Ec as Ec0.
    unfold nil_p in Ea. apply alloc_p_spec in Ea. destruct Ea as [A1 [A2 [A3 [A4 [A5 [A6 A7]]]]]].
    assert (next h1 <= next h2) as L2 by apply Fr12.
    assert (~ In (s_arr c) F) as Nc by (intros I; apply Ow in I; lia).
    assert (sarr h2 (s_arr c) = sarr h1 (s_arr c)) as Sc by (apply Fr12; assumption).
    assert (frame h2 h4 []) as Fr24 by (apply (frame_step h2 h3); assumption).
    eapply (new_node_rep h3 h4 (other_op op) c ns tp ([c0] ++ cs) [] []) in Ec.
    + destruct Ec as [D1 [D2 D3]].
      assert (glob h4) as Gl4 by (eapply glob_frame; [exact Gl2 | exact Fr24 | intros x []]).
      assert (rep h4 sp s Fs) as Rs4 by (eapply rep_frame; [exact Rs | exact Fr24 | intros x _ [] | exact Os]).
      assert (owned h4 ([tp; s_arr c; s_arr ns] ++ Fs)) as Ow4.
      { rewrite owned_app. split; [exact D2 |]. split; [eapply owned_le; [exact Os | lia] |].
        intros x I J. cbn [In] in I. destruct I as [<- | [<- | [<- | []]]].
        - apply Os in J. lia.
        - destruct (Ws _ J) as [W | W]; [exact (Nc W) | lia].
        - apply Os in J. lia. }
      assert (other_op op = QAnd \/ other_op op = QOr) as Hop2 by (destruct Hop; subst op; cbn; auto).
      destruct (IH h4 tp sp _ _ _ _ (other_op op) t Hop2 Gl4 D1 Rs4 Ow4 E) as [m2 [h5 [p5 [J3 J4]]]].
      exists (S (n1 + n2 + m1 + m2)), h5, p5. split.
      * intros fuel L. destruct fuel as [| f]; [lia |]. rewrite Unf, I1, I2 by lia. cbn [bind].
        rewrite Lc. cbn [length app Nat.ltb Nat.leb]. rewrite J1 by lia. cbn [bind].
        rewrite Ea0, Ec0. apply J3. lia.
      * destruct J4 as [F5 [V1 [V2 [V3 V4]]]].
        assert (within h F ([tp; s_arr c; s_arr ns] ++ Fs)) as W4.
        { intros x I. apply in_app_or in I. destruct I as [I | I].
          - cbn [In] in I. destruct I as [<- | [<- | [<- | []]]]; right; lia.
          - destruct (Ws _ I) as [W | W]; [left; exact W | right; lia]. }
        exists F5. split; [exact V1 | split; [exact V2 | split]].
        -- intros x I. destruct (V3 _ I) as [W | W]; [exact (W4 _ W) | right; lia].
        -- eapply (frame_trans h h4); [| exact V4 | exact W4].
           apply (frame_step h h1); [exact K1 |]. apply (frame_step h1 h2); [exact Fr12 |].
           apply (frame_weaken _ _ _ _ Fr24). sub_list.
    + unfold s_ok in *. rewrite A3, Sc. exact K6.
    + exact A6.
    + unfold elems_s in *. rewrite A3, Sc. exact K7.
    + rewrite A7. constructor.
    + rewrite A4. split.
      * constructor; [| constructor; [intros [] | constructor]]. intros [I | []]. lia.
      * intros x [<- | [<- | []]]; lia.
Qed.

End Combine.
