(** Ownership of memory by queries. *)
From Verif Require Import Model.Base Model.Query Model.QueryHeap Spec.QuerySpec Spec.QueryHeapSpec.
From Verif Require Import Proofs.ListLemmas Proofs.QueryProofs.
Local Open Scope nat_scope.

(** The global constants are in place. *)
Definition glob (h : heap) : Prop :=
  3 <= next h /\
  n_op (node h p_all) = QAll /\ s_len (n_tri (node h p_all)) = 0 /\ s_len (n_sub (node h p_all)) = 0 /\
  n_op (node h p_none) = QNone /\ s_len (n_tri (node h p_none)) = 0 /\ s_len (n_sub (node h p_none)) = 0.

Definition s_ok (h : heap) (s : hslice) : Prop := s_len s <= length (sarr h (s_arr s)).
Definition p_ok (h : heap) (s : hslice) : Prop := s_len s <= length (parr h (s_arr s)).

(** [rep h p q F]: the memory at [p] is the tree [q], made of the objects [F]. *)
Inductive rep (h : heap) : nat -> query -> list nat -> Prop :=
| rep_all : rep h p_all all_query []
| rep_none : rep h p_none none_query []
| rep_node : forall p subs F,
    s_ok h (n_tri (node h p)) -> p_ok h (n_sub (node h p)) ->
    reps h (elems_p h (n_sub (node h p))) subs F ->
    rep h p (Query (n_op (node h p)) (elems_s h (n_tri (node h p))) subs)
      (p :: s_arr (n_tri (node h p)) :: s_arr (n_sub (node h p)) :: F)
with reps (h : heap) : list nat -> list query -> list nat -> Prop :=
| reps_nil : reps h [] [] []
| reps_cons : forall p q F ps qs G, rep h p q F -> reps h ps qs G -> reps h (p :: ps) (q :: qs) (F ++ G).

Scheme rep_ind2 := Induction for rep Sort Prop
  with reps_ind2 := Induction for reps Sort Prop.
Combined Scheme rep_both from rep_ind2, reps_ind2.

Lemma rep_frame_both : forall h h',
  (forall p q F, rep h p q F -> (forall x, In x F -> same h h' x) -> rep h' p q F) /\
  (forall ps qs F, reps h ps qs F -> (forall x, In x F -> same h h' x) -> reps h' ps qs F).
Proof.
  intros h h'.
  apply (rep_both h
    (fun p q F _ => (forall x, In x F -> same h h' x) -> rep h' p q F)
    (fun ps qs F _ => (forall x, In x F -> same h h' x) -> reps h' ps qs F)).
  - intros _. constructor.
  - intros _. constructor.
  - intros p subs F A B R IH D.
    destruct (D p (or_introl eq_refl)) as [Np _].
    destruct (D _ (or_intror (or_introl eq_refl))) as [_ [Sa _]].
    destruct (D _ (or_intror (or_intror (or_introl eq_refl)))) as [_ [_ Pa]].
    unfold elems_s, elems_p, s_ok, p_ok in *.
    assert (IH' := IH (fun x I => D x (or_intror (or_intror (or_intror I))))). clear IH.
    rewrite <- Np in *. rewrite <- Sa, <- Pa in *.
    apply rep_node; unfold s_ok, p_ok, elems_p; assumption.
  - intros _. constructor.
  - intros p q F ps qs G R IH Rs IHs D. constructor; [apply IH | apply IHs];
      intros x I; apply D; apply in_or_app; [left | right]; exact I.
Qed.

(** Nothing but [F] and new objects changes between [h] and [h']. *)
Definition frame (h h' : heap) (F : list nat) : Prop :=
  next h <= next h' /\ forall x, x < next h -> ~ In x F -> same h h' x.
Definition owned (h : heap) (F : list nat) : Prop :=
  NoDup F /\ forall x, In x F -> 3 <= x /\ x < next h.
Definition within (h : heap) (F G : list nat) : Prop :=
  forall x, In x G -> In x F \/ next h <= x.
Definition apart (F G : list nat) : Prop := forall x, In x F -> ~ In x G.

Lemma same_refl : forall h x, same h h x.
Proof. intros. split; [| split]; reflexivity. Qed.
Lemma same_trans : forall h1 h2 h3 x, same h1 h2 x -> same h2 h3 x -> same h1 h3 x.
Proof. unfold same. intros h1 h2 h3 x [A [B C]] [D [E F]]. rewrite D, E, F. auto. Qed.

Lemma frame_refl : forall h F, frame h h F.
Proof. split; [lia | intros; apply same_refl]. Qed.

Lemma frame_trans : forall h1 h2 h3 F G,
  frame h1 h2 F -> frame h2 h3 G -> within h1 F G -> frame h1 h3 F.
Proof.
  intros h1 h2 h3 F G [A B] [C D] W. split; [lia |]. intros x L N.
  eapply same_trans; [apply B; assumption |]. apply D; [lia |].
  intros I. destruct (W _ I) as [J | J]; [exact (N J) | lia].
Qed.

Lemma frame_weaken : forall h h' F G, frame h h' F -> incl F G -> frame h h' G.
Proof. intros h h' F G [A B] I. split; [exact A |]. intros x L N. apply B; [exact L |]. intros J. exact (N (I _ J)). Qed.

Lemma rep_frame : forall h h' p q F G, rep h p q F -> frame h h' G -> apart F G -> owned h F -> rep h' p q F.
Proof.
  intros h h' p q F G R [A B] D [O1 O2]. apply (proj1 (rep_frame_both h h') _ _ _ R).
  intros x I. apply B; [destruct (O2 _ I); lia | exact (D _ I)].
Qed.
Lemma reps_frame : forall h h' p q F G, reps h p q F -> frame h h' G -> apart F G ->
  (forall x, In x F -> x < next h) -> reps h' p q F.
Proof.
  intros h h' p q F G R [A B] D O. apply (proj2 (rep_frame_both h h') _ _ _ R).
  intros x I. apply B; [exact (O _ I) | exact (D _ I)].
Qed.

Lemma glob_frame : forall h h' F, glob h -> frame h h' F -> (forall x, In x F -> 3 <= x) -> glob h'.
Proof.
  intros h h' F [A [B [C [D [E [G H]]]]]] [L K] O.
  assert (p_all < next h) as L1 by (unfold p_all; lia).
  assert (p_none < next h) as L2 by (unfold p_none; lia).
  destruct (K p_all L1) as [K1 _]; [intros I; apply O in I; unfold p_all in I; lia |].
  destruct (K p_none L2) as [K2 _]; [intros I; apply O in I; unfold p_none in I; lia |].
  unfold glob. rewrite K1, K2. split; [lia |]. auto 10.
Qed.

Lemma glob0 : glob heap0.
Proof. unfold glob. cbn. repeat split; lia. Qed.

(** Reading a represented query. *)
Lemma rep_read : forall h p q F, glob h -> rep h p q F ->
  n_op (node h p) = q_op q /\ elems_s h (n_tri (node h p)) = q_tri q /\
  s_len (n_tri (node h p)) = length (q_tri q) /\ s_len (n_sub (node h p)) = length (q_sub q).
Proof.
  intros h p q F G R. destruct G as [_ [A [B [C [D [E K]]]]]]. destruct R as [| | p subs F So Po R].
  - unfold elems_s. rewrite A, B, C. auto.
  - unfold elems_s. rewrite D, E, K. auto.
  - cbn [q_op q_tri q_sub]. split; [reflexivity |]. split; [reflexivity |]. split.
    + unfold elems_s. rewrite firstn_length. unfold s_ok in So. lia.
    + assert (length (elems_p h (n_sub (node h p))) = length subs) as L.
      { clear - R. induction R; cbn [length]; congruence. }
      rewrite <- L. unfold elems_p. rewrite firstn_length. unfold p_ok in Po. lia.
Qed.

(** Its children. *)
Lemma rep_subs : forall h p q F, glob h -> rep h p q F ->
  exists G pre, F = pre ++ G /\ reps h (elems_p h (n_sub (node h p))) (q_sub q) G.
Proof.
  intros h p q F G R. destruct G as [_ [A [B [C [D [E K]]]]]]. destruct R as [| | p subs F So Po R].
  - exists [], []. split; [reflexivity |]. unfold elems_p. rewrite C. constructor.
  - exists [], []. split; [reflexivity |]. unfold elems_p. rewrite K. constructor.
  - exists F, [p; s_arr (n_tri (node h p)); s_arr (n_sub (node h p))]. split; [reflexivity | exact R].
Qed.

(** The meaning of the memory is the meaning of the tree. *)
Lemma hsat_sat_both : forall h T, glob h ->
  (forall p q F, rep h p q F -> (hsat h T p <-> sat T q)) /\
  (forall ps qs F, reps h ps qs F -> Forall2 (fun p q => hsat h T p <-> sat T q) ps qs).
Proof.
  intros h T G.
  apply (rep_both h
    (fun p q F _ => hsat h T p <-> sat T q)
    (fun ps qs F _ => Forall2 (fun p q => hsat h T p <-> sat T q) ps qs)).
  - destruct G as [_ [A _]]. cbn. split; [auto |]. intros _. apply hsat_all. exact A.
  - destruct G as [_ [_ [_ [_ [A _]]]]]. cbn. split; [| tauto].
    intros K. inversion K; congruence.
  - intros p subs F So Po R IH.
    assert (forall s, In s (elems_p h (n_sub (node h p))) -> exists q, In q subs /\ (hsat h T s <-> sat T q)) as F1.
    { clear - IH. induction IH as [| x y l l' A B IH]; intros s I; [destruct I |].
      destruct I as [-> | I]; [exists y; split; [left; reflexivity | exact A] |].
      destruct (IH s I) as [q [I1 I2]]. exists q. split; [right; exact I1 | exact I2]. }
    assert (forall q, In q subs -> exists s, In s (elems_p h (n_sub (node h p))) /\ (hsat h T s <-> sat T q)) as F2.
    { clear - IH. induction IH as [| x y l l' A B IH]; intros s I; [destruct I |].
      destruct I as [-> | I]; [exists x; split; [left; reflexivity | exact A] |].
      destruct (IH s I) as [q [I1 I2]]. exists q. split; [right; exact I1 | exact I2]. }
    destruct (n_op (node h p)) eqn:O.
    + cbn. split; [auto |]. intros _. apply hsat_all. exact O.
    + cbn. split; [| tauto]. intros K. inversion K; congruence.
    + rewrite sat_and. split.
      * intros K. inversion K; subst; try congruence. split; [assumption |].
        apply Forall_forall. intros q I. destruct (F2 q I) as [s [I1 I2]]. apply I2. auto.
      * intros [K1 K2]. apply hsat_and; [exact O | exact K1 |].
        intros s I. destruct (F1 s I) as [q [I1 I2]]. apply I2. rewrite Forall_forall in K2. auto.
    + rewrite sat_or. split.
      * intros K. inversion K; subst; try congruence.
        -- left. eauto.
        -- right. apply Exists_exists. destruct (F1 _ H0) as [q [I1 I2]]. exists q. split; [exact I1 | apply I2; assumption].
      * intros [[t [K1 K2]] | K].
        -- eapply hsat_or_tri; eauto.
        -- apply Exists_exists in K. destruct K as [q [I K]]. destruct (F2 q I) as [s [I1 I2]].
           eapply hsat_or_sub; [exact O | exact I1 | apply I2; exact K].
  - constructor.
  - intros p q F ps qs G' R IH Rs IHs. constructor; assumption.
Qed.

Lemma hsat_sat : forall h T p q F, glob h -> rep h p q F -> (hsat h T p <-> sat T q).
Proof. intros h T p q F G. exact (proj1 (hsat_sat_both h T G) p q F). Qed.
