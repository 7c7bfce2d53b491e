From Verif Require Import Model.Base.
From Coq Require Import Permutation Sorted.

Lemma list_set_length : forall {A} (l l' : list A) i v,
  list_set l i v = Some l' -> length l' = length l.
Proof.
  induction l; intros l' i v H; destruct i; cbn in H; try discriminate.
  - injection H as <-. reflexivity.
  - destruct (list_set l i v) eqn:E; cbn in H; [|discriminate].
    injection H as <-. cbn. f_equal. eapply IHl; eauto.
Qed.

Lemma list_set_Some : forall {A} (l : list A) i v, i < length l ->
  exists l', list_set l i v = Some l'.
Proof.
  induction l; intros i v H; cbn in H; [lia|]. destruct i; cbn; [eauto|].
  destruct (IHl i v) as [l' E]; [lia|]. rewrite E. cbn. eauto.
Qed.

Lemma list_set_app : forall {A} (l1 : list A) x l2 v,
  list_set (l1 ++ x :: l2) (length l1) v = Some (l1 ++ v :: l2).
Proof.
  induction l1; intros; cbn; [reflexivity|]. rewrite IHl1. reflexivity.
Qed.

Lemma list_set_spec : forall {A} (l l' : list A) i v,
  list_set l i v = Some l' ->
  forall j, nth_error l' j = if Nat.eqb j i then Some v else nth_error l j.
Proof.
  induction l; intros l' i v H j; destruct i; cbn in H; try discriminate.
  - injection H as <-. destruct j; reflexivity.
  - destruct (list_set l i v) eqn:E; cbn in H; [|discriminate].
    injection H as <-. destruct j; [reflexivity|]. cbn. eapply IHl; eauto.
Qed.

Lemma list_set_split : forall {A} (l l' : list A) i v,
  list_set l i v = Some l' ->
  exists l1 x l2, l = l1 ++ x :: l2 /\ length l1 = i /\ l' = l1 ++ v :: l2.
Proof.
  induction l; intros l' i v H; destruct i; cbn in H; try discriminate.
  - injection H as <-. exists [], a, l. auto.
  - destruct (list_set l i v) eqn:E; cbn in H; [|discriminate].
    injection H as <-. destruct (IHl _ _ _ E) as (l1 & x & l2 & -> & <- & ->).
    exists (a :: l1), x, l2. auto.
Qed.

Lemma nth_error_ext : forall {A} (l1 l2 : list A),
  (forall i, nth_error l1 i = nth_error l2 i) -> l1 = l2.
Proof.
  induction l1; intros l2 H.
  - destruct l2; [reflexivity|]. specialize (H 0). discriminate.
  - destruct l2 as [|b l2]; [specialize (H 0); discriminate|].
    pose proof (H 0) as H0. cbn in H0. injection H0 as <-. f_equal.
    apply IHl1. intros i. apply (H (S i)).
Qed.

Lemma filter_length_le : forall {A} (f : A -> bool) l, length (filter f l) <= length l.
Proof. induction l; cbn; [lia|]. destruct (f a); cbn; lia. Qed.

Lemma filter_app : forall {A} (f : A -> bool) l1 l2,
  filter f (l1 ++ l2) = filter f l1 ++ filter f l2.
Proof. induction l1; intros; cbn; [reflexivity|]. rewrite IHl1. destruct (f a); reflexivity. Qed.

Lemma concat_map_ext : forall {A B} (f g : A -> list B) l,
  (forall x, In x l -> f x = g x) -> concat (map f l) = concat (map g l).
Proof.
  induction l; intros H; cbn; [reflexivity|]. rewrite H by (left; reflexivity).
  rewrite IHl; auto. intros; apply H; right; assumption.
Qed.

Lemma seq_split_at : forall d k, d < k ->
  seq 0 k = seq 0 d ++ d :: seq (S d) (k - S d).
Proof.
  intros d k H. replace k with (d + S (k - S d)) at 1 by lia.
  rewrite seq_app. cbn. reflexivity.
Qed.

Lemma StronglySorted_app : forall {A} (R : A -> A -> Prop) l1 l2,
  StronglySorted R l1 -> StronglySorted R l2 ->
  (forall x y, In x l1 -> In y l2 -> R x y) -> StronglySorted R (l1 ++ l2).
Proof.
  induction l1; intros l2 H1 H2 H; cbn; [assumption|].
  inversion H1; subst. constructor.
  - apply IHl1; auto. intros; apply H; [right|]; assumption.
  - apply Forall_app. split; [assumption|]. apply Forall_forall. intros y Hy.
    apply H; [left; reflexivity|assumption].
Qed.

Lemma StronglySorted_filter : forall {A} (R : A -> A -> Prop) f l,
  StronglySorted R l -> StronglySorted R (filter f l).
Proof.
  induction l; intros H; cbn; [constructor|]. inversion H; subst.
  destruct (f a); auto. constructor; auto.
  apply Forall_forall. intros x Hx. apply filter_In in Hx. destruct Hx.
  rewrite Forall_forall in H3. auto.
Qed.

Lemma StronglySorted_weaken : forall {A} (R R' : A -> A -> Prop) l,
  (forall x y, In x l -> In y l -> R x y -> R' x y) ->
  StronglySorted R l -> StronglySorted R' l.
Proof.
  induction l; intros H S; constructor; inversion S; subst.
  - apply IHl; auto. intros; apply H; auto; right; assumption.
  - apply Forall_forall. intros x Hx. rewrite Forall_forall in H3.
    apply H; [left; reflexivity|right; assumption|auto].
Qed.

(** Two strictly sorted lists with the same elements are equal. *)
Lemma strict_sorted_ext : forall {A} (R : A -> A -> Prop) (l1 l2 : list A),
  (forall x, ~ R x x) -> (forall x y, R x y -> R y x -> False) ->
  StronglySorted R l1 -> StronglySorted R l2 ->
  (forall x, In x l1 <-> In x l2) -> l1 = l2.
Proof.
  induction l1 as [|a l1 IH]; intros l2 Hir Has S1 S2 H.
  - destruct l2 as [|b l2]; [reflexivity|]. exfalso. apply (H b). left; reflexivity.
  - destruct l2 as [|b l2]; [exfalso; apply (H a); left; reflexivity|].
    inversion S1 as [|? ? S1' F1]; subst. inversion S2 as [|? ? S2' F2]; subst.
    rewrite Forall_forall in F1, F2.
    assert (a = b).
    { destruct (proj1 (H a) (or_introl eq_refl)) as [E|Hin]; [auto|].
      destruct (proj2 (H b) (or_introl eq_refl)) as [E|Hin']; [auto|].
      exfalso. eapply Has; [apply F1|apply F2]; eassumption. }
    subst b. f_equal. apply IH; auto.
    intros x. split; intros Hx.
    + destruct (proj1 (H x) (or_intror Hx)) as [E|]; [|assumption].
      subst. exfalso. eapply Hir. apply F1. assumption.
    + destruct (proj2 (H x) (or_intror Hx)) as [E|]; [|assumption].
      subst. exfalso. eapply Hir. apply F2. assumption.
Qed.

(** Two weakly sorted permutations of each other are equal. *)
Lemma sorted_perm_eq : forall {A} (R : A -> A -> Prop) (l1 l2 : list A),
  (forall x y, R x y -> R y x -> x = y) ->
  StronglySorted R l1 -> StronglySorted R l2 -> Permutation l1 l2 -> l1 = l2.
Proof.
  induction l1 as [|a l1 IH]; intros l2 Has S1 S2 P.
  - apply Permutation_nil in P. congruence.
  - destruct l2 as [|b l2]; [apply Permutation_sym, Permutation_nil in P; discriminate|].
    inversion S1 as [|? ? S1' F1]; subst. inversion S2 as [|? ? S2' F2]; subst.
    rewrite Forall_forall in F1, F2.
    assert (a = b).
    { assert (Ha : In a (b :: l2)) by (eapply Permutation_in; [exact P|left; reflexivity]).
      assert (Hb : In b (a :: l1)) by (eapply Permutation_in; [apply Permutation_sym; exact P|left; reflexivity]).
      destruct Ha as [E|Ha]; [auto|]. destruct Hb as [E|Hb]; [auto|].
      apply Has; auto. }
    subst b. f_equal. apply IH; auto. eapply Permutation_cons_inv; eauto.
Qed.

Lemma NoDup_app_intro : forall {A} (l1 l2 : list A), NoDup l1 -> NoDup l2 ->
  (forall x, In x l1 -> In x l2 -> False) -> NoDup (l1 ++ l2).
Proof.
  induction l1 as [|a l1 IH]; intros l2 H1 H2 H; cbn; [assumption|].
  inversion H1; subst. constructor.
  - rewrite in_app_iff. intros [Hi|Hi]; [contradiction|]. eapply H; [left; reflexivity|exact Hi].
  - apply IH; auto. intros x Hx. apply H. right. assumption.
Qed.
