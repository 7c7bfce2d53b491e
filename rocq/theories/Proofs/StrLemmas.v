From Verif Require Import Model.Base Model.Query Proofs.ListLemmas.
From Coq Require Import Permutation Sorted.

Lemma str_eqb_eq : forall a b, str_eqb a b = true <-> a = b.
Proof.
  induction a as [|x a IH]; intros [|y b]; cbn; split; intros H; try congruence; try discriminate.
  - apply andb_true_iff in H. destruct H as [H1 H2]. apply N.eqb_eq in H1. apply IH in H2. congruence.
  - injection H as -> ->. rewrite N.eqb_refl. apply IH. reflexivity.
Qed.

Lemma str_eqb_refl : forall a, str_eqb a a = true.
Proof. intros. apply str_eqb_eq. reflexivity. Qed.

Lemma str_eqb_neq : forall a b, str_eqb a b = false <-> a <> b.
Proof.
  intros. split; intros H.
  - intros E. apply str_eqb_eq in E. congruence.
  - destruct (str_eqb a b) eqn:E; [apply str_eqb_eq in E; contradiction|reflexivity].
Qed.

Lemma str_eq_dec : forall a b : str, {a = b} + {a <> b}.
Proof. apply list_eq_dec. apply N.eq_dec. Qed.

Lemma str_ltb_irrefl : forall a, str_ltb a a = false.
Proof. induction a; cbn; [reflexivity|]. rewrite N.ltb_irrefl. assumption. Qed.

Lemma str_ltb_trans : forall a b c, str_ltb a b = true -> str_ltb b c = true -> str_ltb a c = true.
Proof.
  induction a as [|x a IH]; intros [|y b] [|z c] H1 H2; cbn in *; try discriminate; try reflexivity.
  destruct (N.ltb_spec x y), (N.ltb_spec y z), (N.ltb_spec x z),
    (N.ltb_spec y x), (N.ltb_spec z y), (N.ltb_spec z x); try lia; try discriminate; try reflexivity.
  eapply IH; eassumption.
Qed.

Lemma str_ltb_total : forall a b, str_ltb a b = false -> str_ltb b a = false -> a = b.
Proof.
  induction a as [|x a IH]; intros [|y b] H1 H2; cbn in *; try discriminate; try reflexivity.
  destruct (N.ltb_spec x y), (N.ltb_spec y x); try discriminate; try lia.
  f_equal; [lia|]. apply IH; assumption.
Qed.

Lemma str_ltb_asym : forall a b, str_ltb a b = true -> str_ltb b a = false.
Proof.
  intros a b H. destruct (str_ltb b a) eqn:E; [|reflexivity].
  pose proof (str_ltb_trans _ _ _ H E). rewrite str_ltb_irrefl in H0. discriminate.
Qed.

Lemma insert_in : forall less x l y, In y (insert_str less x l) <-> y = x \/ In y l.
Proof.
  induction l as [|z l IH]; intros y; cbn.
  - intuition.
  - destruct (less z x); cbn; rewrite ?IH; intuition.
Qed.

Lemma sort_in : forall less l y, In y (sort_strs less l) <-> In y l.
Proof.
  induction l as [|z l IH]; intros y; cbn; [tauto|].
  rewrite insert_in, IH. intuition.
Qed.

Lemma insert_perm : forall less x l, Permutation (insert_str less x l) (x :: l).
Proof.
  induction l as [|z l IH]; cbn; [reflexivity|].
  destruct (less z x); [|reflexivity]. rewrite IH. apply perm_swap.
Qed.

Lemma sort_perm : forall less l, Permutation (sort_strs less l) l.
Proof.
  induction l as [|z l IH]; cbn; [reflexivity|]. rewrite insert_perm, IH. reflexivity.
Qed.

Lemma dedup_in : forall l last y, (In y (dedup last l) \/ last = Some y) <-> (In y l \/ last = Some y).
Proof.
  induction l as [|x l IH]; intros last y; cbn; [tauto|].
  destruct last as [z|].
  - destruct (str_eqb z x) eqn:E.
    + apply str_eqb_eq in E. subst. rewrite IH. 
      split; intros [H|H]; auto. destruct H as [->|H]; auto.
    + cbn. specialize (IH (Some x) y). split.
      * intros [[->|H]|H]; auto. destruct (proj1 IH (or_introl H)) as [?|E2]; auto.
        injection E2 as ->. auto.
      * intros [[->|H]|H]; auto. destruct (proj2 IH (or_introl H)) as [?|E2]; auto.
        injection E2 as ->. auto.
  - cbn. specialize (IH (Some x) y). split.
    + intros [[->|H]|H]; auto. destruct (proj1 IH (or_introl H)) as [?|E2]; auto.
      injection E2 as ->. auto.
    + intros [[->|H]|H]; auto. destruct (proj2 IH (or_introl H)) as [?|E2]; auto.
      injection E2 as ->. auto.
Qed.

Lemma dedup_none_in : forall l y, In y (dedup None l) <-> In y l.
Proof.
  intros l y. pose proof (dedup_in l None y) as H. split; intros Hi.
  - destruct (proj1 H (or_introl Hi)); [assumption|discriminate].
  - destruct (proj2 H (or_introl Hi)); [assumption|discriminate].
Qed.

Lemma clean_in : forall b l y, In y (clean_list b l) <-> In y l.
Proof. intros. unfold clean_list. rewrite dedup_none_in, sort_in. reflexivity. Qed.

Lemma union_in : forall b s t y, In y (union_list b s t) <-> In y s \/ In y t.
Proof. intros. unfold union_list. rewrite clean_in, in_app_iff. reflexivity. Qed.

Lemma dedup_length : forall l last, length (dedup last l) <= length l.
Proof.
  induction l as [|x l IH]; intros last; cbn; [lia|].
  destruct last as [z|]; [destruct (str_eqb z x)|]; cbn;
    [specialize (IH (Some z))|specialize (IH (Some x))..]; lia.
Qed.

Lemma clean_length : forall b l, length (clean_list b l) <= length l.
Proof.
  intros. unfold clean_list. etransitivity; [apply dedup_length|].
  rewrite (Permutation_length (sort_perm _ l)). reflexivity.
Qed.
