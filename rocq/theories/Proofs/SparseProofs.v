From Verif Require Import Model.Base Model.Sparse Spec.SetSpec Proofs.Arith.
From Coq Require Import Permutation.
Local Open Scope N_scope.

Definition run_op (s : sset) (o : set_op) : option sset :=
  match o with OpAdd x => add s x | OpReset => Some (reset s) end.

Fixpoint run_ops (s : sset) (os : list set_op) : option sset :=
  match os with
  | [] => Some s
  | o :: r => s' <- run_op s o ;; run_ops s' r
  end.

Definition op_ok (max : N) (o : set_op) : Prop :=
  match o with OpAdd x => x < max | OpReset => True end.

(** Invariant: the dense list has no duplicates, its elements are in range, and the
    sparse entry of each element points back to it. Nothing is assumed about other
    sparse entries. *)
Definition sinv (s : sset) : Prop :=
  ss_max s < 2^32 /\
  NoDup (ss_dense s) /\
  (forall x, In x (ss_dense s) -> x < ss_max s) /\
  (forall i x, nth_error (ss_dense s) i = Some x -> ss_mem s x = N.of_nat i).

Lemma nodup_bound : forall (l : list N) max, NoDup l -> (forall x, In x l -> x < max) ->
  nlen l <= max.
Proof.
  intros l max ND Hb.
  assert (H : incl l (map N.of_nat (seq 0 (N.to_nat max)))).
  { intros x Hx. apply in_map_iff. exists (N.to_nat x). split; [lia|].
    apply in_seq. specialize (Hb x Hx). lia. }
  pose proof (NoDup_incl_length ND H) as L. rewrite map_length, seq_length in L.
  unfold nlen. lia.
Qed.

Lemma sinv_len : forall s, sinv s -> u32 (nlen (ss_dense s)) = nlen (ss_dense s).
Proof.
  intros s (Hm & ND & Hb & _). apply u32_small.
  pose proof (nodup_bound _ _ ND Hb). lia.
Qed.

Lemma sinv_lookup : forall s x, sinv s -> x < ss_max s ->
  (if ss_mem s x <? u32 (nlen (ss_dense s)) then
     match nth_error (ss_dense s) (N.to_nat (ss_mem s x)) with
     | Some y => Some (y =? x) | None => None end
   else Some false) = Some (if in_dec N.eq_dec x (ss_dense s) then true else false).
Proof.
  intros s x Hs Hx. rewrite (sinv_len s Hs).
  destruct Hs as (Hm & ND & Hb & Hp).
  destruct (in_dec N.eq_dec x (ss_dense s)) as [Hin|Hin].
  - destruct (In_nth_error _ _ Hin) as [i Hi]. rewrite (Hp _ _ Hi).
    replace (N.of_nat i <? nlen (ss_dense s)) with true.
    + rewrite Nat2N.id, Hi, N.eqb_refl. reflexivity.
    + symmetry. apply N.ltb_lt. unfold nlen.
      assert (i < length (ss_dense s))%nat by (apply nth_error_Some; congruence). lia.
  - destruct (ss_mem s x <? nlen (ss_dense s)) eqn:E; [|reflexivity].
    apply N.ltb_lt in E. unfold nlen in E.
    destruct (nth_error (ss_dense s) (N.to_nat (ss_mem s x))) eqn:En.
    + destruct (n =? x) eqn:Ex; [|reflexivity].
      apply N.eqb_eq in Ex. subst. exfalso. apply Hin. eapply nth_error_In; eauto.
    + exfalso. apply nth_error_None in En. lia.
Qed.

Lemma has_correct : forall s x, sinv s -> x < ss_max s ->
  has s x = Some (if in_dec N.eq_dec x (ss_dense s) then true else false).
Proof.
  intros s x Hs Hx. unfold has.
  replace (x <? ss_max s) with true by (symmetry; apply N.ltb_lt; assumption).
  apply sinv_lookup; assumption.
Qed.

Lemma add_correct : forall s x, sinv s -> x < ss_max s ->
  exists s', add s x = Some s' /\ sinv s' /\ ss_max s' = ss_max s /\
    ss_dense s' = if in_dec N.eq_dec x (ss_dense s) then ss_dense s
                  else ss_dense s ++ [x].
Proof.
  intros s x Hs Hx. unfold add.
  replace (x <? ss_max s) with true by (symmetry; apply N.ltb_lt; assumption).
  cbv zeta. rewrite (sinv_lookup s x Hs Hx). cbn [bind].
  rewrite (sinv_len s Hs).
  destruct Hs as (Hm & ND & Hb & Hp).
  destruct (in_dec N.eq_dec x (ss_dense s)) as [Hin|Hin].
  - exists s. repeat split; auto.
  - eexists. split; [reflexivity|]. repeat split; cbn; auto.
    + eapply Permutation_NoDup; [apply Permutation_cons_append|].
      constructor; assumption.
    + intros y Hy. apply in_app_or in Hy. destruct Hy as [Hy|[->|[]]]; auto.
    + intros i y Hi. unfold mem_set.
      destruct (lt_dec i (length (ss_dense s))) as [L|L].
      * rewrite nth_error_app1 in Hi by assumption.
        destruct (y =? x) eqn:Eyx.
        -- apply N.eqb_eq in Eyx. subst. exfalso. apply Hin. eapply nth_error_In; eauto.
        -- apply Hp; assumption.
      * rewrite nth_error_app2 in Hi by lia.
        destruct (i - length (ss_dense s))%nat eqn:Ei; cbn in Hi.
        -- injection Hi as <-. rewrite N.eqb_refl. unfold nlen. f_equal. lia.
        -- destruct n; discriminate.
Qed.

Lemma reset_sinv : forall s, sinv s -> sinv (reset s).
Proof.
  intros s (Hm & _). repeat split; cbn; auto.
  - constructor.
  - intros ? [].
  - intros [|?] ?; discriminate.
Qed.

Lemma new_sinv : forall max mem, max < 2^32 -> sinv (new_set max mem).
Proof.
  intros. repeat split; cbn; auto.
  - constructor.
  - intros ? [].
  - intros [|?] ?; discriminate.
Qed.

Lemma run_ops_app : forall os1 os2 s, run_ops s (os1 ++ os2) =
  (s' <- run_ops s os1 ;; run_ops s' os2).
Proof.
  induction os1; intros; cbn; [reflexivity|].
  destruct (run_op s a); cbn; auto.
Qed.

Lemma sparse_refines : forall max mem os, max < 2^32 -> Forall (op_ok max) os ->
  exists s, run_ops (new_set max mem) os = Some s /\
    sinv s /\ ss_max s = max /\ ordered_set os (dense s).
Proof.
  intros max mem os Hm. induction os as [|o os IH] using rev_ind; intros Hok.
  - exists (new_set max mem). split; [reflexivity|]. split; [apply new_sinv; assumption|].
    split; [reflexivity|]. constructor.
  - apply Forall_app in Hok. destruct Hok as [Hok Ho]. inversion Ho; subst; clear Ho.
    destruct (IH Hok) as (s & Hr & Hi & Hmx & Hos).
    rewrite run_ops_app, Hr. cbn [bind run_ops].
    destruct o as [x|]; cbn [run_op].
    + cbn in H1. destruct (add_correct s x Hi) as (s' & Ha & Hi' & Hm' & Hd); [congruence|].
      rewrite Ha. cbn. exists s'. repeat split; try congruence; try apply Hi'.
      unfold dense. rewrite Hd. destruct (in_dec N.eq_dec x (ss_dense s)).
      * apply os_dup; assumption.
      * apply os_new; assumption.
    + cbn. exists (reset s). split; [reflexivity|]. split; [apply reset_sinv; assumption|].
      split; [assumption|]. cbn. eapply os_reset; eauto.
Qed.

Lemma sparse_full : forall max mem os, max < 2^32 -> Forall (op_ok max) os ->
  exists s l, run_ops (new_set max mem) os = Some s /\ ordered_set os l /\
    dense s = l /\ set_len s = N.of_nat (length l) /\ NoDup l /\
    (forall x, x < max -> has s x = Some true <-> In x l) /\
    (forall x, x < max -> has s x <> None).
Proof.
  intros max mem os Hm Hok.
  destruct (sparse_refines max mem os Hm Hok) as (s & Hr & Hi & Hmx & Hos).
  exists s, (dense s). repeat split; auto.
  - apply Hi.
  - intros Hh. rewrite has_correct in Hh by (auto; congruence).
    destruct (in_dec N.eq_dec x (ss_dense s)); [assumption|discriminate].
  - intros Hin. rewrite has_correct by (auto; congruence).
    destruct (in_dec N.eq_dec x (ss_dense s)); [reflexivity|contradiction].
  - intros x Hx. rewrite has_correct by (auto; congruence). discriminate.
Qed.

(** The specification determines the list uniquely. *)
Lemma ordered_set_fun : forall h l1 l2, ordered_set h l1 -> ordered_set h l2 -> l1 = l2.
Proof.
  induction h as [|o h IH] using rev_ind; intros l1 l2 H1 H2.
  - inversion H1; inversion H2; auto; exfalso; eapply app_cons_not_nil; eauto.
  - inversion H1; subst; try (exfalso; eapply app_cons_not_nil; eauto; fail);
    match goal with H : _ ++ _ = _ ++ _ |- _ => apply app_inj_tail in H; destruct H; subst end;
    inversion H2; subst; try (exfalso; eapply app_cons_not_nil; eauto; fail);
    match goal with H : _ ++ _ = _ ++ _ |- _ => apply app_inj_tail in H; destruct H; subst end;
    try discriminate; auto;
    match goal with H : OpAdd _ = OpAdd _ |- _ => injection H as -> | _ => idtac end;
    match goal with Ha : ordered_set ?h ?a, Hb : ordered_set ?h ?b |- _ =>
      lazymatch a with b => fail | _ => assert (a = b) by (eapply IH; eauto); subst end end;
    auto; contradiction.
Qed.
