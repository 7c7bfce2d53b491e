(** The listing of excluded files beside the update loop. *)
From Verif Require Import Model.Base Model.Swap Spec.SwapSpec Spec.ExcludedSpec Proofs.SwapProofs.

Lemma was_live_app : forall r0 tr e i, was_live r0 tr i -> was_live r0 (tr ++ e) i.
Proof. intros r0 tr e i (t0 & t1 & r & -> & P). exists t0, (t1 ++ e), r. rewrite app_assoc. auto. Qed.

Lemma published_one : forall r0 tr i r j q, published r0 tr i r -> published r0 tr j q -> i = j.
Proof.
  intros r0 tr i r j q [(-> & _ & N)|(t1 & t2 & E & N)] [(-> & _ & M)|(t3 & t4 & F & M)].
  - reflexivity.
  - exfalso. apply (N j q). rewrite F. apply in_or_app. right. left. reflexivity.
  - exfalso. apply (M i r). rewrite E. apply in_or_app. right. left. reflexivity.
  - rewrite E in F. apply split_at in F. destruct F as [(c & F & _)|[(_ & F & _)|(c & _ & F)]].
    + exfalso. apply (N j q). rewrite F. apply in_or_app. right. left. reflexivity.
    + congruence.
    + exfalso. apply (M i r). rewrite F. apply in_or_app. right. left. reflexivity.
Qed.

Lemma excl_step : forall s o s', step s o s' -> forall t, excl s' t = excl s t \/ (exists i, excl s t = XHas i /\ excl s' t = XDone) \/
  (excl s t = XNew /\ excl s' t = XHas (cur s) /\ o = None).
Proof.
  intros s o s' ST t. destruct ST; try (left; reflexivity).
  - cbn [set_excl excl]. destruct (Nat.eq_dec t t0) as [->|N].
    + rewrite upd_same. right. right. auto.
    + rewrite upd_other by exact N. left. reflexivity.
  - cbn [set_excl excl]. destruct (Nat.eq_dec t t0) as [->|N].
    + rewrite upd_same. right. left. exists i. auto.
    + rewrite upd_other by exact N. left. reflexivity.
Qed.

Lemma excl_live : forall r0 tr s, runs (initial r0) tr s -> forall t i, excl s t = XHas i -> was_live r0 tr i.
Proof.
  intros r0 tr s R. remember (initial r0) as s0 eqn:E0. induction R as [|s tr s1 s2 R IH ST|s tr s1 e s2 R IH ST]; subst; intros t i X.
  - discriminate.
  - destruct (excl_step _ _ _ ST t) as [K|[(j & _ & K)|(_ & K & _)]].
    + apply (IH eq_refl t). congruence.
    + congruence.
    + rewrite K in X. injection X as <-. destruct (v_pub _ _ _ (runs_inv _ _ _ R)) as (x & _ & P).
      exists tr, [], (rev x). rewrite app_nil_r. auto.
  - apply was_live_app. destruct (excl_step _ _ _ ST t) as [K|[(j & _ & K)|(_ & _ & K)]]; [|congruence|discriminate].
    apply (IH eq_refl t). congruence.
Qed.

Theorem listed_ok : forall r0 tr s, runs (initial r0) tr s ->
  forall t1 t i good t2, tr = t1 ++ Listed t i good :: t2 ->
  was_live r0 t1 i /\ (forall r, no_failed_swap t1 -> published r0 t1 i r -> good = true).
Proof.
  intros r0 tr s R. remember (initial r0) as s0 eqn:E0.
  induction R as [|s tr s1 s2 R IH ST|s tr s1 e s2 R IH ST]; subst; intros t1 t i good t2 E.
  - destruct t1; discriminate.
  - exact (IH eq_refl _ _ _ _ _ E).
  - apply snoc_split in E. destruct E as [(-> & <- & E)|(t3 & -> & E)]; [|exact (IH eq_refl _ _ _ _ _ E)].
    subst e. inversion ST; subst. split.
    + eapply excl_live; eassumption.
    + intros r NF P. destruct (v_good _ _ _ (runs_inv _ _ _ R) NF) as (_ & y & G1 & G2).
      destruct (v_pub _ _ _ (runs_inv _ _ _ R)) as (z & _ & Q). rewrite (published_one _ _ _ _ _ _ Q P) in G1.
      assert (x = y) as -> by congruence. unfold usable in G2. apply andb_prop in G2. tauto.
Qed.
