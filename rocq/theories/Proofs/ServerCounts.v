(** The limiter: slots, and the repositories being pulled or indexed (C28). *)
From Verif Require Import Model.Base Model.Server Spec.ServerSpec Proofs.ServerProofs.
From Coq Require Import Lia.

Definition Hs (s : server) : nat := sum (fun j => holds (repos s j)) (n s).
Definition B (s : server) : nat := sum (fun j => busy (repos s j)) (n s).

Lemma works_app : forall a b, works (a ++ b) = works a + works b.
Proof. induction a as [|e a IH]; intros b; cbn; auto. destruct e; cbn; rewrite ?IH; reflexivity. Qed.
Lemma rests_app : forall a b, rests (a ++ b) = rests a + rests b.
Proof. induction a as [|e a IH]; intros b; cbn; auto. destruct e; cbn; rewrite ?IH; reflexivity. Qed.

Lemma counts_step : forall k c confs s a es s', inv k c confs s -> slots s = Hs s -> slots s <= cap s ->
  step a s es s' -> slots s' = Hs s' /\ slots s' <= cap s' /\ works es + B s = rests es + B s'.
Proof.
  intros k c confs s a es s' IV SL LE ST. pose proof (v_n _ _ _ _ IV) as EN.
  assert (CH : forall i r, i < n s -> sum (fun j => holds (set_repo (repos s) i r j)) (n s) + holds (repos s i) = Hs s + holds r)
    by (intros i r L; apply (sum_upd holds (repos s) i r (n s) L)).
  assert (CB : forall i r, i < n s -> sum (fun j => busy (set_repo (repos s) i r j)) (n s) + busy (repos s i) = B s + busy r)
    by (intros i r L; apply (sum_upd busy (repos s) i r (n s) L)).
  assert (HI : forall i, i < n s -> holds (repos s i) <= Hs s)
    by (intros i L; apply (sum_in (fun j => holds (repos s j)) (n s) i L)).
  assert (SR : forall i, In i (searchers s) -> i < n s)
    by (intros i X; rewrite EN; apply (searcher_sent _ _ _ _ _ IV X)).
  destruct ST; unfold Hs, B; cbn [with_repo with_slots n cap slots results searchers errs at_main repos works rests];
  try (fold (Hs s); fold (B s); auto; fail);
  try match goal with
  | |- context [set_repo _ ?i ?r] =>
      let L := fresh "L" in assert (L : i < n s);
      [first [assumption | apply SR; assumption |
              (apply SR; apply (v_main _ _ _ _ IV)) |
              (pose proof (v_main _ _ _ _ IV) as M; rewrite H in M; apply SR; apply M; left; reflexivity) | idtac]
      |pose proof (CH i r L) as X1; pose proof (CB i r L) as X2; pose proof (HI i L) as X3;
       unfold holds, busy in X1, X2, X3; cbn [set_wk set_pl set_made take_update take_stop put_update put_stop put_flag wk pl] in X1, X2, X3;
       try (match goal with E : wk (repos s i) = _ |- _ => rewrite E in X1, X2, X3 end);
       try (match goal with E : pl (repos s i) = _ |- _ => rewrite E in X1, X2, X3 end);
       cbn [wholds pholds wbusy pbusy] in X1, X2, X3; fold (Hs s); fold (B s);
       try (unfold holds, busy in *; lia) ]
  end.
  - destruct (v_early _ _ _ _ IV i) as (E & _); [rewrite H0; reflexivity|]. rewrite E in X1, X2, X3.
    unfold holds, busy in *. destruct ok; cbn [pholds pbusy] in *; lia.
  - unfold holds, busy in *. destruct (_ || _); cbn [works rests pholds pbusy] in *; lia.
Qed.

Lemma runs_counts : forall k c confs tr s, runs (initial k c confs) tr s ->
  slots s = Hs s /\ slots s <= c /\ works tr = rests tr + B s.
Proof.
  intros k c confs tr s R. pose proof R as R0. remember (initial k c confs) as s0 eqn:E. revert R0. induction R; intros R0; subst.
  - cbn. unfold Hs, B. cbn. rewrite !sum_zero by reflexivity. lia.
  - pose proof (runs_inv _ _ _ _ _ R) as IV. destruct (IHR eq_refl R) as (A1 & A2 & A3).
    rewrite <- (v_cap _ _ _ _ IV) in A2.
    destruct (counts_step _ _ _ _ _ _ _ IV A1 A2 H) as (B1 & B2 & B3).
    rewrite (v_cap _ _ _ _ (runs_inv _ _ _ _ _ R0)) in B2. rewrite works_app, rests_app. lia.
Qed.

Lemma bounded_work : forall k c confs tr s, runs (initial k c confs) tr s -> rests tr <= works tr /\ works tr <= rests tr + c.
Proof.
  intros k c confs tr s R. destruct (runs_counts _ _ _ _ _ R) as (A1 & A2 & A3).
  assert (B s <= Hs s) by (apply sum_le; intros i _; apply busy_holds). lia.
Qed.

Lemma out_holds : forall r, worker_out (wk r) -> poller_out (pl r) -> holds r = 0.
Proof.
  intros r [W|W] P; unfold holds; rewrite W; unfold poller_out in P;
  repeat (destruct P as [P|P]; [rewrite P; reflexivity|]); rewrite P; reflexivity.
Qed.
Lemma no_leak : forall k c confs tr s, runs (initial k c confs) tr s ->
  (forall i, i < k -> worker_out (wk (repos s i)) /\ poller_out (pl (repos s i))) -> slots s = 0.
Proof.
  intros k c confs tr s R O. destruct (runs_counts _ _ _ _ _ R) as (A1 & _ & _). rewrite A1. apply sum_zero.
  intros i L. rewrite (v_n _ _ _ _ (runs_inv _ _ _ _ _ R)) in L. destruct (O i L). apply out_holds; assumption.
Qed.
