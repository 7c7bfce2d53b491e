From Verif Require Import Model.Base Model.Swap Spec.SwapSpec.
From Coq Require Import Lia.

Lemma upd_same : forall {A} (f : nat -> A) k a, upd f k a k = a.
Proof. intros. unfold upd. rewrite Nat.eqb_refl. reflexivity. Qed.
Lemma upd_other : forall {A} (f : nat -> A) k a i, i <> k -> upd f k a i = f i.
Proof. intros. unfold upd. destruct (Nat.eqb_spec i k); congruence. Qed.
Ltac at_case t k :=
  destruct (Nat.eq_dec t k) as [->|?NE]; [rewrite ?upd_same in *|rewrite ?upd_other in * by assumption].

Lemma put_length : forall {A} (l : list A) i a, length (put l i a) = length l.
Proof. induction l as [|x l IH]; intros [|i] a; cbn; auto. Qed.
Lemma put_same : forall {A} (l : list A) i a, i < length l -> nth_error (put l i a) i = Some a.
Proof. induction l as [|x l IH]; intros [|i] a H; cbn in *; try lia; auto. apply IH. lia. Qed.
Lemma put_other : forall {A} (l : list A) i j a, i <> j -> nth_error (put l i a) j = nth_error l j.
Proof. induction l as [|x l IH]; intros [|i] [|j] a H; cbn; auto; try congruence. Qed.

Lemma snoc_split : forall {A} (tr : list A) e t1 x t2, tr ++ [e] = t1 ++ x :: t2 ->
  (t2 = [] /\ tr = t1 /\ e = x) \/ exists t3, t2 = t3 ++ [e] /\ tr = t1 ++ x :: t3.
Proof.
  intros A tr e t1 x t2 H. destruct t2 as [|y t2'] using rev_ind.
  - left. apply app_inj_tail in H. destruct H. auto.
  - right. exists t2'. clear IHt2'. rewrite app_comm_cons, app_assoc in H. apply app_inj_tail in H. destruct H as [H ->]. auto.
Qed.
Lemma in_snoc : forall {A} (tr : list A) e x, In x (tr ++ [e]) <-> In x tr \/ x = e.
Proof. intros. rewrite in_app_iff. cbn. intuition. Qed.

Definition good_at (s : searcher) (n : nat) (r : str) : Prop :=
  exists x, nth_error (heap s) n = Some x /\ usable x = true /\ rev x = r.

(** What the update loop's phase says about the indexes. *)
Definition phase_ok (s : searcher) : Prop :=
  match up s with
  | UIdle | UPulled _ => True
  | UBuilt n r | ULocked n r => n <> cur s /\ good_at s n r
  | USet n r old | UOld n r old | UOldClosed n r old | UOldLeft n r old _ =>
      n = cur s /\ old <> n /\ old < length (heap s) /\ good_at s n r
  | UResult n r _ => n = cur s /\ good_at s n r
  | UUndo n | UNew n | UNewClosed n | UNewLeft n _ => n = cur s
  end.
Definition undoing (u : uphase) : bool :=
  match u with UUndo _ | UNew _ | UNewClosed _ | UNewLeft _ _ => true | _ => false end.
Definition before_touch (p : sphase) : bool :=
  match p with SNew | SCalled | SLocked | SHas _ => true | _ => false end.

Record inv (r0 : str) (tr : list event) (s : searcher) : Prop := {
  v_cur : cur s < length (heap s);
  v_lock : writes_s (up s) = true -> forall t, reads_s (search s t) = false;
  v_ilock : forall i, writes_i i (up s) = true -> forall t, reads_i i (search s t) = false;
  v_has : forall t i, search s t = SHas i \/ search s t = SRuns i -> i = cur s;
  v_phase : phase_ok s;
  v_good : no_failed_swap tr -> undoing (up s) = false /\ exists x, nth_error (heap s) (cur s) = Some x /\ usable x = true;
  v_pub : exists x, nth_error (heap s) (cur s) = Some x /\ published r0 tr (cur s) (rev x);
  v_called : forall t, search s t <> SNew -> In (Call t) tr;
  v_early : forall t, before_touch (search s t) = true ->
              forall i b, ~ In (Touch t i b) tr;
  v_noans : forall t, before_touch (search s t) = true \/ (exists i, search s t = SRuns i) ->
              forall i r, ~ In (Answer t i r) tr;
  v_touch : forall t i x, search s t = SRuns i -> nth_error (heap s) i = Some x ->
              forall j b, In (Touch t j b) tr -> j = i /\ b = usable x;
  v_same : forall t i b j c, In (Touch t i b) tr -> In (Touch t j c) tr -> i = j /\ b = c;
  v_ans : forall t i b j r, In (Touch t i b) tr -> In (Answer t j r) tr -> i = j;
  v_good_tr : forall t1 t i b t2, tr = t1 ++ Touch t i b :: t2 -> no_failed_swap t1 -> b = true;
  v_ans_tr : forall t1 t i r t2, tr = t1 ++ Answer t i r :: t2 ->
               published r0 t1 i r /\ In (Call t) t1 /\ (forall j q, ~ In (Answer t j q) t1) }.

Lemma inv_init : forall r0, inv r0 [] (initial r0).
Proof.
  intros r0. split; cbn; auto; try discriminate; try tauto.
  - intros t i [X|X]; discriminate.
  - intros _. split; [reflexivity|]. eexists; split; reflexivity.
  - eexists; split; [reflexivity|]. left. repeat split. intros i r [].
  - intros t1 t i b t2 H. destruct t1; discriminate.
  - intros t1 t i r t2 H. destruct t1; discriminate.
Qed.

Definition inert (e : event) : bool :=
  match e with
  | Call _ | Touch _ _ _ | Answer _ _ _ | Publish _ _ | SwapFailed _ => false
  | _ => true end.

Lemma no_publish_snoc : forall tr e, (forall i r, e <> Publish i r) -> no_publish (tr ++ [e]) <-> no_publish tr.
Proof.
  intros tr e NE. unfold no_publish. split; intros H i r X.
  - apply (H i r). apply in_snoc. auto.
  - apply in_snoc in X. destruct X as [X|X]; [apply (H i r X)|symmetry in X; apply (NE _ _ X)].
Qed.
Lemma no_failed_snoc : forall tr e, no_failed_swap (tr ++ [e]) -> no_failed_swap tr.
Proof. intros tr e H i X. apply (H i). apply in_snoc. auto. Qed.
Lemma published_snoc : forall r0 tr e i r, (forall j q, e <> Publish j q) ->
  published r0 tr i r -> published r0 (tr ++ [e]) i r.
Proof.
  intros r0 tr e i r NE [(A & B & C)|(t1 & t2 & A & B)].
  - left. repeat split; auto. apply no_publish_snoc; assumption.
  - right. exists t1, (t2 ++ [e]). split; [rewrite A, <- app_assoc; reflexivity|]. apply no_publish_snoc; assumption.
Qed.
Lemma published_now : forall r0 tr i r, published r0 (tr ++ [Publish i r]) i r.
Proof. intros. right. exists tr, []. split; [reflexivity|]. intros j q []. Qed.

Lemma inert_ne : forall e, inert e = true -> forall i r, e <> Publish i r.
Proof. intros e H i r ->. discriminate. Qed.

(** An inert event changes nothing. *)
Lemma inv_inert : forall r0 tr s e, inert e = true -> inv r0 tr s -> inv r0 (tr ++ [e]) s.
Proof.
  intros r0 tr s e IE [A1 A2 A3 A4 A5 A6 A7 A8 A9 A10 A11 A12 A13 A14 A15].
  assert (TI : forall t i b, In (Touch t i b) (tr ++ [e]) -> In (Touch t i b) tr).
  { intros t i b X. apply in_snoc in X. destruct X as [X|<-]; [exact X|discriminate]. }
  assert (AI : forall t i b, In (Answer t i b) (tr ++ [e]) -> In (Answer t i b) tr).
  { intros t i b X. apply in_snoc in X. destruct X as [X|<-]; [exact X|discriminate]. }
  split; auto.
  - intros NF. apply A6. apply no_failed_snoc in NF. exact NF.
  - destruct A7 as (x & B & C). exists x. split; [exact B|]. apply published_snoc; [apply inert_ne; exact IE|exact C].
  - intros t H. apply in_snoc. auto.
  - intros t H i b X. apply TI in X. apply (A9 t H i b X).
  - intros t H i b X. apply AI in X. apply (A10 t H i b X).
  - intros t i x H HX j b X. apply TI in X. apply (A11 t i x H HX j b X).
  - intros t i b j c X Y. apply TI in X, Y. apply (A12 _ _ _ _ _ X Y).
  - intros t i b j c X Y. apply TI in X. apply AI in Y. apply (A13 _ _ _ _ _ X Y).
  - intros t1 t i b t2 H NF. apply snoc_split in H. destruct H as [(-> & <- & X)|(t3 & -> & H)].
    + rewrite X in IE. discriminate.
    + apply (A14 _ _ _ _ _ H NF).
  - intros t1 t i r t2 H. apply snoc_split in H. destruct H as [(-> & <- & X)|(t3 & -> & H)].
    + rewrite X in IE. discriminate.
    + apply (A15 _ _ _ _ _ H).
Qed.

(** A search changes phase, without an event. *)
Lemma inv_search : forall r0 tr s t p, inv r0 tr s ->
  (reads_s p = true -> writes_s (up s) = false \/ reads_s (search s t) = true) ->
  (forall i, reads_i i p = true -> writes_i i (up s) = false) ->
  (forall i, p = SHas i \/ p = SRuns i -> i = cur s) ->
  search s t <> SNew ->
  (before_touch p = true -> before_touch (search s t) = true) ->
  (forall i, p = SRuns i -> before_touch (search s t) = true) ->
  inv r0 tr (set_search s t p).
Proof.
  intros r0 tr s t p [A1 A2 A3 A4 A5 A6 A7 A8 A9 A10 A11 A12 A13 A14 A15] H1 H2 H3 H4 H5 H6.
  split; cbn [set_search heap cur known search excl up alive]; auto.
  - intros W t0. at_case t0 t; [|apply A2; exact W]. destruct (reads_s p) eqn:RP; [|reflexivity].
    destruct (H1 eq_refl) as [X|X]; [congruence|]. rewrite (A2 W t) in X. discriminate.
  - intros i W t0. at_case t0 t; [|apply A3; exact W]. destruct (reads_i i p) eqn:RP; [|reflexivity].
    rewrite (H2 i RP) in W. discriminate.
  - intros t0 i. at_case t0 t; [apply H3|apply A4].
  - intros t0. at_case t0 t; [intros _; apply A8; exact H4|apply A8].
  - intros t0. at_case t0 t; [intros X; apply A9, H5, X|apply A9].
  - intros t0. at_case t0 t; [|apply A10]. intros [X|(i & X)]; apply A10; left; [apply H5, X|apply (H6 i X)].
  - intros t0 i x. at_case t0 t; [|apply A11]. intros X _ j b Y. exfalso. apply (A9 t (H6 i X) j b Y).
Qed.

(** The update loop changes phase and perhaps an index that is not being read. *)
Lemma inv_up : forall r0 tr s h k u, inv r0 tr s ->
  length h >= length (heap s) ->
  (forall t i, reads_i i (search s t) = true -> nth_error h i = nth_error (heap s) i) ->
  (writes_s u = true -> forall t, reads_s (search s t) = false) ->
  (forall i, writes_i i u = true -> forall t, reads_i i (search s t) = false) ->
  phase_ok (mkSearcher h (cur s) k (search s) (excl s) u (alive s)) ->
  (no_failed_swap tr -> undoing u = false /\ exists x, nth_error h (cur s) = Some x /\ usable x = true) ->
  (exists x x', nth_error (heap s) (cur s) = Some x /\ nth_error h (cur s) = Some x' /\ rev x = rev x') ->
  inv r0 tr (mkSearcher h (cur s) k (search s) (excl s) u (alive s)).
Proof.
  intros r0 tr s h k u [A1 A2 A3 A4 A5 A6 A7 A8 A9 A10 A11 A12 A13 A14 A15] HL HR H1 H2 H3 H4 (x & x' & X1 & X2 & X3).
  split; cbn [heap cur known search excl up alive]; auto.
  - lia.
  - destruct A7 as (y & Y1 & Y2). exists x'. split; [exact X2|]. rewrite <- X3. congruence.
  - intros t i y X Y. apply (A11 t i y X). rewrite <- (HR t i); [exact Y|]. rewrite X. cbn. apply Nat.eqb_refl.
Qed.

Lemma good_app : forall s n r h k u, good_at s n r -> (forall i x, nth_error (heap s) i = Some x -> nth_error h i = Some x) ->
  good_at (mkSearcher h (cur s) k (search s) (excl s) u (alive s)) n r.
Proof. intros s n r h k u (x & A & B) H. exists x. split; [apply H; exact A|exact B]. Qed.

Lemma nth_lt : forall {A} (l : list A) i, i < length l -> exists x, nth_error l i = Some x.
Proof. intros A l i H. destruct (nth_error l i) eqn:E; [eauto|]. apply nth_error_None in E. lia. Qed.
Lemma nth_in : forall {A} (l : list A) i x, nth_error l i = Some x -> i < length l.
Proof. intros A l i x H. apply nth_error_Some. congruence. Qed.

Lemma closes_rev : forall x ok x', closes x ok x' -> rev x' = rev x.
Proof. intros x ok x' []; reflexivity. Qed.
Lemma removes_rev : forall x ok x', removes x ok x' -> rev x' = rev x.
Proof. intros x ok x' []; reflexivity. Qed.

Definition quiet (o : option event) : Prop := match o with None => True | Some e => inert e = true end.

Lemma inv_quiet : forall r0 tr s o s', inv r0 tr s -> step s o s' -> quiet o -> inv r0 tr s'.
Proof.
  intros r0 tr s o s' IV ST Q. pose proof IV as [A1 A2 A3 A4 A5 A6 A7 A8 A9 A10 A11 A12 A13 A14 A15].
  assert (CUR : exists x x', nth_error (heap s) (cur s) = Some x /\ nth_error (heap s) (cur s) = Some x' /\ rev x = rev x').
  { destruct A7 as (x & X & _). exists x, x. auto. }
  destruct ST; try discriminate Q; try exact IV.
  - (* rlock *) apply inv_search; auto; try (intros; discriminate); try (rewrite H0; discriminate).
    + intros i [X|X]; discriminate.
    + rewrite H0. auto.
  - (* read *) apply inv_search; auto; try (intros; discriminate); try (rewrite H0; discriminate).
    + rewrite H0. auto.
    + intros i [X|X]; congruence.
    + rewrite H0. auto.
  - (* irlock *) apply inv_search; auto; try (intros; discriminate); try (rewrite H0; discriminate).
    + rewrite H0. auto.
    + cbn. intros j J. apply Nat.eqb_eq in J. congruence.
    + intros j [X|X]; [discriminate|]. apply (A4 t). left. congruence.
    + rewrite H0. auto.
  - (* runlock *) apply inv_search; auto; try (intros; discriminate); try (rewrite H0; discriminate).
    intros j [X|X]; discriminate.
  - (* xread *) destruct IV; split; auto.
  - (* xlist *) destruct IV; split; auto.
  - (* pull *) apply inv_up; cbn [writes_s writes_i phase_ok up undoing]; auto; try discriminate; try exact I.
    intros NF. split; [reflexivity|]. apply A6. exact NF.
  - (* buildfail *) apply inv_up; cbn [writes_s writes_i phase_ok up undoing]; auto; try discriminate; try exact I.
    intros NF. split; [reflexivity|]. apply A6. exact NF.
  - (* fatal *) destruct IV; split; auto.
  - (* build *)
    assert (AP : forall i x, nth_error (heap s) i = Some x -> nth_error (heap s ++ [mkIndex r true true]) i = Some x).
    { intros i x X. rewrite nth_error_app1; [exact X|]. apply (nth_in _ _ _ X). }
    apply inv_up; cbn [writes_s writes_i undoing]; auto; try discriminate.
    + rewrite app_length. lia.
    + intros t i RI. rewrite nth_error_app1; [reflexivity|]. unfold reads_i in RI. destruct (search s t) eqn:ES; try discriminate.
      apply Nat.eqb_eq in RI. subst. rewrite (A4 t i0) by auto. exact A1.
    + cbn. split; [lia|]. exists (mkIndex r true true). cbn. rewrite nth_error_app2 by lia. rewrite Nat.sub_diag. auto.
    + intros NF. split; [reflexivity|]. destruct (A6 NF) as (_ & x & X & Y). exists x. split; [apply AP; exact X|exact Y].
    + destruct CUR as (x & x' & X & Y & Z). exists x, x'. split; [exact X|]. split; [apply AP; exact Y|exact Z].
  - (* lock *)
    pose proof A5 as P. unfold phase_ok in P. rewrite H0 in P.
    apply inv_up; cbn [writes_s writes_i undoing]; auto; try discriminate.
    + intros NF. split; [reflexivity|]. apply A6. exact NF.
  - (* oldlock *)
    pose proof A5 as P. unfold phase_ok in P. rewrite H0 in P.
    apply inv_up; cbn [writes_s writes_i undoing]; auto; try discriminate.
    + intros _. apply A2. rewrite H0. reflexivity.
    + intros i W. apply Nat.eqb_eq in W. subst. exact H1.
    + intros NF. split; [reflexivity|]. apply A6. exact NF.
  - (* oldclose *)
    pose proof A5 as P. unfold phase_ok in P. rewrite H0 in P. destruct P as (P1 & P2 & P3 & (y & P4 & P5)).
    assert (OTH : forall i, i <> old -> nth_error (put (heap s) old x') i = nth_error (heap s) i).
    { intros i NE. apply put_other. congruence. }
    assert (CO : cur s <> old) by congruence.
    apply inv_up; auto.
    + rewrite put_length. lia.
    + intros t i RI. apply OTH. intros ->. rewrite (A3 old) in RI; [discriminate|]. rewrite H0. cbn. apply Nat.eqb_refl.
    + intros _. apply A2. rewrite H0. reflexivity.
    + intros i W t. apply A3. rewrite H0. cbn. destruct ok; exact W.
    + unfold phase_ok. cbn. assert (G : good_at (mkSearcher (put (heap s) old x') (cur s) (known s) (search s) (excl s) (up s) (alive s)) n r).
      { exists y. cbn. rewrite OTH by congruence. auto. }
      destruct ok; cbn; rewrite put_length; repeat (split; [assumption|]); exact G.
    + intros NF. split; [destruct ok; reflexivity|]. rewrite (OTH (cur s)) by assumption. apply A6. exact NF.
    + rewrite (OTH (cur s)) by assumption. exact CUR.
  - (* oldremove *)
    pose proof A5 as P. unfold phase_ok in P. rewrite H0 in P. destruct P as (P1 & P2 & P3 & (y & P4 & P5)).
    assert (OTH : forall i, i <> old -> nth_error (put (heap s) old x') i = nth_error (heap s) i).
    { intros i NE. apply put_other. congruence. }
    assert (CO : cur s <> old) by congruence.
    apply inv_up; auto.
    + rewrite put_length. lia.
    + intros t i RI. apply OTH. intros ->. rewrite (A3 old) in RI; [discriminate|]. rewrite H0. cbn. apply Nat.eqb_refl.
    + intros _. apply A2. rewrite H0. reflexivity.
    + intros i W t. apply A3. rewrite H0. cbn. exact W.
    + unfold phase_ok. cbn. rewrite put_length. repeat (split; [assumption|]). exists y. cbn. rewrite OTH by congruence. auto.
    + intros NF. split; [reflexivity|]. rewrite (OTH (cur s)) by assumption. apply A6. exact NF.
    + rewrite (OTH (cur s)) by assumption. exact CUR.
  - (* oldunlock *)
    pose proof A5 as P. unfold phase_ok in P. rewrite H0 in P. destruct P as (P1 & P2 & P3 & P4).
    apply inv_up; cbn [writes_s writes_i undoing]; auto; try discriminate.
    + intros _. apply A2. rewrite H0. reflexivity.
    + split; assumption.
    + intros NF. split; [reflexivity|]. apply A6. exact NF.
  - (* swapped *)
    apply inv_up; cbn [writes_s writes_i undoing]; auto; try discriminate; try exact I.
    intros NF. split; [reflexivity|]. apply A6. exact NF.
  - (* newlock *)
    pose proof A5 as P. unfold phase_ok in P. rewrite H0 in P.
    apply inv_up; cbn [writes_s writes_i undoing]; auto; try discriminate.
    + intros i W. apply Nat.eqb_eq in W. subst. assumption.
    + intros NF. destruct (A6 NF) as (X & _). rewrite H0 in X. discriminate.
  - (* newclose *)
    pose proof A5 as P. unfold phase_ok in P. rewrite H0 in P. subst n.
    apply inv_up; auto.
    + rewrite put_length. lia.
    + intros t i RI. destruct (Nat.eq_dec i (cur s)) as [->|NE]; [|apply put_other; congruence].
      rewrite (A3 (cur s)) in RI; [discriminate|]. rewrite H0. cbn. apply Nat.eqb_refl.
    + destruct ok; discriminate.
    + intros i W t. apply A3. rewrite H0. destruct ok; exact W.
    + destruct ok; reflexivity.
    + intros NF. destruct (A6 NF) as (X & _). rewrite H0 in X. discriminate.
    + exists x, x'. rewrite put_same by assumption. split; [assumption|]. split; [reflexivity|]. symmetry. apply (closes_rev _ _ _ H2).
  - (* newremove *)
    pose proof A5 as P. unfold phase_ok in P. rewrite H0 in P. subst n.
    apply inv_up; auto.
    + rewrite put_length. lia.
    + intros t i RI. destruct (Nat.eq_dec i (cur s)) as [->|NE]; [|apply put_other; congruence].
      rewrite (A3 (cur s)) in RI; [discriminate|]. rewrite H0. cbn. apply Nat.eqb_refl.
    + discriminate.
    + intros i W t. apply A3. rewrite H0. exact W.
    + reflexivity.
    + intros NF. destruct (A6 NF) as (X & _). rewrite H0 in X. discriminate.
    + exists x, x'. rewrite put_same by assumption. split; [assumption|]. split; [reflexivity|]. symmetry. apply (removes_rev _ _ _ H2).
  - (* newunlock *)
    apply inv_up; cbn [writes_s writes_i undoing]; auto; try discriminate; try exact I.
    intros NF. destruct (A6 NF) as (X & _). rewrite H0 in X. discriminate.
Qed.

Lemma inv_loud : forall r0 tr s e s', inv r0 tr s -> step s (Some e) s' -> inert e = false -> inv r0 (tr ++ [e]) s'.
Proof.
  intros r0 tr s e s' [A1 A2 A3 A4 A5 A6 A7 A8 A9 A10 A11 A12 A13 A14 A15] ST IE.
  remember (Some e) as o eqn:EO. destruct ST; inversion EO; subst e; clear EO; try discriminate IE.
  - (* call *)
    assert (TI : forall t0 i b, In (Touch t0 i b) (tr ++ [Call t]) -> In (Touch t0 i b) tr).
    { intros t0 i b X. apply in_snoc in X. destruct X as [X|X]; [exact X|discriminate]. }
    assert (AI : forall t0 i b, In (Answer t0 i b) (tr ++ [Call t]) -> In (Answer t0 i b) tr).
    { intros t0 i b X. apply in_snoc in X. destruct X as [X|X]; [exact X|discriminate]. }
    split; cbn [set_search heap cur known search excl up alive]; auto.
    + intros W t0. at_case t0 t; [reflexivity|apply A2; exact W].
    + intros i W t0. at_case t0 t; [reflexivity|apply A3; exact W].
    + intros t0 i. at_case t0 t; [intros [X|X]; discriminate|apply A4].
    + intros NF. apply A6. apply no_failed_snoc in NF. exact NF.
    + destruct A7 as (x & B & C). exists x. split; [exact B|]. apply published_snoc; [discriminate|exact C].
    + intros t0. at_case t0 t; intros X; apply in_snoc; [auto|left; auto].
    + intros t0. at_case t0 t.
      * intros _ i b X. apply TI in X. apply (A9 t) with (i := i) (b := b); [rewrite H0; reflexivity|exact X].
      * intros X i b Y. apply TI in Y. apply (A9 t0 X i b Y).
    + intros t0. at_case t0 t.
      * intros _ i b X. apply AI in X. apply (A10 t) with (i := i) (r := b); [left; rewrite H0; reflexivity|exact X].
      * intros X i b Y. apply AI in Y. apply (A10 t0 X i b Y).
    + intros t0 i x. at_case t0 t; [discriminate|]. intros X HX j b Y. apply TI in Y. apply (A11 t0 i x X HX j b Y).
    + intros t0 i b j c X Y. apply TI in X, Y. apply (A12 _ _ _ _ _ X Y).
    + intros t0 i b j c X Y. apply TI in X. apply AI in Y. apply (A13 _ _ _ _ _ X Y).
    + intros t1 t0 i b t2 X NF. apply snoc_split in X. destruct X as [(-> & <- & X)|(t3 & -> & X)]; [discriminate|].
      apply (A14 _ _ _ _ _ X NF).
    + intros t1 t0 i b t2 X. apply snoc_split in X. destruct X as [(-> & <- & X)|(t3 & -> & X)]; [discriminate|].
      apply (A15 _ _ _ _ _ X).
  - (* touch *)
    assert (AI : forall t0 j b, In (Answer t0 j b) (tr ++ [Touch t i (usable x)]) -> In (Answer t0 j b) tr).
    { intros t0 j b X. apply in_snoc in X. destruct X as [X|X]; [exact X|discriminate]. }
    assert (NOA : forall j r, ~ In (Answer t j r) tr) by (apply A10; right; exists i; exact H0).
    split; auto.
    + intros NF. apply A6. apply no_failed_snoc in NF. exact NF.
    + destruct A7 as (y & B & C). exists y. split; [exact B|]. apply published_snoc; [discriminate|exact C].
    + intros t0 X. apply in_snoc. auto.
    + intros t0 X j b Y. apply in_snoc in Y. destruct Y as [Y|Y]; [apply (A9 t0 X j b Y)|].
      assert (t0 = t) by congruence. subst t0. rewrite H0 in X. discriminate.
    + intros t0 X j b Y. apply AI in Y. apply (A10 t0 X j b Y).
    + intros t0 j y X HX k b Y. apply in_snoc in Y. destruct Y as [Y|Y]; [apply (A11 t0 j y X HX k b Y)|].
      assert (t0 = t /\ k = i /\ b = usable x) as (-> & -> & ->) by (split; [|split]; congruence).
      assert (j = i) by congruence. subst j. split; [reflexivity|]. congruence.
    + intros t0 j b k c X Y. apply in_snoc in X, Y.
      destruct X as [X|X]; destruct Y as [Y|Y].
      * apply (A12 _ _ _ _ _ X Y).
      * assert (t0 = t /\ k = i /\ c = usable x) as (-> & -> & ->) by (split; [|split]; congruence).
        apply (A11 t i x H0 H1 j b X).
      * assert (t0 = t /\ j = i /\ b = usable x) as (-> & -> & ->) by (split; [|split]; congruence).
        destruct (A11 t i x H0 H1 k c Y) as (-> & ->). auto.
      * split; congruence.
    + intros t0 j b k c X Y. apply AI in Y. apply in_snoc in X. destruct X as [X|X]; [apply (A13 _ _ _ _ _ X Y)|].
      assert (t0 = t) by congruence. subst t0. destruct (NOA _ _ Y).
    + intros t1 t0 j b t2 X NF. apply snoc_split in X. destruct X as [(-> & <- & X)|(t3 & -> & X)].
      * assert (b = usable x) by congruence. subst b. destruct (A6 NF) as (_ & y & Y1 & Y2).
        assert (i = cur s) by (apply (A4 t); auto). subst i. congruence.
      * apply (A14 _ _ _ _ _ X NF).
    + intros t1 t0 j b t2 X. apply snoc_split in X. destruct X as [(-> & <- & X)|(t3 & -> & X)]; [discriminate|].
      apply (A15 _ _ _ _ _ X).
  - (* answer *)
    assert (TI : forall t0 j b, In (Touch t0 j b) (tr ++ [Answer t i (rev x)]) -> In (Touch t0 j b) tr).
    { intros t0 j b X. apply in_snoc in X. destruct X as [X|X]; [exact X|discriminate]. }
    assert (NOA : forall j r, ~ In (Answer t j r) tr) by (apply A10; right; exists i; exact H0).
    split; cbn [set_search heap cur known search excl up alive]; auto.
    + intros W t0. at_case t0 t; [|apply A2; exact W]. pose proof (A2 W t) as X. rewrite H0 in X. discriminate.
    + intros j W t0. at_case t0 t; [reflexivity|apply A3; exact W].
    + intros t0 j. at_case t0 t; [intros [X|X]; discriminate|apply A4].
    + intros NF. apply A6. apply no_failed_snoc in NF. exact NF.
    + destruct A7 as (y & B & C). exists y. split; [exact B|]. apply published_snoc; [discriminate|exact C].
    + intros t0. at_case t0 t; intros X; apply in_snoc; left; [|auto]. apply A8. rewrite H0. discriminate.
    + intros t0. at_case t0 t; [discriminate|]. intros X j b Y. apply TI in Y. apply (A9 t0 X j b Y).
    + intros t0. at_case t0 t; [intros [X|(j & X)]; discriminate|]. intros X j b Y. apply in_snoc in Y.
      destruct Y as [Y|Y]; [apply (A10 t0 X j b Y)|congruence].
    + intros t0 j y. at_case t0 t; [discriminate|]. intros X HX k b Y. apply TI in Y. apply (A11 t0 j y X HX k b Y).
    + intros t0 j b k c X Y. apply TI in X, Y. apply (A12 _ _ _ _ _ X Y).
    + intros t0 j b k c X Y. apply TI in X. apply in_snoc in Y. destruct Y as [Y|Y]; [apply (A13 _ _ _ _ _ X Y)|].
      assert (t0 = t /\ k = i) as (-> & ->) by (split; congruence). apply (A11 t i x H0 H1 j b X).
    + intros t1 t0 j b t2 X NF. apply snoc_split in X. destruct X as [(-> & <- & X)|(t3 & -> & X)]; [discriminate|].
      apply (A14 _ _ _ _ _ X NF).
    + intros t1 t0 j r t2 X. apply snoc_split in X. destruct X as [(-> & <- & X)|(t3 & -> & X)].
      * assert (t0 = t /\ j = i /\ r = rev x) as (-> & -> & ->) by (split; [|split]; congruence).
        assert (i = cur s) by (apply (A4 t); auto). subst i. destruct A7 as (y & B & C).
        assert (x = y) by congruence. subst y. split; [exact C|]. split; [|exact NOA].
        apply A8. rewrite H0. discriminate.
      * apply (A15 _ _ _ _ _ X).
  - (* publish *)
    pose proof A5 as P. unfold phase_ok in P. rewrite H0 in P. destruct P as (P1 & x & P2 & P3 & P4).
    assert (TI : forall t0 i b, In (Touch t0 i b) (tr ++ [Publish n r]) -> In (Touch t0 i b) tr).
    { intros t0 i b X. apply in_snoc in X. destruct X as [X|X]; [exact X|discriminate]. }
    assert (AI : forall t0 i b, In (Answer t0 i b) (tr ++ [Publish n r]) -> In (Answer t0 i b) tr).
    { intros t0 i b X. apply in_snoc in X. destruct X as [X|X]; [exact X|discriminate]. }
    assert (NR : forall t, reads_s (search s t) = false) by (apply A2; rewrite H0; reflexivity).
    split; cbn [heap cur known search excl up alive]; auto.
    + apply (nth_in _ _ _ P2).
    + intros i W. discriminate.
    + intros t i [X|X]; pose proof (NR t) as Y; rewrite X in Y; discriminate.
    + cbn. split; [reflexivity|]. split; [congruence|]. split; [exact A1|]. exists x. auto.
    + intros NF. split; [reflexivity|]. exists x. auto.
    + exists x. split; [exact P2|]. rewrite P4. apply published_now.
    + intros t0 X. apply in_snoc. left. auto.
    + intros t0 X j b Y. apply TI in Y. apply (A9 t0 X j b Y).
    + intros t0 X j b Y. apply AI in Y. apply (A10 t0 X j b Y).
    + intros t0 j y X. pose proof (NR t0) as Y. rewrite X in Y. discriminate.
    + intros t0 j b k c X Y. apply TI in X, Y. apply (A12 _ _ _ _ _ X Y).
    + intros t0 j b k c X Y. apply TI in X. apply AI in Y. apply (A13 _ _ _ _ _ X Y).
    + intros t1 t0 j b t2 X NF. apply snoc_split in X. destruct X as [(-> & <- & X)|(t3 & -> & X)]; [discriminate|].
      apply (A14 _ _ _ _ _ X NF).
    + intros t1 t0 j b t2 X. apply snoc_split in X. destruct X as [(-> & <- & X)|(t3 & -> & X)]; [discriminate|].
      apply (A15 _ _ _ _ _ X).
  - (* swapfail *)
    pose proof A5 as P. unfold phase_ok in P. rewrite H0 in P. destruct P as (P1 & P2).
    assert (TI : forall t0 i b, In (Touch t0 i b) (tr ++ [SwapFailed n]) -> In (Touch t0 i b) tr).
    { intros t0 i b X. apply in_snoc in X. destruct X as [X|X]; [exact X|discriminate]. }
    assert (AI : forall t0 i b, In (Answer t0 i b) (tr ++ [SwapFailed n]) -> In (Answer t0 i b) tr).
    { intros t0 i b X. apply in_snoc in X. destruct X as [X|X]; [exact X|discriminate]. }
    split; cbn [set_up heap cur known search excl up alive writes_s writes_i]; auto; try discriminate.
    + intros NF. exfalso. apply (NF n). apply in_snoc. auto.
    + destruct A7 as (y & B & C). exists y. split; [exact B|]. apply published_snoc; [discriminate|exact C].
    + intros t0 X. apply in_snoc. left. auto.
    + intros t0 X j b Y. apply TI in Y. apply (A9 t0 X j b Y).
    + intros t0 X j b Y. apply AI in Y. apply (A10 t0 X j b Y).
    + intros t0 j y X HX k b Y. apply TI in Y. apply (A11 t0 j y X HX k b Y).
    + intros t0 j b k c X Y. apply TI in X, Y. apply (A12 _ _ _ _ _ X Y).
    + intros t0 j b k c X Y. apply TI in X. apply AI in Y. apply (A13 _ _ _ _ _ X Y).
    + intros t1 t0 j b t2 X NF. apply snoc_split in X. destruct X as [(-> & <- & X)|(t3 & -> & X)]; [discriminate|].
      apply (A14 _ _ _ _ _ X NF).
    + intros t1 t0 j b t2 X. apply snoc_split in X. destruct X as [(-> & <- & X)|(t3 & -> & X)]; [discriminate|].
      apply (A15 _ _ _ _ _ X).
Qed.

Lemma runs_inv : forall r0 tr s, runs (initial r0) tr s -> inv r0 tr s.
Proof.
  intros r0 tr s R. remember (initial r0) as s0 eqn:E0. induction R; subst.
  - apply inv_init.
  - apply (inv_quiet r0 tr s1 None); [auto|assumption|exact I].
  - destruct (inert e) eqn:IE.
    + apply inv_inert; [exact IE|]. apply (inv_quiet r0 tr s1 (Some e)); [auto|assumption|exact IE].
    + apply (inv_loud r0 tr s1); auto.
Qed.

(** ** The claims *)
Lemma stable_search : forall r0 tr s, runs (initial r0) tr s ->
  forall t i b j c, In (Touch t i b) tr -> In (Touch t j c) tr -> i = j /\ b = c.
Proof. intros r0 tr s R. apply (v_same _ _ _ (runs_inv _ _ _ R)). Qed.

Lemma good_search : forall r0 tr s, runs (initial r0) tr s ->
  forall t1 t i b t2, tr = t1 ++ Touch t i b :: t2 -> no_failed_swap t1 -> b = true.
Proof. intros r0 tr s R. apply (v_good_tr _ _ _ (runs_inv _ _ _ R)). Qed.

Lemma one_index : forall r0 tr s, runs (initial r0) tr s ->
  forall t i b j r, In (Touch t i b) tr -> In (Answer t j r) tr -> i = j.
Proof. intros r0 tr s R. apply (v_ans _ _ _ (runs_inv _ _ _ R)). Qed.

Lemma latest : forall r0 tr s, runs (initial r0) tr s ->
  forall t1 t i r t2, tr = t1 ++ Answer t i r :: t2 ->
  published r0 t1 i r /\ In (Call t) t1 /\ (forall j q, ~ In (Answer t j q) t1).
Proof. intros r0 tr s R. apply (v_ans_tr _ _ _ (runs_inv _ _ _ R)). Qed.

Lemma split_at : forall {A} (t1 t2 : list A) x a b y, t1 ++ x :: t2 = a ++ y :: b ->
  (exists c, t2 = c ++ y :: b /\ a = t1 ++ x :: c) \/ (t1 = a /\ x = y /\ t2 = b) \/ (exists c, t1 = a ++ y :: c /\ b = c ++ x :: t2).
Proof.
  induction t1 as [|u t1 IH]; intros t2 x a b y H; destruct a as [|v a]; cbn in H.
  - inversion H; subst. right. left. auto.
  - inversion H; subst. left. exists a. auto.
  - inversion H; subst. right. right. exists t1. auto.
  - inversion H as [[H1 H2]]. subst v. destruct (IH _ _ _ _ _ H2) as [(c & -> & ->)|[(-> & -> & ->)|(c & -> & ->)]].
    + left. exists c. auto.
    + right. left. auto.
    + right. right. exists c. auto.
Qed.

Lemma not_stale : forall r0 tr s, runs (initial r0) tr s ->
  forall t1 i r t2 t j q t3, tr = t1 ++ Publish i r :: t2 ++ Answer t j q :: t3 ->
  (j = i /\ q = r) \/ In (Publish j q) t2.
Proof.
  intros r0 tr s R t1 i r t2 t j q t3 H.
  destruct (latest r0 tr s R (t1 ++ Publish i r :: t2) t j q t3) as (P & _ & _).
  { rewrite H, <- app_assoc. reflexivity. }
  destruct P as [(_ & _ & NP)|(a & b & E & NP)].
  - exfalso. apply (NP i r). apply in_or_app. right. left. reflexivity.
  - apply split_at in E. destruct E as [(c & -> & _)|[(_ & E & _)|(c & _ & ->)]].
    + right. apply in_or_app. right. left. reflexivity.
    + left. split; congruence.
    + exfalso. apply (NP i r). apply in_or_app. right. left. reflexivity.
Qed.

(** *** Failures *)
Lemma stays_searchable : forall r0 tr s, runs (initial r0) tr s -> no_failed_swap tr -> ~ In Exit tr -> searchable s.
Proof.
  intros r0 tr s R NF NE. split; [|apply (v_good _ _ _ (runs_inv _ _ _ R)), NF].
  clear NF. remember (initial r0) as s0 eqn:E0. induction R; subst; [reflexivity| |].
  - specialize (IHR eq_refl NE). revert IHR. remember None as o eqn:EO. destruct H; inversion EO; cbn; auto.
  - assert (NE' : ~ In Exit tr) by (intros X; apply NE; apply in_snoc; auto).
    specialize (IHR eq_refl NE'). revert IHR. remember (Some e) as o eqn:EO. destruct H; inversion EO; cbn; auto.
    subst e. exfalso. apply NE. apply in_snoc. auto.
Qed.

(** Once the live index is unmapped, updates keep failing as long as idx.Destroy succeeds. *)
Definition dead (s : searcher) (i : nat) := exists x, nth_error (heap s) i = Some x /\ mapped x = false.
Definition doomed (s : searcher) : Prop :=
  match up s with
  | UIdle | UPulled _ => dead s (cur s)
  | UBuilt n _ | ULocked n _ => dead s (cur s) /\ n <> cur s
  | USet n _ old | UOld n _ old => dead s old /\ n = cur s
  | UOldClosed _ _ _ => False
  | UOldLeft n _ _ ok | UResult n _ ok => ok = false /\ n = cur s
  | UUndo n | UNew n => n = cur s
  | UNewClosed n => n = cur s /\ dead s n
  | UNewLeft n ok => n = cur s /\ (ok = true -> dead s n)
  end.
Definition undone_well (tr : list event) : Prop := forall i ok, In (Undone i ok) tr -> ok = true.

Lemma dead_put : forall s i j x x' h, h = put (heap s) j x' -> nth_error (heap s) j = Some x ->
  (mapped x = false -> mapped x' = false) ->
  (exists y, nth_error (heap s) i = Some y /\ mapped y = false) -> exists y, nth_error h i = Some y /\ mapped y = false.
Proof.
  intros s i j x x' h -> HX HM (y & Y1 & Y2). destruct (Nat.eq_dec j i) as [->|NE].
  - exists x'. rewrite put_same by (apply (nth_in _ _ _ HX)). split; [reflexivity|]. apply HM. congruence.
  - exists y. rewrite put_other by assumption. auto.
Qed.

Lemma doomed_step : forall s o s', doomed s -> step s o s' ->
  (forall i ok, o = Some (Undone i ok) -> ok = true) -> doomed s' /\ (forall i, o <> Some (Updated i)).
Proof.
  intros s o s' D ST U. split.
  - destruct ST; try exact D; unfold doomed in *; cbn [up set_search set_up set_heap set_excl cur heap] in *; try rewrite H0 in D.
    + exact D.
    + exact D.
    + (* build *) destruct D as (x & D1 & D2). split.
      * exists x. cbn. rewrite nth_error_app1 by (apply (nth_in _ _ _ D1)). auto.
      * apply nth_in in D1. lia.
    + (* lock *) exact D.
    + (* set *) destruct D as (D1 & D2). auto.
    + (* oldlock *) exact D.
    + (* oldclose *) destruct D as ((y & D1 & D2) & D3). assert (y = x) by congruence. subst y.
      inversion H2; subst; try congruence; auto.
    + (* oldremove *) contradiction.
    + (* oldunlock *) exact D.
    + (* swapped *) destruct D. discriminate.
    + (* swapfail *) apply D.
    + exact D.
    + (* newclose *) subst n. pose proof (nth_in _ _ _ H1) as L. inversion H2; subst ok; subst x'.
      * split; [reflexivity|]. unfold dead. cbn [heap set_heap]. rewrite put_same by exact L. eexists; split; reflexivity.
      * split; [reflexivity|]. intros; discriminate.
      * split; [reflexivity|]. intros; discriminate.
    + (* newremove *) destruct D as (-> & (y & D1 & D2)). pose proof (nth_in _ _ _ H1) as L. assert (y = x) by congruence. subst y.
      split; [reflexivity|]. intros _. unfold dead. cbn [heap set_heap]. rewrite put_same by exact L.
      exists x'. split; [reflexivity|]. inversion H2; cbn; congruence.
    + (* newunlock *) destruct D as (-> & D). apply D. apply (U (cur s) ok). reflexivity.
  - intros i E. destruct ST; inversion E. unfold doomed in D. rewrite H0 in D. destruct D. discriminate.
Qed.

Lemma runs_doomed : forall s tr s', runs s tr s' -> doomed s -> undone_well tr -> doomed s' /\ forall i, ~ In (Updated i) tr.
Proof.
  intros s tr s' R D. induction R; intros U.
  - split; [exact D|]. intros i [].
  - destruct (IHR D U) as (D1 & N1). split; [|exact N1]. apply (doomed_step s1 None s2 D1 H). discriminate.
  - assert (U1 : undone_well tr) by (intros i ok X; apply (U i ok); apply in_snoc; auto).
    destruct (IHR D U1) as (D1 & N1).
    destruct (doomed_step s1 (Some e) s2 D1 H) as (D2 & N2).
    { intros i ok E. apply (U i ok). apply in_snoc. right. congruence. }
    split; [exact D2|]. intros i X. apply in_snoc in X. destruct X as [X|X]; [apply (N1 i X)|]. apply (N2 i). congruence.
Qed.

Lemma never_recovers : forall s tr s', runs s tr s' -> up s = UIdle -> dead s (cur s) -> undone_well tr ->
  (forall i, ~ In (Updated i) tr) /\ (up s' = UIdle -> ~ searchable s').
Proof.
  intros s tr s' R UI D U.
  assert (DS : doomed s) by (unfold doomed; rewrite UI; exact D).
  destruct (runs_doomed _ _ _ R DS U) as (D1 & N1). split; [exact N1|]. intros UI' (_ & x & X1 & X2).
  unfold doomed in D1. rewrite UI' in D1. destruct D1 as (y & Y1 & Y2). assert (x = y) by congruence. subst y.
  unfold usable in X2. rewrite Y2 in X2. discriminate.
Qed.


(** ** No deadlock *)
Lemma finite_searches : forall r0 tr s, runs (initial r0) tr s -> exists N, forall t, N <= t -> search s t = SNew.
Proof.
  intros r0 tr s R. remember (initial r0) as s0 eqn:E0. induction R; subst.
  - exists 0. reflexivity.
  - destruct (IHR eq_refl) as (N & HN).
    destruct H; cbn; try (exists N; exact HN); exists (Nat.max N (Datatypes.S t)); intros k K; rewrite upd_other by lia; apply HN; lia.
  - destruct (IHR eq_refl) as (N & HN).
    destruct H; cbn; try (exists N; exact HN); exists (Nat.max N (Datatypes.S t)); intros k K; rewrite upd_other by lia; apply HN; lia.
Qed.

Lemma find_reader : forall (f : sphase -> bool) (g : nat -> sphase) N, f SNew = false ->
  (forall t, N <= t -> g t = SNew) -> (forall t, f (g t) = false) \/ exists t, f (g t) = true.
Proof.
  intros f g N F0 HN.
  assert (X : (forall t, t < N -> f (g t) = false) \/ exists t, f (g t) = true).
  { clear HN. induction N as [|N IH].
    - left. intros t T. lia.
    - destruct IH as [IH|IH]; [|right; exact IH]. destruct (f (g N)) eqn:E; [right; exists N; exact E|].
      left. intros t T. destruct (Nat.eq_dec t N) as [->|]; [exact E|]. apply IH. lia. }
  destruct X as [X|X]; [left|right; exact X]. intros t. destruct (Nat.le_gt_cases N t) as [L|L]; [rewrite (HN t L); exact F0|auto].
Qed.

(** A step of the update loop, or of a search already begun. *)
Definition advances (s s' : searcher) : Prop :=
  up s' <> up s \/ exists t, search s t <> SNew /\ search s' t <> search s t.

Lemma adv_search : forall s t p, search s t <> SNew -> p <> search s t -> advances s (set_search s t p).
Proof. intros s t p A B. right. exists t. split; [exact A|]. cbn. rewrite upd_same. exact B. Qed.

Lemma reader_moves : forall r0 tr s t, runs (initial r0) tr s -> alive s = true -> reads_s (search s t) = true ->
  (exists o s', step s o s' /\ advances s s') \/ (exists i, search s t = SHas i /\ writes_i i (up s) = true).
Proof.
  intros r0 tr s t R A RS. pose proof (runs_inv _ _ _ R) as IV. destruct (search s t) eqn:E; try discriminate RS.
  - left. exists None. eexists. split; [apply (st_read s t A E)|]. apply adv_search; rewrite E; discriminate.
  - destruct (writes_i i (up s)) eqn:W; [right; exists i; auto|].
    left. exists None. eexists. split; [apply (st_irlock s t i A E W)|]. apply adv_search; rewrite E; discriminate.
  - left. destruct (nth_lt (heap s) i) as (x & X).
    { rewrite (v_has _ _ _ IV t i); [apply (v_cur _ _ _ IV)|auto]. }
    eexists. eexists. split; [apply (st_answer s t i x A E X)|]. apply adv_search; rewrite E; discriminate.
  - left. exists None. eexists. split; [apply (st_runlock s t A E)|]. apply adv_search; rewrite E; discriminate.
Qed.

Lemma no_deadlock : forall r0 tr s, runs (initial r0) tr s -> alive s = true ->
  up s <> UIdle \/ (exists t, search s t <> SNew /\ search s t <> SDone) ->
  exists o s', step s o s' /\ advances s s'.
Proof.
  intros r0 tr s R A B. pose proof (runs_inv _ _ _ R) as IV. destruct (finite_searches _ _ _ R) as (N & HN).
  assert (ADV : forall u, u <> up s -> forall h c k, advances s (mkSearcher h c k (search s) (excl s) u (alive s))).
  { intros u NE h c k. left. exact NE. }
  pose proof (v_phase _ _ _ IV) as P. unfold phase_ok in P.
  assert (WI : forall i, writes_i i (up s) = false \/ exists o s', step s o s' /\ advances s s').
  { intros i. destruct (writes_i i (up s)) eqn:W; [right|left; reflexivity].
    destruct (up s) eqn:EU; try discriminate W.
    - destruct P as (P1 & P2 & P3 & P4). destruct (nth_lt _ _ P3) as (x & X).
      exists None. eexists. split; [apply (st_oldclose s n r old x false x A EU X (cl_munmap x))|]. apply ADV. discriminate.
    - destruct P as (P1 & P2 & P3 & P4). destruct (nth_lt _ _ P3) as (x & X).
      exists None. eexists. split; [apply (st_oldremove s n r old x false x A EU X (rm_none x))|]. apply ADV. discriminate.
    - exists None. eexists. split; [apply (st_oldunlock s n r old ok A EU)|]. apply ADV. discriminate.
    - destruct (nth_lt (heap s) n) as (x & X); [rewrite P; apply (v_cur _ _ _ IV)|].
      exists None. eexists. split; [apply (st_newclose s n x false x A EU X (cl_munmap x))|]. apply ADV. discriminate.
    - destruct (nth_lt (heap s) n) as (x & X); [rewrite P; apply (v_cur _ _ _ IV)|].
      exists None. eexists. split; [apply (st_newremove s n x false x A EU X (rm_none x))|]. apply ADV. discriminate.
    - eexists. eexists. split; [apply (st_newunlock s n ok A EU)|]. apply ADV. discriminate. }
  destruct (find_reader reads_s (search s) N eq_refl HN) as [NR|(t & RT)].
  - (* nobody holds s.lck for reading *)
    assert (NI : forall i t, reads_i i (search s t) = false).
    { intros i t. pose proof (NR t) as X. destruct (search s t); try reflexivity. discriminate. }
    destruct (up s) eqn:EU.
    + destruct B as [B|(t & B1 & B2)]; [congruence|].
      pose proof (NR t) as X. destruct (search s t) eqn:E; try discriminate X; try congruence.
      exists None. eexists. split; [apply (st_rlock s t A E); rewrite EU; reflexivity|]. apply adv_search; rewrite E; discriminate.
    + eexists. eexists. split; [apply (st_buildfail s r A EU)|]. apply ADV. discriminate.
    + exists None. eexists. split; [apply (st_lock s n r A EU NR)|]. apply ADV. discriminate.
    + eexists. eexists. split; [apply (st_set s n r A EU)|]. apply ADV. discriminate.
    + exists None. eexists. split; [apply (st_oldlock s n r old A EU (NI old))|]. apply ADV. discriminate.
    + destruct (WI old) as [W|W]; [cbn in W; rewrite Nat.eqb_refl in W; discriminate|exact W].
    + destruct (WI old) as [W|W]; [cbn in W; rewrite Nat.eqb_refl in W; discriminate|exact W].
    + destruct (WI old) as [W|W]; [cbn in W; rewrite Nat.eqb_refl in W; discriminate|exact W].
    + destruct ok.
      * eexists. eexists. split; [apply (st_swapped s n r A EU)|]. apply ADV. discriminate.
      * eexists. eexists. split; [apply (st_swapfail s n r A EU)|]. apply ADV. discriminate.
    + exists None. eexists. split; [apply (st_newlock s n A EU (NI n))|]. apply ADV. discriminate.
    + destruct (WI n) as [W|W]; [cbn in W; rewrite Nat.eqb_refl in W; discriminate|exact W].
    + destruct (WI n) as [W|W]; [cbn in W; rewrite Nat.eqb_refl in W; discriminate|exact W].
    + destruct (WI n) as [W|W]; [cbn in W; rewrite Nat.eqb_refl in W; discriminate|exact W].
  - destruct (reader_moves r0 tr s t R A RT) as [X|(i & X1 & X2)]; [exact X|].
    destruct (WI i) as [W|W]; [congruence|exact W].
Qed.
