(** An update replaces an index only by one of another revision, as long as no swap fails. *)
From Verif Require Import Model.Base Model.Swap Spec.SwapSpec Proofs.SwapProofs.

Definition going_to (s : searcher) : str :=
  match up s with
  | USet _ r _ | UOld _ r _ | UOldClosed _ r _ | UOldLeft _ r _ _ | UResult _ r _ => r
  | _ => known s end.
Definition ahead (s : searcher) : Prop :=
  match up s with
  | UPulled r | UBuilt _ r | ULocked _ r => r <> known s
  | UUndo _ | UNew _ | UNewClosed _ | UNewLeft _ _ => False
  | _ => True end.
Record fresh (r0 : str) (tr : list event) (s : searcher) : Prop := {
  f_rev : forall i q, published r0 tr i q -> q = going_to s;
  f_ahead : ahead s;
  f_tr : forall t1 i r t2 j q, tr = t1 ++ Publish i r :: t2 -> published r0 t1 j q -> q <> r }.

Lemma last_one : forall r0 tr i r j q, published r0 (tr ++ [Publish i r]) j q -> q = r.
Proof.
  intros r0 tr i r j q [(_ & _ & N)|(t1 & t2 & E & N)].
  - exfalso. apply (N i r). apply in_snoc. right. reflexivity.
  - apply snoc_split in E. destruct E as [(_ & <- & X)|(t3 & -> & _)].
    + congruence.
    + exfalso. apply (N i r). apply in_snoc. right. reflexivity.
Qed.

Lemma published_back : forall r0 tr e i r, (forall j q, e <> Publish j q) -> published r0 (tr ++ [e]) i r -> published r0 tr i r.
Proof.
  intros r0 tr e i r N [(A & B & C)|(t1 & t2 & E & X)].
  - left. split; [exact A|]. split; [exact B|]. intros j q Y. apply (C j q). apply in_snoc. left. exact Y.
  - apply snoc_split in E. destruct E as [(_ & _ & Y)|(t3 & -> & Y)]; [exfalso; exact (N _ _ Y)|].
    right. exists t1, t3. split; [exact Y|]. intros j q Z. apply (X j q). apply in_snoc. left. exact Z.
Qed.

Lemma fresh_step : forall r0 tr s o s', fresh r0 tr s -> step s o s' -> no_failed_swap (tr ++ match o with Some e => [e] | None => [] end) ->
  fresh r0 (tr ++ match o with Some e => [e] | None => [] end) s'.
Proof.
  intros r0 tr s o s' [A B C] ST NF.
  assert (KEEP : forall e, (forall j q, e <> Publish j q) ->
    (forall i q, published r0 (tr ++ [e]) i q -> q = going_to s) /\
    (forall t1 i r t2 j q, tr ++ [e] = t1 ++ Publish i r :: t2 -> published r0 t1 j q -> q <> r)).
  { intros e N. split.
    - intros i q P. apply (A i q). exact (published_back _ _ _ _ _ N P).
    - intros t1 i r t2 j q E P. apply snoc_split in E. destruct E as [(_ & _ & X)|(t3 & -> & X)]; [exfalso; exact (N _ _ X)|].
      apply (C _ _ _ _ _ _ X P). }
  assert (SAME : forall i r, published r0 tr i r -> r = going_to s) by exact A.
  unfold ahead, going_to in *.
  destruct ST; rewrite ?app_nil_r in *;
    try match goal with U : up ?s = _ |- _ => rewrite U in * end;
    try (match goal with |- fresh _ (tr ++ [?e]) _ => destruct (KEEP e ltac:(discriminate)) as (K1 & K2) end);
    try (split; unfold ahead, going_to; cbn [set_search set_excl set_up set_heap up known]; 
         try match goal with U : up ?s = _ |- _ => rewrite U end; auto; fail);
    try contradiction.
  all: try (destruct ok; split; unfold ahead, going_to; cbn [set_search set_excl set_up set_heap up known]; auto; contradiction || auto; fail).
  - (* Publish *) split; unfold ahead, going_to; cbn [up known].
    + intros i q P. apply last_one in P. exact P.
    + exact I.
    + intros t1 i q t2 j q' E P. apply snoc_split in E. destruct E as [(_ & <- & X)|(t3 & -> & X)]; [|apply (C _ _ _ _ _ _ X P)].
      injection X as <- <-. apply A in P. congruence.
  - (* SwapFailed *) exfalso. apply (NF n). apply in_snoc. right. reflexivity.
Qed.

Lemma runs_fresh : forall r0 tr s, runs (initial r0) tr s -> no_failed_swap tr -> fresh r0 tr s.
Proof.
  intros r0 tr s R. remember (initial r0) as s0 eqn:E0. induction R; subst; intros NF.
  - split; [|exact I|].
    + intros i q [(_ & -> & _)|(t1 & t2 & E & _)]; [reflexivity|destruct t1; discriminate].
    + intros t1 i r t2 j q E. destruct t1; discriminate.
  - rewrite <- (app_nil_r tr). apply (fresh_step r0 tr s1 None); auto. rewrite app_nil_r. exact NF.
  - apply (fresh_step r0 tr s1 (Some e)); auto. apply IHR; auto. intros i X. apply (NF i). apply in_snoc. left. exact X.
Qed.

Lemma only_new : forall r0 tr s, runs (initial r0) tr s ->
  forall t1 i r t2 j q, tr = t1 ++ Publish i r :: t2 -> no_failed_swap tr -> published r0 t1 j q -> q <> r.
Proof. intros r0 tr s R t1 i r t2 j q E NF P. apply (f_tr _ _ _ (runs_fresh _ _ _ R NF) _ _ _ _ _ _ E P). Qed.

(** A pull that finds another revision than the one searched leads to a build. *)
Lemma tries_again : forall r0 tr s i q r, runs (initial r0) tr s -> no_failed_swap tr -> alive s = true -> up s = UIdle ->
  published r0 tr i q -> (r <> q <-> exists s', step s None s' /\ up s' = UPulled r).
Proof.
  intros r0 tr s i q r R NF AL U P. destruct (runs_fresh _ _ _ R NF) as [A _ _]. specialize (A i q P). unfold going_to in A. rewrite U in A. split.
  - intros NE. exists (set_up s (UPulled r)). split; [apply st_pull; [exact AL|exact U|congruence]|reflexivity].
  - intros (s' & ST & U'). inversion ST; subst; cbn [set_search set_excl set_up set_heap up] in U'; try congruence; try (rewrite U in U'; discriminate); destruct ok; discriminate.
Qed.
