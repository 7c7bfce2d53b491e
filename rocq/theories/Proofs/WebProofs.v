From Verif Require Import Model.Base Model.Web.
From Coq Require Import Lia.

Definition answered_in (tr : list event) id := exists p r, In (Answer id p r) tr.

Record inv (h : str) (tr : list event) (s : server) : Prop := {
  i_health : health s = h;
  i_lock : wr s <> Off -> forall id, ~ reading (who s id);
  i_ready : wr s = Off -> (mux s = true <-> In Ready tr);
  i_written : wr s = Written -> mux s = true;
  i_excl : In Ready tr -> mux s = true;
  i_choice : forall id p r, who s id = Chosen p r -> r = (if mux s then Served else Unavailable);
  i_path : forall id p, who s id = Waiting p \/ who s id = Locked p \/ (exists r, who s id = Chosen p r) -> p <> h;
  i_begun : forall id, who s id <> Fresh -> exists p, In (Begin id p) tr;
  i_what : forall id p, who s id = Begun p \/ who s id = Waiting p \/ who s id = Locked p \/ (exists r, who s id = Chosen p r) ->
             In (Begin id p) tr /\ ~ answered_in tr id;
  i_fresh : forall id, who s id = Fresh -> (forall p, ~ In (Begin id p) tr) /\ ~ answered_in tr id;
  i_ans : forall t1 id p r t2, tr = t1 ++ Answer id p r :: t2 ->
            In (Begin id p) t1 /\ ~ answered_in t1 id /\
            ((r = Healthy <-> p = h) /\ (r = Unavailable -> ~ In Ready t1) /\ (r = Served -> In Ready t1)) }.

Lemma snoc_split : forall {A} (tr : list A) e t1 x t2, tr ++ [e] = t1 ++ x :: t2 ->
  (t2 = [] /\ tr = t1 /\ e = x) \/ exists t3, t2 = t3 ++ [e] /\ tr = t1 ++ x :: t3.
Proof.
  intros A tr e t1 x t2 H. destruct t2 as [|y t2'] using rev_ind.
  - left. apply app_inj_tail in H. destruct H. auto.
  - right. exists t2'. clear IHt2'. rewrite app_comm_cons, app_assoc in H. apply app_inj_tail in H. destruct H as [H ->]. auto.
Qed.

Lemma upd_same : forall f id p, upd f id p id = p.
Proof. intros. unfold upd. rewrite Nat.eqb_refl. reflexivity. Qed.
Lemma upd_other : forall f id p i, i <> id -> upd f id p i = f i.
Proof. intros. unfold upd. destruct (Nat.eqb_spec i id); congruence. Qed.

Ltac who_case id id0 :=
  destruct (Nat.eq_dec id id0) as [->|?NE]; [rewrite ?upd_same in *|rewrite ?upd_other in * by assumption].

Lemma inv_init : forall h, inv h [] (initial h).
Proof.
  intros h. split; cbn; auto; try discriminate; try contradiction.
  - split; [discriminate|contradiction].
  - intros id p [X|[X|(r & X)]]; discriminate.
  - intros id p [X|[X|[X|(r & X)]]]; discriminate.
  - intros id _. split; [auto|]. intros (p & r & []).
  - intros t1 id p r t2 H. destruct t1; discriminate.
Qed.

Lemma inv_silent : forall h tr s s', inv h tr s -> step s None s' -> inv h tr s'.
Proof.
  intros h tr s s' [A1 A2 A3 A0 A4 A5 A6 A7 A8 A9 A10] ST.
  remember None as o eqn:EO. destruct ST; inversion EO.
  - (* other *)
    split; cbn; auto.
    + intros W id0. who_case id0 id; cbn; auto.
    + intros id0 p r. who_case id0 id; [discriminate|]. apply A5.
    + intros id0 p. who_case id0 id; [|apply A6].
      intros [X|[X|(r & X)]]; try discriminate. injection X as <-. congruence.
    + intros id0. who_case id0 id; [|apply A7]. intros _. apply A7. congruence.
    + intros id0 p. who_case id0 id; [|apply A8].
      intros [X|[X|[X|(r & X)]]]; try discriminate. injection X as <-. apply A8. auto.
    + intros id0. who_case id0 id; [discriminate|apply A9].
  - (* rlock *)
    split; cbn; auto.
    + intros id0 p r. who_case id0 id; [discriminate|]. apply A5.
    + intros id0 p. who_case id0 id; [|apply A6].
      intros [X|[X|(r & X)]]; try discriminate. injection X as <-. apply (A6 id). auto.
    + intros id0. who_case id0 id; [|apply A7]. intros _. apply A7. congruence.
    + intros id0 p. who_case id0 id; [|apply A8].
      intros [X|[X|[X|(r & X)]]]; try discriminate. injection X as <-. apply A8. auto.
    + intros id0. who_case id0 id; [discriminate|apply A9].
  - (* read *)
    split; cbn; auto.
    + intros W. exfalso. apply (A2 W id). rewrite H. exact I.
    + intros id0 p r. who_case id0 id; [|apply A5]. congruence.
    + intros id0 p. who_case id0 id; [|apply A6].
      intros [X|[X|(r & X)]]; try discriminate. injection X as <- _. apply (A6 id). auto.
    + intros id0. who_case id0 id; [|apply A7]. intros _. apply A7. congruence.
    + intros id0 p. who_case id0 id; [|apply A8].
      intros [X|[X|[X|(r & X)]]]; try discriminate. injection X as <- _. apply A8. auto.
    + intros id0. who_case id0 id; [discriminate|apply A9].
  - (* runlock *)
    split; cbn; auto.
    + intros W id0. who_case id0 id; cbn; auto.
    + intros id0 p r. who_case id0 id; [discriminate|]. apply A5.
    + intros id0 p. who_case id0 id; [|apply A6]. intros [X|[X|(r & X)]]; discriminate.
    + intros id0. who_case id0 id; [|apply A7]. intros _. apply A7. congruence.
    + intros id0 p. who_case id0 id; [|apply A8]. intros [X|[X|[X|(r & X)]]]; discriminate.
    + intros id0. who_case id0 id; [discriminate|apply A9].
  - (* lock *)
    split; cbn; auto. discriminate.
  - (* write *)
    split; cbn; auto; try discriminate.
    + intros _. apply A2. rewrite H. discriminate.
    + intros id p r X. exfalso. apply (A2 ltac:(rewrite H; discriminate) id). rewrite X. exact I.
Qed.

Lemma inv_event : forall h tr s e s', inv h tr s -> step s (Some e) s' -> inv h (tr ++ [e]) s'.
Proof.
  intros h tr s e s' [A1 A2 A3 A0 A4 A5 A6 A7 A8 A9 A10] ST.
  remember (Some e) as o eqn:EO. destruct ST; inversion EO; subst e; clear EO.
  - (* begin *)
    assert (RD : In Ready (tr ++ [Begin id path]) <-> In Ready tr).
    { rewrite in_app_iff. cbn. intuition discriminate. }
    assert (AN : forall i, answered_in (tr ++ [Begin id path]) i -> answered_in tr i).
    { intros i (p & r & I). apply in_app_or in I. destruct I as [I|[I|[]]]; [exists p, r; exact I|discriminate]. }
    split; cbn; auto.
    + intros W id0. who_case id0 id; cbn; auto.
    + rewrite RD. auto.
    + rewrite RD. auto.
    + intros id0 p r. who_case id0 id; [discriminate|]. apply A5.
    + intros id0 p. who_case id0 id; [|apply A6]. intros [X|[X|(r & X)]]; discriminate.
    + intros id0. who_case id0 id.
      * intros _. exists path. apply in_or_app. right. left. reflexivity.
      * intros X. destruct (A7 id0 X) as (p & I). exists p. apply in_or_app. left. exact I.
    + intros id0 p. who_case id0 id.
      * intros [X|[X|[X|(r & X)]]]; try discriminate. injection X as <-.
        split; [apply in_or_app; right; left; reflexivity|]. intros Y. apply AN in Y. apply (A9 id H) in Y. exact Y.
      * intros X. destruct (A8 id0 p X). split; [apply in_or_app; left; assumption|]. intros Y. apply AN in Y. contradiction.
    + intros id0. who_case id0 id; [discriminate|]. intros X. destruct (A9 id0 X) as (Y1 & Y2). split.
      * intros p I. apply in_app_or in I. destruct I as [I|[I|[]]]; [apply (Y1 p I)|congruence].
      * intros Y. apply AN in Y. contradiction.
    + intros t1 id0 p r t2 E. apply snoc_split in E. destruct E as [(_ & _ & X)|(t3 & _ & E)]; [discriminate|].
      apply (A10 t1 id0 p r t3 E).
  - (* health *)
    assert (RD : In Ready (tr ++ [Answer id path Healthy]) <-> In Ready tr).
    { rewrite in_app_iff. cbn. intuition discriminate. }
    assert (AN : forall i, i <> id -> answered_in (tr ++ [Answer id path Healthy]) i -> answered_in tr i).
    { intros i NEi (p & r & I). apply in_app_or in I. destruct I as [I|[I|[]]]; [exists p, r; exact I|congruence]. }
    split; cbn; auto.
    + intros W id0. who_case id0 id; cbn; auto.
    + rewrite RD. auto.
    + rewrite RD. auto.
    + intros id0 p r. who_case id0 id; [discriminate|]. apply A5.
    + intros id0 p. who_case id0 id; [|apply A6]. intros [X|[X|(r & X)]]; discriminate.
    + intros id0. who_case id0 id.
      * intros _. destruct (A7 id) as (p & I); [congruence|]. exists p. apply in_or_app. left. exact I.
      * intros X. destruct (A7 id0 X) as (p & I). exists p. apply in_or_app. left. exact I.
    + intros id0 p. who_case id0 id; [intros [X|[X|[X|(r & X)]]]; discriminate|].
      intros X. destruct (A8 id0 p X). split; [apply in_or_app; left; assumption|]. intros Y. apply AN in Y; auto.
    + intros id0. who_case id0 id; [discriminate|]. intros X. destruct (A9 id0 X) as (Y1 & Y2). split.
      * intros p I. apply in_app_or in I. destruct I as [I|[I|[]]]; [apply (Y1 p I)|congruence].
      * intros Y. apply AN in Y; auto.
    + intros t1 id0 p r t2 E. apply snoc_split in E. destruct E as [(_ & <- & X)|(t3 & _ & E)]; [|apply (A10 t1 id0 p r t3 E)].
      injection X as <- <- <-. destruct (A8 id path) as (Y1 & Y2); [auto|]. split; [exact Y1|]. split; [exact Y2|].
      split; [split; [congruence|reflexivity]|]. split; discriminate.
  - (* answer *)
    assert (RD : In Ready (tr ++ [Answer id path r]) <-> In Ready tr).
    { rewrite in_app_iff. cbn. intuition discriminate. }
    assert (AN : forall i, i <> id -> answered_in (tr ++ [Answer id path r]) i -> answered_in tr i).
    { intros i NEi (p & r0 & I). apply in_app_or in I. destruct I as [I|[I|[]]]; [exists p, r0; exact I|congruence]. }
    assert (WO : wr s = Off).
    { destruct (wr s) eqn:W; [reflexivity| |]; exfalso; apply (A2 ltac:(congruence) id); rewrite H; exact I. }
    split; cbn; auto.
    + rewrite RD. auto.
    + rewrite RD. auto.
    + intros id0 p r0. who_case id0 id; [discriminate|]. apply A5.
    + intros id0 p. who_case id0 id; [|apply A6]. intros [X|[X|(r0 & X)]]; discriminate.
    + intros id0. who_case id0 id.
      * intros _. destruct (A7 id) as (p & I); [congruence|]. exists p. apply in_or_app. left. exact I.
      * intros X. destruct (A7 id0 X) as (p & I). exists p. apply in_or_app. left. exact I.
    + intros id0 p. who_case id0 id; [intros [X|[X|[X|(r0 & X)]]]; discriminate|].
      intros X. destruct (A8 id0 p X). split; [apply in_or_app; left; assumption|]. intros Y. apply AN in Y; auto.
    + intros id0. who_case id0 id; [discriminate|]. intros X. destruct (A9 id0 X) as (Y1 & Y2). split.
      * intros p I. apply in_app_or in I. destruct I as [I|[I|[]]]; [apply (Y1 p I)|congruence].
      * intros Y. apply AN in Y; auto.
    + intros t1 id0 p r0 t2 E. apply snoc_split in E. destruct E as [(_ & <- & X)|(t3 & _ & E)]; [|apply (A10 t1 id0 p r0 t3 E)].
      injection X as <- <- <-. destruct (A8 id path) as (Y1 & Y2); [eauto|]. split; [exact Y1|]. split; [exact Y2|].
      assert (PH : path <> h) by (apply (A6 id); eauto).
      pose proof (A5 id path r H) as C. specialize (A3 WO).
      destruct (mux s); subst r.
      * split; [split; [discriminate|contradiction]|]. split; [discriminate|]. intros _. apply A3. reflexivity.
      * split; [split; [discriminate|contradiction]|]. split; [|discriminate]. intros _ X.
        apply A3 in X. discriminate.
  - (* unlock *)
    assert (AN : forall i, answered_in (tr ++ [Ready]) i -> answered_in tr i).
    { intros i (p & r & I). apply in_app_or in I. destruct I as [I|[I|[]]]; [exists p, r; exact I|discriminate]. }
    assert (M : mux s = true) by auto.
    split; cbn; auto.
    + intros _. split; [intros _; apply in_or_app; right; left; reflexivity|auto].
    + intros id X. destruct (A7 id X) as (p & I). exists p. apply in_or_app. left. exact I.
    + intros id p X. destruct (A8 id p X). split; [apply in_or_app; left; assumption|]. intros Y. apply AN in Y. contradiction.
    + intros id X. destruct (A9 id X) as (Y1 & Y2). split.
      * intros p I. apply in_app_or in I. destruct I as [I|[I|[]]]; [apply (Y1 p I)|discriminate].
      * intros Y. apply AN in Y. contradiction.
    + intros t1 id0 p r t2 E. apply snoc_split in E. destruct E as [(_ & _ & X)|(t3 & _ & E)]; [discriminate|].
      apply (A10 t1 id0 p r t3 E).
Qed.

Lemma reach_inv : forall h tr s, reach h tr s -> inv h tr s.
Proof.
  induction 1; [apply inv_init|eapply inv_silent; eassumption|eapply inv_event; eassumption].
Qed.

Theorem answers : forall h tr s, reach h tr s -> forall t1 id p r t2, tr = t1 ++ Answer id p r :: t2 ->
  In (Begin id p) t1 /\ (forall p' r', ~ In (Answer id p' r') t1) /\
  (p = h -> r = Healthy) /\ (p <> h -> ~ In Ready t1 -> r = Unavailable) /\ (p <> h -> In Ready t1 -> r = Served).
Proof.
  intros h tr s R t1 id p r t2 E. apply reach_inv in R.
  destruct (i_ans _ _ _ R t1 id p r t2 E) as (A & B & (C1 & C2) & D & F).
  split; [exact A|]. split; [intros p' r' I; apply B; exists p', r'; exact I|].
  split; [exact C2|]. split.
  - intros NP NR. destruct r; auto; exfalso; [apply NP; auto|apply NR; auto].
  - intros NP IR. destruct r; auto; exfalso; [apply NP; auto|apply D; auto].
Qed.

Theorem stays_ready : forall h tr s, reach h tr s ->
  forall t1 id p t2 id' p' r t3, tr = t1 ++ Answer id p Served :: t2 ++ Answer id' p' r :: t3 ->
  p' <> h -> r = Served.
Proof.
  intros h tr s R t1 id p t2 id' p' r t3 E NP. pose proof (reach_inv _ _ _ R) as IV.
  destruct (i_ans _ _ _ IV _ _ _ _ _ E) as (_ & _ & _ & _ & F). specialize (F eq_refl).
  rewrite app_comm_cons, app_assoc in E.
  apply (answers h tr s R _ _ _ _ _ E); [exact NP|]. apply in_or_app. left. exact F.
Qed.

(** The health check waits for nobody, whatever the server is doing. *)
Theorem health_answers : forall h tr s id, reach h tr s -> who s id = Begun h ->
  exists s', step s (Some (Answer id h Healthy)) s'.
Proof.
  intros h tr s id R W. apply reach_inv in R. eexists. apply st_health; [exact W|]. symmetry. apply (i_health _ _ _ R).
Qed.

(** Some step of the switch or of a request is possible as long as a request is under way:
    nobody waits for ever on the lock. *)
Theorem no_deadlock : forall h tr s id, reach h tr s -> who s id <> Fresh -> who s id <> Finished ->
  exists e s', step s e s'.
Proof.
  intros h tr s id R F1 F2. apply reach_inv in R. destruct R as [A1 _ _ _ _ _ _ _ _ _ _].
  destruct (who s id) as [|p|p|p|p r| |] eqn:W; try congruence.
  - destruct (list_eq_dec N.eq_dec p (health s)); eexists; eexists; [apply (st_health s id p)|apply (st_other s id p)]; auto.
  - destruct (wr s) eqn:X; eexists; eexists; [apply (st_rlock s id p)|apply (st_write s)|apply (st_unlock s)]; auto.
  - eexists; eexists; apply (st_read s id p); auto.
  - eexists; eexists; apply (st_answer s id p r); auto.
  - eexists; eexists; apply (st_runlock s id); auto.
Qed.
