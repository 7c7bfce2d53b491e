From Verif Require Import Model.Base Model.Query Spec.QuerySpec Proofs.ListLemmas Proofs.StrLemmas.

(** Induction over queries with nested lists. *)
Fixpoint query_ind' (P : query -> Prop)
  (H : forall op tri sub, Forall P sub -> P (Query op tri sub)) (q : query) : P q :=
  match q with
  | Query op tri sub =>
      H op tri sub ((fix go l : Forall P l :=
        match l with
        | [] => Forall_nil P
        | x :: r => Forall_cons x (query_ind' P H x) (go r)
        end) sub)
  end.

Lemma fold_and_Forall : forall {A} (P : A -> Prop) l,
  fold_right (fun s Q => P s /\ Q) True l <-> Forall P l.
Proof.
  induction l; cbn; [split; constructor|]. rewrite IHl. split.
  - intros [? ?]; constructor; auto.
  - intros H; inversion H; auto.
Qed.

Lemma fold_or_Exists : forall {A} (P : A -> Prop) l,
  fold_right (fun s Q => P s \/ Q) False l <-> Exists P l.
Proof.
  induction l; cbn; [split; [tauto|intros H; inversion H]|]. rewrite IHl. split.
  - intros [?|?]; [apply Exists_cons_hd|apply Exists_cons_tl]; auto.
  - intros H; inversion H; auto.
Qed.

Lemma sat_and : forall T tri sub,
  sat T (Query QAnd tri sub) <-> (forall t, In t tri -> T t) /\ Forall (sat T) sub.
Proof. intros. cbn. rewrite fold_and_Forall. reflexivity. Qed.

Lemma sat_or : forall T tri sub,
  sat T (Query QOr tri sub) <-> (exists t, In t tri /\ T t) \/ Exists (sat T) sub.
Proof. intros. cbn. rewrite fold_or_Exists. reflexivity. Qed.

(** ** Hereditary well-formedness without the "no empty AND" requirement. *)
Definition tri3 (l : list str) : Prop := forall t, In t l -> length t = 3.

Fixpoint cwf (q : query) : Prop :=
  match q with
  | Query QAll tri sub | Query QNone tri sub => tri = [] /\ sub = []
  | Query _ tri sub => tri3 tri /\ fold_right (fun s P => cwf s /\ P) True sub
  end.

Lemma cwf_node : forall op tri sub, op = QAnd \/ op = QOr ->
  (cwf (Query op tri sub) <-> tri3 tri /\ Forall cwf sub).
Proof. intros op tri sub [-> | ->]; cbn; rewrite fold_and_Forall; tauto. Qed.

Lemma wf_and : forall tri sub, wf_query (Query QAnd tri sub) <->
  (tri <> [] \/ sub <> []) /\ tri3 tri /\ Forall wf_query sub.
Proof. intros. cbn. rewrite fold_and_Forall. tauto. Qed.

Lemma wf_or : forall tri sub, wf_query (Query QOr tri sub) <->
  tri3 tri /\ Forall wf_query sub.
Proof. intros. cbn. rewrite fold_and_Forall. tauto. Qed.

Lemma wf_cwf : forall q, wf_query q -> cwf q.
Proof.
  induction q as [op tri sub IH] using query_ind'. intros H. destruct op; try exact H.
  - apply wf_and in H. apply cwf_node; auto. split; [tauto|].
    destruct H as (_ & _ & H). rewrite Forall_forall in *. auto.
  - apply wf_or in H. apply cwf_node; auto. split; [tauto|].
    destruct H as (_ & H). rewrite Forall_forall in *. auto.
Qed.

Lemma is_op_eq : forall q o, is_op q o = true <-> q_op q = o.
Proof. intros [o t s] o'. unfold is_op. cbn. destruct o, o'; cbn; split; congruence. Qed.

Lemma skip_below_in : forall t ss x, In x (skip_below t ss) -> In x t.
Proof.
  induction t as [|y t IH]; intros ss x H; cbn in *; [contradiction|].
  destruct (str_ltb y ss); [right; eapply IH; eauto|assumption].
Qed.

Lemma is_subset_in : forall s t, is_subset_of s t = true -> forall x, In x s -> In x t.
Proof.
  induction s as [|ss s IH]; intros t H x Hx; [contradiction|]. cbn in H.
  destruct (skip_below t ss) as [|y r] eqn:E; [discriminate|].
  destruct (str_eqb y ss) eqn:Ey; [|discriminate]. apply str_eqb_eq in Ey. subst y.
  assert (Hin : forall z, In z (ss :: r) -> In z t)
    by (intros z Hz; eapply skip_below_in; rewrite E; exact Hz).
  destruct Hx as [->|Hx]; [apply Hin; left; reflexivity|].
  apply Hin. eapply IH; eauto.
Qed.

Lemma trigrams_imply_sound : forall (T : str -> Prop) t q,
  trigrams_imply t q = true -> (forall x, In x t -> T x) -> sat T q.
Proof.
  intros T t q. induction q as [op tri sub IH] using query_ind'. intros H Ht.
  destruct op; try discriminate.
  - rewrite sat_and. cbn in H. apply andb_true_iff in H. destruct H as [Hs Hi].
    split.
    + intros x Hx. apply Ht. eapply is_subset_in; eauto.
    + rewrite Forall_forall in *. rewrite forallb_forall in Hs. intros s Hin.
      apply IH; auto.
  - rewrite sat_or. cbn in H. apply orb_true_iff in H. destruct H as [H|H].
    + right. apply existsb_exists in H. destruct H as (s & Hin & Hs).
      apply Exists_exists. exists s. split; [assumption|].
      rewrite Forall_forall in IH. apply IH; auto.
    + left. apply existsb_exists in H. destruct H as (x & Hin & Hs).
      exists x. split; [|auto]. apply (is_subset_in [x] tri); [exact Hs|left; reflexivity].
Qed.

Lemma implies_sound : forall (T : str -> Prop) q r,
  implies q r = true -> sat T q -> sat T r.
Proof.
  intros T q r H Hq. unfold implies in H.
  destruct (is_op q QNone || is_op r QAll) eqn:E1.
  - apply orb_true_iff in E1. destruct E1 as [E|E]; apply is_op_eq in E.
    + destruct q as [o t s]. cbn in E. subst o. destruct Hq.
    + destruct r as [o t s]. cbn in E. subst o. exact I.
  - destruct (is_op q QAll || is_op r QNone) eqn:E2; [discriminate|].
    destruct (is_op q QAnd || (is_op q QOr && q_atom q)) eqn:E3.
    + eapply trigrams_imply_sound; [exact H|].
      apply orb_true_iff in E3. destruct E3 as [E|E].
      * apply is_op_eq in E. destruct q as [o t s]. cbn in E. subst o.
        apply sat_and in Hq. cbn. tauto.
      * apply andb_true_iff in E. destruct E as [Eo Ea]. apply is_op_eq in Eo.
        destruct q as [o t s]. cbn in Eo. subst o. apply sat_or in Hq.
        unfold q_atom in Ea. cbn in Ea. apply andb_true_iff in Ea. destruct Ea as [Et Es].
        apply Nat.eqb_eq in Et, Es. destruct s; [|discriminate].
        destruct t as [|x [|? ?]]; try discriminate.
        destruct Hq as [(y & [<-|[]] & Hy)|Hx]; [|inversion Hx].
        cbn. intros z [<-|[]]. assumption.
    + rewrite !andb_true_iff in H. destruct H as ((((Hqo & Hro) & Hn) & Hs) & Hi).
      apply is_op_eq in Hqo, Hro. destruct q as [qo qt qs], r as [ro rt rs].
      cbn in *. subst qo ro. apply Nat.eqb_eq in Hs. destruct qs; [|discriminate].
      apply sat_or. apply sat_or in Hq. destruct Hq as [(y & Hy & HT)|Hx]; [|inversion Hx].
      left. exists y. split; [|assumption]. eapply is_subset_in; eauto.
Qed.

Lemma factor_spec : forall fuel qt rt c a b, length qt + length rt <= fuel ->
  factor fuel qt rt = (c, a, b) ->
  (forall x, In x qt <-> In x c \/ In x a) /\ (forall x, In x rt <-> In x c \/ In x b) /\
  length qt = length c + length a /\ length rt = length c + length b.
Proof.
  induction fuel; intros qt rt c a b Hl H; cbn in H.
  - injection H as <- <- <-. cbn. repeat split; try lia; tauto.
  - destruct qt as [|x qt], rt as [|y rt];
      try (injection H as <- <- <-; cbn; repeat split; try lia; tauto).
    destruct (str_ltb x y) eqn:E1.
    + destruct (factor fuel qt (y :: rt)) as [[c' a'] b'] eqn:E. injection H as <- <- <-.
      destruct (IHfuel qt (y :: rt) c' a' b') as (H1 & H2 & H3 & H4); [cbn in *; lia|assumption|].
      cbn [length In] in *. repeat split; try lia; try apply H2; intros; rewrite ?H1 in *; tauto.
    + destruct (str_ltb y x) eqn:E2.
      * destruct (factor fuel (x :: qt) rt) as [[c' a'] b'] eqn:E. injection H as <- <- <-.
        destruct (IHfuel (x :: qt) rt c' a' b') as (H1 & H2 & H3 & H4); [cbn in *; lia|assumption|].
        cbn [length In] in *. repeat split; try lia; try apply H1; intros; rewrite ?H2 in *; tauto.
      * destruct (factor fuel qt rt) as [[c' a'] b'] eqn:E. injection H as <- <- <-.
        assert (x = y) by (apply str_ltb_total; assumption). subst y.
        destruct (IHfuel qt rt c' a' b') as (H1 & H2 & H3 & H4); [cbn in *; lia|assumption|].
        cbn [length In] in *. repeat split; try lia; intros; rewrite ?H1, ?H2 in *; tauto.
Qed.

Lemma factor_common_spec : forall qt rt c a b,
  factor_common qt rt = (c, a, b) ->
  (forall x, In x qt <-> In x c \/ In x a) /\ (forall x, In x rt <-> In x c \/ In x b) /\
  length qt = length c + length a /\ length rt = length c + length b.
Proof. intros. eapply factor_spec; [|exact H]. lia. Qed.

Lemma unwrap_cases : forall q, unwrap q = q \/ exists o s, q = Query o [] [s] /\ unwrap q = s.
Proof.
  intros [o tri sub]. destruct tri; [|auto]. destruct sub as [|x [|]]; cbn; auto.
  right. eauto.
Qed.

Lemma sat_unwrap : forall T q, cwf q -> (sat T (unwrap q) <-> sat T q).
Proof.
  intros T q Hw. destruct (unwrap_cases q) as [->|(o & s & -> & ->)]; [tauto|].
  destruct o; cbn in Hw; try (destruct Hw; discriminate).
  - cbn. intuition.
  - cbn. split; [tauto|]. intros [(t & [] & _)|[H|[]]]. assumption.
Qed.

Lemma cwf_unwrap : forall q, cwf q -> cwf (unwrap q).
Proof.
  intros q Hw. destruct (unwrap_cases q) as [->|(o & s & -> & ->)]; [assumption|].
  destruct o; cbn in Hw; try (destruct Hw; discriminate); tauto.
Qed.

Lemma wf_unwrap : forall q, wf_query q -> wf_query (unwrap q).
Proof.
  intros q Hw. destruct (unwrap_cases q) as [->|(o & s & -> & ->)]; [assumption|].
  destruct o; cbn in Hw; try (destruct Hw; discriminate); tauto.
Qed.

Definition sem_op (op : qop) (P Q : Prop) : Prop :=
  match op with QAnd => P /\ Q | _ => P \/ Q end.

#[local] Instance sem_op_proper op :
  Morphisms.Proper (Morphisms.respectful iff (Morphisms.respectful iff iff)) (sem_op op).
Proof. intros a b H c d H'. destruct op; cbn; tauto. Qed.

(** Case analysis shared by all and_or lemmas: both sides are AND/OR once neither
    implies the other. *)
Lemma no_implies_ops : forall q r, implies q r = false -> implies r q = false ->
  (q_op q = QAnd \/ q_op q = QOr) /\ (q_op r = QAnd \/ q_op r = QOr).
Proof.
  intros [qo qt qs] [ro rt rs] H1 H2. unfold implies, is_op in *. cbn [q_op] in *.
  destruct qo, ro; cbn in *; try discriminate; auto.
Qed.

Lemma q_atom_true : forall q, q_atom q = true -> exists t, q_tri q = [t] /\ q_sub q = [].
Proof.
  intros [o t s] H. unfold q_atom in H. cbn in *. apply andb_true_iff in H.
  destruct H as [H1 H2]. apply Nat.eqb_eq in H1, H2.
  destruct t as [|x [|]]; try discriminate. destruct s; try discriminate. eauto.
Qed.

Lemma sat_atom : forall T o t, o = QAnd \/ o = QOr -> (sat T (Query o [t] []) <-> T t).
Proof.
  intros T o t [-> | ->]; [rewrite sat_and|rewrite sat_or]; cbn.
  - split; [intros [H _]; auto|intros Ht; split; [intros ? [<-|[]]; auto|constructor]].
  - split; [intros [(x & [<-|[]] & Hx)|Hx]; [assumption|inversion Hx]|left; eauto].
Qed.

Lemma Forall_singleton : forall {A} (P : A -> Prop) x, Forall P [x] <-> P x.
Proof. intros. split; intros H; [inversion H; assumption|auto]. Qed.

Lemma Exists_singleton : forall {A} (P : A -> Prop) x, Exists P [x] <-> P x.
Proof. intros. split; intros H; [inversion H as [? ? H1|? ? H1]; [assumption|inversion H1]|auto]. Qed.

Lemma forall_in_or : forall {A} (P Q R : A -> Prop),
  (forall x, P x \/ Q x -> R x) <-> (forall x, P x -> R x) /\ (forall x, Q x -> R x).
Proof. intros. split; [intros H; split; intros; apply H; tauto|intros [] ? []; auto]. Qed.

Lemma or_false_l_iff : forall P : Prop, False \/ P <-> P.
Proof. tauto. Qed.

Ltac inj_some :=
  match goal with H : Some _ = Some _ |- _ => injection H as <- end.

(** Meaning of and_or. *)
Lemma and_or_f_sat : forall T fuel q r op out,
  (op = QAnd \/ op = QOr) -> cwf q -> cwf r ->
  and_or_f fuel q r op = Some out ->
  cwf out /\ (sat T out <-> sem_op op (sat T q) (sat T r)).
Proof.
  intros T. induction fuel; intros q0 r0 op out Hop Hq0 Hr0 H; [discriminate|].
  cbn [and_or_f] in H.
  rewrite <- (sat_unwrap T q0 Hq0), <- (sat_unwrap T r0 Hr0).
  apply cwf_unwrap in Hq0. apply cwf_unwrap in Hr0.
  set (q := unwrap q0) in *. set (r := unwrap r0) in *. clearbody q r. clear q0 r0.
  destruct (implies q r) eqn:I1.
  { inj_some. pose proof (implies_sound T q r I1).
    destruct Hop; subst op; cbn; split; try assumption; tauto. }
  destruct (implies r q) eqn:I2.
  { inj_some. pose proof (implies_sound T r q I2).
    destruct Hop; subst op; cbn; split; try assumption; tauto. }
  destruct (no_implies_ops q r I1 I2) as [Oq Or].
  destruct q as [qo qt qs], r as [ro rt rs]. cbn [q_op q_tri q_sub] in *.
  assert (Pq := proj1 (cwf_node qo qt qs Oq) Hq0). assert (Pr := proj1 (cwf_node ro rt rs Or) Hr0).
  destruct Pq as [Tq Fq], Pr as [Tr Fr].
  destruct (is_op (Query qo qt qs) op && (is_op (Query ro rt rs) op || q_atom (Query ro rt rs))) eqn:B1.
  { inj_some. apply andb_true_iff in B1. destruct B1 as [Bq Br]. apply is_op_eq in Bq. cbn in Bq. subst qo.
    assert (Ht3 : tri3 (union_list false qt rt)).
    { intros t Ht. apply union_in in Ht. destruct Ht; auto. }
    split; [apply cwf_node; [assumption|]; split; [assumption|]; apply Forall_app; auto|].
    apply orb_true_iff in Br. destruct Br as [Br|Br].
    - apply is_op_eq in Br. cbn in Br. subst ro. destruct Hop; subst op.
      + cbn [sem_op]. rewrite !sat_and. rewrite Forall_app.
        setoid_rewrite union_in. rewrite forall_in_or. tauto.
      + cbn [sem_op]. rewrite !sat_or. rewrite Exists_app. setoid_rewrite union_in. split.
        * intros [(x & [Hx|Hx] & HT)|[Hx|Hx]]; [left; left; eauto|right; left; eauto|left; right; auto|right; right; auto].
        * intros [[(x & Hx & HT)|Hx]|[(x & Hx & HT)|Hx]]; [left; exists x; tauto|tauto|left; exists x; tauto|tauto].
    - apply q_atom_true in Br. cbn in Br. destruct Br as (t & -> & ->). rewrite app_nil_r.
      rewrite (sat_atom T ro t Or). destruct Hop; subst op; cbn [sem_op].
      + rewrite !sat_and. setoid_rewrite union_in. rewrite forall_in_or. cbn. split.
        * intros [[H1 H2] H3]. auto.
        * intros [[H1 H2] H3]. repeat split; auto. intros ? [<-|[]]. assumption.
      + rewrite !sat_or. setoid_rewrite union_in. cbn. split.
        * intros [(x & [Hx|[<-|[]]] & HT)|H]; eauto.
        * intros [[(x & Hx & HT)|H]|H]; eauto 6. }
  destruct (is_op (Query ro rt rs) op && q_atom (Query qo qt qs)) eqn:B2.
  { inj_some. apply andb_true_iff in B2. destruct B2 as [Br Bq]. apply is_op_eq in Br. cbn in Br. subst ro.
    assert (Ht3 : tri3 (union_list false rt qt)).
    { intros t Ht. apply union_in in Ht. destruct Ht; auto. }
    split; [apply cwf_node; [assumption|]; auto|].
    apply q_atom_true in Bq. cbn in Bq. destruct Bq as (t & -> & ->).
    rewrite (sat_atom T qo t Oq). destruct Hop; subst op; cbn [sem_op].
    + rewrite !sat_and. setoid_rewrite union_in. rewrite forall_in_or. cbn. split.
      * intros [[H1 H2] H3]. auto.
      * intros [H1 [H2 H3]]. repeat split; auto. intros ? [<-|[]]. assumption.
    + rewrite !sat_or. setoid_rewrite union_in. cbn. split.
      * intros [(x & [Hx|[<-|[]]] & HT)|H]; eauto.
      * intros [H|[(x & Hx & HT)|H]]; eauto 6. }
  destruct (q_atom (Query qo qt qs) && q_atom (Query ro rt rs)) eqn:B3.
  { inj_some. apply andb_true_iff in B3. destruct B3 as [Bq Br].
    apply q_atom_true in Bq, Br. cbn in Bq, Br.
    destruct Bq as (t & -> & ->), Br as (u & -> & ->). cbn [app].
    split.
    { apply cwf_node; [assumption|]. split; [|constructor].
      intros x [<-|[<-|[]]]; [apply Tq|apply Tr]; left; reflexivity. }
    rewrite (sat_atom T qo t Oq), (sat_atom T ro u Or).
    destruct Hop; subst op; cbn [sem_op]; [rewrite sat_and|rewrite sat_or]; cbn.
    - split; [intros [H _]; split; apply H; auto|].
      intros [H1 H2]. split; [|constructor]. intros x [<-|[<-|[]]]; assumption.
    - split; [intros [(x & [<-|[<-|[]]] & Hx)|Hx]; auto; inversion Hx|].
      intros [Hx|Hx]; left; eauto. }
  destruct (is_op (Query qo qt qs) op) eqn:B4.
  { inj_some. apply is_op_eq in B4. cbn in B4. subst qo.
    split; [apply cwf_node; [assumption|]; split; [assumption|]; apply Forall_app; auto|].
    destruct Hop; subst op; cbn [sem_op].
    - rewrite !(sat_and T qt), Forall_app. rewrite Forall_singleton. tauto.
    - rewrite !(sat_or T qt), Exists_app. rewrite Exists_singleton. tauto. }
  destruct (is_op (Query ro rt rs) op) eqn:B5.
  { inj_some. apply is_op_eq in B5. cbn in B5. subst ro.
    split; [apply cwf_node; [assumption|]; split; [assumption|]; apply Forall_app; auto|].
    destruct Hop; subst op; cbn [sem_op].
    - rewrite !(sat_and T rt), Forall_app. rewrite Forall_singleton. tauto.
    - rewrite !(sat_or T rt), Exists_app. rewrite Exists_singleton. tauto. }
  destruct (factor_common qt rt) as [[c a] b] eqn:EF.
  destruct (factor_common_spec _ _ _ _ _ EF) as (HA & HB & _ & _).
  assert (Cq' : cwf (Query qo a qs)).
  { apply cwf_node; [assumption|]. split; [|assumption]. intros x Hx. apply Tq. apply HA. auto. }
  assert (Cr' : cwf (Query ro b rs)).
  { apply cwf_node; [assumption|]. split; [|assumption]. intros x Hx. apply Tr. apply HB. auto. }
  assert (Hqr : qo = other_op op /\ ro = other_op op).
  { destruct Hop; subst op; destruct Oq; subst qo; destruct Or; subst ro; cbn in *;
      try discriminate; auto. }
  destruct Hqr as [-> ->].
  destruct c as [|c0 cs].
  { inj_some. split; [apply cwf_node; [assumption|]; split; [intros x []|auto]|].
    assert (Ea : sat T (Query (other_op op) a qs) <-> sat T (Query (other_op op) qt qs)).
    { destruct Hop; subst op; cbn [other_op]; rewrite ?sat_and, ?sat_or; setoid_rewrite HA; cbn [In];
        setoid_rewrite (or_false_l_iff); tauto. }
    assert (Eb : sat T (Query (other_op op) b rs) <-> sat T (Query (other_op op) rt rs)).
    { destruct Hop; subst op; cbn [other_op]; rewrite ?sat_and, ?sat_or; setoid_rewrite HB; cbn [In];
        setoid_rewrite (or_false_l_iff); tauto. }
    rewrite <- Ea, <- Eb.
    destruct Hop; subst op; cbn [sem_op]; [rewrite sat_and|rewrite sat_or]; cbn [In].
    - split; [intros [_ H]; inversion H as [|? ? ? H2]; inversion H2; auto|].
      intros [H1 H2]. split; [tauto|]. auto.
    - split; [intros [(x & [] & _)|H]; inversion H as [? ? H1|? ? H1]; subst; auto;
              inversion H1 as [? ? H2|? ? H2]; subst; auto; inversion H2|].
      intros [H1|H1]; right; auto. }
  destruct (and_or_f fuel (Query (other_op op) a qs) (Query (other_op op) b rs) op) as [s|] eqn:ES;
    cbn [bind] in H; [|discriminate].
  destruct (IHfuel _ _ _ _ Hop Cq' Cr' ES) as [Cs Ss].
  assert (Ct : cwf (Query (other_op op) (c0 :: cs) [])).
  { apply cwf_node; [destruct Hop; subst op; auto|]. split; [|constructor].
    intros x Hx. apply Tq. apply HA. auto. }
  destruct (IHfuel _ _ (other_op op) _ ltac:(destruct Hop; subst op; auto) Ct Cs H) as [Co So].
  split; [assumption|]. rewrite So.
  destruct Hop; subst op; cbn [other_op sem_op] in *.
  - rewrite Ss. rewrite !sat_or. setoid_rewrite HA. setoid_rewrite HB.
    split.
    + intros [[(x & Hx & HT)|Hx]|[H1 H2]]; [split; left; exists x; tauto|inversion Hx|].
      split; [destruct H1 as [(x & Hx & HT)|H1]|destruct H2 as [(x & Hx & HT)|H2]];
        try (left; exists x; tauto); right; assumption.
    + intros [[(x & [Hx|Hx] & HT)|H1] [(y & [Hy|Hy] & HU)|H2]];
        try (left; left; exists x; tauto); try (left; left; exists y; tauto);
        right; (split; [first [right; assumption | left; exists x; tauto]
                       |first [right; assumption | left; exists y; tauto]]).
  - rewrite Ss. rewrite !sat_and. setoid_rewrite HA. setoid_rewrite HB. rewrite !forall_in_or.
    assert (Forall (sat T) []) by constructor. tauto.
Qed.

(** ** Termination: the recursion always has enough fuel. *)
Lemma fold_size_app : forall a b,
  fold_right (fun x n => q_size x + n) 0 (a ++ b) =
  fold_right (fun x n => q_size x + n) 0 a + fold_right (fun x n => q_size x + n) 0 b.
Proof. induction a; intros b; cbn; [reflexivity|]. rewrite IHa. lia. Qed.

Lemma q_size_unwrap : forall q, q_size (unwrap q) <= q_size q.
Proof.
  intros q. destruct (unwrap_cases q) as [->|(o & s & -> & ->)]; [lia|]. cbn. lia.
Qed.

Lemma and_or_f_total : forall fuel q r op, q_size q + q_size r < fuel ->
  exists out, and_or_f fuel q r op = Some out /\ q_size out <= q_size q + q_size r.
Proof.
  induction fuel; intros q0 r0 op Hf; [lia|]. cbn [and_or_f].
  pose proof (q_size_unwrap q0). pose proof (q_size_unwrap r0).
  set (q := unwrap q0) in *. set (r := unwrap r0) in *. clearbody q r.
  destruct (implies q r); [eexists; split; [reflexivity|destruct (qop_eqb op QAnd); lia]|].
  destruct (implies r q); [eexists; split; [reflexivity|destruct (qop_eqb op QAnd); lia]|].
  destruct q as [qo qt qs], r as [ro rt rs]. cbn [q_op q_tri q_sub q_size] in *.
  destruct (_ && _).
  { eexists; split; [reflexivity|]. cbn [q_size]. rewrite fold_size_app.
    pose proof (clean_length false (qt ++ rt)). unfold union_list. rewrite app_length in *. lia. }
  destruct (_ && _).
  { eexists; split; [reflexivity|]. cbn [q_size].
    pose proof (clean_length false (rt ++ qt)). unfold union_list. rewrite app_length in *. lia. }
  destruct (_ && _).
  { eexists; split; [reflexivity|]. cbn [q_size]. rewrite app_length. lia. }
  destruct (is_op _ _).
  { eexists; split; [reflexivity|]. cbn [q_size]. rewrite fold_size_app. cbn. lia. }
  destruct (is_op _ _).
  { eexists; split; [reflexivity|]. cbn [q_size]. rewrite fold_size_app. cbn. lia. }
  destruct (factor_common qt rt) as [[c a] b] eqn:EF.
  destruct (factor_common_spec _ _ _ _ _ EF) as (_ & _ & HA & HB).
  destruct c as [|c0 cs].
  { eexists; split; [reflexivity|]. cbn in *. lia. }
  cbn [length] in *.
  destruct (IHfuel (Query qo a qs) (Query ro b rs) op) as (s & Es & Hs); [cbn [q_size]; lia|].
  rewrite Es. cbn [bind q_size] in *.
  destruct (IHfuel (Query (other_op op) (c0 :: cs) []) s (other_op op)) as (o & Eo & Ho).
  { cbn [q_size length fold_right]. lia. }
  exists o. split; [assumption|]. cbn [q_size length fold_right] in Ho. lia.
Qed.

Lemma and_or_some : forall q r op,
  and_or_f (S (q_size q + q_size r)) q r op = Some (and_or q r op).
Proof.
  intros q r op. unfold and_or.
  destruct (and_or_f_total (S (q_size q + q_size r)) q r op) as (o & -> & _); [lia|reflexivity].
Qed.

(** ** No empty AND node ever survives. *)
Definition empty_and : query := Query QAnd [] [].
Definition triv (s : query) : Prop := forall t, trigrams_imply t s = true.

Lemma triv_empty : triv empty_and.
Proof. intros t. reflexivity. Qed.

Lemma triv_unwrap : forall q, triv q -> triv (unwrap q).
Proof.
  intros q H. destruct (unwrap_cases q) as [->|(o & s & -> & ->)]; [assumption|].
  intros t. specialize (H t). destruct o; try discriminate; cbn in H.
  - rewrite !andb_true_r in H. assumption.
  - rewrite orb_false_r in H. apply orb_true_iff in H. destruct H as [H|H]; [assumption|].
    apply existsb_exists in H. destruct H as (? & _ & ?). discriminate.
Qed.

Lemma triv_or : forall tri sub, triv (Query QOr tri (sub ++ [empty_and])).
Proof.
  intros tri sub t. cbn [trigrams_imply]. rewrite existsb_app. cbn.
  rewrite !orb_true_r. reflexivity.
Qed.

Lemma implies_triv : forall t s, t <> [] -> triv s -> implies (unwrap (Query QAnd t [])) s = true.
Proof.
  intros t s Ht Hs. replace (unwrap (Query QAnd t [])) with (Query QAnd t []) by (destruct t; reflexivity).
  specialize (Hs t). unfold implies, is_op. cbn [q_op q_tri].
  destruct s as [o tri sub]; destruct o; cbn [q_op qop_eqb orb]; try reflexivity; try exact Hs; discriminate Hs.
Qed.

Lemma union_nonempty : forall a b, (a <> [] \/ b <> []) -> union_list false a b <> [].
Proof.
  intros a b H E. assert (Hx : exists x, In x a \/ In x b).
  { destruct a as [|x a]; [destruct b as [|x b]; [destruct H; congruence|]|]; exists x; cbn; auto. }
  destruct Hx as [x Hx]. apply (proj2 (union_in false a b x)) in Hx. rewrite E in Hx. destruct Hx.
Qed.

Lemma atom_wf_or : forall o t s, o = QAnd \/ o = QOr -> wf_query (Query o t s) -> tri3 t /\ Forall wf_query s.
Proof. intros o t s [-> | ->] H; [apply wf_and in H|apply wf_or in H]; tauto. Qed.

Lemma app_ne_l : forall {A} (a b : list A), a <> [] -> a ++ b <> [].
Proof. intros A [|] b H; [congruence|discriminate]. Qed.
Lemma app_ne_r : forall {A} (a b : list A), b <> [] -> a ++ b <> [].
Proof. intros A [|] b H; [assumption|discriminate]. Qed.

Lemma and_or_f_wf : forall fuel,
  (forall q r op out, (op = QAnd \/ op = QOr) -> wf_query q -> wf_query r ->
     and_or_f fuel q r op = Some out -> wf_query out) /\
  (forall q r out, (wf_query q \/ q = empty_and) -> (wf_query r \/ r = empty_and) ->
     and_or_f fuel q r QOr = Some out -> wf_query out \/ triv out).
Proof.
  induction fuel as [|fuel [IHA IHB]]; [split; intros; discriminate|].
  assert (A : forall q r op out, (op = QAnd \/ op = QOr) -> wf_query q -> wf_query r ->
     and_or_f (S fuel) q r op = Some out -> wf_query out).
  { intros q0 r0 op out Hop Hq0 Hr0 H. cbn [and_or_f] in H.
    apply wf_unwrap in Hq0. apply wf_unwrap in Hr0.
    set (q := unwrap q0) in *. set (r := unwrap r0) in *. clearbody q r. clear q0 r0.
    destruct (implies q r) eqn:I1; [inj_some; destruct (qop_eqb op QAnd); assumption|].
    destruct (implies r q) eqn:I2; [inj_some; destruct (qop_eqb op QAnd); assumption|].
    destruct (no_implies_ops q r I1 I2) as [Oq Or].
    destruct q as [qo qt qs], r as [ro rt rs]. cbn [q_op q_tri q_sub] in *.
    destruct (atom_wf_or _ _ _ Oq Hq0) as [Tq Fq]. destruct (atom_wf_or _ _ _ Or Hr0) as [Tr Fr].
    destruct (is_op (Query qo qt qs) op && (is_op (Query ro rt rs) op || q_atom (Query ro rt rs))) eqn:B1.
    { inj_some. apply andb_true_iff in B1. destruct B1 as [Bq Br]. apply is_op_eq in Bq. cbn in Bq. subst qo.
      assert (Ht3 : tri3 (union_list false qt rt)).
      { intros t Ht. apply union_in in Ht. destruct Ht; auto. }
      destruct Hop; subst op; [|apply wf_or; split; [assumption|apply Forall_app; auto]].
      apply wf_and. split; [|split; [assumption|apply Forall_app; auto]].
      apply wf_and in Hq0. destruct Hq0 as ([H|H] & _).
      - left. apply union_nonempty. auto.
      - right. apply app_ne_l. assumption. }
    destruct (is_op (Query ro rt rs) op && q_atom (Query qo qt qs)) eqn:B2.
    { inj_some. apply andb_true_iff in B2. destruct B2 as [Br Bq]. apply is_op_eq in Br. cbn in Br. subst ro.
      assert (Ht3 : tri3 (union_list false rt qt)).
      { intros t Ht. apply union_in in Ht. destruct Ht; auto. }
      destruct Hop; subst op; [|apply wf_or; split; assumption].
      apply wf_and. split; [|split; assumption].
      apply wf_and in Hr0. destruct Hr0 as ([H|H] & _); [left; apply union_nonempty; auto|auto]. }
    destruct (q_atom (Query qo qt qs) && q_atom (Query ro rt rs)) eqn:B3.
    { inj_some. apply andb_true_iff in B3. destruct B3 as [Bq Br].
      apply q_atom_true in Bq, Br. cbn in Bq, Br.
      destruct Bq as (t & -> & ->), Br as (u & -> & ->). cbn [app].
      assert (tri3 [t; u]). { intros x [<-|[<-|[]]]; [apply Tq|apply Tr]; left; reflexivity. }
      destruct Hop; subst op; [apply wf_and|apply wf_or]; auto.
      split; [left; discriminate|auto]. }
    destruct (is_op (Query qo qt qs) op) eqn:B4.
    { inj_some. apply is_op_eq in B4. cbn in B4. subst qo.
      assert (Forall wf_query (qs ++ [Query ro rt rs])) by (apply Forall_app; auto).
      destruct Hop; subst op; [apply wf_and|apply wf_or]; auto.
      split; [right; apply app_ne_r; discriminate|auto]. }
    destruct (is_op (Query ro rt rs) op) eqn:B5.
    { inj_some. apply is_op_eq in B5. cbn in B5. subst ro.
      assert (Forall wf_query (rs ++ [Query qo qt qs])) by (apply Forall_app; auto).
      destruct Hop; subst op; [apply wf_and|apply wf_or]; auto.
      split; [right; apply app_ne_r; discriminate|auto]. }
    destruct (factor_common qt rt) as [[c a] b] eqn:EF.
    destruct (factor_common_spec _ _ _ _ _ EF) as (HA & HB & LA & LB).
    assert (Ta : tri3 a) by (intros x Hx; apply Tq, HA; auto).
    assert (Tb : tri3 b) by (intros x Hx; apply Tr, HB; auto).
    assert (Tc : tri3 c) by (intros x Hx; apply Tq, HA; auto).
    destruct c as [|c0 cs].
    { inj_some. destruct Hop; subst op.
      - destruct Oq; subst qo; [cbn in B4; discriminate|].
        destruct Or; subst ro; [cbn in B5; discriminate|].
        apply wf_and. split; [right; discriminate|]. split; [intros x []|].
        (apply Forall_cons; [|apply Forall_cons; [|constructor]]); apply wf_or; auto.
      - destruct Oq; subst qo; [|cbn in B4; discriminate].
        destruct Or; subst ro; [|cbn in B5; discriminate].
        apply wf_or. split; [intros x []|]. cbn in LA, LB.
        apply wf_and in Hq0. apply wf_and in Hr0.
        (apply Forall_cons; [|apply Forall_cons; [|constructor]]); apply wf_and.
        + split; [|auto]. destruct Hq0 as ([H|H] & _); [left|auto]. destruct a, qt; cbn in *; congruence.
        + split; [|auto]. destruct Hr0 as ([H|H] & _); [left|auto]. destruct b, rt; cbn in *; congruence. }
    destruct (and_or_f fuel (Query qo a qs) (Query ro b rs) op) as [s|] eqn:ES; cbn [bind] in H; [|discriminate].
    destruct Hop; subst op; cbn [other_op] in H.
    - destruct Oq; subst qo; [cbn in B4; discriminate|].
      destruct Or; subst ro; [cbn in B5; discriminate|].
      apply (IHA _ _ QOr _ ltac:(auto)) in H; [assumption|apply wf_or; auto|].
      apply (IHA _ _ QAnd _ ltac:(auto)) in ES; [assumption|apply wf_or; auto|apply wf_or; auto].
    - destruct Oq; subst qo; [|cbn in B4; discriminate].
      destruct Or; subst ro; [|cbn in B5; discriminate].
      assert (Wt : wf_query (Query QAnd (c0 :: cs) [])).
      { apply wf_and. split; [left; discriminate|auto]. }
      assert (Wq : wf_query (Query QAnd a qs) \/ Query QAnd a qs = empty_and).
      { destruct a; [destruct qs; [right; reflexivity|]|]; left; apply wf_and; (split; [|auto]);
          [right|left]; discriminate. }
      assert (Wr : wf_query (Query QAnd b rs) \/ Query QAnd b rs = empty_and).
      { destruct b; [destruct rs; [right; reflexivity|]|]; left; apply wf_and; (split; [|auto]);
          [right|left]; discriminate. }
      destruct (IHB _ _ _ Wq Wr ES) as [Ws|Ts].
      + apply (IHA _ _ QAnd _ ltac:(auto)) in H; assumption.
      + destruct fuel; [discriminate|]. cbn [and_or_f] in H.
        rewrite (implies_triv (c0 :: cs) (unwrap s)) in H; [|discriminate|apply triv_unwrap; assumption].
        cbn in H. injection H as <-. exact Wt. }
  split; [exact A|].
  intros q r out Hq Hr H.
  destruct Hq as [Hq| ->]; destruct Hr as [Hr| ->].
  - left. eapply (A q r QOr); eauto.
  - apply wf_unwrap in Hq. cbn [and_or_f] in H. change (unwrap empty_and) with empty_and in H.
    set (q' := unwrap q) in *. clearbody q'. clear q.
    destruct (implies q' empty_and) eqn:I1; [inj_some; right; apply triv_empty|].
    destruct (implies empty_and q') eqn:I2; [inj_some; left; assumption|].
    destruct q' as [o t s]. destruct o.
    + cbn in I2. discriminate.
    + cbn in I1. discriminate.
    + unfold implies in I1. cbn in I1. discriminate.
    + cbn [is_op q_op qop_eqb empty_and] in H.
      change (is_op (Query QOr t s) QOr) with true in H.
      change (is_op empty_and QOr) with false in H.
      change (q_atom empty_and) with false in H.
      rewrite ?andb_false_r in H. cbn [orb andb] in H. inj_some.
      right. apply triv_or.
  - apply wf_unwrap in Hr. cbn [and_or_f] in H. change (unwrap empty_and) with empty_and in H.
    set (r' := unwrap r) in *. clearbody r'. clear r.
    destruct (implies empty_and r') eqn:I1; [inj_some; left; assumption|].
    destruct (implies r' empty_and) eqn:I2; [inj_some; right; apply triv_empty|].
    destruct r' as [o t s]. destruct o.
    + cbn in I1. discriminate.
    + cbn in I2. discriminate.
    + unfold implies in I2. cbn in I2. discriminate.
    + change (is_op (Query QOr t s) QOr) with true in H.
      change (is_op empty_and QOr) with false in H.
      change (q_atom empty_and) with false in H.
      rewrite ?andb_false_r in H. cbn [orb andb] in H. inj_some.
      right. apply triv_or.
  - cbn in H. inj_some. right. apply triv_empty.
Qed.

(** ** and_or and and_trigrams on well-formed queries. *)
Lemma and_or_wf : forall q r op, (op = QAnd \/ op = QOr) -> wf_query q -> wf_query r ->
  wf_query (and_or q r op).
Proof.
  intros q r op Hop Hq Hr.
  exact (proj1 (and_or_f_wf _) q r op _ Hop Hq Hr (and_or_some q r op)).
Qed.

Lemma and_or_sat : forall T q r op, (op = QAnd \/ op = QOr) -> wf_query q -> wf_query r ->
  (sat T (and_or q r op) <-> sem_op op (sat T q) (sat T r)).
Proof.
  intros T q r op Hop Hq Hr.
  apply (and_or_f_sat T _ q r op _ Hop (wf_cwf _ Hq) (wf_cwf _ Hr) (and_or_some q r op)).
Qed.

Lemma trigrams_of_len : forall s, tri3 (trigrams_of s).
Proof.
  induction s as [|a s IH]; intros t Ht; [destruct Ht|]. cbn in Ht.
  destruct s as [|b [|c s]]; try destruct Ht as [<-|Ht]; try contradiction; [reflexivity|].
  apply IH. exact Ht.
Qed.

Lemma trigrams_of_nonempty : forall s, 3 <= length s -> trigrams_of s <> [].
Proof. intros [|a [|b [|c s]]] H; cbn in *; try lia. discriminate. Qed.

Lemma min_len_le : forall l x, In x l -> min_len l <= length x.
Proof.
  intros l x Hx. destruct l as [|y l]; [destruct Hx|]. unfold min_len.
  assert (G : forall (l : list str) m, fold_left (fun m s => if Nat.ltb (length s) m then length s else m) l m <= m
     /\ forall z, In z l -> fold_left (fun m s => if Nat.ltb (length s) m then length s else m) l m <= length z).
  { clear. induction l as [|w l IH]; intros m; cbn [fold_left In]; [split; [lia|intros ? []]|].
    destruct (Nat.ltb_spec (length w) m).
    - destruct (IH (length w)) as [H1 H2]. split; [|intros z [<-|Hz]; auto].
      eapply Nat.le_trans; [exact H1|]. apply Nat.lt_le_incl. assumption.
    - destruct (IH m) as [H1 H2]. split; [exact H1|]. intros z [<-|Hz]; [|auto].
      eapply Nat.le_trans; [exact H1|assumption]. }
  apply G. assumption.
Qed.

Lemma and_trigrams_spec : forall T q t, wf_query q ->
  wf_query (and_trigrams q t) /\
  (sat T (and_trigrams q t) <->
   sat T q /\ (min_len t < 3 \/ exists w, In w t /\ forall x, In x (trigrams_of w) -> T x)).
Proof.
  intros T q t Hq. unfold and_trigrams. destruct (Nat.ltb_spec (min_len t) 3) as [Hm|Hm].
  { split; [assumption|]. tauto. }
  assert (Hlen : forall w, In w t -> 3 <= length w).
  { intros w Hw. pose proof (min_len_le t w Hw). lia. }
  set (step := fun or tt => and_or or (Query QAnd (clean_list false (trigrams_of tt)) []) QOr).
  assert (G : forall l or, (forall w, In w l -> 3 <= length w) -> wf_query or ->
     wf_query (fold_left step l or) /\
     (sat T (fold_left step l or) <-> sat T or \/ exists w, In w l /\ forall x, In x (trigrams_of w) -> T x)).
  { induction l as [|w l IH]; intros or Hl Hor; cbn [fold_left].
    - split; [assumption|]. split; [tauto|]. intros [?|(w & [] & _)]. assumption.
    - assert (Wn : wf_query (Query QAnd (clean_list false (trigrams_of w)) [])).
      { apply wf_and. split; [|split; [|constructor]].
        - left. intros E. destruct (trigrams_of w) as [|x xs] eqn:Ew.
          + eapply trigrams_of_nonempty; [|exact Ew]. apply Hl. left. reflexivity.
          + assert (Hx : In x (clean_list false (x :: xs))) by (apply clean_in; left; reflexivity).
            rewrite E in Hx. destruct Hx.
        - intros x Hx. apply clean_in in Hx. eapply trigrams_of_len; eauto. }
      destruct (IH (step or w)) as [W S]; [intros; apply Hl; right; assumption|apply and_or_wf; auto|].
      split; [assumption|]. rewrite S. unfold step. rewrite and_or_sat by auto. cbn [sem_op].
      rewrite sat_and. setoid_rewrite clean_in. cbn [In]. split.
      + intros [[H|[H _]]|(v & Hv & H)]; [tauto|right; exists w; tauto|right; exists v; tauto].
      + intros [H|(v & [<-|Hv] & H)]; [tauto|left; right; split; [assumption|constructor]|right; eauto]. }
  destruct (G t none_query Hlen) as [W S]; [cbn; auto|].
  split; [apply and_or_wf; auto|]. rewrite and_or_sat by auto. cbn [sem_op]. fold step. rewrite S. cbn [sat none_query].
  split; [intros [H [[]|H']]; auto|]. intros [H [H'|H']]; [lia|auto].
Qed.
