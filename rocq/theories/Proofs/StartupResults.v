(** Consequences of the invariant (C32-C35). *)
From Verif Require Import Model.Base Model.Startup Spec.StartupSpec Proofs.StartupProofs.
From Coq Require Import Lia.

Section Results.
Context (W : world).

Lemma read_ref_man : forall x u r, read_ref W x = (u, r) -> read_man W x <> None -> read_man W x = Some (u, r).
Proof. intros x u r E N. unfold read_ref in E. destruct (read_man W x); [congruence|contradiction]. Qed.

Lemma reused_good : forall tr s es s' i d, runs W tr s -> step W s es s' -> In (Reused i d) es ->
  exists u r x, In (Pulled i u r) es /\ disk s' d = Some x /\ read_man W x = Some (u, r) /\
    (interrupted d tr \/ exists o, configured u o tr /\ complete W u r o x).
Proof.
  intros tr s es s' i d R ST IN. pose proof (runs_inv W _ _ R) as IV.
  destruct ST; cbn in IN; repeat destruct IN as [IN|IN]; try discriminate; try contradiction.
  injection IN as -> ->. pose proof (i_proc _ _ _ IV p H) as PI. assert (LT : i < length (config p)) by (apply nth_error_Some; congruence).
  pose proof (new_starting _ _ _ _ _ PI LT H1) as PH. destruct (q_refs _ _ _ _ PI PH d _ H2) as (y & Y1 & Y2). rewrite H3 in Y1. injection Y1 as <-.
  pose proof (read_ref_man _ _ _ Y2 H4) as RM.
  exists u, r, x. split; [left; reflexivity|]. split; [exact H3|]. split; [exact RM|].
  destruct (i_disk _ _ _ IV d x u r H3 RM) as [X|X]; [left|right; exact X].
  apply (i_int _ _ _ IV); [|exact X]. right. exists p. auto.
Qed.

Lemma live_good : forall tr s es s' i d, runs W tr s -> step W s es s' -> In (Live i d) es ->
  exists p u o r x, proc s = Some p /\ nth_error (config p) i = Some (u, o) /\ disk s' d = Some x /\ complete W u r o x.
Proof.
  intros tr s es s' i d R ST IN. pose proof (runs_inv W _ _ R) as IV.
  destruct ST; cbn in IN; repeat destruct IN as [IN|IN]; try discriminate; try contradiction; injection IN as -> ->;
  pose proof (i_proc _ _ _ IV p H) as PI.
  - assert (B : builds_at (jobs p i) d r []) by (rewrite H0; cbn; auto). destruct (q_build _ _ _ _ PI _ _ _ _ B) as ((u & o & x & A1 & A2 & A3) & _).
    exists p, u, o, r, x. repeat (split; [assumption|]). apply staged_end. exact A3.
  - assert (B : builds_at (jobs p i) d r' []) by (rewrite H0; cbn; auto). destruct (q_build _ _ _ _ PI _ _ _ _ B) as ((u & o & x & A1 & A2 & A3) & _).
    exists p, u, o, r', x. repeat (split; [assumption|]). apply staged_end. exact A3.
Qed.

(** ** Since the last start *)
Definition is_start (e : event) : bool := match e with Start _ _ => true | _ => false end.
Record since (p : process) (f : nat -> option dir) (t : list event) : Prop := {
  n_start : forall e, In e t -> is_start e = false;
  n_refs : forall d, refs p d = option_map (read_ref W) (f d);
  n_claimed : forall d, claimed p d = true -> (exists i, In (Reused i d) t) \/ (exists i, In (Pulled i [] []) t);
  n_reused : forall i d, In (Reused i d) t -> claimed p d = true /\ exists x, f d = Some x /\ read_man W x <> None }.

Lemma since_app : forall p p' f t es, since p f t -> refs p' = refs p -> claimed p' = claimed p ->
  (forall e, In e es -> is_start e = false) -> (forall i d, ~ In (Reused i d) es) -> since p' f (t ++ es).
Proof.
  intros p p' f t es [N1 N2 N3 N4] E1 E2 S1 S2. split.
  - intros e I. apply in_app_or in I. destruct I; auto.
  - intros d. rewrite E1. apply N2.
  - intros d X. rewrite E2 in X. destruct (N3 d X) as [(i & Y)|(i & Y)]; [left|right]; exists i; apply in_or_app; auto.
  - intros i d X. rewrite E2. apply in_app_or in X. destruct X as [X|X]; [apply (N4 i d X)|destruct (S2 i d X)].
Qed.

Lemma runs_since : forall tr s, runs W tr s -> forall p, proc s = Some p ->
  exists t1 f t2, tr = t1 ++ Start (config p) f :: t2 /\ since p f t2 /\ (forall d, at_phase p = Starting -> f d <> None -> disk s d = f d).
Proof.
  intros tr s R. induction R as [|tr s es s' R IH ST]; intros q PQ; [discriminate|].
  pose proof (runs_inv W _ _ R) as IV.
  assert (GO : forall p, proc s = Some p -> config q = config p -> refs q = refs p -> claimed q = claimed p ->
    (forall e, In e es -> is_start e = false) -> (forall i d, ~ In (Reused i d) es) ->
    (at_phase q = Starting -> at_phase p = Starting /\ forall d, refs p d <> None -> disk s' d = disk s d) ->
    exists t1 f t2, tr ++ es = t1 ++ Start (config q) f :: t2 /\ since q f t2 /\ (forall d, at_phase q = Starting -> f d <> None -> disk s' d = f d)).
  { intros p PS E1 E2 E3 S1 S2 DK. destruct (IH p PS) as (t1 & f & t2 & -> & SI & D). exists t1, f, (t2 ++ es).
    split; [rewrite <- app_assoc, E1; reflexivity|]. split; [apply (since_app p); auto|].
    intros d X Y. destruct (DK X) as (X1 & X2). rewrite X2; [apply D; auto|]. rewrite (n_refs _ _ _ SI). destruct (f d); [discriminate|contradiction]. }
  assert (NS : forall t : list event, (forall e, In e t -> match e with Start _ _ | Reused _ _ => False | _ => True end) ->
    (forall e, In e t -> is_start e = false) /\ (forall i d, ~ In (Reused i d) t)).
  { intros t Q. split; [intros e I; specialize (Q e I); destruct e; cbn in *; tauto|]. intros i d I. apply (Q _ I). }
  destruct ST; cbn [proc disk] in *; try discriminate; injection PQ as <-.
  1: { (* start *)
    exists tr, (disk s), []. split; [reflexivity|]. split; [|auto]. split; cbn; auto; try discriminate; try contradiction. }
  3: { (* reuse *)
    destruct (IH p H) as (t1 & f & t2 & -> & [N1 N2 N3 N4] & D). exists t1, f, (t2 ++ [Pulled i u r; Reused i d]).
    pose proof (i_proc _ _ _ IV p H) as PI. assert (LT : i < length (config p)) by (apply nth_error_Some; congruence).
    pose proof (new_starting _ _ _ _ _ PI LT H1) as PH.
    assert (FX : f d = Some x).
    { rewrite <- H3. symmetry. apply D; [exact PH|]. rewrite N2 in H2. destruct (f d); [discriminate|discriminate]. }
    split; [rewrite <- app_assoc; reflexivity|]. split; [|exact D]. split; cbn [set_claimed refs claimed].
    - intros e I. apply in_app_or in I. destruct I as [I|[<-|[<-|[]]]]; auto.
    - exact N2.
    - intros e X. scase e d.
      + left. exists i. apply in_or_app. right. right. left. reflexivity.
      + destruct (N3 e X) as [(j & Y)|(j & Y)]; [left|right]; exists j; apply in_or_app; auto.
    - intros j e X. apply in_app_or in X. destruct X as [X|[X|[X|[]]]].
      + destruct (N4 j e X) as (A & B). split; [|exact B]. scase e d; auto.
      + discriminate.
      + injection X as <- <-. rewrite set_same. split; [reflexivity|]. exists x. auto. }
  3: { (* reuse_bad *)
    destruct (IH p H) as (t1 & f & t2 & -> & [N1 N2 N3 N4] & D). exists t1, f, (t2 ++ [Pulled i u r; Failed d]).
    pose proof (i_proc _ _ _ IV p H) as PI. assert (LT : i < length (config p)) by (apply nth_error_Some; congruence).
    pose proof (new_starting _ _ _ _ _ PI LT H1) as PH. destruct (q_refs _ _ _ _ PI PH d _ H2) as (y & Y1 & Y2). rewrite H3 in Y1. injection Y1 as <-.
    assert (E : (u, r) = ([], [])) by (unfold read_ref in Y2; rewrite H4 in Y2; congruence). injection E as -> ->.
    split; [rewrite <- app_assoc; reflexivity|]. split; [|exact D]. split; cbn [set_claimed refs claimed].
    - intros e I. apply in_app_or in I. destruct I as [I|[<-|[<-|[]]]]; auto.
    - exact N2.
    - intros e X. scase e d.
      + right. exists i. apply in_or_app. right. left. reflexivity.
      + destruct (N3 e X) as [(j & Y)|(j & Y)]; [left|right]; exists j; apply in_or_app; auto.
    - intros j e X. apply in_app_or in X. destruct X as [X|[X|[X|[]]]]; [|discriminate|discriminate].
      destruct (N4 j e X) as (A & B). split; [|exact B]. scase e d; auto. }
  3: { exfalso. pose proof (i_proc _ _ _ IV p H) as PI. assert (LT : i < length (config p)) by (apply nth_error_Some; congruence).
    pose proof (new_starting _ _ _ _ _ PI LT H1) as PH. destruct (q_refs _ _ _ _ PI PH d _ H2) as (x & X & _). congruence. }
  all: match goal with PS : proc _ = Some ?p |- _ => pose proof (i_proc _ _ _ IV p PS) as PI end.
  all: match goal with |- exists t1 f t2, _ ++ ?l = _ /\ _ => destruct (NS l ltac:(intros e I; cbn in I; repeat (destruct I as [<-|I]; [exact Logic.I|]); contradiction)) as (NS1 & NS2) end.
  all: match goal with PS : proc _ = Some ?p |- _ => apply (GO p) end; auto; cbn [set_job set_phase at_phase disk].
  all: try discriminate; try (intros E; cbn in E; congruence).
  all: try (intros E; rewrite (upd_serving _ _ _ _ _ _ _ _ _ _ PI H0) in E; discriminate).
  all: try (intros E; rewrite (old_serving _ _ _ _ _ _ _ _ PI H0) in E; discriminate).
  - intros E. split; [exact E|]. intros e X. scase e d; [|reflexivity]. destruct (refs p d) as [q|] eqn:ER; [|contradiction].
    destruct (q_refs _ _ _ _ PI E d q ER) as (x & Y & _). destruct H3 as (H3 & _). congruence.
  - intros E. split; [exact E|]. intros e X. scase e d; [|reflexivity]. destruct X. apply (q_new _ _ _ _ PI E _ _ _ _ H0).
Qed.

Lemma last_start : forall (t1 t2 t1' t2' : list event) e e', t1 ++ e :: t2 = t1' ++ e' :: t2' ->
  is_start e = true -> is_start e' = true -> (forall x, In x t2 -> is_start x = false) -> (forall x, In x t2' -> is_start x = false) ->
  t1 = t1' /\ e = e' /\ t2 = t2'.
Proof.
  induction t1 as [|a t1 IH]; intros t2 t1' t2' e e' E S1 S2 N1 N2; destruct t1' as [|b t1']; cbn in E.
  - injection E as -> ->. auto.
  - injection E as -> ->. exfalso. rewrite (N1 e') in S2; [discriminate|]. apply in_or_app. right. left. reflexivity.
  - injection E as -> <-. exfalso. rewrite (N2 e) in S1; [discriminate|]. apply in_or_app. right. left. reflexivity.
  - injection E as -> E. destruct (IH _ _ _ _ _ E S1 S2 N1 N2) as (-> & -> & ->). auto.
Qed.

(** ** Cleaning up *)
Lemma cleaned : forall tr s es s' t1 cfg f t2, runs W tr s -> step W s es s' -> In Ready es ->
  tr = t1 ++ Start cfg f :: t2 -> (forall e, In e t2 -> is_start e = false) -> (forall i, ~ In (Pulled i [] []) t2) ->
  forall d x, f d = Some x -> (disk s' d <> None <-> exists i, In (Reused i d) t2).
Proof.
  intros tr s es s' t1 cfg f t2 R ST IN ET NS NP d x FX. pose proof (runs_inv W _ _ R) as IV.
  destruct ST; cbn in IN; repeat destruct IN as [IN|IN]; try discriminate; try contradiction. cbn [disk].
  destruct (runs_since _ _ R p H) as (t1' & f' & t2' & E & [N1 N2 N3 N4] & _). rewrite ET in E.
  destruct (last_start _ _ _ _ _ _ E eq_refl eq_refl NS N1) as (-> & E2 & ->). injection E2 as -> ->.
  pose proof (i_proc _ _ _ IV p H) as PI. split.
  - intros X. destruct (claimed p d) eqn:C.
    + destruct (N3 d C) as [Y|(i & Y)]; [exact Y|destruct (NP i Y)].
    + destruct X. apply H1; [rewrite N2, FX; discriminate|exact C].
  - intros (i & X). destruct (N4 i d X) as (C & _). apply (q_claim _ _ _ _ PI); [congruence|exact C].
Qed.

(** Directories without a readable manifest are not used, and gone at the end. *)
Lemma unreadable_gone : forall tr s es s' t1 cfg f t2, runs W tr s -> step W s es s' -> In Ready es ->
  tr = t1 ++ Start cfg f :: t2 -> (forall e, In e t2 -> is_start e = false) -> (forall i, ~ In (Pulled i [] []) t2) ->
  forall d x, f d = Some x -> read_man W x = None -> disk s' d = None.
Proof.
  intros tr s es s' t1 cfg f t2 R ST IN ET NS NP d x FX RM.
  pose proof (cleaned tr s es s' t1 cfg f t2 R ST IN ET NS NP d x FX) as (A & _). destruct (disk s' d) eqn:E; [|reflexivity].
  destruct A as (i & I); [discriminate|].
  destruct ST; cbn in IN; repeat destruct IN as [IN|IN]; try discriminate; try contradiction.
  destruct (runs_since _ _ R p H) as (t1' & f' & t2' & EE & [N1 N2 N3 N4] & _). rewrite ET in EE.
  destruct (last_start _ _ _ _ _ _ EE eq_refl eq_refl NS N1) as (-> & E2 & ->). injection E2 as -> ->.
  destruct (N4 i d I) as (_ & y & Y1 & Y2). congruence.
Qed.
Lemma unreadable_unused : forall tr s t1 cfg f t2, runs W tr s -> proc s <> None ->
  tr = t1 ++ Start cfg f :: t2 -> (forall e, In e t2 -> is_start e = false) ->
  forall d x i, f d = Some x -> read_man W x = None -> ~ In (Reused i d) t2.
Proof.
  intros tr s t1 cfg f t2 R UP ET NS d x i FX RM I. destruct (proc s) as [p|] eqn:PS; [|congruence].
  destruct (runs_since _ _ R p PS) as (t1' & f' & t2' & EE & [N1 N2 N3 N4] & _). rewrite ET in EE.
  destruct (last_start _ _ _ _ _ _ EE eq_refl eq_refl NS N1) as (-> & E2 & ->). injection E2 as -> ->.
  destruct (N4 i d I) as (_ & y & Y1 & Y2). congruence.
Qed.

(** Until MakeAll has returned, no directory in use is touched. *)
Lemma in_use_kept : forall tr s p es s' i d, runs W tr s -> proc s = Some p -> at_phase p <> Serving -> live_dir s i d ->
  step W s es s' -> disk s' d = disk s d /\ disk s d <> None.
Proof.
  intros tr s p es s' i d R PS PH LV ST. pose proof (runs_inv W _ _ R) as IV. pose proof (i_proc _ _ _ IV p PS) as PI.
  unfold live_dir in LV. rewrite PS in LV. pose proof (q_fits _ _ _ _ PI i) as F.
  assert (L : exists r, jobs p i = JLive d r).
  { destruct (jobs p i); try contradiction; destruct (at_phase p); try contradiction; subst; eauto. }
  destruct L as (r & L). destruct (q_live _ _ _ _ PI PH i d r L) as (C & D). split; [|exact D].
  destruct ST; cbn [disk]; try reflexivity; try congruence; rewrite PS in H; injection H as <-.
  - rewrite set_other; [reflexivity|]. destruct H3 as (FR & _). congruence.
  - rewrite set_other; [reflexivity|]. congruence.
  - rewrite set_other; [reflexivity|]. intros ->. destruct (q_build _ _ _ _ PI i0 d0 r0 (w :: ops) ltac:(rewrite H0; cbn; auto)) as (_ & M).
    destruct (Nat.eq_dec i i0) as [->|NE]; [congruence|]. apply (M i NE). rewrite L. reflexivity.
  - rewrite set_other; [reflexivity|]. intros ->. destruct (q_cur _ _ _ _ PI d0 H0) as (A & B & _). destruct C; congruence.
  - rewrite set_other; [reflexivity|]. intros ->. destruct (q_cur _ _ _ _ PI d0 H0) as (A & B & _). destruct C; congruence.
  - destruct PH. apply (upd_serving _ _ _ _ _ _ _ _ _ _ PI H0).
  - destruct PH. apply (old_serving _ _ _ _ _ _ _ _ PI H0).
  - destruct PH. apply (old_serving _ _ _ _ _ _ _ _ PI H0).
Qed.

(** ** One repository per directory *)
Record own (p : process) : Prop := {
  o_one : forall i j d, mentions (jobs p i) d -> mentions (jobs p j) d -> i = j;
  o_url : at_phase p = Starting -> forall j d r u q, jobs p j = JLive d r -> refs p d = Some (u, q) -> exists o, nth_error (config p) j = Some (u, o) }.

Lemma own_set : forall p i j' cl, own p -> (forall d, mentions j' d -> forall k, k <> i -> ~ mentions (jobs p k) d) ->
  (at_phase p = Starting -> forall d r u q, j' = JLive d r -> refs p d = Some (u, q) -> exists o, nth_error (config p) i = Some (u, o)) ->
  own (mkProcess (config p) (refs p) cl (at_phase p) (set (jobs p) i j')).
Proof.
  intros p i j' cl [O1 O2] M U. split; cbn [config refs at_phase jobs].
  - intros a b d X Y. destruct (Nat.eq_dec a i) as [->|NA]; destruct (Nat.eq_dec b i) as [->|NB]; rewrite ?set_same in *; rewrite ?set_other in * by assumption; auto.
    + destruct (M d X b NB Y).
    + destruct (M d Y a NA X).
    + apply (O1 a b d X Y).
  - intros E k d r u q J. destruct (Nat.eq_dec k i) as [->|NE]; [rewrite set_same in J; apply (U E _ _ _ _ J)|rewrite set_other in J by exact NE; apply (O2 E _ _ _ _ _ J)].
Qed.
Lemma own_sub : forall p i j', own p -> (forall d, mentions j' d -> mentions (jobs p i) d) ->
  forall d, mentions j' d -> forall k, k <> i -> ~ mentions (jobs p k) d.
Proof. intros p i j' O S d M k NE X. apply NE. apply (o_one p O k i d X). apply S. exact M. Qed.

Lemma url_inj : forall (cfg : list (str * nat)) i j u o o', NoDup (map fst cfg) ->
  nth_error cfg i = Some (u, o) -> nth_error cfg j = Some (u, o') -> i = j.
Proof.
  intros cfg i j u o o' ND A B. assert (L : i < length (map fst cfg)) by (rewrite map_length; apply nth_error_Some; congruence).
  rewrite NoDup_nth_error in ND. apply (ND i j L). rewrite !nth_error_map, A, B. reflexivity.
Qed.

Lemma runs_own : forall tr s, runs W tr s -> distinct_urls tr -> forall p, proc s = Some p -> own p.
Proof.
  intros tr s R. induction R as [|tr s es s' R IH ST]; intros DU q PQ; [discriminate|].
  pose proof (runs_inv W _ _ R) as IV.
  assert (DU' : distinct_urls tr) by (intros cfg f I; apply (DU cfg f), in_or_app; auto). specialize (IH DU').
  destruct ST; cbn [proc] in PQ; try discriminate; injection PQ as <-; try (specialize (IH p H)).
  - split; cbn; [intros i j d []|discriminate].
  - apply own_set; auto; try discriminate; try (intros ? []; fail).
  - apply own_set; auto; try discriminate. intros e -> k NE. apply H3.
  - (* reuse *)
    pose proof (i_proc _ _ _ IV p H) as PI. assert (LT : i < length (config p)) by (apply nth_error_Some; congruence).
    pose proof (new_starting _ _ _ _ _ PI LT H1) as PH.
    apply own_set; auto.
    + intros e -> k NE X. pose proof (q_fits _ _ _ _ PI k) as F. rewrite PH in F. destruct (jobs p k) eqn:EJ; try contradiction; cbn in X; subst.
      * rewrite (q_new _ _ _ _ PI PH _ _ _ _ EJ) in H2. discriminate.
      * destruct (o_url p IH PH k _ _ u r EJ H2) as (o' & Y). apply NE. destruct (q_cfg _ _ _ _ PI) as (f & Z).
        apply (url_inj (config p) k i u o' o (DU' _ _ Z) Y H0).
    + intros _ e r' u' q X Y. injection X as <- <-. assert (u' = u) as -> by congruence. exists o. exact H0.
  - apply own_set; auto; try discriminate; try (intros ? []; fail).
  - exfalso. pose proof (i_proc _ _ _ IV p H) as PI. assert (LT : i < length (config p)) by (apply nth_error_Some; congruence).
    pose proof (new_starting _ _ _ _ _ PI LT H1) as PH. destruct (q_refs _ _ _ _ PI PH d _ H2) as (x & X & _). congruence.
  - apply own_set; auto; try discriminate. apply own_sub; auto. intros e. rewrite H0. auto.
  - apply own_set; auto; try discriminate; try (intros ? []; fail).
  - pose proof (i_proc _ _ _ IV p H) as PI. apply own_set; auto.
    + apply own_sub; auto. intros e. rewrite H0. auto.
    + intros PH e r' u q X Y. injection X as <- <-. rewrite (q_new _ _ _ _ PI PH _ _ _ _ H0) in Y. discriminate.
  - destruct IH as [O1 O2]. split; cbn; auto. discriminate.
  - destruct IH as [O1 O2]. split; cbn; auto. discriminate.
  - exact IH.
  - destruct IH as [O1 O2]. split; cbn; auto. discriminate.
  - destruct IH as [O1 O2]. split; cbn; auto. discriminate.
  - (* update *)
    apply own_set; auto; try (rewrite H0; discriminate). intros e [->| ->] k NE X.
    + apply NE. apply (o_one p IH k i d X). rewrite H2. reflexivity.
    + destruct H4 as (_ & FR). apply (FR k X).
  - apply own_set; auto; try discriminate. apply own_sub; auto. intros e. rewrite H0. auto.
  - pose proof (i_proc _ _ _ IV p H) as PI. pose proof (upd_serving _ _ _ _ _ _ _ _ _ _ PI H0) as PH.
    apply own_set; auto; [|rewrite PH; discriminate]. apply own_sub; auto. intros e. rewrite H0. cbn. tauto.
  - apply own_set; auto; try discriminate. apply own_sub; auto. intros e. rewrite H0. cbn. tauto.
  - exact IH.
  - pose proof (i_proc _ _ _ IV p H) as PI. pose proof (old_serving _ _ _ _ _ _ _ _ PI H0) as PH.
    apply own_set; auto; [|rewrite PH; discriminate]. apply own_sub; auto. intros e. rewrite H0. cbn. tauto.
Qed.

Lemma live_mentions : forall s p i d, proc s = Some p -> live_dir s i d -> mentions (jobs p i) d.
Proof. intros s p i d PS L. unfold live_dir in L. rewrite PS in L. destruct (jobs p i); cbn in *; tauto. Qed.

Lemma one_owner : forall tr s i j d, runs W tr s -> distinct_urls tr -> live_dir s i d -> live_dir s j d -> i = j.
Proof.
  intros tr s i j d R DU A B. destruct (proc s) as [p|] eqn:PS; [|unfold live_dir in A; rewrite PS in A; contradiction].
  apply (o_one p (runs_own _ _ R DU p PS) i j d); apply (live_mentions s p); assumption.
Qed.

Lemma live_untouched : forall tr s es s' i d, runs W tr s -> distinct_urls tr -> live_dir s i d -> step W s es s' -> disk s' d = disk s d.
Proof.
  intros tr s es s' i d R DU L ST. destruct (proc s) as [p|] eqn:PS; [|unfold live_dir in L; rewrite PS in L; contradiction].
  destruct (at_phase p) eqn:PH; try (apply (in_use_kept tr s p es s' i d R PS ltac:(congruence) L ST)).
  pose proof (runs_own _ _ R DU p PS) as OW. pose proof (runs_inv W _ _ R) as IV. pose proof (i_proc _ _ _ IV p PS) as PI.
  pose proof (live_mentions s p i d PS L) as M.
  assert (LJ : match jobs p i with JLive e _ | JUpd e _ _ _ _ | JOld e _ _ => d = e | _ => False end) by (unfold live_dir in L; rewrite PS in L; exact L).
  pose proof (q_ne _ _ _ _ PI i) as AP.
  destruct ST; cbn [disk]; try reflexivity; rewrite PS in H; injection H as <-; try congruence.
  - rewrite set_other; [reflexivity|]. intros ->. destruct H3 as (_ & FR). apply (FR i M).
  - pose proof (new_starting W _ _ _ i0 PI ltac:(apply nth_error_Some; congruence) H1). congruence.
  - rewrite (build_starting W _ _ _ _ _ _ _ PI H0) in PH. discriminate.
  - rewrite set_other; [reflexivity|]. intros ->. destruct H4 as (_ & FR). apply (FR i M).
  - rewrite set_other; [reflexivity|]. intros ->. assert (i = i0) as -> by (apply (o_one p OW i i0 d' M); rewrite H0; cbn; auto).
    rewrite H0 in LJ, AP. cbn in AP. congruence.
  - rewrite set_other; [reflexivity|]. intros ->. assert (i = i0) as -> by (apply (o_one p OW i i0 old M); rewrite H0; cbn; auto).
    rewrite H0 in LJ, AP. cbn in AP. congruence.
  - rewrite set_other; [reflexivity|]. intros ->. assert (i = i0) as -> by (apply (o_one p OW i i0 old M); rewrite H0; cbn; auto).
    rewrite H0 in LJ, AP. cbn in AP. congruence.
Qed.
(** What can be read is what is left of a finished index. *)
Lemma less_refl : forall x, less x x.
Proof. intros [a b c e]. unfold less, lost. cbn. destruct a; auto using incl_refl. Qed.
Lemma less_trans : forall x y z, less x y -> less y z -> less x z.
Proof.
  intros x y z (A1 & A2 & A3 & A4) (B1 & B2 & B3 & B4). unfold less, lost in *. split; [|split; [|split]].
  - destruct (raw x), (raw y), (raw z); try contradiction; try exact I. apply (incl_tran A1 B1).
  - intuition congruence.
  - intuition congruence.
  - intuition congruence.
Qed.
Lemma less_read : forall x y q, less x y -> read_man W x = Some q -> read_man W y = Some q.
Proof. intros x y q (_ & _ & _ & [E|E]) R; unfold read_man in *; rewrite E in R; [exact R|discriminate]. Qed.
Lemma remains : forall tr s, runs W tr s -> forall d x u r, disk s d = Some x -> read_man W x = Some (u, r) ->
  exists o y, configured u o tr /\ complete W u r o y /\ less x y.
Proof.
  intros tr s R. induction R as [|tr s es s' R IH ST]; intros d x u r DX RX; [discriminate|].
  pose proof (runs_inv W _ _ R) as IV.
  assert (OLD : forall d x, disk s d = Some x -> read_man W x = Some (u, r) -> exists o y, configured u o (tr ++ es) /\ complete W u r o y /\ less x y).
  { intros d0 x0 A B. destruct (IH _ _ _ _ A B) as (o & y & C & D & E). exists o, y. split; [apply configured_app, C|auto]. }
  assert (NEW : forall e z, (forall q, read_man W z <> Some q) -> set (disk s) e (Some z) d = Some x -> exists o y, configured u o (tr ++ es) /\ complete W u r o y /\ less x y).
  { intros e z N A. scase d e; [injection A as ->; destruct (N _ RX)|apply (OLD _ _ A RX)]. }
  assert (GON : forall e, set (disk s) e None d = Some x -> exists o y, configured u o (tr ++ es) /\ complete W u r o y /\ less x y).
  { intros e A. scase d e; [discriminate|apply (OLD _ _ A RX)]. }
  assert (LES : forall e z z', disk s e = Some z -> less z' z -> set (disk s) e (Some z') d = Some x -> exists o y, configured u o (tr ++ es) /\ complete W u r o y /\ less x y).
  { intros e z z' A B C. scase d e; [|apply (OLD _ _ C RX)]. injection C as ->. destruct (OLD _ _ A (less_read _ _ _ B RX)) as (o & y & D & E & F).
    exists o, y. split; [exact D|]. split; [exact E|]. apply (less_trans _ _ _ B F). }
  assert (WRT : forall p i e q w ops z, proc s = Some p -> builds_at (jobs p i) e q (w :: ops) -> disk s e = Some z -> set (disk s) e (Some (apply z w)) d = Some x ->
    exists o y, configured u o (tr ++ es) /\ complete W u r o y /\ less x y).
  { intros p i e q w ops z P B A C. scase d e; [|apply (OLD _ _ C RX)]. injection C as C.
    pose proof (i_proc _ _ _ IV p P) as PI. destruct (q_build _ _ _ _ PI _ _ _ _ B) as ((u' & o & z' & X1 & X2 & X3) & _).
    assert (z' = z) by congruence. subst z'. apply staged_next in X3. rewrite C in X3. destruct (staged_read _ _ _ _ _ _ _ X3 RX) as (X4 & X5).
    injection X4 as -> ->. exists o, x. split; [|split; [exact X5|apply less_refl]]. apply configured_app.
    destruct (q_cfg _ _ _ _ PI) as (f & I). exists (config p), f. split; [exact I|]. apply (nth_error_In _ _ X1). }
  destruct ST; cbn [disk] in DX; try (apply (OLD _ _ DX RX)); try (apply (GON _ DX)).
  - eapply NEW; [|exact DX]. intros. discriminate.
  - eapply NEW; [|exact DX]. intros. discriminate.
  - refine (WRT p i d0 r0 w ops x0 _ _ _ DX); try assumption. rewrite H0. cbn. auto.
  - apply (LES _ _ _ H1 H2 DX).
  - eapply NEW; [|exact DX]. intros. discriminate.
  - refine (WRT p i d' r' w ops x0 _ _ _ DX); try assumption. rewrite H0. cbn. auto.
  - apply (LES _ _ _ H1 H2 DX).
Qed.

End Results.
