(** The shutdown handler: projection to the server, invariant, and what holds at the exit. *)
From Verif Require Import Model.Base Model.Server Model.Shutdown Spec.ServerSpec Proofs.ServerProofs Proofs.ServerTrace Proofs.ServerStart.
From Coq Require Import Lia Permutation.

Definition proj_ev (es : list pevent) : list event := flat_map (fun e => match e with Srv e => [e] | _ => [] end) es.
Definition proj_ac (a : pactor) (es : list pevent) : actor :=
  match a with
  | Actor a => a
  | Handler => match es with [Srv (StopWritten i)] => Stopper i | _ => Env end
  | Outside => Env
  end.
Lemma proj_srv : forall es, proj_ev (map Srv es) = es.
Proof. induction es as [|e es IH]; [reflexivity|]. unfold proj_ev in *. cbn. congruence. Qed.
Lemma proj_app : forall a b, proj_ev (a ++ b) = proj_ev a ++ proj_ev b.
Proof. intros a b. unfold proj_ev. apply flat_map_app. Qed.
Lemma proj_in : forall e es, In e (proj_ev es) <-> In (Srv e) es.
Proof.
  intros e es. unfold proj_ev. rewrite in_flat_map. split.
  - intros (x & I & H). destruct x; cbn in H; try contradiction. destruct H as [->|[]]. exact I.
  - intros I. exists (Srv e). cbn. auto.
Qed.
Lemma proj_step : forall a p es p', pstep a p es p' -> step (proj_ac a es) (srv p) (proj_ev es) (srv p').
Proof.
  intros a p es p' ST. destruct ST; cbn [proj_ac srv]; try apply st_idle; try (cbn; assumption).
  rewrite proj_srv. assumption.
Qed.
Lemma proj_runs : forall k c confs tr p, pruns (started k c confs) tr p -> runs (initial k c confs) (proj_ev tr) (srv p).
Proof.
  intros k c confs tr p R. remember (started k c confs) as p0 eqn:E. induction R; subst; [constructor|].
  rewrite proj_app. eapply runs_step; [apply IHR; reflexivity|apply proj_step; eassumption].
Qed.

(** ** Work and rest of one repository *)
Lemma busy_step : forall k c confs a s es s' i, inv k c confs s -> step a s es s' -> 0 < busy (repos s i) ->
  0 < busy (repos s' i) \/ In (Rest i) es.
Proof.
  intros k c confs a s es s' i IV ST B. destruct ST; cbn [with_repo with_slots repos]; auto;
  try (destruct (Nat.eq_dec i i0) as [->|NE]; [rewrite set_same|rewrite set_other by assumption; auto; fail]);
  try (unfold busy in *; cbn; unfold set_made, set_pl, set_wk, take_update, take_stop, put_update, put_stop, put_flag in *; cbn in *;
       try rewrite H0 in *; cbn in *; auto; fail);
  try (right; cbn; auto; fail).
  - left. unfold busy in *. cbn in *. rewrite H0 in B. cbn in B. destruct (_ || _); cbn; lia.
  - left. unfold busy. cbn. lia.
Qed.
Lemma work_step : forall a s es s' i, step a s es s' -> In (Work i) es -> 0 < busy (repos s' i) /\ (forall t1 t2, es = t1 ++ Work i :: t2 -> t2 = []).
Proof.
  intros a s es s' i ST I. destruct ST; cbn in I; try (destruct (_ || _); cbn in I); repeat (destruct I as [I|I]; try discriminate I); try contradiction;
  injection I as ->; cbn [with_repo with_slots repos]; rewrite set_same; (split; [unfold busy; cbn; lia|]).
  - intros [|? [|? ?]] t2 X; cbn in X; congruence.
  - intros [|? [|? [|? ?]]] t2 X; cbn in X; congruence.
Qed.
Lemma work_rests : forall k c confs tr s i, runs (initial k c confs) tr s ->
  forall a b, tr = a ++ Work i :: b -> In (Rest i) b \/ 0 < busy (repos s i).
Proof.
  intros k c confs tr s i R. remember (initial k c confs) as s0 eqn:E. induction R as [|s0 tr s1 a es s2 R IH ST]; subst; intros t1 t2 X.
  - destruct t1; discriminate.
  - destruct (split_app _ _ _ _ _ X) as [(t2' & X1 & ->)|(t1' & X1)].
    + destruct (IH eq_refl _ _ X1) as [I|B]; [left; apply in_or_app; auto|].
      destruct (busy_step _ _ _ _ _ _ _ _ (runs_inv _ _ _ _ _ R) ST B) as [B'|I]; [auto|left; apply in_or_app; auto].
    + right. apply (work_step _ _ _ _ _ ST). rewrite X1. apply in_or_app. right. left. reflexivity.
Qed.

(** ** What a step other than Stop leaves alone *)
Lemma quiet_step : forall k c confs a s es s', inv k c confs s -> step a s es s' -> quiet es -> forall i,
  (stopping (repos s i) = stopping (repos s' i)) /\ (shutdownCh (repos s' i) = true -> shutdownCh (repos s i) = true) /\
  (pl (repos s i) = PDone -> pl (repos s' i) = PDone) /\ (sent (wk (repos s i)) = true -> sent (wk (repos s' i)) = true).
Proof.
  intros k c confs a s es s' IV ST Q j. destruct ST; cbn [with_repo with_slots repos]; auto;
  try (destruct (Nat.eq_dec j i) as [->|NE]; [rewrite set_same|rewrite set_other by assumption; auto; fail]);
  try (unfold set_made, set_pl, set_wk, take_update, take_stop, put_update; cbn; try rewrite H0; repeat split; auto; congruence).
  - destruct (v_early _ _ _ _ IV i) as (P & (_ & S1 & _ & S2)); [rewrite H0; reflexivity|].
    cbn. rewrite H0, P, S2, S1. repeat split; try discriminate; auto.
  - destruct (Q i) as (X & _). exfalso. apply X. left. reflexivity.
  - destruct (Q i) as (_ & X & _). exfalso. apply X. left. reflexivity.
Qed.

(** ** The invariant *)
Definition stage (tr : list pevent) (p : process) : Prop :=
  let s := srv p in
  match hd p with
  | HOff => forall i, ~ In (Srv (StopSent i)) tr
  | HIdle => at_main s = MServe /\ forall i, ~ In (Srv (StopSent i)) tr
  | HStop todo => at_main s = MServe /\ NoDup todo /\ incl todo (searchers s) /\
      (forall i, In (Srv (StopSent i)) tr -> In i (searchers s) /\ ~ In i todo) /\
      (forall i, In i (searchers s) -> In i todo \/ In (Srv (StopWritten i)) tr)
  | HWrite k todo => at_main s = MServe /\ NoDup (k :: todo) /\ incl (k :: todo) (searchers s) /\ stopping (repos s k) = 1 /\
      (forall i, In (Srv (StopSent i)) tr -> In i (searchers s) /\ ~ In i todo) /\
      (forall i, In i (searchers s) -> In i (k :: todo) \/ In (Srv (StopWritten i)) tr)
  | HJoin todo => at_main s = MServe /\ incl todo (searchers s) /\
      (forall i, In i (searchers s) -> In (Srv (StopWritten i)) tr) /\
      (forall i, In i (searchers s) -> In i todo \/ pl (repos s i) = PDone)
  | HExit => at_main s = MServe /\ forall i, In i (searchers s) -> pl (repos s i) = PDone
  end.
Record pinv (tr : list pevent) (p : process) : Prop := {
  pi_stage : stage tr p;
  pi_writing : forall i, stopping (repos (srv p) i) <> 0 -> exists todo, hd p = HWrite i todo;
  pi_channel : forall i, shutdownCh (repos (srv p) i) = true -> In (Srv (StopSent i)) tr;
  pi_signal : sig p = true \/ (hd p <> HOff /\ hd p <> HIdle) -> In Signal tr;
  pi_exited : In Exit tr -> hd p = HExit }.

Lemma searchers_nodup : forall k c confs s, inv k c confs s -> NoDup (searchers s).
Proof. intros k c confs s IV. pose proof (v_nodup _ _ _ _ IV) as ND. unfold listed in ND. apply NoDup_right in ND. apply NoDup_left in ND. exact ND. Qed.

Lemma pinv_step : forall k c confs tr a p es p', pruns (started k c confs) tr p -> pinv tr p -> pstep a p es p' -> pinv (tr ++ es) p'.
Proof.
  intros k c confs tr a p es p' R [ST WR CH SG EX] PS. pose proof (runs_inv _ _ _ _ _ (proj_runs _ _ _ _ _ R)) as IV.
  assert (INA : forall e, In e tr -> In e (tr ++ es)) by (intros; apply in_or_app; auto).
  destruct PS; cbn [srv hd sig] in *.
  - (* server *)
    assert (QT : forall i, In (Srv (StopSent i)) (tr ++ map Srv es) -> In (Srv (StopSent i)) tr).
    { intros i I. apply in_app_or in I. destruct I as [I|I]; [exact I|]. apply in_map_iff in I. destruct I as (e & E & I). injection E as ->.
      destruct (H0 i) as (X & _). contradiction. }
    pose proof (quiet_step _ _ _ _ _ _ _ IV H H0) as QS.
    assert (MS : at_main s = MServe -> at_main s' = MServe /\ searchers s' = searchers s) by (apply (serve_kept _ _ _ _ H)).
    constructor; cbn [srv hd sig].
    + destruct h; unfold stage in *; cbn [srv hd] in *.
      * intros i I. apply (ST i). auto.
      * destruct ST as (M & N). destruct (MS M) as (M' & SE). split; [exact M'|]. intros i I. apply (N i). auto.
      * destruct ST as (M & ND & IC & SS & SW). destruct (MS M) as (M' & SE). rewrite SE. split; [exact M'|]. split; [exact ND|]. split; [exact IC|].
        split; [intros i I; apply SS; auto|]. intros i I. destruct (SW i I); auto.
      * destruct ST as (M & ND & IC & SP & SS & SW). destruct (MS M) as (M' & SE). rewrite SE. split; [exact M'|]. split; [exact ND|]. split; [exact IC|].
        split; [destruct (QS i) as (<- & _); exact SP|]. split; [intros j I; apply SS; auto|]. intros j I. destruct (SW j I); auto.
      * destruct ST as (M & IC & SW & SD). destruct (MS M) as (M' & SE). rewrite SE. split; [exact M'|]. split; [exact IC|]. split; [auto|].
        intros i I. destruct (SD i I) as [X|X]; [auto|right; apply (QS i); exact X].
      * destruct ST as (M & SD). destruct (MS M) as (M' & SE). rewrite SE. split; [exact M'|]. intros i I. apply (QS i). auto.
    + intros i X. destruct (QS i) as (E & _). rewrite <- E in X. destruct (WR i X) as (todo & Y). exists todo. exact Y.
    + intros i X. apply INA, CH. apply (QS i). exact X.
    + intros X. apply INA, SG. exact X.
    + intros X. apply EX. apply in_app_or in X. destruct X as [X|X]; [exact X|]. apply in_map_iff in X. destruct X as (e & Y & _). discriminate.
  - (* signal *)
    assert (OLD : forall e, e <> Signal -> In e (tr ++ [Signal]) -> In e tr).
    { intros e NE I. apply in_app_or in I. destruct I as [I|[I|[]]]; [exact I|congruence]. }
    constructor; cbn [srv hd sig].
    + destruct h; unfold stage in *; cbn [srv hd] in *.
      * intros i I. apply (ST i). apply OLD; [discriminate|exact I].
      * destruct ST as (M & N). split; [exact M|]. intros i I. apply (N i). apply OLD; [discriminate|exact I].
      * destruct ST as (M & ND & IC & SS & SW). split; [exact M|]. split; [exact ND|]. split; [exact IC|].
        split; [intros i I; apply SS, OLD; [discriminate|exact I]|]. intros i I. destruct (SW i I); auto.
      * destruct ST as (M & ND & IC & SP & SS & SW). split; [exact M|]. split; [exact ND|]. split; [exact IC|]. split; [exact SP|].
        split; [intros j I; apply SS, OLD; [discriminate|exact I]|]. intros j I. destruct (SW j I); auto.
      * destruct ST as (M & IC & SW & SD). split; [exact M|]. split; [exact IC|]. split; auto.
      * exact ST.
    + exact WR.
    + intros i X. auto.
    + intros _. apply in_or_app. right. left. reflexivity.
    + intros X. apply EX, OLD; [discriminate|exact X].
  - (* start *)
    constructor; cbn [srv hd sig]; rewrite ?app_nil_r.
    + unfold stage in *; cbn [srv hd] in *. auto.
    + intros i X. destruct (WR i X) as (todo & Y). discriminate.
    + exact CH.
    + intros [X|(_ & X)]; [auto|congruence].
    + intros X. discriminate (EX X).
  - (* take *)
    assert (OLD : forall e, e <> Begun -> In e (tr ++ [Begun]) -> In e tr).
    { intros e NE I. apply in_app_or in I. destruct I as [I|[I|[]]]; [exact I|congruence]. }
    constructor; cbn [srv hd sig].
    + unfold stage in *; cbn [srv hd] in *. destruct ST as (M & N). split; [exact M|].
      split; [apply (Permutation_NoDup (Permutation_sym H)), (searchers_nodup _ _ _ _ IV)|].
      split; [intros i I; apply (Permutation_in _ H I)|]. split; [intros i I; exfalso; apply (N i), OLD; [discriminate|exact I]|].
      intros i I. left. apply (Permutation_in _ (Permutation_sym H) I).
    + intros i X. destruct (WR i X) as (todo' & Y). discriminate.
    + intros i X. auto.
    + intros _. apply INA, SG. auto.
    + intros X. apply OLD in X; [|discriminate]. discriminate (EX X).
  - (* send *)
    unfold stage in ST; cbn [srv hd] in ST. destruct ST as (M & ND & IC & SS & SW). destruct (serve_kept _ _ _ _ H M) as (M' & SE).
    assert (SH : forall j, j <> i -> repos s' j = repos s j) by (inversion H; subst; cbn; intros; apply set_other; assumption).
    assert (SI : stopping (repos s' i) = 1).
    { assert (stopping (repos s i) = 0) as Z. { destruct (Nat.eq_dec (stopping (repos s i)) 0) as [Z|Z]; [exact Z|]. destruct (WR i Z) as (t & Y). discriminate. }
      inversion H; subst; cbn; rewrite set_same; cbn. rewrite Z. reflexivity. }
    constructor; cbn [srv hd sig].
    + unfold stage; cbn [srv hd]. rewrite SE. split; [exact M'|]. split; [exact ND|]. split; [exact IC|]. split; [exact SI|]. split.
      * intros j I. apply in_app_or in I. destruct I as [I|[I|[]]].
        -- destruct (SS j I) as (A & B). split; [exact A|]. intros X. apply B. right. exact X.
        -- injection I as ->. split; [apply IC; left; reflexivity|]. inversion ND; assumption.
      * intros j I. destruct (SW j I); auto.
    + intros j X. destruct (Nat.eq_dec j i) as [->|NE]; [eauto|]. rewrite SH in X by exact NE. destruct (WR j X) as (t & Y). discriminate.
    + intros j X. destruct (Nat.eq_dec j i) as [->|NE]; [apply in_or_app; right; left; reflexivity|]. rewrite SH in X by exact NE. auto.
    + intros _. apply INA, SG. right. split; discriminate.
    + intros X. apply in_app_or in X. destruct X as [X|[X|[]]]; [discriminate (EX X)|discriminate X].
  - (* ignored *)
    unfold stage in ST; cbn [srv hd] in ST. destruct ST as (M & ND & IC & SS & SW).
    assert (U : shutdownCh (repos s i) = true) by (inversion H; subst; assumption).
    destruct (SS i (CH i U)) as (_ & X). exfalso. apply X. left. reflexivity.
  - (* write *)
    unfold stage in ST; cbn [srv hd] in ST. destruct ST as (M & ND & IC & SP & SS & SW). destruct (serve_kept _ _ _ _ H M) as (M' & SE).
    assert (SH : forall j, j <> i -> repos s' j = repos s j) by (inversion H; subst; cbn; intros; apply set_other; assumption).
    assert (SC : forall j, shutdownCh (repos s' j) = shutdownCh (repos s j)).
    { intros j. destruct (Nat.eq_dec j i) as [->|NE]; [|rewrite SH by exact NE; reflexivity]. inversion H; subst; cbn; rewrite set_same; reflexivity. }
    constructor; cbn [srv hd sig].
    + unfold stage; cbn [srv hd]. rewrite SE. split; [exact M'|]. inversion ND; subst. split; [assumption|]. split; [intros j I; apply IC; right; exact I|]. split.
      * intros j I. apply in_app_or in I. destruct I as [I|[I|[]]]; [auto|discriminate I].
      * intros j I. destruct (SW j I) as [[<-|X]|X]; [right; apply in_or_app; right; left; reflexivity|auto|auto].
    + intros j X. destruct (Nat.eq_dec j i) as [->|NE].
      * exfalso. apply X. inversion H; subst; cbn; rewrite set_same; cbn. rewrite SP. reflexivity.
      * rewrite SH in X by exact NE. destruct (WR j X) as (t & Y). injection Y as <- <-. contradiction.
    + intros j X. rewrite SC in X. auto.
    + intros _. apply INA, SG. right. split; discriminate.
    + intros X. apply in_app_or in X. destruct X as [X|[X|[]]]; [discriminate (EX X)|discriminate X].
  - (* stopped *)
    unfold stage in ST; cbn [srv hd] in ST. destruct ST as (M & ND & IC & SS & SW).
    constructor; cbn [srv hd sig]; rewrite ?app_nil_r.
    + unfold stage; cbn [srv hd]. split; [exact M|]. split; [intros j I; apply (Permutation_in _ H I)|]. split.
      * intros i I. destruct (SW i I) as [[]|X]; exact X.
      * intros i I. left. apply (Permutation_in _ (Permutation_sym H) I).
    + intros i X. destruct (WR i X) as (t & Y). discriminate.
    + exact CH.
    + intros _. apply SG. right. split; discriminate.
    + intros X. discriminate (EX X).
  - (* join *)
    unfold stage in ST; cbn [srv hd] in ST. destruct ST as (M & IC & SW & SD).
    constructor; cbn [srv hd sig].
    + unfold stage; cbn [srv hd]. split; [exact M|]. split; [intros j I; apply IC; right; exact I|]. split; [intros; auto|].
      intros j I. destruct (SD j I) as [[<-|X]|X]; auto.
    + intros j X. destruct (WR j X) as (t & Y). discriminate.
    + intros j X. auto.
    + intros _. apply INA, SG. right. split; discriminate.
    + intros X. apply in_app_or in X. destruct X as [X|[X|[]]]; [discriminate (EX X)|discriminate X].
  - (* exit *)
    unfold stage in ST; cbn [srv hd] in ST. destruct ST as (M & IC & SW & SD).
    constructor; cbn [srv hd sig].
    + unfold stage; cbn [srv hd]. split; [exact M|]. intros j I. destruct (SD j I) as [[]|X]; exact X.
    + intros j X. destruct (WR j X) as (t & Y). discriminate.
    + intros j X. auto.
    + intros _. apply INA, SG. right. split; discriminate.
    + reflexivity.
Qed.

Lemma pruns_inv : forall k c confs tr p, pruns (started k c confs) tr p -> pinv tr p.
Proof.
  intros k c confs tr p R. remember (started k c confs) as p0 eqn:E. induction R; subst.
  - constructor; cbn; auto; try discriminate; try tauto.
    + intros [X|(X & _)]; [discriminate|congruence].
  - eapply pinv_step; [exact R|apply IHR; reflexivity|eassumption].
Qed.

(** ** At the exit *)
Lemma main_returned : forall k c confs tr s, runs (initial k c confs) tr s -> at_main s = MServe -> In (Return (searchers s) (errs s)) tr.
Proof.
  intros k c confs tr s R. remember (initial k c confs) as s0 eqn:E. induction R as [|s0 tr s1 a es s2 R IH ST]; subst; intros M; [discriminate|].
  destruct ST; cbn in *; try discriminate; try (apply in_or_app; left; apply IH; auto; fail); try congruence.
  apply in_or_app. right. left. reflexivity.
Qed.

Lemma work_below : forall k c confs tr s i, runs (initial k c confs) tr s -> In (Work i) tr -> i < k.
Proof.
  intros k c confs tr s i R. remember (initial k c confs) as s0 eqn:E. induction R as [|s0 tr s1 a es s2 R IH ST]; subst; [intros []|].
  intros I. apply in_app_or in I. destruct I as [I|I]; [auto|]. rewrite <- (v_n _ _ _ _ (runs_inv _ _ _ _ _ R)).
  destruct ST; cbn in I; try (destruct (_ || _); cbn in I); repeat (destruct I as [I|I]; try discriminate I); try contradiction; injection I as ->; assumption.
Qed.

Theorem exit_idle : forall k c confs tr p a p', pruns (started k c confs) tr p -> pstep a p [Exit] p' ->
  In Signal tr /\
  (exists ss es, In (Srv (Return ss es)) tr /\ (forall i, In i ss -> In (Srv (Done i)) tr)) /\
  (forall i t1 t2, tr = t1 ++ Srv (Work i) :: t2 -> In (Srv (Rest i)) t2).
Proof.
  intros k c confs tr p a p' R PS. pose proof (pruns_inv _ _ _ _ _ R) as PI. pose proof (proj_runs _ _ _ _ _ R) as RS.
  pose proof (runs_inv _ _ _ _ _ RS) as IV. inversion PS as [b s es s' h g ST Q X1 X2 X3| | | | | | | | |s g]; subst.
  { exfalso. destruct es as [|e es]; discriminate. }
  destruct PI as [ST _ _ SG _]. cbn [srv hd sig] in *. unfold stage in ST. cbn [srv hd] in ST. destruct ST as (M & _ & _ & SD).
  assert (AD : forall i, In i (searchers s) -> pl (repos s i) = PDone) by (intros i I; destruct (SD i I) as [[]|X]; exact X).
  split; [apply SG; right; split; discriminate|]. split.
  - exists (searchers s), (errs s). split; [apply proj_in, (main_returned _ _ _ _ _ RS M)|].
    intros i I. apply proj_in. apply (h_done _ _ _ (runs_heard _ _ _ i _ _ RS)). rewrite (AD i I). reflexivity.
  - intros i t1 t2 E. destruct (work_rests _ _ _ _ _ i RS (proj_ev t1) (proj_ev t2)) as [X|B].
    + rewrite E, proj_app. reflexivity.
    + apply proj_in. exact X.
    + exfalso. assert (busy (repos s i) = 0); [|lia].
      destruct (all_reported _ _ _ _ IV) as (_ & AR); [congruence|].
      assert (L : i < k).
      { apply (work_below _ _ _ _ _ i RS). rewrite E, proj_app. apply in_or_app. right. left. reflexivity. }
      apply AR in L. apply in_app_or in L.
      assert (SE : sent (wk (repos s i)) = true).
      { apply (v_listed _ _ _ _ IV). unfold listed. apply in_or_app. right. apply in_or_app. exact L. }
      assert (pl (repos s i) = PDone \/ pl (repos s i) = PNone) as P by (destruct L as [L|L]; [left; auto|right; apply (v_errs _ _ _ _ IV); exact L]).
      unfold busy. destruct P as [-> | ->]; destruct (wk (repos s i)); try discriminate SE; reflexivity.
Qed.

(** The handler's Stop always finds room in the channel. *)
Theorem stop_heeded : forall k c confs tr p, pruns (started k c confs) tr p -> forall i, ~ In (Srv (StopIgnored i)) tr.
Proof.
  intros k c confs tr p R j. remember (started k c confs) as p0 eqn:E. induction R as [|p0 tr p1 a es p2 R IH ST]; subst; [intros []|].
  specialize (IH eq_refl). intros I. apply in_app_or in I. destruct I as [I|I]; [contradiction|].
  pose proof (pruns_inv _ _ _ _ _ R) as PI. destruct ST; cbn [In] in I; try (destruct I as [I|[]]; discriminate); try contradiction.
  - apply in_map_iff in I. destruct I as (e & X & I). injection X as ->. destruct (H0 j) as (_ & _ & Q). contradiction.
  - destruct PI as [SG _ CH _ _]. unfold stage in SG. cbn [srv hd] in *. destruct SG as (M & ND & IC & SS & SW).
    assert (U : shutdownCh (repos s i) = true) by (inversion H; subst; assumption).
    destruct (SS i (CH i U)) as (_ & X). apply X. left. reflexivity.
Qed.
