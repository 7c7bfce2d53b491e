(** MakeAll: every repository is reported once, and startup comes to an end (C29). *)
From Verif Require Import Model.Base Model.Server Spec.ServerSpec Proofs.ServerProofs Proofs.ServerCounts.
From Coq Require Import Lia Permutation.

Record told (k : nat) (tr : list event) (s : server) : Prop := {
  t_made : forall i ok, In (Made i ok) tr <-> i < k /\ early (wk (repos s i)) = false /\ (ok = true <-> pl (repos s i) <> PNone);
  t_ret : forall ss es, In (Return ss es) tr -> at_main s = MServe /\ ss = searchers s /\ es = errs s }.

Lemma told_step : forall k c confs tr s a es s', inv k c confs s -> told k tr s -> step a s es s' -> told k (tr ++ es) s'.
Proof.
  intros k c confs tr s a es s' IV [T1 T2] ST. pose proof (v_n _ _ _ _ IV) as EN.
  (* steps that change neither the stage of a worker nor whether a poller exists *)
  assert (SAME : (forall i ok, ~ In (Made i ok) es) ->
    (forall j, early (wk (repos s' j)) = early (wk (repos s j)) /\ (pl (repos s' j) = PNone <-> pl (repos s j) = PNone)) ->
    forall i ok, In (Made i ok) (tr ++ es) <-> i < k /\ early (wk (repos s' i)) = false /\ (ok = true <-> pl (repos s' i) <> PNone)).
  { intros NM Q i ok. destruct (Q i) as (Q1 & Q2). rewrite Q1, Q2. rewrite <- T1. rewrite in_app_iff.
    split; [intros [X|X]; [exact X|destruct (NM _ _ X)]|auto]. }
  assert (KEEP : (forall ss er, ~ In (Return ss er) es) -> at_main s' = at_main s -> searchers s' = searchers s -> errs s' = errs s ->
    forall ss er, In (Return ss er) (tr ++ es) -> at_main s' = MServe /\ ss = searchers s' /\ er = errs s').
  { intros NM -> -> -> ss er X. apply in_app_or in X. destruct X as [X|X]; [apply (T2 _ _ X)|destruct (NM _ _ X)]. }
  assert (MAIN : (forall ss er, ~ In (Return ss er) es) -> at_main s <> MServe ->
    forall ss er, In (Return ss er) (tr ++ es) -> at_main s' = MServe /\ ss = searchers s' /\ er = errs s').
  { intros NM NS ss er X. apply in_app_or in X. destruct X as [X|X]; [destruct (T2 _ _ X); contradiction|destruct (NM _ _ X)]. }
  destruct ST.
  all: try (split;
    [apply SAME;
      [cbn; intuition discriminate
      |intros j; cbn; try (repo_case j i; cbn; [|tauto]; try (rewrite H0); cbn; (tauto || (split; [reflexivity|]; try congruence; split; congruence))); tauto]
    |apply KEEP; [cbn; intuition discriminate|reflexivity|reflexivity|reflexivity]]; fail).
  all: try (split;
    [apply SAME;
      [cbn; intuition discriminate
      |intros j; cbn; try (repo_case j i; cbn; [|tauto]; try (rewrite H0); cbn; tauto); tauto]
    |apply MAIN; [cbn; intuition discriminate|congruence]]; fail).
  - (* made *)
    split.
    + destruct (v_early _ _ _ _ IV i) as (E & _); [rewrite H0; reflexivity|].
      assert (NM : forall ok', ~ In (Made i ok') tr).
      { intros ok' X. apply T1 in X. rewrite H0 in X. destruct X as (_ & X & _). discriminate. }
      intros j ok'. rewrite in_app_iff. cbn. repo_case j i.
      * cbn. split.
        -- intros [X|[X|[X|[]]]]; [destruct (NM _ X)|discriminate|]. injection X as <-.
           split; [lia|]. split; [reflexivity|]. destruct ok; intuition discriminate.
        -- intros (_ & _ & X). right. right. left. f_equal. destruct ok, ok'; try reflexivity.
           ++ assert (false = true) by (apply X; discriminate). discriminate.
           ++ exfalso. apply X; reflexivity.
      * rewrite <- T1. split; [|auto]. intros [X|[X|[X|[]]]]; [exact X|discriminate|congruence].
    + apply KEEP; [cbn; intuition discriminate|reflexivity|reflexivity|reflexivity].
  - (* return *)
    split.
    + apply SAME; [cbn; intuition discriminate|]. intros j. cbn. tauto.
    + intros ss er X. apply in_app_or in X. destruct X as [X|[X|[]]].
      * destruct (T2 _ _ X). congruence.
      * injection X as <- <-. auto.
  - (* gate *)
    split.
    + apply SAME.
      * intros j ok X. destruct (_ || _); cbn in X; intuition discriminate.
      * intros j. cbn. repo_case j i; cbn; [|tauto]. rewrite H0. split; [reflexivity|]. destruct (_ || _); split; discriminate.
    + apply KEEP; try reflexivity. intros ss er X. destruct (_ || _); cbn in X; intuition discriminate.
Qed.

Lemma runs_told : forall k c confs tr s, runs (initial k c confs) tr s -> told k tr s.
Proof.
  intros k c confs tr s R. remember (initial k c confs) as s0 eqn:E. induction R; subst.
  - split; [|intros ss es []]. intros i ok. split; [intros []|]. intros (_ & X & _). discriminate.
  - apply (told_step k c confs tr s1 a es s2); auto. apply (runs_inv _ _ _ _ _ R).
Qed.

Lemma all_reported : forall k c confs s, inv k c confs s -> at_main s <> MCollect ->
  NoDup (searchers s ++ errs s) /\ forall i, In i (searchers s ++ errs s) <-> i < k.
Proof.
  intros k c confs s IV NM.
  assert (ND : NoDup (searchers s ++ errs s)).
  { pose proof (v_nodup _ _ _ _ IV) as X. unfold listed in X. apply NoDup_right in X. exact X. }
  split; [exact ND|].
  assert (IN : forall i, In i (searchers s ++ errs s) -> i < k).
  { intros i X. apply (v_listed _ _ _ _ IV). unfold listed. apply in_or_app. right. exact X. }
  intros i. split; [apply IN|]. intros L.
  assert (INC : incl (seq 0 k) (searchers s ++ errs s)).
  { apply NoDup_length_incl; [exact ND| |].
    - rewrite app_length, seq_length. rewrite (v_all _ _ _ _ IV NM). lia.
    - intros j X. apply in_seq. pose proof (IN j X). lia. }
  apply INC. apply in_seq. lia.
Qed.

Lemma reports : forall k c confs tr s ss es, runs (initial k c confs) tr s -> In (Return ss es) tr ->
  NoDup (ss ++ es) /\ (forall i, In i (ss ++ es) <-> i < k) /\
  (forall i, In i ss <-> In (Made i true) tr) /\ (forall i, In i es <-> In (Made i false) tr).
Proof.
  intros k c confs tr s ss es R X. pose proof (runs_inv _ _ _ _ _ R) as IV. destruct (runs_told _ _ _ _ _ R) as [T1 T2].
  destruct (T2 _ _ X) as (M & -> & ->).
  destruct (all_reported _ _ _ _ IV) as (ND & AL); [rewrite M; discriminate|].
  assert (SENT : forall i, In i (searchers s ++ errs s) -> early (wk (repos s i)) = false).
  { intros i I. assert (S1 : sent (wk (repos s i)) = true).
    { apply (v_listed _ _ _ _ IV). unfold listed. apply in_or_app. right. exact I. }
    destruct (wk (repos s i)); try discriminate; reflexivity. }
  split; [exact ND|]. split; [exact AL|]. split; intros i; rewrite T1; split.
  - intros I. assert (I2 : In i (searchers s ++ errs s)) by (apply in_or_app; auto).
    split; [apply AL, I2|]. split; [apply SENT, I2|]. pose proof (v_srch _ _ _ _ IV i I). tauto.
  - intros (L & _ & P). apply AL in L. apply in_app_or in L. destruct L as [L|L]; [exact L|].
    exfalso. apply P; [reflexivity|]. apply (v_errs _ _ _ _ IV i L).
  - intros I. assert (I2 : In i (searchers s ++ errs s)) by (apply in_or_app; auto).
    split; [apply AL, I2|]. split; [apply SENT, I2|]. pose proof (v_errs _ _ _ _ IV i I) as E. split; [discriminate|contradiction].
  - intros (L & _ & P). apply AL in L. apply in_app_or in L. destruct L as [L|L]; [|exact L].
    assert (false = true) by (apply P; apply (v_srch _ _ _ _ IV i L)). discriminate.
Qed.

(** ** Startup comes to an end *)
Definition wrank (w : worker) : nat :=
  match w with WStart => 5 | WHeld => 4 | WBusy => 3 | WSend _ => 2 | WSent => 1 | WDone => 0 end.
Definition mrank (s : server) : nat :=
  match at_main s with
  | MCollect => (n s - (length (searchers s) + length (errs s))) + n s + 4
  | MClean => n s + 3
  | MBegin todo => length todo + 1
  | _ => 0
  end.
Definition W (s : server) : nat := sum (fun j => wrank (wk (repos s j))) (n s).
Definition rank (s : server) : nat := W s + mrank s.
Definition starts (a : actor) : bool := match a with Worker _ | Main => true | _ => false end.

Lemma rank_step : forall k c confs s a es s', inv k c confs s -> step a s es s' ->
  if starts a then rank s' < rank s else rank s' = rank s.
Proof.
  intros k c confs s a es s' IV ST. pose proof (v_n _ _ _ _ IV) as EN.
  assert (CW : forall i r, i < n s -> sum (fun j => wrank (wk (set_repo (repos s) i r j))) (n s) + wrank (wk (repos s i)) = W s + wrank (wk r))
    by (intros i r L; apply (sum_upd (fun x => wrank (wk x)) (repos s) i r (n s) L)).
  assert (SR : forall i, In i (searchers s) -> i < n s)
    by (intros i X; rewrite EN; apply (searcher_sent _ _ _ _ _ IV X)).
  destruct ST; cbn [starts]; unfold rank, W, mrank; cbn [with_repo with_slots n cap slots results searchers errs at_main repos];
  try reflexivity; try lia;
  try match goal with
  | |- context [set_repo _ ?i ?r] =>
      assert (L : i < n s);
      [first [assumption | apply SR; assumption | (pose proof (v_main _ _ _ _ IV) as M; rewrite H in M; apply SR; apply M; left; reflexivity)]
      |pose proof (CW i r L) as X1;
       cbn [set_wk set_pl set_made take_update take_stop put_update put_stop put_flag wk pl] in X1;
       try (match goal with E : wk (repos s i) = _ |- _ => rewrite E in X1 end);
       cbn [wrank] in X1; fold (W s); rewrite ?H; cbn [length]; try lia]
  end.
  - rewrite H. destruct ok; rewrite ?app_length; cbn; lia.
  - rewrite H. lia.
  - rewrite H. lia.
  - rewrite H. apply Permutation_length in H0. pose proof (v_all _ _ _ _ IV) as X. rewrite H in X. specialize (X ltac:(discriminate)).
    rewrite <- EN in X. lia.
  - rewrite H. cbn. lia.
Qed.

Lemma can_start : forall k c confs tr s, runs (initial k c confs) tr s -> 1 <= c ->
  at_main s <> MServe -> at_main s <> MFailed ->
  exists a, starts a = true /\ enabled a s /\ (at_main s <> MCollect -> a = Main).
Proof.
  intros k c confs tr s R C N1 N2. pose proof (runs_inv _ _ _ _ _ R) as IV. pose proof (v_n _ _ _ _ IV) as EN. pose proof (v_cap _ _ _ _ IV) as EC.
  destruct (at_main s) as [| |todo| |] eqn:EM; try contradiction.
  - (* collecting *)
    destruct (Nat.eq_dec (length (searchers s) + length (errs s)) (n s)) as [E|E].
    { exists Main. split; [reflexivity|]. split; [|congruence]. eexists. eexists. apply (st_collected s EM E). }
    assert (LT : length (searchers s) + length (errs s) < n s).
    { assert (X : length (searchers s ++ errs s) <= length (seq 0 k)).
      { apply NoDup_incl_length.
        - pose proof (v_nodup _ _ _ _ IV) as X. unfold listed in X. apply NoDup_right in X. exact X.
        - intros i X. apply in_seq. assert (i < k); [|lia]. apply (v_listed _ _ _ _ IV). unfold listed. apply in_or_app. right. exact X. }
      rewrite app_length, seq_length in X. lia. }
    destruct (results s) as [|[i ok] rest] eqn:ER.
    2:{ exists Main. split; [reflexivity|]. split; [|congruence]. eexists. eexists. apply (st_collect s i ok rest EM LT ER). }
    (* somebody has not sent *)
    assert (HB : forall i, held_back (repos s i)) by (pose proof (v_main _ _ _ _ IV) as M; rewrite EM in M; exact M).
    assert (UN : exists i, i < k /\ sent (wk (repos s i)) = false).
    { assert (D : (forall i, i < k -> sent (wk (repos s i)) = true) \/ exists i, i < k /\ sent (wk (repos s i)) = false).
      { clear. induction k as [|k IH]; [left; intros; lia|]. destruct IH as [IH|(i & I1 & I2)]; [|right; exists i; split; [lia|exact I2]].
        destruct (sent (wk (repos s k))) eqn:E; [left|right; exists k; auto]. intros i L. destruct (Nat.eq_dec i k) as [->|]; [exact E|apply IH; lia]. }
      destruct D as [D|D]; [|exact D]. exfalso.
      assert (X : length (seq 0 k) <= length (searchers s ++ errs s)).
      { apply NoDup_incl_length; [apply seq_NoDup|]. intros i X. apply in_seq in X.
        assert (Y : In i (listed s)) by (apply (v_listed _ _ _ _ IV); split; [lia|apply D; lia]).
        unfold listed in Y. rewrite ER in Y. exact Y. }
      rewrite seq_length, app_length in X. lia. }
    assert (GO : forall i, i < k -> wholds (wk (repos s i)) = 1 -> enabled (Worker i) s).
    { intros i L WH. destruct (wk (repos s i)) eqn:EW; try discriminate.
      - eexists. eexists. apply (st_wwork s i); [lia|exact EW].
      - eexists. eexists. apply (st_wmade s i true); [lia|exact EW].
      - eexists. eexists. apply (st_wsend s i ok); [lia|exact EW|]. rewrite ER. cbn. lia.
      - eexists. eexists. apply (st_wrelease s i); [lia|exact EW]. }
    destruct UN as (i & I1 & I2).
    assert (X : exists j, enabled (Worker j) s).
    { destruct (wk (repos s i)) eqn:EW; try discriminate; try (exists i; apply GO; [assumption|rewrite EW; reflexivity]).
      destruct (runs_counts _ _ _ _ _ R) as (A1 & A2 & _).
      destruct (Nat.eq_dec (slots s) c) as [EF|EF].
      - assert (P : 0 < Hs s) by lia. apply sum_pos in P. destruct P as (j & J1 & J2). exists j. apply GO; [lia|].
        destruct (HB j) as (Q & _). unfold holds in J2. destruct Q as [Q|Q]; rewrite Q in J2; cbn in J2; destruct (wk (repos s j)); cbn in *; lia.
      - exists i. eexists. eexists. apply (st_wacquire s i); [lia|exact EW|lia]. }
    destruct X as (j & X). exists (Worker j). split; [reflexivity|]. split; [exact X|congruence].
  - exists Main. split; [reflexivity|]. split; [|congruence]. eexists. eexists. apply (st_cleanfail s EM).
  - exists Main. split; [reflexivity|]. split; [|congruence]. destruct todo as [|i todo].
    + eexists. eexists. apply (st_return s EM).
    + pose proof (v_main _ _ _ _ IV) as M. rewrite EM in M. destruct M as (_ & _ & M & _).
      destruct (M i) as (_ & U & _); [left; reflexivity|]. eexists. eexists. apply (st_begin s i todo EM U).
Qed.

(** While results are collected only workers and MakeAll can do anything. *)
Lemma quiet_collect : forall k c confs s a es s', inv k c confs s -> at_main s = MCollect -> step a s es s' ->
  starts a = false -> s' = s.
Proof.
  intros k c confs s a es s' IV EM ST SA. pose proof (v_main _ _ _ _ IV) as M. rewrite EM in M.
  destruct ST; try discriminate SA; try congruence; exfalso; destruct (M i) as (Q & (Q1 & Q2 & Q3 & Q4)).
  all: try congruence; destruct Q; congruence.
Qed.

Lemma exec_runs : forall x s0, is_execution x s0 -> forall k, exists tr, runs s0 tr (st x k).
Proof.
  intros x s0 (E0 & E1) k. induction k as [|k (tr & IH)].
  - exists []. rewrite E0. constructor.
  - exists (tr ++ ev x k). eapply runs_step; [exact IH|apply E1].
Qed.

Lemma main_step : forall s a es s', step a s es s' -> starts a = false -> at_main s' = at_main s.
Proof. intros s a es s' ST SA. destruct ST; try discriminate SA; reflexivity. Qed.

Lemma first_start : forall (x : execution) k j, k <= j ->
  (exists m, k <= m /\ m < j /\ starts (ac x m) = true /\ forall i, k <= i -> i < m -> starts (ac x i) = false) \/
  (forall i, k <= i -> i < j -> starts (ac x i) = false).
Proof.
  intros x k j L. induction j as [|j IH].
  - right. intros i A B. lia.
  - destruct (Nat.eq_dec k (S j)) as [->|NE]; [right; intros i A B; lia|].
    destruct IH as [(m & M1 & M2 & M3)|IH]; [lia|left; exists m; split; [lia|]; split; [lia|exact M3]|].
    destruct (starts (ac x j)) eqn:E.
    + left. exists j. split; [lia|]. split; [lia|]. split; [exact E|]. intros i A B. apply IH; lia.
    + right. intros i A B. destruct (Nat.eq_dec i j) as [->|]; [exact E|apply IH; lia].
Qed.

Lemma startup_ends_for : forall k c confs x, 1 <= c -> is_execution x (initial k c confs) ->
  (forall a, starts a = true -> forall k, (exists j, k <= j /\ ac x j = a) \/ (exists j, k <= j /\ forall m, j <= m -> ~ enabled a (st x m))) ->
  exists m, at_main (st x m) = MServe \/ at_main (st x m) = MFailed.
Proof.
  intros k c confs x C EX FA.
  assert (P : forall r m, rank (st x m) <= r -> exists m', at_main (st x m') = MServe \/ at_main (st x m') = MFailed); [|apply (P (rank (st x 0)) 0); lia].
  induction r as [r IH] using lt_wf_ind. intros m RM.
  destruct (exec_runs x _ EX m) as (tr & RU).
  assert (D : (at_main (st x m) = MServe \/ at_main (st x m) = MFailed) \/ (at_main (st x m) <> MServe /\ at_main (st x m) <> MFailed))
    by (destruct (at_main (st x m)); intuition discriminate).
  destruct D as [D|(D1 & D2)]; [exists m; exact D|].
  destruct (can_start _ _ _ _ _ RU C D1 D2) as (a & SA & EN & MA).
  (* until somebody of startup moves, [a] stays enabled *)
  assert (STAY : forall j, m <= j -> (forall i, m <= i -> i < j -> starts (ac x i) = false) ->
            at_main (st x j) = at_main (st x m) /\ rank (st x j) = rank (st x m) /\ (at_main (st x m) = MCollect -> st x j = st x m)).
  { intros j L. induction j as [|j IHj]; intros Q.
    - assert (m = 0) by lia. subst. auto.
    - destruct (Nat.eq_dec m (S j)) as [->|NE]; [auto|].
      destruct IHj as (I1 & I2 & I3); [lia|intros; apply Q; lia|].
      pose proof (Q j ltac:(lia) ltac:(lia)) as QJ.
      destruct (exec_runs x _ EX j) as (tr' & RJ). pose proof (proj2 EX j) as SJ. pose proof (runs_inv _ _ _ _ _ RJ) as IV.
      pose proof (rank_step _ _ _ _ _ _ _ IV SJ) as RK. rewrite QJ in RK.
      split; [rewrite (main_step _ _ _ _ SJ QJ); exact I1|].
      split; [congruence|]. intros MC. rewrite <- (I3 MC).
      apply (quiet_collect _ _ _ _ _ _ _ IV ltac:(congruence) SJ QJ). }
  assert (STEP : forall j, m <= j -> starts (ac x j) = true -> (forall i, m <= i -> i < j -> starts (ac x i) = false) -> rank (st x (S j)) < rank (st x m)).
  { intros j L SJ Q. destruct (STAY j L Q) as (_ & RJ & _). destruct (exec_runs x _ EX j) as (tr' & RUJ).
    pose proof (rank_step _ _ _ _ _ _ _ (runs_inv _ _ _ _ _ RUJ) (proj2 EX j)) as RK. rewrite SJ in RK. lia. }
  destruct (FA a SA m) as [(j & J1 & J2)|(j & J1 & J2)].
  - destruct (first_start x m j J1) as [(i & I1 & I2 & I3 & I4)|F].
    + pose proof (STEP i I1 I3 I4). apply (IH (rank (st x (S i)))) with (m := S i); lia.
    + pose proof (STEP j J1 ltac:(rewrite J2; exact SA) F). apply (IH (rank (st x (S j)))) with (m := S j); lia.
  - destruct (first_start x m j J1) as [(i & I1 & I2 & I3 & I4)|F].
    + pose proof (STEP i I1 I3 I4). apply (IH (rank (st x (S i)))) with (m := S i); lia.
    + exfalso. apply (J2 j (Nat.le_refl j)). destruct (STAY j J1 F) as (M1 & _ & M3).
      destruct (exec_runs x _ EX j) as (tr' & RUJ).
      assert (DC : at_main (st x m) = MCollect \/ at_main (st x m) <> MCollect) by (destruct (at_main (st x m)); auto; right; discriminate).
      destruct DC as [DC|DC]; [rewrite (M3 DC); exact EN|].
      rewrite (MA DC). destruct (can_start _ _ _ _ _ RUJ C) as (b & _ & ENB & MB); [congruence|congruence|]. rewrite (MB ltac:(congruence)) in ENB. exact ENB.
Qed.

Lemma startup_ends : forall k c confs x, 1 <= c -> is_execution x (initial k c confs) -> fair x ->
  exists m, at_main (st x m) = MServe \/ at_main (st x m) = MFailed.
Proof.
  intros k c confs x C EX FA. apply (startup_ends_for k c confs x C EX).
  intros a SA. apply FA. intros ->. discriminate.
Qed.
