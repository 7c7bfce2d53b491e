From Verif Require Import Model.Base Model.Server Spec.ServerSpec.
From Coq Require Import Lia Permutation.

Lemma set_same : forall f i r, set_repo f i r i = r.
Proof. intros. unfold set_repo. rewrite Nat.eqb_refl. reflexivity. Qed.
Lemma set_other : forall f i r j, j <> i -> set_repo f i r j = f j.
Proof. intros. unfold set_repo. destruct (Nat.eqb_spec j i); congruence. Qed.
Ltac repo_case j i :=
  destruct (Nat.eq_dec j i) as [->|?NE]; [rewrite ?set_same in *|rewrite ?set_other in * by assumption].

Fixpoint sum (f : nat -> nat) (k : nat) : nat := match k with O => O | S m => f m + sum f m end.
Lemma sum_ext : forall f g k, (forall i, i < k -> f i = g i) -> sum f k = sum g k.
Proof. induction k as [|k IH]; intros H; cbn; auto. rewrite (H k) by lia. rewrite IH; auto. Qed.
Lemma sum_le : forall f g k, (forall i, i < k -> f i <= g i) -> sum f k <= sum g k.
Proof. induction k as [|k IH]; intros H; cbn; auto. pose proof (H k ltac:(lia)). specialize (IH ltac:(intros; apply H; lia)). lia. Qed.
Lemma sum_upd : forall (f : repo -> nat) g i r k, i < k ->
  sum (fun j => f (set_repo g i r j)) k + f (g i) = sum (fun j => f (g j)) k + f r.
Proof.
  induction k as [|k IH]; intros H; [lia|]. cbn [sum]. destruct (Nat.eq_dec i k) as [->|NE].
  - rewrite set_same. rewrite (sum_ext (fun j => f (set_repo g k r j)) (fun j => f (g j))); [lia|].
    intros j J. rewrite set_other by lia. reflexivity.
  - rewrite set_other by lia. specialize (IH ltac:(lia)). lia.
Qed.
Lemma sum_pos : forall f k, 0 < sum f k -> exists i, i < k /\ 0 < f i.
Proof.
  induction k as [|k IH]; cbn; intros H; [lia|]. destruct (f k) eqn:E.
  - destruct (IH H) as (i & A & B). exists i. split; [lia|exact B].
  - exists k. split; [lia|]. lia.
Qed.
Lemma sum_zero : forall f k, (forall i, i < k -> f i = 0) -> sum f k = 0.
Proof. induction k as [|k IH]; cbn; intros H; auto. rewrite (H k) by lia. rewrite IH; auto. Qed.
Lemma sum_in : forall f k i, i < k -> f i <= sum f k.
Proof. induction k as [|k IH]; intros i H; [lia|]. cbn. destruct (Nat.eq_dec i k) as [->|]; [lia|]. specialize (IH i ltac:(lia)). lia. Qed.

Definition wholds (w : worker) : nat := match w with WHeld | WBusy | WSend _ | WSent => 1 | _ => 0 end.
Definition pholds (p : poller) : nat := match p with PHeld | PPull | PBuild | PSwap | PRelease => 1 | _ => 0 end.
Definition holds (r : repo) : nat := wholds (wk r) + pholds (pl r).
Definition wbusy (w : worker) : nat := match w with WBusy => 1 | _ => 0 end.
Definition pbusy (p : poller) : nat := match p with PPull | PBuild | PSwap => 1 | _ => 0 end.
Definition busy (r : repo) : nat := wbusy (wk r) + pbusy (pl r).
Lemma busy_holds : forall r, busy r <= holds r.
Proof. intros r. unfold busy, holds. destruct (wk r), (pl r); cbn; lia. Qed.

(** ** Phases of one repository *)
Definition early (w : worker) : bool := match w with WStart | WHeld | WBusy => true | _ => false end.
Definition sent (w : worker) : bool := match w with WSent | WDone => true | _ => false end.
Definition clean (r : repo) : Prop := updateCh r = false /\ shutdownCh r = false /\ flag r = false /\ stopping r = 0.
Definition held_back (r : repo) : Prop := (pl r = PNone \/ pl r = PGate) /\ clean r.

Lemma clean_wk : forall r w, clean r -> clean (set_wk r w).
Proof. intros r w H. unfold clean in *. exact H. Qed.
Lemma held_wk : forall r w, held_back r -> held_back (set_wk r w).
Proof. intros r w H. unfold held_back, clean in *. exact H. Qed.

Definition listed (s : server) : list nat := map fst (results s) ++ searchers s ++ errs s.

Record inv (k c : nat) (confs : nat -> settings) (s : server) : Prop := {
  v_n : n s = k;
  v_cap : cap s = c;
  v_conf : forall i, conf (repos s i) = confs i;
  v_nodup : NoDup (listed s);
  v_listed : forall i, In i (listed s) <-> i < k /\ sent (wk (repos s i)) = true;
  v_early : forall i, early (wk (repos s i)) = true -> pl (repos s i) = PNone /\ clean (repos s i);
  v_send : forall i ok, wk (repos s i) = WSend ok -> pl (repos s i) = (if ok then PGate else PNone) /\ clean (repos s i);
  v_res : forall i ok, In (i, ok) (results s) -> (ok = true <-> pl (repos s i) <> PNone);
  v_srch : forall i, In i (searchers s) -> pl (repos s i) <> PNone;
  v_errs : forall i, In i (errs s) -> pl (repos s i) = PNone;
  v_all : at_main s <> MCollect -> length (searchers s) + length (errs s) = k;
  v_main : match at_main s with
           | MCollect | MClean | MFailed => forall i, held_back (repos s i)
           | MBegin todo => NoDup todo /\ incl todo (searchers s) /\
               (forall i, In i todo -> held_back (repos s i)) /\
               (forall i, In i (searchers s) -> ~ In i todo -> pl (repos s i) = PGate -> updateCh (repos s i) = true)
           | MServe => forall i, In i (searchers s) -> pl (repos s i) = PGate -> updateCh (repos s i) = true
           end }.

Lemma inv_init : forall k c confs, inv k c confs (initial k c confs).
Proof.
  intros k c confs. split; cbn; auto; try tauto; try discriminate.
  - constructor.
  - intros i. split; [tauto|]. intros (_ & X). discriminate.
  - intros i _. repeat split; reflexivity.
  - intros i. split; [left; reflexivity|]. repeat split; reflexivity.
Qed.

(** A change of one repository, of the slots only otherwise. *)
Lemma inv_repo : forall k c confs s i r sl, inv k c confs s -> i < k ->
  conf r = conf (repos s i) ->
  sent (wk r) = sent (wk (repos s i)) ->
  (early (wk r) = true -> pl r = PNone /\ clean r) ->
  (forall ok, wk r = WSend ok -> pl r = (if ok then PGate else PNone) /\ clean r) ->
  (pl r = PNone <-> pl (repos s i) = PNone) \/ sent (wk (repos s i)) = false ->
  match at_main s with
  | MCollect | MClean | MFailed => held_back r
  | MBegin todo => (In i todo -> held_back r) /\ (In i (searchers s) -> ~ In i todo -> pl r = PGate -> updateCh r = true)
  | MServe => In i (searchers s) -> pl r = PGate -> updateCh r = true
  end ->
  inv k c confs (with_slots s sl i r).
Proof.
  intros k c confs s i r sl [A1 A2 A3 A4 A5 A6 A7 A8 A9 A10 A11 A12] LT HC HS HE HW HP HM.
  assert (NP : In i (listed s) -> (pl r = PNone <-> pl (repos s i) = PNone)).
  { intros X. apply A5 in X. destruct HP as [HP|HP]; [exact HP|]. destruct X; congruence. }
  split; cbn [with_slots n cap slots results searchers errs at_main repos]; auto.
  - intros j. repo_case j i; [rewrite HC; apply A3|apply A3].
  - intros j. change (listed (with_slots s sl i r)) with (listed s). repo_case j i; [rewrite HS|]; apply A5.
  - intros j. repo_case j i; [apply HE|apply A6].
  - intros j ok. repo_case j i; [apply HW|apply A7].
  - intros j ok X. pose proof (A8 j ok X) as Y. repo_case j i; [|exact Y]. rewrite Y.
    rewrite NP; [tauto|]. apply in_or_app. left. apply in_map_iff. exists (i, ok). auto.
  - intros j X. pose proof (A9 j X) as Y. repo_case j i; [|exact Y]. rewrite NP; [exact Y|].
    apply in_or_app. right. apply in_or_app. auto.
  - intros j X. pose proof (A10 j X) as Y. repo_case j i; [|exact Y]. rewrite NP; [exact Y|].
    apply in_or_app. right. apply in_or_app. auto.
  - destruct (at_main s); try (intros j; repo_case j i; [exact HM|apply A12]).
    + destruct A12 as (B1 & B2 & B3 & B4). destruct HM as (HM1 & HM2). split; [exact B1|]. split; [exact B2|]. split.
      * intros j X. repo_case j i; [auto|]. apply B3. exact X.
      * intros j X Y. repo_case j i; [auto|]. apply (B4 j X Y).
Qed.
Lemma with_repo_slots : forall s i r, with_repo s i r = with_slots s (slots s) i r.
Proof. reflexivity. Qed.

Lemma past_gate_main : forall k c confs s i, inv k c confs s -> i < k ->
  pl (repos s i) <> PNone -> pl (repos s i) <> PGate ->
  (exists todo, at_main s = MBegin todo /\ ~ In i todo) \/ at_main s = MServe.
Proof.
  intros k c confs s i IV LT H1 H2. pose proof (v_main _ _ _ _ IV) as M. destruct (at_main s) as [| |todo| |] eqn:E.
  - destruct (M i) as ([X|X] & _); contradiction.
  - destruct (M i) as ([X|X] & _); contradiction.
  - left. exists todo. split; [reflexivity|]. intros X. destruct M as (_ & _ & M & _). destruct (M i X) as ([Y|Y] & _); contradiction.
  - right. reflexivity.
  - destruct (M i) as ([X|X] & _); contradiction.
Qed.

Lemma searcher_sent : forall k c confs s i, inv k c confs s -> In i (searchers s) -> i < k /\ sent (wk (repos s i)) = true.
Proof.
  intros k c confs s i IV X. apply (v_listed _ _ _ _ IV). unfold listed. apply in_or_app. right. apply in_or_app. auto.
Qed.

Lemma not_early_poller : forall k c confs s i, inv k c confs s -> pl (repos s i) <> PNone ->
  early (wk (repos s i)) = false.
Proof. intros k c confs s i IV H. destruct (early (wk (repos s i))) eqn:E; [|reflexivity]. destruct (v_early _ _ _ _ IV i E). contradiction. Qed.

(** A poller beyond its gate keeps running: it changes phase, takes from its channels. *)
Lemma inv_poller : forall k c confs s i r sl, inv k c confs s -> i < k ->
  pl (repos s i) <> PNone -> pl (repos s i) <> PGate \/ updateCh (repos s i) = true ->
  conf r = conf (repos s i) -> wk r = wk (repos s i) -> pl r <> PNone -> pl r <> PGate ->
  inv k c confs (with_slots s sl i r).
Proof.
  intros k c confs s i r sl IV LT H1 H2 H3 H4 H5 H6.
  assert (G : (exists todo, at_main s = MBegin todo /\ ~ In i todo) \/ at_main s = MServe).
  { destruct H2 as [H2|H2]; [apply (past_gate_main _ _ _ _ _ IV LT H1 H2)|].
    pose proof (v_main _ _ _ _ IV) as M. destruct (at_main s) as [| |todo| |] eqn:E.
    - destruct (M i) as (_ & X & _). congruence.
    - destruct (M i) as (_ & X & _). congruence.
    - left. exists todo. split; [reflexivity|]. intros X. destruct M as (_ & _ & M & _). destruct (M i X) as (_ & Y & _). congruence.
    - right. reflexivity.
    - destruct (M i) as (_ & X & _). congruence. }
  assert (NS : forall ok, wk (repos s i) <> WSend ok).
  { intros ok X. destruct (v_send _ _ _ _ IV i ok X) as (Y1 & Y2). destruct ok; [|contradiction].
    destruct H2 as [H2|H2]; [contradiction|]. destruct Y2. congruence. }
  apply inv_repo; auto.
  - rewrite H4. reflexivity.
  - rewrite H4, (not_early_poller _ _ _ _ _ IV H1). discriminate.
  - intros ok X. rewrite H4 in X. destruct (NS ok X).
  - left. tauto.
  - destruct G as [(todo & EM & G)|EM]; rewrite EM; [split; [tauto|]|]; intros; contradiction.
Qed.

Lemma NoDup_right : forall {A} (l1 l2 : list A), NoDup (l1 ++ l2) -> NoDup l2.
Proof. induction l1 as [|x l1 IH]; intros l2 H; [exact H|]. inversion H. auto. Qed.
Lemma NoDup_left : forall {A} (l1 l2 : list A), NoDup (l1 ++ l2) -> NoDup l1.
Proof.
  intros A l1 l2 H. apply NoDup_right with (l1 := l2). apply (Permutation_NoDup (l := l1 ++ l2)); [apply Permutation_app_comm|exact H].
Qed.
Lemma NoDup_move : forall {A} (x : A) l1 l2 l3, NoDup (x :: l1 ++ l2 ++ l3) -> NoDup (l1 ++ (l2 ++ [x]) ++ l3) /\ NoDup (l1 ++ l2 ++ l3 ++ [x]).
Proof.
  intros A x l1 l2 l3 H. split.
  - apply (Permutation_NoDup (l := x :: l1 ++ l2 ++ l3)); [|exact H].
    rewrite <- app_assoc. rewrite (app_assoc l1 l2 ([x] ++ l3)). rewrite (app_assoc l1 l2 l3). apply Permutation_middle.
  - apply (Permutation_NoDup (l := x :: l1 ++ l2 ++ l3)); [|exact H].
    rewrite !app_assoc. apply Permutation_cons_append.
Qed.

Lemma inv_step : forall k c confs s a es s', inv k c confs s -> step a s es s' -> inv k c confs s'.
Proof.
  intros k c confs s a es s' IV ST. pose proof IV as [A1 A2 A3 A4 A5 A6 A7 A8 A9 A10 A11 A12].
  assert (MAINW : forall i r, early (wk (repos s i)) = true \/ (exists ok, wk (repos s i) = WSend ok) -> held_back r ->
    match at_main s with
    | MCollect | MClean | MFailed => held_back r
    | MBegin todo => (In i todo -> held_back r) /\ (In i (searchers s) -> ~ In i todo -> pl r = PGate -> updateCh r = true)
    | MServe => In i (searchers s) -> pl r = PGate -> updateCh r = true
    end).
  { intros i r H HB.
    assert (NI : ~ In i (searchers s)).
    { intros X. apply (searcher_sent _ _ _ _ _ IV) in X. destruct X as (_ & X). destruct H as [H|(ok & H)].
      - destruct (wk (repos s i)); discriminate.
      - rewrite H in X. discriminate. }
    destruct (at_main s); auto; try contradiction. }
  destruct ST; try rewrite with_repo_slots.
  - (* wacquire *)
    destruct (A6 i) as (B1 & B2); [rewrite H0; reflexivity|].
    apply inv_repo; cbn; auto; try congruence; try (rewrite H0; reflexivity).
    + left. tauto.
    + refine (MAINW i (set_wk (repos s i) WHeld) _ _); [left; rewrite H0; reflexivity|]. apply held_wk. split; [left; exact B1|exact B2].
  - (* wwork *)
    destruct (A6 i) as (B1 & B2); [rewrite H0; reflexivity|].
    apply inv_repo; cbn; auto; try congruence; try (rewrite H0; reflexivity).
    + left. tauto.
    + refine (MAINW i (set_wk (repos s i) WBusy) _ _); [left; rewrite H0; reflexivity|]. apply held_wk. split; [left; exact B1|exact B2].
  - (* wmade *)
    assert (CL : clean (set_made (repos s i) ok)) by (repeat split).
    apply inv_repo; cbn; auto; try congruence; try discriminate; try (rewrite H0; reflexivity).
    + intros ok' X. injection X as <-. split; [reflexivity|exact CL].
    + right. rewrite H0. reflexivity.
    + refine (MAINW i (set_made (repos s i) ok) _ _); [left; rewrite H0; reflexivity|]. split; [destruct ok; auto|exact CL].
  - (* wsend *)
    destruct (A7 i ok H0) as (B1 & B2).
    assert (NI : ~ In i (listed s)) by (intros X; apply A5 in X; destruct X as (_ & X); rewrite H0 in X; discriminate).
    assert (LE : forall j, In j (map fst (results s ++ [(i, ok)]) ++ searchers s ++ errs s) <-> j = i \/ In j (listed s)).
    { intros j. unfold listed. rewrite map_app, !in_app_iff. cbn. intuition. }
    split; cbn [n cap slots results searchers errs at_main repos]; auto.
    + intros j. repo_case j i; cbn; auto.
    + unfold listed. cbn. rewrite map_app. cbn. rewrite <- app_assoc. apply NoDup_Add with (a := i) (l := listed s).
      * unfold listed. apply Add_app.
      * split; assumption.
    + intros j. unfold listed. cbn [results searchers errs]. rewrite LE. repo_case j i.
      * cbn. split; [intros _; split; [lia|reflexivity]|auto].
      * rewrite A5. intuition.
    + intros j. repo_case j i; [discriminate|apply A6].
    + intros j ok'. repo_case j i; [discriminate|apply A7].
    + intros j ok' X. apply in_app_or in X. destruct X as [X|[X|[]]].
      * repo_case j i; [|apply (A8 j ok' X)]. exfalso. apply NI. apply in_or_app. left. apply in_map_iff. exists (i, ok'). auto.
      * injection X as <- <-. rewrite set_same. cbn. rewrite B1. destruct ok; intuition discriminate.
    + intros j X. repo_case j i; [|apply (A9 j X)]. exfalso. apply NI. apply in_or_app. right. apply in_or_app. auto.
    + intros j X. repo_case j i; [|apply (A10 j X)]. exfalso. apply NI. apply in_or_app. right. apply in_or_app. auto.
    + destruct (at_main s); try (intros j; repo_case j i; [|apply A12]; try (apply held_wk; split; [destruct ok; auto|exact B2])).
      * destruct A12 as (C1 & C2 & C3 & C4). split; [exact C1|]. split; [exact C2|]. split.
        -- intros j X. repo_case j i; [|apply (C3 j X)]. exfalso. apply NI. apply in_or_app. right. apply in_or_app. auto.
        -- intros j X Y. repo_case j i; [|apply (C4 j X Y)]. exfalso. apply NI. apply in_or_app. right. apply in_or_app. auto.
      * intros X. exfalso. apply NI. apply in_or_app. right. apply in_or_app. auto.
  - (* wrelease *)
    apply inv_repo; cbn; auto; try congruence; try discriminate; try (rewrite H0; reflexivity).
    + left. tauto.
    + destruct (at_main s); try apply held_wk; try apply A12; destruct A12 as (C1 & C2 & C3 & C4). split; [intros X; apply held_wk, C3, X|apply C4].
  - (* collect *)
    rewrite H in A12. pose proof A4 as ND. unfold listed in ND. rewrite H1 in ND. cbn in ND.
    destruct (NoDup_move _ _ _ _ ND) as (ND1 & ND2).
    assert (LE : forall j, In j (map fst rest ++ (if ok then searchers s ++ [i] else searchers s) ++ (if ok then errs s else errs s ++ [i])) <-> In j (listed s)).
    { intros j. unfold listed. rewrite H1. destruct ok; cbn; rewrite !in_app_iff; cbn; intuition. }
    split; cbn [n cap slots results searchers errs at_main repos]; auto.
    + unfold listed. cbn [results searchers errs]. destruct ok; assumption.
    + intros j. unfold listed. cbn [results searchers errs]. rewrite LE. apply A5.
    + intros j ok' X. apply A8. rewrite H1. right. exact X.
    + intros j X. assert (IN : In (i, ok) (results s)) by (rewrite H1; left; reflexivity).
      destruct ok; [|apply A9, X]. apply in_app_or in X. destruct X as [X|[<-|[]]]; [apply A9, X|]. apply (A8 i true IN). reflexivity.
    + intros j X. assert (IN : In (i, ok) (results s)) by (rewrite H1; left; reflexivity).
      destruct ok; [apply A10, X|]. apply in_app_or in X. destruct X as [X|[<-|[]]]; [apply A10, X|].
      destruct (pl (repos s i)) eqn:EP; try reflexivity; exfalso; assert (false = true) by (apply (A8 i false IN); rewrite EP; discriminate); discriminate.
    + rewrite H. contradiction.
    + rewrite H. exact A12.
  - (* collected *)
    rewrite H in A12. split; cbn [n cap slots results searchers errs at_main repos]; auto. rewrite <- A1. auto.
  - (* cleanfail *)
    rewrite H in *. split; cbn [n cap slots results searchers errs at_main repos]; auto. intros _. apply A11. discriminate.
  - (* clean *)
    rewrite H in *. split; cbn [n cap slots results searchers errs at_main repos]; auto.
    + intros _. apply A11. discriminate.
    + split; [|split; [|split]].
      * apply (Permutation_NoDup (l := searchers s)); [apply Permutation_sym; assumption|].
        unfold listed in A4. apply NoDup_right in A4. apply NoDup_left in A4. exact A4.
      * intros j X. apply (Permutation_in _ H0 X).
      * auto.
      * intros j X Y. exfalso. apply Y. apply (Permutation_in _ (Permutation_sym H0) X).
  - (* begin *)
    pose proof A12 as M. rewrite H in M. destruct M as (C1 & C2 & C3 & C4).
    assert (IS : In i (searchers s)) by (apply C2; left; reflexivity).
    destruct (searcher_sent _ _ _ _ _ IV IS) as (LT & SN).
    destruct (C3 i) as (C5 & C6); [left; reflexivity|].
    assert (C7 : pl (repos s i) = PGate) by (destruct C5 as [C5|C5]; [destruct (A9 i IS C5)|exact C5]).
    inversion C1 as [|? ? C8 C9]; subst.
    split; cbn [n cap slots results searchers errs at_main repos]; auto.
    + intros j. repo_case j i; [cbn|]; apply A3.
    + intros j. change (listed _) with (listed s) at 1. rewrite A5. repo_case j i; cbn; tauto.
    + intros j. repo_case j i; [|apply A6]. cbn. intros X. destruct (wk (repos s i)); discriminate.
    + intros j ok. repo_case j i; [|apply A7]. cbn. intros X. rewrite X in SN. discriminate.
    + intros j ok X. pose proof (A8 j ok X) as Y. repo_case j i; exact Y.
    + intros j X. pose proof (A9 j X) as Y. repo_case j i; exact Y.
    + intros j X. pose proof (A10 j X) as Y. repo_case j i; exact Y.
    + intros _. apply A11. rewrite H. discriminate.
    + split; [exact C9|]. split; [intros j X; apply C2; right; exact X|]. split.
      * intros j X. repo_case j i; [contradiction|]. apply C3. right. exact X.
      * intros j X Y. repo_case j i; [reflexivity|]. apply (C4 j X). intros [Z|Z]; congruence.
  - (* return *)
    pose proof A12 as M. rewrite H in M. destruct M as (C1 & C2 & C3 & C4).
    split; cbn [n cap slots results searchers errs at_main repos]; auto.
    intros _. apply A11. rewrite H. discriminate.
  - (* gate *)
    apply inv_poller; auto; cbn; try congruence; destruct (_ || _); discriminate.
  - apply inv_poller; auto; cbn; try congruence; left; congruence.
  - apply inv_poller; auto; cbn; try congruence; left; congruence.
  - apply inv_poller; auto; cbn; try congruence; left; congruence.
  - apply inv_poller; auto; cbn; try congruence; left; congruence.
  - apply inv_poller; auto; cbn; try congruence; left; congruence.
  - apply inv_poller; auto; cbn; try congruence; left; congruence.
  - apply inv_poller; auto; cbn; try congruence; left; congruence.
  - apply inv_poller; auto; cbn; try congruence; left; congruence.
  - apply inv_poller; auto; cbn; try congruence; left; congruence.
  - apply inv_poller; auto; cbn; try congruence; left; congruence.
  - apply inv_poller; auto; cbn; try congruence; left; congruence.
  - apply inv_poller; auto; cbn; try congruence; left; congruence.
  - apply inv_poller; auto; cbn; try congruence; left; congruence.
  - (* ack *)
    destruct (searcher_sent _ _ _ _ _ IV H0) as (LT & SN).
    apply inv_repo; cbn; auto; try congruence.
    + intros X. destruct (wk (repos s i)); discriminate.
    + intros ok X. rewrite X in SN. discriminate.
    + left. tauto.
    + rewrite H. auto.
  - exact IV.
  - (* stopsend *)
    destruct (searcher_sent _ _ _ _ _ IV H0) as (LT & SN).
    apply inv_repo; cbn; auto; try congruence.
    + intros X. destruct (wk (repos s i)); discriminate.
    + intros ok X. rewrite X in SN. discriminate.
    + left. tauto.
    + rewrite H in *. apply A12.
  - (* stopwrite *)
    assert (NC : ~ clean (repos s i)) by (intros (_ & _ & _ & X); congruence).
    apply inv_repo; cbn; auto; try congruence.
    + intros X. destruct (A6 i X). contradiction.
    + intros ok X. destruct (A7 i ok X). contradiction.
    + left. tauto.
    + destruct (at_main s); try (destruct (A12 i); contradiction); try apply A12.
      destruct A12 as (C1 & C2 & C3 & C4). split; [intros X; destruct (C3 i X); contradiction|apply C4].
  - exact IV.
  - exact IV.
Qed.

Lemma runs_inv : forall k c confs tr s, runs (initial k c confs) tr s -> inv k c confs s.
Proof.
  intros k c confs tr s R. remember (initial k c confs) as s0 eqn:E. induction R; subst; [apply inv_init|].
  apply (inv_step k c confs s1 a es s2); auto.
Qed.
