(** Every index directory of a serving process is in use, or left by a failure. *)
From Verif Require Import Model.Base Model.Startup Spec.StartupSpec Spec.PileSpec Proofs.StartupProofs Proofs.StartupResults Proofs.StartupExamples.
From Coq Require Import Lia.

Section Pile.
Context (W : world).

Definition kept (t : list event) (dk : nat -> option dir) (p : process) : Prop := forall d, dk d <> None ->
  (exists i, mentions (jobs p i) d) \/ In (Failed d) t \/ (refs p d <> None /\ claimed p d = false /\ at_phase p <> Serving).

Lemma set_some : forall (dk : nat -> option dir) d x e, set dk d x e <> None -> e = d \/ dk e <> None.
Proof. intros dk d x e X. scase e d; auto. Qed.

(** A job is replaced by one that has all but the failed directories. *)
Lemma kept_job : forall t es dk dk' p cl d i j, kept t dk p ->
  (forall e, dk' e <> None -> dk e <> None \/ mentions j e) ->
  (forall e, mentions (jobs p i) e -> mentions j e \/ In (Failed e) es \/ dk' e = None) ->
  (forall e, cl e = claimed p e \/ (e = d /\ (mentions j e \/ In (Failed e) es))) ->
  kept (t ++ es) dk' (mkProcess (config p) (refs p) cl (at_phase p) (set (jobs p) i j)).
Proof.
  intros t es dk dk' p cl d i j K A B C e X. cbn [jobs refs claimed at_phase].
  destruct (A e X) as [Y|Y]; [|left; exists i; rewrite set_same; exact Y].
  destruct (K e Y) as [(k & M)|[F|(R1 & R2 & R3)]].
  - destruct (Nat.eq_dec k i) as [-> | NE]; [|left; exists k; rewrite set_other by assumption; exact M].
    destruct (B e M) as [Z|[Z|Z]]; [left; exists i; rewrite set_same; exact Z|right; left; apply in_or_app; auto|contradiction].
  - right. left. apply in_or_app. auto.
  - destruct (C e) as [Z|(-> & [Z|Z])].
    + right. right. rewrite Z. auto.
    + left. exists i. rewrite set_same. exact Z.
    + right. left. apply in_or_app. auto.
Qed.

Lemma kept_phase : forall t es dk dk' p ph, kept t dk p -> (forall e, dk' e <> None -> dk e <> None) ->
  (ph = Serving -> forall e, refs p e <> None -> claimed p e = false -> dk' e = None) -> kept (t ++ es) dk' (set_phase p ph).
Proof.
  intros t es dk dk' p ph K A B e X. cbn [set_phase jobs refs claimed at_phase].
  destruct (K e (A e X)) as [M|[F|(R1 & R2 & R3)]]; [left; exact M|right; left; apply in_or_app; auto|].
  right. right. split; [exact R1|]. split; [exact R2|]. intros E. exact (X (B E e R1 R2)).
Qed.
Lemma kept_disk : forall t es dk dk' p, kept t dk p -> (forall e, dk' e <> None -> dk e <> None) -> kept (t ++ es) dk' p.
Proof.
  intros t es dk dk' p K A e X. destruct (K e (A e X)) as [M|[F|R]]; [left; exact M|right; left; apply in_or_app; auto|right; right; exact R].
Qed.

Lemma runs_kept : forall tr s, runs W tr s -> forall p, proc s = Some p ->
  exists t1 cfg f t, tr = t1 ++ Start cfg f :: t /\ (forall c g, ~ In (Start c g) t) /\ kept t (disk s) p.
Proof.
  intros tr s R. induction R as [|tr s es s' R IH ST]; intros q PQ; [discriminate|].
  assert (GO : forall p, proc s = Some p -> (forall c g, ~ In (Start c g) es) ->
    (forall t, kept t (disk s) p -> kept (t ++ es) (disk s') q) ->
    exists t1 cfg f t, tr ++ es = t1 ++ Start cfg f :: t /\ (forall c g, ~ In (Start c g) t) /\ kept t (disk s') q).
  { intros p PS NS K. destruct (IH p PS) as (t1 & cfg & f & t & -> & N1 & K1). exists t1, cfg, f, (t ++ es).
    split; [rewrite <- app_assoc; reflexivity|]. split; [|apply K; exact K1]. intros c g I. apply in_app_or in I. destruct I as [I|I]; [apply (N1 _ _ I)|apply (NS _ _ I)]. }
  destruct ST; cbn [proc disk] in *; try discriminate; injection PQ as <-.
  1: { exists tr, cfg, (disk s), []. split; [reflexivity|]. split; [intros c g []|]. intros d X. right. right. cbn [refs claimed at_phase].
    destruct (disk s d); [|contradiction]. repeat split; discriminate. }
  all: apply (GO p H); [intros c g I; cbn in I; repeat (destruct I as [I|I]; [discriminate|]); contradiction|intros t K].
  all: try (unfold set_job, set_claimed; match goal with |- kept _ _ (mkProcess _ _ ?cl _ (set _ ?i ?j)) =>
     apply (kept_job t _ (disk s) _ p cl d i j K) || apply (kept_job t _ (disk s) _ p cl 0 i j K) end).
  all: try (intros e; left; reflexivity).
  all: try (intros e X; left; exact X).
  all: try (intros e X; apply set_some in X; cbn [mentions]; tauto).
  all: try (intros e X; match goal with J : jobs ?q _ = _ |- _ => rewrite J in X end; cbn [mentions In] in *; intuition (subst; auto); fail).
  all: try (intros e; scase e d; [right; cbn [mentions In]; auto|left; reflexivity]).
  - apply (kept_phase t _ (disk s)); [exact K|auto|discriminate].
  - apply (kept_phase t _ (disk s)); [exact K|auto|discriminate].
  - apply (kept_disk t _ (disk s)); [exact K|]. intros e X. apply set_some in X. destruct X as [-> | X]; [congruence|exact X].
  - apply (kept_phase t _ (disk s)); [exact K| |discriminate]. intros e. scase e d; [contradiction|auto].
  - apply (kept_phase t _ (disk s)); [exact K|auto|]. intros _. assumption.
  - apply (kept_disk t _ (disk s)); [exact K|]. intros e X. apply set_some in X. destruct X as [-> | X]; [congruence|exact X].
  - intros e. scase e old; [contradiction|auto].
  - intros e X. rewrite H0 in X. cbn [mentions] in *. destruct X as [-> | ->]; [auto|]. right. right. apply set_same.
Qed.

Lemma mentions_uses : forall j d, mentions j d -> fits Serving true j -> uses j d.
Proof. intros j d M F. destruct j; cbn in M, F; try contradiction; try (destruct M as [-> | ->]); subst; constructor. Qed.

Theorem explained : forall tr s p d, runs W tr s -> proc s = Some p -> at_phase p = Serving -> disk s d <> None ->
  exists t, since_start tr t /\ ((exists i, i < length (config p) /\ uses (jobs p i) d) \/ In (Failed d) t).
Proof.
  intros tr s p d R PS PH X. destruct (runs_kept _ _ R p PS) as (t1 & cfg & f & t & -> & NS & K). exists t. split; [exists t1, cfg, f; auto|].
  pose proof (i_proc _ _ _ (runs_inv W _ _ R) p PS) as PI.
  destruct (K d X) as [(i & M)|[F|(_ & _ & Y)]]; [left|right; exact F|contradiction]. exists i.
  assert (LT : i < length (config p)). { apply (job_in _ _ _ _ i PI). intros E. rewrite E in M. exact M. }
  split; [exact LT|]. apply mentions_uses; [exact M|]. pose proof (q_fits _ _ _ _ PI i) as Q. rewrite PH in Q. apply Nat.ltb_lt in LT. rewrite LT in Q. exact Q.
Qed.

(** ** How many there are *)
Definition dirs_of (j : job) : list nat :=
  match j with JLive d _ => [d] | JUpd d _ e _ _ => [d; e] | JOld d _ e => [d; e] | _ => [] end.
Lemma uses_dirs : forall j d, uses j d -> In d (dirs_of j).
Proof. intros j d U. destruct U; cbn; auto. Qed.
Lemma dirs_length : forall j, length (dirs_of j) <= 1 + if under_way j then 1 else 0.
Proof. intros j. destruct j; cbn; lia. Qed.
Lemma all_dirs : forall (jb : nat -> job) l, length (flat_map (fun i => dirs_of (jb i)) l) <= length l + length (filter (fun i => under_way (jb i)) l).
Proof.
  intros jb l. induction l as [|i l IH]; [cbn; lia|]. cbn [flat_map filter length]. rewrite app_length. pose proof (dirs_length (jb i)).
  destruct (under_way (jb i)); cbn [length] in *; lia.
Qed.
Lemma in_failures : forall t d, In (Failed d) t -> In d (failures t).
Proof. induction t as [|e t IH]; intros d I; [destruct I|]. destruct I as [-> | I]; [left; reflexivity|]. specialize (IH d I). destruct e; cbn; auto. Qed.

Lemma since_one : forall tr t t', since_start tr t -> since_start tr t' -> t = t'.
Proof.
  intros tr t t' (a & c & f & -> & N1) (b & c' & f' & E & N2).
  assert (Q : forall u, (forall c g, ~ In (Start c g) u) -> forall x, In x u -> is_start x = false).
  { intros u N x I. destruct x; try reflexivity. destruct (N _ _ I). }
  destruct (last_start _ _ _ _ _ _ E eq_refl eq_refl (Q _ N1) (Q _ N2)) as (_ & _ & ->). reflexivity.
Qed.

Theorem few : forall tr s p t ds, runs W tr s -> proc s = Some p -> at_phase p = Serving -> since_start tr t ->
  NoDup ds -> (forall d, In d ds -> disk s d <> None) -> length ds <= length (config p) + busy p + length (failures t).
Proof.
  intros tr s p t ds R PS PH SS ND D.
  pose proof (all_dirs (jobs p) (seq 0 (length (config p)))) as L. rewrite seq_length in L. unfold busy.
  assert (I : incl ds (flat_map (fun i => dirs_of (jobs p i)) (seq 0 (length (config p))) ++ failures t)).
  { intros d I. apply in_or_app. destruct (explained _ _ _ d R PS PH (D d I)) as (t' & SS' & E). rewrite (since_one _ _ _ SS SS').
    destruct E as [(i & LT & U)|F]; [left|right; apply in_failures; exact F]. apply in_flat_map. exists i. split; [apply in_seq; lia|apply uses_dirs; exact U]. }
  apply NoDup_incl_length in I; [|exact ND]. rewrite app_length in I. lia.
Qed.
End Pile.

(** ** A repository whose next revision cannot be indexed *)
Lemma piles_up : forall n, exists tr s p, runs W0 tr s /\ proc s = Some p /\ at_phase p = Serving /\ config p = [(ua, 0)] /\
  jobs p 0 = JLive 0 r1 /\ (forall i, jobs p (S i) = JNew) /\ (forall d, disk s d <> None <-> d <= n).
Proof.
  induction n as [|n IH].
  - boot R. eexists _, _, _. split; [exact R|]. repeat (split; [reflexivity|]). intros d. cbn. destruct d; cbn; split; (lia || congruence).
  - destruct IH as (tr & s & p & R & PS & PH & CF & J0 & JN & D).
    assert (FR : fresh s p (S n)).
    { split.
      - destruct (disk s (S n)) eqn:E; [|reflexivity]. assert (X : S n <= n) by (apply D; congruence). lia.
      - intros i. destruct i as [|i]; [rewrite J0; cbn; lia|rewrite JN; auto]. }
    assert (S1 : step W0 s [] (mkState (set (disk s) (S n) (Some empty_dir)) (Some (set_job p 0 (JUpd 0 r1 (S n) r2 (ops0 ua r2 0)))))).
    { apply (st_update W0 s p 0 ua 0 0 r1 (S n) r2 (ops0 ua r2 0)); auto; [rewrite CF; reflexivity|discriminate|apply builds0]. }
    pose proof (runs_step _ _ _ _ _ R S1) as R1.
    assert (S2 := st_update_fail W0 _ _ 0 0 r1 (S n) r2 (ops0 ua r2 0) (eq_refl (proc (mkState (set (disk s) (S n) (Some empty_dir)) (Some (set_job p 0 (JUpd 0 r1 (S n) r2 (ops0 ua r2 0))))))) ltac:(reflexivity)).
    pose proof (runs_step _ _ _ _ _ R1 S2) as R2. eexists _, _, _. split; [exact R2|]. split; [reflexivity|].
    split; [exact PH|]. split; [exact CF|]. split; [reflexivity|]. split; [intros i; apply JN|].
    intros d. cbn [disk]. scase d (S n); [split; [lia|discriminate]|]. rewrite D. lia.
Qed.
