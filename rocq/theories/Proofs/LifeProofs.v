(** Lemmas about the life of houndd (Model/Life.v). *)
From Coq Require Import Lia PeanoNat.
From Verif Require Import Model.Base Model.Life.

Definition early (m : place) : Prop := m = Loading \/ m = Starting \/ m = Registering.
Definition late (m : place) : Prop := m = Handling \/ m = Serving \/ m = Waiting.

(** What the history tells. *)
Record told (tr : list event) (s : life) : Prop := mkTold {
  t_early : registered s = false -> early (main s);
  t_works : early (main s) -> ~ In WorkBegun tr;
  t_signal : waiting s = true \/ hand s = HStopping -> In Sigterm tr;
  t_made : late (main s) -> In Made tr;
  t_hand : hand s <> HOff -> late (main s);
  t_ready : main s = Waiting -> In Ready tr;
  t_failed : forall e, lis s = LFailed e -> In (ListenFailed e) tr;
  t_over : match over s with
           | None => forall how, ~ In (Ended how) tr
           | Some how => exists tr', tr = tr' ++ [Ended how] /\ forall how', ~ In (Ended how') tr'
           end;
  t_how : match over s with
          | None => True
          | Some Killed => ~ In WorkBegun tr
          | Some Exited => In Sigterm tr /\ In Made tr /\ working s = 0
          | Some (Panicked e) => In (LoadFailed e) tr \/ In (MakeFailed e) tr \/ In (ContentFailed e) tr \/ (In (ListenFailed e) tr /\ In Ready tr)
          end }.

Lemma not_in_app : forall {A} (x : A) l m, ~ In x l -> ~ In x m -> ~ In x (l ++ m).
Proof. intros A x l m L M I. apply in_app_iff in I. tauto. Qed.
Lemma in_l : forall {A} (x : A) l m, In x l -> In x (l ++ m).
Proof. intros. apply in_app_iff. auto. Qed.
Lemma in_r : forall {A} (x : A) l m, In x m -> In x (l ++ m).
Proof. intros. apply in_app_iff. auto. Qed.

Lemma two_last : forall tr x how, (forall h, ~ In (Ended h) tr) -> (forall h, x <> Ended h) ->
  exists tr', tr ++ [x; Ended how] = tr' ++ [Ended how] /\ forall h, ~ In (Ended h) tr'.
Proof.
  intros tr x how T X. exists (tr ++ [x]). split; [rewrite <- app_assoc; reflexivity|].
  intros h. apply not_in_app; [apply T|]. intros [E|[]]. exact (X h E).
Qed.

Ltac none := let X := fresh in intros X; cbn [In] in X; repeat (destruct X as [X|X]; [discriminate X|]); exact X.

Lemma lives_told : forall tr s, lives tr s -> told tr s.
Proof.
  intros tr s L. induction L as [|a tr s es s' L IH ST].
  - constructor; unfold born; cbn [main lis hand registered waiting working over]; try discriminate; try (intros [X|X]; discriminate X); auto.
    + intros _. left. reflexivity.
    + intros [X|[X|X]]; discriminate X.
    + intros X. exfalso. apply X. reflexivity.
  - destruct IH as [I1 I2 I3 I4 I5 I6 I7 I8 I9]. destruct ST; cbn [main lis hand registered waiting working over] in *.
    all: constructor; cbn [main lis hand registered waiting working over].
    all: try (intros; rewrite ?app_nil_r; auto; fail).
    all: try (intros; apply in_l; auto; fail).
    all: try (intros; apply not_in_app; [auto|none]; fail).
    all: try exact I.
    all: unfold early, late in *; try (intuition discriminate).
    all: try (intros; apply in_r; left; reflexivity).
    all: try (intros e0 E0; injection E0 as ->; apply in_r; left; reflexivity).
    all: try (left; apply in_r; left; reflexivity).
    all: try (right; left; apply in_r; left; reflexivity).
    all: try (right; right; left; apply in_r; left; reflexivity).
    all: try (intros _; apply in_l; apply I4; intuition fail; fail).
    all: try (intros _; apply not_in_app; [apply I2; tauto|none]; fail).
    all: try (rewrite app_nil_r; first [intros [X|X]; [apply I3; left; exact X|discriminate X] | intros _; apply I4; tauto | intros _; apply I2; tauto]; fail).
    all: try (apply two_last; [exact I8|discriminate]; fail).
    all: try (exists tr; split; [reflexivity|exact I8]; fail).
    + right. right. right. split; apply in_l; [apply I7|apply I6]; reflexivity.
    + split; [apply in_l, I3; right; reflexivity|]. split; [|reflexivity]. apply in_l, I4, I5. discriminate.
Qed.

Theorem killed_early : forall tr s, lives tr s -> over s = Some Killed -> ~ In WorkBegun tr.
Proof. intros tr s L O. pose proof (t_how _ _ (lives_told _ _ L)) as H. rewrite O in H. exact H. Qed.
Theorem exited_clean : forall tr s, lives tr s -> over s = Some Exited -> In Sigterm tr /\ In Made tr /\ working s = 0.
Proof. intros tr s L O. pose proof (t_how _ _ (lives_told _ _ L)) as H. rewrite O in H. exact H. Qed.
Theorem panicked_why : forall tr s e, lives tr s -> over s = Some (Panicked e) ->
  In (LoadFailed e) tr \/ In (MakeFailed e) tr \/ In (ContentFailed e) tr \/ (In (ListenFailed e) tr /\ In Ready tr).
Proof. intros tr s e L O. pose proof (t_how _ _ (lives_told _ _ L)) as H. rewrite O in H. exact H. Qed.
Theorem ends_once : forall tr s, lives tr s ->
  match over s with
  | None => forall how, ~ In (Ended how) tr
  | Some how => exists tr', tr = tr' ++ [Ended how] /\ forall how', ~ In (Ended how') tr'
  end.
Proof. intros tr s L. exact (t_over _ _ (lives_told _ _ L)). Qed.

(** *** A failed listener ends the process *)
Lemma over_stays : forall x, is_run x -> forall k j, k <= j -> over (st x k) <> None -> over (st x j) <> None.
Proof.
  intros x [_ R] k j L. induction L as [|j L IH]; intros O; [exact O|]. specialize (IH O).
  destruct (R j) as [ST|(_ & _ & ->)]; [|exact IH]. exfalso. apply IH. inversion ST; reflexivity.
Qed.

Lemma step_failed : forall a s es s' e, step a s es s' -> lis s = LFailed e -> lis s' = LFailed e \/ over s' <> None.
Proof. intros a s es s' e ST F. destruct ST; cbn [lis over] in *; try (left; exact F); try discriminate F; right; discriminate. Qed.
Lemma step_place : forall a s es s', step a s es s' -> a <> Main -> main s' = main s.
Proof. intros a s es s' ST N. destruct ST; try reflexivity; exfalso; apply N; reflexivity. Qed.
Lemma step_over : forall a s es s', step a s es s' -> over s = None.
Proof. intros a s es s' ST. destruct ST; reflexivity. Qed.

Section Run.
Context (x : run) (R : is_run x) (F : fair x).
Definition ended (k : nat) : Prop := over (st x k) <> None.

Lemma failed_stays : forall k j e, k <= j -> lis (st x k) = LFailed e -> lis (st x j) = LFailed e \/ ended j.
Proof.
  intros k j e L H. induction L as [|j L IH]; [left; exact H|].
  destruct (proj2 R j) as [ST|(O & _ & E)].
  - destruct IH as [IH|IH]; [exact (step_failed _ _ _ _ _ ST IH)|]. exfalso. apply IH. exact (step_over _ _ _ _ ST).
  - right. unfold ended. rewrite E. exact O.
Qed.

(** The first step of main from [k] on, before [j]. *)
Definition moves (i : nat) : Prop := who x i = Main /\ over (st x i) = None.
Lemma moves_dec : forall i, {moves i} + {~ moves i}.
Proof.
  intros i. unfold moves. destruct (who x i); try (right; intros [X _]; discriminate X).
  destruct (over (st x i)); [right; intros [_ X]; discriminate X|left; auto].
Qed.
Lemma first_move : forall n k, (exists i, k <= i < k + n /\ moves i /\ main (st x i) = main (st x k)) \/ main (st x (k + n)) = main (st x k).
Proof.
  induction n as [|n IH]; intros k; [right; rewrite Nat.add_0_r; reflexivity|].
  destruct (IH k) as [(i & I & M)|E].
  - left. exists i. split; [lia|exact M].
  - destruct (moves_dec (k + n)) as [M|M].
    + left. exists (k + n). split; [lia|]. split; [exact M|exact E].
    + right. rewrite <- E. replace (k + S n) with (S (k + n)) by lia.
      destruct (proj2 R (k + n)) as [ST|(_ & _ & ->)]; [|reflexivity].
      apply (step_place _ _ _ _ ST). intros W. apply M. split; [exact W|exact (step_over _ _ _ _ ST)].
Qed.

(** If main can move wherever it is at the place it has now, it does, or the process is over. *)
Lemma main_moves : forall k (Q : life -> Prop), (forall j, k <= j -> Q (st x j) \/ ended j) ->
  (forall s, main s = main (st x k) -> Q s -> over s = None -> can Main s) ->
  (exists j, k <= j /\ ended j) \/
  exists i, k <= i /\ main (st x i) = main (st x k) /\ step Main (st x i) (evs x i) (st x (S i)).
Proof.
  intros k Q QS CM. destruct (F Main (or_introl eq_refl) k) as [(j & L & W & O)|(j & L & NC)].
  - destruct (first_move (S (j - k)) k) as [(i & I & [Wi Oi] & E)|E].
    + right. exists i. split; [lia|]. split; [exact E|]. destruct (proj2 R i) as [ST|(X & _)]; [rewrite Wi in ST; exact ST|contradiction].
    + destruct (first_move (j - k) k) as [(i & I & [Wi Oi] & Ei)|E'].
      * right. exists i. split; [lia|]. split; [exact Ei|]. destruct (proj2 R i) as [ST|(X & _)]; [rewrite Wi in ST; exact ST|contradiction].
      * replace (k + (j - k)) with j in E' by lia. right. exists j. split; [exact L|]. split; [exact E'|].
        destruct (proj2 R j) as [ST|(X & _)]; [rewrite W in ST; exact ST|contradiction].
  - destruct (first_move (j - k) k) as [(i & I & [Wi Oi] & Ei)|E'].
    + right. exists i. split; [lia|]. split; [exact Ei|]. destruct (proj2 R i) as [ST|(X & _)]; [rewrite Wi in ST; exact ST|contradiction].
    + replace (k + (j - k)) with j in E' by lia. left. exists j. split; [exact L|].
      unfold ended. destruct (over (st x j)) eqn:O; [discriminate|]. exfalso. apply NC.
      destruct (QS j L) as [q|q]; [exact (CM _ E' q O)|contradiction].
Qed.

Lemma step_main_handling : forall s es s', step Main s es s' -> main s = Handling -> main s' = Serving.
Proof. intros s es s' ST M. inversion ST; subst; cbn [main] in *; try discriminate M; reflexivity. Qed.
Lemma step_main_serving : forall s es s', step Main s es s' -> main s = Serving -> main s' = Waiting \/ over s' <> None.
Proof. intros s es s' ST M. inversion ST; subst; cbn [main over] in *; try discriminate M; [right; discriminate|left; reflexivity]. Qed.
Lemma step_main_waiting : forall s es s', step Main s es s' -> main s = Waiting -> over s' <> None.
Proof. intros s es s' ST M. inversion ST; subst; cbn [main over] in *; try discriminate M; discriminate. Qed.

Lemma from_waiting : forall k e, main (st x k) = Waiting -> lis (st x k) = LFailed e -> exists j, ended j.
Proof.
  intros k e M L. destruct (main_moves k (fun s => lis s = LFailed e)) as [(j & _ & E)|(i & I & Mi & ST)].
  - intros j J. exact (failed_stays k j e J L).
  - intros [m l h r w n o] Ms Ls Os. cbn [main lis over] in *. subst. rewrite M in *. do 2 eexists. apply s_failed.
  - exists j. exact E.
  - exists (S i). rewrite M in Mi. exact (step_main_waiting _ _ _ ST Mi).
Qed.
Lemma from_serving : forall k e, main (st x k) = Serving -> lis (st x k) = LFailed e -> exists j, ended j.
Proof.
  intros k e M L. destruct (main_moves k (fun _ => True)) as [(j & _ & E)|(i & I & Mi & ST)].
  - auto.
  - intros [m l h r w n o] Ms _ Os. cbn [main lis over] in *. subst. rewrite M in *. do 2 eexists. apply s_ready.
  - exists j. exact E.
  - rewrite M in Mi. destruct (step_main_serving _ _ _ ST Mi) as [W|O]; [|exists (S i); exact O].
    destruct (failed_stays k (S i) e (Nat.le_trans _ _ _ I (Nat.le_succ_diag_r i)) L) as [L'|O]; [|exists (S i); exact O].
    exact (from_waiting _ _ W L').
Qed.
Lemma from_handling : forall k e, main (st x k) = Handling -> lis (st x k) = LFailed e -> exists j, ended j.
Proof.
  intros k e M L. destruct (main_moves k (fun _ => True)) as [(j & _ & E)|(i & I & Mi & ST)].
  - auto.
  - intros [m l h r w n o] Ms _ Os. cbn [main lis over] in *. subst. rewrite M in *. do 2 eexists. apply s_handle.
  - exists j. exact E.
  - rewrite M in Mi. pose proof (step_main_handling _ _ _ ST Mi) as W.
    destruct (failed_stays k (S i) e (Nat.le_trans _ _ _ I (Nat.le_succ_diag_r i)) L) as [L'|O]; [|exists (S i); exact O].
    exact (from_serving _ _ W L').
Qed.

Lemma late_stays : forall k j, k <= j -> late (main (st x k)) -> late (main (st x j)).
Proof.
  intros k j L H. induction L as [|j L IH]; [exact H|]. destruct (proj2 R j) as [ST|(_ & _ & ->)]; [|exact IH].
  revert IH. unfold late. destruct ST; cbn [main]; intuition discriminate.
Qed.
Lemma made_late : forall a s es s', step a s es s' -> In Made es -> late (main s').
Proof.
  intros a s es s' ST I. destruct ST; cbn [In] in I; repeat (destruct I as [I|I]; [try discriminate I|]); try contradiction; left; reflexivity.
Qed.
Lemma listen_failed : forall a s es s' e, step a s es s' -> In (ListenFailed e) es -> lis s' = LFailed e.
Proof.
  intros a s es s' e ST I. destruct ST; cbn [In] in I; repeat (destruct I as [I|I]; [try discriminate I|]); try contradiction; injection I as ->; reflexivity.
Qed.

Theorem failure_ends : forall k1 k2 e, In (ListenFailed e) (evs x k1) -> In Made (evs x k2) -> exists j, ended j.
Proof.
  intros k1 k2 e I1 I2.
  destruct (proj2 R k1) as [S1|(_ & E & _)]; [|rewrite E in I1; destruct I1].
  destruct (proj2 R k2) as [S2|(_ & E & _)]; [|rewrite E in I2; destruct I2].
  pose proof (listen_failed _ _ _ _ _ S1 I1) as L1. pose proof (made_late _ _ _ _ S2 I2) as L2.
  set (k := Nat.max (S k1) (S k2)).
  destruct (failed_stays (S k1) k e (Nat.le_max_l _ _) L1) as [L|O]; [|exists k; exact O].
  destruct (late_stays (S k2) k (Nat.le_max_r _ _) L2) as [M|[M|M]].
  - exact (from_handling _ _ M L).
  - exact (from_serving _ _ M L).
  - exact (from_waiting _ _ M L).
Qed.
End Run.
