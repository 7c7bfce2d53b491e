(** The index follows its source (C97). *)
From Verif Require Import Model.Base Model.Server Model.Follow Spec.ServerSpec Spec.PollSpec Proofs.ServerProofs Proofs.ServerCounts Proofs.ServerStart Proofs.ServerLive Proofs.ServerTrace Proofs.PollProofs.
From Coq Require Import Lia.

Section Follow.
Context (k c : nat) (confs : nat -> settings) (x : execution) (upstream : nat -> str) (i : nat) (vs : nat -> vars) (out : nat -> outcome).
Hypothesis (C1 : 1 <= c) (EX : is_execution x (initial k c confs)) (FO : follows upstream x i vs out).

Notation ph j := (pl (repos (st x j) i)).
(** Steps by others leave the phase alone; the searcher is made once. *)
Lemma ph_other : forall j, ac x j <> Poller i -> ~ In (Made i true) (ev x j) -> ph (S j) = ph j.
Proof.
  intros j A M. pose proof (step_at k c confs x EX j) as ST. pose proof (inv_at k c confs x EX j) as IV.
  destruct ST; cbn [with_repo with_slots repos]; try reflexivity; repo_case i i0; try reflexivity; try (exfalso; apply A; reflexivity).
  destruct (v_early _ _ _ _ IV i0) as (E & _); [rewrite H0; reflexivity|]. rewrite E. destruct ok; [|reflexivity].
  exfalso. apply M. right. left. reflexivity.
Qed.
Lemma ph_made : forall j, In (Made i true) (ev x j) -> ph j = PNone /\ ph (S j) = PGate.
Proof.
  intros j M. pose proof (step_at k c confs x EX j) as ST. pose proof (inv_at k c confs x EX j) as IV.
  destruct ST; cbn in M; try (destruct (_ || _) in M; cbn in M); repeat destruct M as [M|M]; try discriminate; try contradiction.
  injection M as -> ->. cbn [with_repo repos]. rewrite set_same. destruct (v_early _ _ _ _ IV i) as (E & _); [rewrite H0; reflexivity|]. auto.
Qed.
Lemma ph_start : ph 0 = PNone.
Proof. rewrite (proj1 EX). reflexivity. Qed.

(** The rest of the loop does not lead into an attempt. *)
Definition outside (p : poller) : Prop := match p with PNone | PPull | PBuild | PSwap => False | _ => True end.
Lemma ph_loop : forall j, ac x j = Poller i -> match ph j with PGate | PWait | PCheck | PAcquire | PRelease => True | _ => False end -> outside (ph (S j)).
Proof.
  intros j A L. pose proof (step_at k c confs x EX j) as ST. rewrite A in ST. pose proof (poller_moved _ _ _ _ ST) as (MV & _).
  destruct (ph j) eqn:E; try contradiction.
  - destruct MV as (_ & _ & [(-> & _)|(-> & _)]); exact Logic.I.
  - rewrite MV. exact Logic.I.
  - destruct MV as [(F & MV)|(_ & MV)]; [|rewrite MV; exact Logic.I].
    inversion ST; subst; try congruence; cbn [with_repo with_slots repos]; rewrite set_same; try exact Logic.I; cbn.
  - rewrite MV. exact Logic.I.
  - rewrite MV. exact Logic.I.
Qed.

(** What holds of the variables and of the phase is kept, if the loop and the start keep it. *)
Lemma always : forall (P : nat -> poller -> vars -> Prop) m,
  (forall j p v, P j p v -> P (S j) p v) ->
  (forall j p v, outside p -> m <= j -> P j (ph j) v -> match ph j with PGate | PWait | PCheck | PAcquire | PRelease => True | _ => False end -> P (S j) p v) ->
  (forall j p p' o v v', m <= j -> out j = o -> loop_step upstream j v p p' o v' -> match p with PHeld | PPull | PBuild | PSwap => True | _ => False end -> P j p v -> P (S j) p' v') ->
  (forall j t v v', m <= j -> P j PNone v -> t <= j -> known v' = upstream t -> serves v' = Some t -> P (S j) PGate v') ->
  P m (ph m) (vs m) -> forall j, m <= j -> P j (ph j) (vs j).
Proof.
  intros P m TI LO MV MK PM j L. induction j as [|j IH]; [replace 0 with m by lia; exact PM|].
  destruct (Nat.eq_dec m (S j)) as [<-|NE]; [exact PM|]. specialize (IH ltac:(lia)).
  destruct (FO j) as [(A & B)|[(A & B & D & t & T1 & T2 & T3)|(A & B & D & E)]].
  - assert (G : match ph j with PHeld | PPull | PBuild | PSwap => True | _ => False end \/
      (match ph j with PGate | PWait | PCheck | PAcquire | PRelease => True | _ => False end /\ vs (S j) = vs j)).
    { inversion B; subst; auto. }
    destruct G as [G|(G & E)].
    + apply (MV j (ph j) (ph (S j)) (out j) (vs j)); auto. lia.
    + rewrite E. apply LO; [apply ph_loop; assumption|lia|exact IH|exact G].
  - destruct (ph_made j B) as (P1 & P2). rewrite P2. rewrite P1 in IH. apply (MK j t (vs j)); auto. lia.
  - rewrite (ph_other j A B), E. apply TI. exact IH.
Qed.

(** ** Never back *)
Definition in_order (j : nat) (p : poller) (v : vars) : Prop :=
  p <> PNone -> (forall s, serves v = Some s -> s <= j /\ match p with PPull => s <= began v | PBuild | PSwap => s <= fetched v | _ => True end) /\
    match p with PPull => began v <= j | PBuild | PSwap => fetched v <= j | _ => True end.
Lemma ordered : forall j, in_order j (ph j) (vs j).
Proof.
  intros j. apply (always in_order 0); try lia.
  - intros j' p v H N. destruct (H N) as (A & B). split.
    + intros s E. destruct (A s E) as (A1 & A2). split; [lia|exact A2].
    + destruct p; auto.
  - intros j' p v O _ H L N. destruct H as (A & _); [intros E; rewrite E in L; exact L|].
    split; [|destruct p; auto; contradiction]. intros s E. destruct (A s E). split; [lia|]. destruct p; auto; contradiction.
  - intros j' p p' o v v' _ _ MV L H _. assert (NP : p <> PNone) by (intros ->; contradiction). destruct (H NP) as (A & B).
    destruct MV; try contradiction; cbn [serves began fetched known].
    + split; [|lia]. intros s E. destruct (A s E). lia.
    + split; [|exact Logic.I]. intros s E. destruct (A s E). split; [lia|exact Logic.I].
    + split; [|exact Logic.I]. intros s E. destruct (A s E). split; [lia|exact Logic.I].
    + split; [|lia]. intros s E. destruct (A s E). split; lia.
    + split; [|exact Logic.I]. intros s E. destruct (A s E). split; [lia|exact Logic.I].
    + split; [|lia]. intros s E. destruct (A s E). split; lia.
    + split; [|exact Logic.I]. intros s E. injection E as <-. split; [lia|exact Logic.I].
    + split; [|exact Logic.I]. intros s E. destruct H0 as [-> | ->]; [discriminate|]. injection E as <-. split; [lia|exact Logic.I].
    + destruct p; contradiction.
  - intros j' t v v' _ _ T K S N. split; [|exact Logic.I]. intros s E. rewrite S in E. injection E as <-. split; [lia|exact Logic.I].
  - rewrite ph_start. intros N. congruence.
Qed.
Definition not_before (t j : nat) (p : poller) (v : vars) : Prop :=
  p <> PNone /\ (forall s, serves v = Some s -> t <= s) /\ t <= j /\ match p with PPull => t <= began v | PBuild | PSwap => t <= fetched v | _ => True end.
Lemma never_back : forall j j' t t', ph j <> PNone -> j <= j' -> serves (vs j) = Some t -> serves (vs j') = Some t' -> t <= t'.
Proof.
  intros j j' t t' NN L S1 S2. destruct (ordered j NN) as (A & _). destruct (A t S1) as (A1 & A2).
  apply (always (not_before t) j) with (j := j'); auto.
  - intros a p v (N & X & Y & Z). split; [exact N|]. split; [exact X|]. split; [lia|exact Z].
  - intros a p v O _ (N & X & Y & Z) _. split; [intros ->; exact O|]. split; [exact X|]. split; [lia|]. destruct p; auto; contradiction.
  - intros a p p' o v v' _ _ MV P (N & X & Y & Z). destruct MV; try contradiction; try (destruct p; contradiction); cbn [serves began fetched known];
      (split; [discriminate|]); (split; [|split; [lia|]]); cbn in Z; cbn [fetched began serves]; auto; try lia.
    + intros s E. injection E as <-. exact Z.
    + intros s E. destruct H as [-> | ->]; [discriminate|]. injection E as <-. exact Z.
  - intros a u v v' _ (N & _). congruence.
  - split; [exact NN|]. split; [intros s E; rewrite S1 in E; injection E as <-; lia|]. split; [exact A1|exact A2].
Qed.

(** ** Up to date *)
Lemma made_phase : forall j, In (Made i true) (before x j) -> ph j <> PNone.
Proof.
  intros j M. pose proof (t_made _ _ _ (runs_told _ _ _ _ _ (runs_before k c confs x EX j)) i true) as T.
  apply T in M. destruct M as (_ & _ & M). apply M. reflexivity.
Qed.
Lemma attempt_at : forall j, In (Attempt i) (ev x j) -> i < k /\ ph (S j) = PPull /\ began (vs (S j)) = j.
Proof.
  intros j A. pose proof (step_at k c confs x EX j) as ST.
  assert (G : ac x j = Poller i /\ ph j = PHeld /\ ph (S j) = PPull /\ i < n (st x j)).
  { destruct ST; cbn in A; try (destruct (_ || _) in A; cbn in A); repeat destruct A as [A|A]; try discriminate; try contradiction.
    injection A as ->. cbn [with_repo repos]. rewrite set_same. auto. }
  destruct G as (A1 & A2 & A3 & A4). rewrite (v_n _ _ _ _ (inv_at k c confs x EX j)) in A4. split; [exact A4|]. split; [exact A3|].
  destruct (FO j) as [(_ & B)|[(B & _)|(B & _)]]; [|congruence|congruence].
  rewrite A2, A3 in B. inversion B; subst; [reflexivity|contradiction].
Qed.

Context (m : nat) (r : str).
Hypothesis (FA : fair x) (CONST : forall t, m <= t -> upstream t = r)
  (GOOD : forall j, m <= j -> out j <> PullFailed /\ out j <> BuildFailed) (NSF : forall j, out j <> SwapFailed).

Lemma serves_known : forall j, ph j <> PNone -> exists t, serves (vs j) = Some t /\ known (vs j) = upstream t.
Proof.
  intros j. apply (always (fun _ p v => p <> PNone -> exists t, serves v = Some t /\ known v = upstream t) 0); try lia.
  - auto.
  - intros a p v _ _ H L _. apply H. intros E. rewrite E in L. exact L.
  - intros a p p' o v v' _ O MV L H _. assert (NP : p <> PNone) by (intros ->; contradiction). specialize (H NP).
    destruct MV; cbn [serves known]; auto.
    + exists (fetched v). auto.
    + exfalso. apply (NSF a O).
  - intros a t v v' _ _ _ K S _. exists t. auto.
  - rewrite ph_start. congruence.
Qed.
(** What is being built is not of the revision that is searched. *)
Lemma only_new : forall j t, out j = Swapped -> serves (vs j) = Some t -> exists t', serves (vs (S j)) = Some t' /\ upstream t' <> upstream t.
Proof.
  assert (A : forall j, ph j = PBuild \/ ph j = PSwap -> upstream (fetched (vs j)) <> known (vs j)).
  { intros j. apply (always (fun _ p v => p = PBuild \/ p = PSwap -> upstream (fetched v) <> known v) 0); try lia.
    - auto.
    - intros a p v O _ H L E. destruct E as [-> | ->]; destruct O.
    - intros a p p' o v v' _ O MV L H E. destruct MV; cbn [fetched known]; destruct E as [E|E]; try discriminate; auto; subst p'; destruct p; try contradiction.
    - intros a t v v' _ _ _ _ _ [E|E]; discriminate.
    - rewrite ph_start. intros [E|E]; discriminate. }
  intros j t O T. destruct (FO j) as [(_ & B)|[(_ & _ & X & _)|(_ & _ & X & _)]]; [|congruence|congruence].
  assert (G : forall p p' v', loop_step upstream j (vs j) p p' Swapped v' -> p = PSwap /\ serves v' = Some (fetched (vs j))) by (intros p p' v' Z; inversion Z; auto).
  rewrite O in B. destruct (G _ _ _ B) as (P & V). exists (fetched (vs j)). split; [exact V|].
  change (ph j = PSwap) in P. destruct (serves_known j) as (t' & T1 & T2); [rewrite P; discriminate|]. replace t with t' by congruence. rewrite <- T2. apply A. right. exact P.
Qed.
Definition recent (j : nat) (p : poller) (v : vars) : Prop :=
  m <= j /\ p <> PNone /\ match p with PPull => m <= began v | PBuild | PSwap => m <= fetched v | _ => True end.
Lemma stays_recent : forall a, recent a (ph a) (vs a) -> forall j, a <= j -> recent j (ph j) (vs j).
Proof.
  intros a R. apply always; auto.
  - intros j p v (L & N & X). split; [lia|auto].
  - intros j p v O _ (L & N & X) _. split; [lia|]. split; [intros ->; exact O|]. destruct p; auto; contradiction.
  - intros j p p' o v v' _ O MV P (L & N & X). destruct MV; try contradiction; try (destruct p; contradiction); cbn [began fetched];
      (split; [lia|]); (split; [discriminate|]); cbn in X; cbn [fetched began]; auto; lia.
  - intros j t v v' _ (_ & N & _). congruence.
Qed.
Lemma fetches : forall a, i < k -> recent a (ph a) (vs a) -> ph a = PPull \/ ph a = PBuild \/ ph a = PSwap ->
  exists b, a <= b /\ ph b = PRelease /\ known (vs b) = r.
Proof.
  intros a LT.
  assert (STEP : forall a, recent a (ph a) (vs a) -> match ph a with PPull | PBuild | PSwap => True | _ => False end ->
    exists j, a <= j /\ ph j = ph a /\ recent j (ph j) (vs j) /\ loop_step upstream j (vs j) (ph j) (ph (S j)) (out j) (vs (S j))).
  { clear a. intros a R P. destruct (next k c confs x C1 EX FA i a LT) as (j & J1 & J2 & (K & _) & _).
    { unfold free. destruct (ph a); try contradiction; reflexivity. }
    exists j. split; [exact J1|]. split; [exact K|]. split; [apply (stays_recent a R j J1)|].
    destruct (FO j) as [(_ & B)|[(B & _)|(B & _)]]; [exact B|congruence|congruence]. }
  assert (SW : forall a, recent a (ph a) (vs a) -> ph a = PSwap -> exists b, a <= b /\ ph b = PRelease /\ known (vs b) = r).
  { clear a. intros a R P. destruct (STEP a R) as (j & J1 & J2 & (R1 & R2 & R3) & MV); [rewrite P; exact Logic.I|].
    exists (S j). split; [lia|]. rewrite J2, P in *. inversion MV; subst; try contradiction.
    - split; [reflexivity|]. cbn [known]. apply CONST. exact R3.
    - exfalso. apply (NSF j). congruence. }
  assert (BU : forall a, recent a (ph a) (vs a) -> ph a = PBuild -> exists b, a <= b /\ ph b = PRelease /\ known (vs b) = r).
  { clear a. intros a R P. destruct (STEP a R) as (j & J1 & J2 & (R1 & R2 & R3) & MV); [rewrite P; exact Logic.I|].
    pose proof (stays_recent a R (S j) ltac:(lia)) as RS. rewrite J2, P in *. inversion MV; subst; try contradiction.
    - exfalso. apply (GOOD j R1). congruence.
    - destruct (SW (S j)) as (b & L & Q); [exact RS|congruence|]. exists b. split; [lia|exact Q]. }
  intros R [P|[P|P]]; [|apply BU; assumption|apply SW; assumption].
  destruct (STEP a R) as (j & J1 & J2 & (R1 & R2 & R3) & MV); [rewrite P; exact Logic.I|].
  pose proof (stays_recent a R (S j) ltac:(lia)) as RS. rewrite J2, P in *. inversion MV; subst; try contradiction.
  - exfalso. apply (proj1 (GOOD j R1)). congruence.
  - exists (S j). split; [lia|]. split; [congruence|]. rewrite <- (CONST t ltac:(lia)). congruence.
  - destruct (BU (S j)) as (b & L & Q); [exact RS|congruence|]. exists b. split; [lia|exact Q].
Qed.
Lemma stays_known : forall b, recent b (ph b) (vs b) -> ph b = PRelease -> known (vs b) = r -> forall j, b <= j -> known (vs j) = r.
Proof.
  intros b R P K j L.
  assert (G : recent j (ph j) (vs j) /\ match ph j with PBuild | PSwap => False | _ => True end /\ known (vs j) = r); [|apply G].
  apply (always (fun j p v => recent j p v /\ match p with PBuild | PSwap => False | _ => True end /\ known v = r) b); auto.
  - intros a p v ((A1 & A2 & A3) & B & C). split; [split; [lia|auto]|auto].
  - intros a p v O _ ((A1 & A2 & A3) & B & C) _. split; [split; [lia|split; [intros ->; exact O|destruct p; auto; contradiction]]|].
    split; [destruct p; auto; contradiction|exact C].
  - intros a p p' o v v' _ O MV Q ((A1 & A2 & A3) & B & C). destruct MV; try contradiction; try (destruct p; contradiction); cbn [began fetched known].
    + split; [split; [lia|split; [discriminate|cbn; lia]]|]. auto.
    + split; [split; [lia|split; [discriminate|exact Logic.I]]|]. auto.
    + split; [split; [lia|split; [discriminate|exact Logic.I]]|]. auto.
    + exfalso. apply H1. rewrite C. apply CONST. lia.
  - intros a t v v' _ ((_ & N & _) & _). congruence.
  - split; [exact R|]. rewrite P. auto.
Qed.
(** The index that comes to be searched stays: only one of another revision would replace it. *)
Lemma after_attempt : forall j, m <= j -> In (Attempt i) (ev x j) ->
  exists b t, upstream t = r /\ forall j, b <= j -> serves (vs j) = Some t.
Proof.
  intros j L A. destruct (attempt_at j A) as (LT & PH & BG).
  assert (R : recent (S j) (ph (S j)) (vs (S j))).
  { split; [lia|]. rewrite PH. split; [discriminate|]. lia. }
  destruct (fetches (S j) LT R (or_introl PH)) as (b & B1 & B2 & B3).
  pose proof (stays_recent _ R b B1) as RB.
  destruct (serves_known b) as (t & S1 & S2); [rewrite B2; discriminate|]. exists b, t. split; [congruence|].
  intros j'. induction j' as [|j' IH]; intros L'; [replace 0 with b by lia; exact S1|]. destruct (Nat.eq_dec b (S j')) as [<-|NE]; [exact S1|].
  specialize (IH ltac:(lia)). pose proof (stays_known b RB B2 B3 j' ltac:(lia)) as K1. pose proof (stays_known b RB B2 B3 (S j') L') as K2.
  pose proof (stays_recent _ R j' ltac:(lia)) as (_ & N & _). pose proof (stays_recent _ R (S j') ltac:(lia)) as (_ & N' & _).
  destruct (FO j') as [(_ & B)|[(_ & M & _)|(_ & _ & _ & E)]]; [|destruct (ph_made j' M); congruence|rewrite E; exact IH].
  destruct (serves_known (S j') N') as (t' & T1 & T2).
  assert (O : out j' = Swapped \/ serves (vs (S j')) = serves (vs j')).
  { clear - B NSF. inversion B; auto. exfalso. apply (NSF j'). congruence. }
  destruct O as [O|O]; [|congruence]. destruct (only_new j' t O IH) as (t2 & T3 & T4). exfalso. apply T4. congruence.
Qed.
Lemma up_to_date : forall m0 ss es, In (Return ss es) (ev x m0) -> In i ss -> timed (confs i) = true -> poll (confs i) = true ->
  (exists b t, upstream t = r /\ forall j, b <= j -> serves (vs j) = Some t) \/
  (exists j, In (Done i) (ev x j) /\ In (StopSent i) (before x j)).
Proof.
  intros m0 ss es RT I T P. destruct (polled_again k c confs x C1 EX FA i m0 ss es RT I T P m) as [(j & L & A)|D]; [left|right; exact D].
  apply (after_attempt j L A).
Qed.
End Follow.
