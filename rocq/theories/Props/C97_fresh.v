(** C97: what is searched follows the source. Once the source rests and nothing fails any more, the
    index comes to be that of its revision, and stays. True unless an index could not be swapped:
    then what is searched may stay out of date, or destroyed, for ever. *)
From Verif Require Import Model.Base Model.Config Model.Server Model.Polling Model.Follow Spec.ServerSpec Spec.PollSpec Proofs.ServerProofs Proofs.ServerTrace
  Proofs.ServerExamples Proofs.PollProofs Proofs.PollExamples Proofs.FollowProofs Proofs.FollowExamples.
From Coq Require Import Lia ZArith.

Definition of_config (rs : nat -> Config.repo) (i : nat) : settings := settings_of (init_repo (rs i)).
(** From time [m] on the source is at revision [r], and pulls and builds succeed. *)
Definition rests (upstream : nat -> str) (m : nat) (r : str) : Prop := forall t, m <= t -> upstream t = r.
Definition goes_well (out : nat -> outcome) (m : nat) : Prop := forall j, m <= j -> out j <> PullFailed /\ out j <> BuildFailed.
(** In the end one index of revision [r] is searched. *)
Definition ends_with (upstream : nat -> str) (vs : nat -> vars) (r : str) : Prop := exists b t, upstream t = r /\ forall j, b <= j -> serves (vs j) = Some t.
Definition stopped (x : execution) (i : nat) : Prop := exists j, In (Done i) (ev x j) /\ In (StopSent i) (before x j).

(** With polling. Missing: failed swaps, before as well as after; the delays of C95. *)
Theorem C97_polled_partial : forall k c rs x i m0 ss es upstream vs out m r,
  1 <= c -> is_execution x (initial k c (of_config rs)) -> fair x -> follows upstream x i vs out ->
  In (Return ss es) (ev x m0) -> In i ss -> r_poll (rs i) <> Some false -> (0 <= r_ms (rs i) <= 9223372036854)%Z ->
  rests upstream m r -> goes_well out m -> (forall j, out j <> SwapFailed) ->
  ends_with upstream vs r \/ stopped x i.
Proof.
  intros k c rs x i m0 ss es upstream vs out m r C1 EX FA FO R I P (M1 & M2) RE GO NS.
  assert (PE : PollUpdatesEnabled (init_repo (rs i)) = true).
  { unfold PollUpdatesEnabled, init_repo. cbn [r_poll]. destruct (r_poll (rs i)) as [[]|]; [reflexivity|contradiction|reflexivity]. }
  apply (up_to_date k c (of_config rs) x upstream i vs out C1 EX FO m r FA RE GO NS m0 ss es R I).
  - unfold of_config, settings_of. cbn [timed]. unfold delay. rewrite PE. apply Z.ltb_lt. unfold init_repo. cbn [r_ms]. unfold or_default_int.
    destruct (Z.eqb_spec (r_ms (rs i)) 0) as [E|E]; [vm_compute; reflexivity|]. unfold wrap64. rewrite Z.mod_small by lia. lia.
  - exact PE.
Qed.
Print Assumptions C97_polled_partial.

(** After a push request, whether polled or not. Missing: failed swaps; requests before the loop has
    passed its gate (C30). *)
Theorem C97_pushed_partial : forall k c rs x i upstream vs out m r,
  1 <= c -> is_execution x (initial k c (of_config rs)) -> fair x -> follows upstream x i vs out ->
  In (Ack i) (ev x m) -> In (Started i) (before x m) -> ~ In (Done i) (before x m) ->
  rests upstream m r -> goes_well out m -> (forall j, out j <> SwapFailed) ->
  ends_with upstream vs r \/ stopped x i.
Proof.
  intros k c rs x i upstream vs out m r C1 EX FA FO A ST D RE GO NS.
  destruct (update_happens k c (of_config rs) x i m C1 EX FA A ST D) as (j & L & [X|X]); [left|right; exists j; exact X].
  apply (after_attempt k c (of_config rs) x upstream i vs out C1 EX FO m r FA RE GO NS j); [lia|exact X].
Qed.
Print Assumptions C97_pushed_partial.

(** What is searched is never older than what was searched before, whatever fails. *)
Theorem C97_never_back : forall k c rs x i upstream vs out j j' t t',
  1 <= c -> is_execution x (initial k c (of_config rs)) -> follows upstream x i vs out ->
  In (Made i true) (before x j) -> j <= j' -> serves (vs j) = Some t -> serves (vs j') = Some t' -> t <= t' /\ t' <= j'.
Proof.
  intros k c rs x i upstream vs out j j' t t' C1 EX FO M L S1 S2.
  pose proof (made_phase k c (of_config rs) x i EX j M) as N. split.
  - exact (never_back k c (of_config rs) x upstream i vs out C1 EX FO j j' t t' N L S1 S2).
  - assert (N' : pl (repos (st x j') i) <> PNone).
    { apply (made_phase k c (of_config rs) x i EX). apply (in_before c x C1) in M. destruct M as (a & A1 & A2). apply (in_before c x C1). exists a. split; [lia|exact A2]. }
    apply (ordered k c (of_config rs) x upstream i vs out C1 EX FO j' N' ). exact S2.
Qed.
Print Assumptions C97_never_back.

(** An index is replaced only by one of another revision. *)
Theorem C97_only_new : forall k c rs x i upstream vs out j t,
  1 <= c -> is_execution x (initial k c (of_config rs)) -> follows upstream x i vs out -> (forall j, out j <> SwapFailed) ->
  out j = Swapped -> serves (vs j) = Some t -> exists t', serves (vs (S j)) = Some t' /\ upstream t' <> upstream t.
Proof. intros k c rs x i upstream vs out j t C1 EX FO NS. exact (only_new k c (of_config rs) x upstream i vs out C1 EX FO NS j t). Qed.
Print Assumptions C97_only_new.

(** The source is at a, then b while an index is built, whose swap fails, then at a again: every
    pull succeeds and finds nothing new, and what is searched stays destroyed. *)
Definition there_and_back (t : nat) : str := if Nat.eqb t 16 then [98%N] else [97%N].
Theorem C97_refuted : exists rs x i upstream vs out m r,
  is_execution x (initial 1 1 (of_config rs)) /\ fair x /\ follows upstream x i vs out /\
  (exists m0, In (Return [0] []) (ev x m0)) /\ r_poll (rs i) <> Some false /\ r_ms (rs i) = 0%Z /\
  rests upstream m r /\ goes_well out m /\ (forall j, m <= j -> out j <> SwapFailed) /\
  forall j, m <= j -> serves (vs j) = None.
Proof.
  exists (fun _ => both), going, 0, there_and_back, (vars_at there_and_back false), (out_at false), 20, [97%N].
  assert (RE : rests there_and_back 20 [97%N]) by (intros t L; unfold there_and_back; destruct (Nat.eqb_spec t 16); [lia|reflexivity]).
  split; [exact going_runs|]. split; [exact going_fair|]. split; [|split; [|split; [|split; [|split; [|split; [|split]]]]]].
  - apply (history there_and_back false [97%N]); [discriminate|exact RE|vm_compute; reflexivity].
  - exists 9. left. reflexivity.
  - discriminate.
  - reflexivity.
  - exact RE.
  - intros j L. unfold out_at. destruct (ph j), (ph (S j)); split; discriminate.
  - intros j L. unfold out_at. pose proof (t_pl _ (going_turns j L)) as T. fold (ph j) in T. destruct (ph j), (ph (S j)); try discriminate; contradiction.
  - intros j L. destruct (late_vars there_and_back false [97%N] ltac:(vm_compute; reflexivity) j L) as (_ & E & _). rewrite E. vm_compute. reflexivity.
Qed.
Print Assumptions C97_refuted.

(** A loop that goes round for ever; between startup and the update the source has moved. *)
Definition moved_on (t : nat) : str := if Nat.ltb t 11 then [97%N] else [98%N].
Example C97_example : is_execution going (initial 1 1 (of_config (fun _ => both))) /\ fair going /\
  follows moved_on going 0 (vars_at moved_on true) (out_at true) /\
  In (Return [0] []) (ev going 9) /\ In (Ack 0) (ev going 11) /\ In (Started 0) (before going 11) /\ ~ In (Done 0) (before going 11) /\
  rests moved_on 11 [98%N] /\ goes_well (out_at true) 11 /\ (forall j, out_at true j <> SwapFailed) /\
  In (Made 0 true) (before going 10) /\ out_at true 18 = Swapped /\ serves (vars_at moved_on true 10) = Some 2 /\ serves (vars_at moved_on true 20) = Some 16.
Proof.
  assert (RE : rests moved_on 11 [98%N]) by (intros t L; unfold moved_on; destruct (Nat.ltb_spec t 11); [lia|reflexivity]).
  split; [exact going_runs|]. split; [exact going_fair|]. split; [|split; [|split; [|split; [|split; [|split; [|split; [|split; [|split; [|split; [|split]]]]]]]]]].
  - apply (history moved_on true [98%N]); [discriminate|intros j L; apply RE; lia|vm_compute; reflexivity].
  - left. reflexivity.
  - left. reflexivity.
  - vm_compute. intuition.
  - vm_compute. intuition discriminate.
  - exact RE.
  - intros j L. unfold out_at. destruct (ph j), (ph (S j)); split; discriminate.
  - intros j. unfold out_at. destruct (ph j), (ph (S j)); discriminate.
  - vm_compute. intuition.
  - vm_compute. reflexivity.
  - vm_compute. reflexivity.
  - vm_compute. reflexivity.
Qed.
