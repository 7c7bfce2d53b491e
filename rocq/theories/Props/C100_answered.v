(** C100: every search request is answered and leaves nothing running behind. The goroutines of
    searchAll and the channel between them. *)
From Coq Require Import Permutation Lia.
From Verif Require Import Model.Base Model.Config Model.Api Model.Gather Proofs.ApiProofs Proofs.GatherProofs.
Local Open Scope list_scope.

(** No goroutine waits to deliver its result. *)
Theorem C100_no_waiting : forall (M E : Type) repos k (s : @state M E) a name r b, runs repos k s ->
  workers s = a ++ (name, Sending r) :: b -> length (channel s) < length repos.
Proof. exact @room. Qed.
Print Assumptions C100_no_waiting.

(** It is over after at most so many steps, whatever the order. *)
Theorem C100_bounded : forall (M E : Type) repos k (s : @state M E), runs repos k s -> k <= 3 * length repos + 1.
Proof. exact @bounded. Qed.
Print Assumptions C100_bounded.

(** When nothing more can happen, all goroutines have ended and the answer has been returned; it
    is the one of C36 for the results in some order of arrival. *)
Theorem C100_ends : forall (M E : Type) repos k (s : @state M E), runs repos k s -> (forall s', ~ step (length repos) (capacity repos) s s') ->
  map fst (workers s) = repos /\ exists rs v arr, map snd (workers s) = map Gone rs /\
    main s = Returned v /\ Permutation arr (combine repos rs) /\ searchAll arr = v.
Proof. exact @all_ended. Qed.
Print Assumptions C100_ends.

(** An answer, once returned, stays: goroutines that end later do not change it. *)
Theorem C100_stays : forall (M E : Type) n cap (s s' : @state M E) v, step n cap s s' -> main s = Returned v -> main s' = Returned v.
Proof. exact @no_more. Qed.
Print Assumptions C100_stays.

(** Three repositories, the first search fails: the request is answered with the error while two
    searches are still under way. In the end they have sent their results to nobody. With a
    channel of one place the third would wait forever. *)
Definition g_end (ws : list (str * @worker nat nat)) (c : list (@arrival nat nat)) := mkState ws c (Returned (inr 7%nat)).
Definition g_none : answer nat + nat := inl (mkAns None 0%Z).
Example C100_example :
  (exists k, runs [[97]; [98]; [99]]%N k (g_end [([97], Gone (inr 7%nat)); ([98], Searching); ([99], Searching)]%N [])) /\
  (exists k, runs [[97]; [98]; [99]]%N k (g_end [([97], Gone (inr 7%nat)); ([98], Gone g_none); ([99], Gone g_none)]%N [([98], g_none); ([99], g_none)]%N)) /\
  (forall s', ~ step 3 3 (g_end [([97], Gone (inr 7%nat)); ([98], Gone g_none); ([99], Gone g_none)]%N [([98], g_none); ([99], g_none)]%N) s') /\
  (forall s', ~ step 3 1 (g_end [([97], Gone (inr 7%nat)); ([98], Gone g_none); ([99], Sending g_none)]%N [([98], g_none)]%N) s').
Proof.
  assert (R : exists k, runs [[97]; [98]; [99]]%N k (g_end [([97], Gone (inr 7%nat)); ([98], Searching); ([99], Searching)]%N [])).
  { eexists. pose proof (@runs_nil nat nat [[97]; [98]; [99]]%N) as R.
    eapply runs_step in R; [|exact (st_search 3 3 [] [97]%N [([98], Searching); ([99], Searching)]%N [] _ (inr 7%nat))].
    eapply runs_step in R; [|eapply (st_send 3 3 [] [97]%N [([98], Searching); ([99], Searching)]%N [] _ (inr 7%nat)); cbn; lia].
    eapply runs_step in R; [|eapply st_err; cbn; lia]. exact R. }
  split; [exact R|]. split; [|split].
  - destruct R as (k & R). eexists. unfold g_end in R.
    eapply runs_step in R; [|exact (st_search 3 3 [([97], Gone (inr 7%nat))]%N [98]%N [([99], Searching)]%N [] _ g_none)].
    eapply runs_step in R; [|eapply (st_send 3 3 [([97], Gone (inr 7%nat))]%N [98]%N [([99], Searching)]%N [] _ g_none); cbn; lia].
    eapply runs_step in R; [|exact (st_search 3 3 [([97], Gone (inr 7%nat)); ([98], Gone g_none)]%N [99]%N [] _ _ g_none)].
    eapply runs_step in R; [|eapply (st_send 3 3 [([97], Gone (inr 7%nat)); ([98], Gone g_none)]%N [99]%N [] _ _ g_none); cbn; lia]. exact R.
  - intros s' ST. inversion ST as [a name b c m r W|a name b c m r L W| | | |]; subst; destruct a as [|? [|? [|? [|? a]]]]; discriminate.
  - intros s' ST. inversion ST as [a name b c m r W|a name b c m r L W C| | | |]; subst; [destruct a as [|? [|? [|? [|? a]]]]; discriminate|]. cbn in L. lia.
Qed.
