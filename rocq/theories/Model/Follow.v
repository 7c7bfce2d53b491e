(** searcher.go:343-391, 411, 457-498: the variables of an update loop and of the searcher's index,
    beside the phases of Model/Server.v.

    Time is counted in steps of the server. [upstream t]: the revision of the repository at its
    source; a pull takes a while, and returns the revision of some time between its beginning and
    its end, or fails. An index is known by the time of the revision that it was built from
    (what it holds: Model/Whole.v, Model/Vcs.v). Locks: Model/Swap.v, Model/Locks.v. *)
From Verif Require Import Model.Base Model.Server.

Record vars := mkVars {
  known : str;              (* rev, 411, 488 *)
  began : nat;              (* when the pull under way began *)
  fetched : nat;            (* newRev, 358, is the revision of this time *)
  serves : option nat }.    (* the index in s.idx, or [None] if it has been destroyed *)
(** How a step of the loop ended. *)
Inductive outcome := Nothing | PullFailed | Same | Pulled | BuildFailed | Swapped | SwapFailed.

Section Loop.
  Context (upstream : nat -> str).
  (** A step of the loop at time [j], from one phase to another. *)
  Inductive loop_step (j : nat) (v : vars) : poller -> poller -> outcome -> vars -> Prop :=
    | mv_begin : loop_step j v PHeld PPull Nothing (mkVars (known v) j (fetched v) (serves v))
    (* 360-363 *)
    | mv_fail : loop_step j v PPull PRelease PullFailed v
    (* 365-367 *)
    | mv_same t : began v <= t -> t <= j -> upstream t = known v -> loop_step j v PPull PRelease Same v
    | mv_pulled t : began v <= t -> t <= j -> upstream t <> known v ->
        loop_step j v PPull PBuild Pulled (mkVars (known v) (began v) t (serves v))
    (* 370-380 *)
    | mv_nobuild : loop_step j v PBuild PRelease BuildFailed v
    | mv_built : loop_step j v PBuild PSwap Nothing v
    (* 382, 390, 488; an index that has been destroyed cannot be destroyed again *)
    | mv_swapped t : serves v = Some t -> loop_step j v PSwap PRelease Swapped (mkVars (upstream (fetched v)) (began v) (fetched v) (Some (fetched v)))
    (* 382-388: the new index is in s.idx, and destroyed if that succeeds *)
    | mv_swapfail o : o = None \/ o = Some (fetched v) -> loop_step j v PSwap PRelease SwapFailed (mkVars (known v) (began v) (fetched v) o)
    (* the rest of the loop *)
    | mv_loop p p' : match p with PGate | PWait | PCheck | PAcquire | PRelease => True | _ => False end -> loop_step j v p p' Nothing v.

  (** Repository [i] in the execution [x]: [vs] are the variables and [out] the outcomes. *)
  Definition follows (x : execution) (i : nat) (vs : nat -> vars) (out : nat -> outcome) : Prop := forall j,
    (ac x j = Poller i /\ loop_step j (vs j) (pl (repos (st x j) i)) (pl (repos (st x (S j)) i)) (out j) (vs (S j))) \/
    (* 411-455: newSearcher has pulled the revision of time [t], and opened its index *)
    (ac x j = Worker i /\ In (Made i true) (ev x j) /\ out j = Nothing /\
       exists t, t <= j /\ known (vs (S j)) = upstream t /\ serves (vs (S j)) = Some t) \/
    (ac x j <> Poller i /\ ~ In (Made i true) (ev x j) /\ out j = Nothing /\ vs (S j) = vs j).
End Loop.
