(** Executions of Model/Swap.v used as examples and as witnesses. *)
From Verif Require Import Model.Base Model.Swap Proofs.SwapProofs.

Local Notation ra := [97%N].
Local Notation rb := [98%N].

(** A search, an update to revision b, a search. *)
Lemma good_run : exists s, runs (initial ra)
  [Call 0; Touch 0 0 true; Touch 0 0 true; Answer 0 0 ra; Call 1; Publish 1 rb; Updated 1;
   Touch 1 1 true; Answer 1 1 rb] s.
Proof.
  pose proof (runs_nil (initial ra)) as R.
  eapply runs_event in R; [|apply (st_call _ 0); reflexivity].
  eapply runs_silent in R; [|apply (st_rlock _ 0); reflexivity].
  eapply runs_silent in R; [|apply (st_read _ 0); reflexivity].
  eapply runs_silent in R; [|apply (st_irlock _ 0 0); reflexivity].
  eapply runs_event in R; [|eapply (st_touch _ 0 0); reflexivity].
  eapply runs_silent in R; [|apply (st_pull _ rb); [reflexivity|reflexivity|discriminate]].
  eapply runs_event in R; [|eapply (st_touch _ 0 0); reflexivity].
  eapply runs_silent in R; [|apply (st_build _ rb); reflexivity].
  eapply runs_event in R; [|eapply (st_answer _ 0 0); reflexivity].
  eapply runs_silent in R; [|apply (st_runlock _ 0); reflexivity].
  eapply runs_event in R; [|apply (st_call _ 1); reflexivity].
  eapply runs_silent in R; [|apply (st_lock _ 1 rb); [reflexivity|reflexivity|]].
  2:{ intros [|[|t]]; reflexivity. }
  eapply runs_event in R; [|apply (st_set _ 1 rb); reflexivity].
  eapply runs_silent in R; [|apply (st_oldlock _ 1 rb 0); [reflexivity|reflexivity|]].
  2:{ intros [|[|t]]; reflexivity. }
  eapply runs_silent in R; [|eapply (st_oldclose _ 1 rb 0 _ true); [reflexivity|reflexivity|reflexivity|apply cl_ok; reflexivity]].
  eapply runs_silent in R; [|eapply (st_oldremove _ 1 rb 0 _ true); [reflexivity|reflexivity|reflexivity|apply rm_ok]].
  eapply runs_silent in R; [|apply (st_oldunlock _ 1 rb 0 true); reflexivity].
  eapply runs_event in R; [|apply (st_swapped _ 1 rb); reflexivity].
  eapply runs_silent in R; [|apply (st_rlock _ 1); reflexivity].
  eapply runs_silent in R; [|apply (st_read _ 1); reflexivity].
  eapply runs_silent in R; [|apply (st_irlock _ 1 1); reflexivity].
  eapply runs_event in R; [|eapply (st_touch _ 1 1); reflexivity].
  eapply runs_event in R; [|eapply (st_answer _ 1 1); reflexivity].
  eexists. exact R.
Qed.

(** An update whose removal of the old directory fails; the new index, already live, is
    destroyed in turn. *)
Lemma bad_run : exists s, runs (initial ra) [Publish 1 rb; SwapFailed 1; Undone 1 true] s /\
  up s = UIdle /\ search s = (fun _ => SNew) /\ excl s = (fun _ => XNew) /\ alive s = true /\ cur s = 1 /\
  nth_error (heap s) 1 = Some (mkIndex rb false false).
Proof.
  pose proof (runs_nil (initial ra)) as R.
  eapply runs_silent in R; [|apply (st_pull _ rb); [reflexivity|reflexivity|discriminate]].
  eapply runs_silent in R; [|apply (st_build _ rb); reflexivity].
  eapply runs_silent in R; [|apply (st_lock _ 1 rb); reflexivity].
  eapply runs_event in R; [|apply (st_set _ 1 rb); reflexivity].
  eapply runs_silent in R; [|apply (st_oldlock _ 1 rb 0); reflexivity].
  eapply runs_silent in R; [|eapply (st_oldclose _ 1 rb 0 _ true); [reflexivity|reflexivity|reflexivity|apply cl_ok; reflexivity]].
  eapply runs_silent in R; [|eapply (st_oldremove _ 1 rb 0 _ false); [reflexivity|reflexivity|reflexivity|apply rm_part]].
  eapply runs_silent in R; [|apply (st_oldunlock _ 1 rb 0 false); reflexivity].
  eapply runs_event in R; [|apply (st_swapfail _ 1 rb); reflexivity].
  eapply runs_silent in R; [|apply (st_newlock _ 1); reflexivity].
  eapply runs_silent in R; [|eapply (st_newclose _ 1 _ true); [reflexivity|reflexivity|reflexivity|apply cl_ok; reflexivity]].
  eapply runs_silent in R; [|eapply (st_newremove _ 1 _ true); [reflexivity|reflexivity|reflexivity|apply rm_ok]].
  eapply runs_event in R; [|apply (st_newunlock _ 1 true); reflexivity].
  eexists. split; [exact R|]. repeat split; reflexivity.
Qed.

Lemma bad_search : exists tr s, runs (initial ra) tr s /\ In (Touch 0 1 false) tr.
Proof.
  destruct bad_run as (s0 & R & E1 & E2 & E3 & E4 & E5 & E6).
  eapply runs_event in R; [|apply (st_call _ 0); [exact E4|rewrite E2; reflexivity]].
  eapply runs_silent in R; [|apply (st_rlock _ 0); [exact E4|reflexivity|cbn; rewrite E1; reflexivity]].
  eapply runs_silent in R; [|apply (st_read _ 0); [exact E4|reflexivity]].
  eapply runs_silent in R; [|apply (st_irlock _ 0 1); [exact E4|cbn; rewrite E5; reflexivity|cbn; rewrite E1; reflexivity]].
  eapply runs_event in R; [|eapply (st_touch _ 0 1); [exact E4|reflexivity|exact E6]].
  eexists. eexists. split; [exact R|]. apply in_or_app. right. left. reflexivity.
Qed.

(** The build or the opening of the index ends the process. *)
Lemma exit_run : exists s, runs (initial ra) [Exit] s /\ alive s = false.
Proof.
  pose proof (runs_nil (initial ra)) as R.
  eapply runs_silent in R; [|apply (st_pull _ rb); [reflexivity|reflexivity|discriminate]].
  eapply runs_event in R; [|apply (st_fatal _ rb); reflexivity].
  eexists. split; [exact R|reflexivity].
Qed.

(** The excluded-files request reads s.idx without the lock: by the time it opens the list,
    the index may be gone, although every update succeeded. *)
Lemma listed_late : exists s, runs (initial ra) [Publish 1 rb; Updated 1; Listed 0 0 false] s.
Proof.
  pose proof (runs_nil (initial ra)) as R.
  eapply runs_silent in R; [|apply (st_xread _ 0); reflexivity].
  eapply runs_silent in R; [|apply (st_pull _ rb); [reflexivity|reflexivity|discriminate]].
  eapply runs_silent in R; [|apply (st_build _ rb); reflexivity].
  eapply runs_silent in R; [|apply (st_lock _ 1 rb); reflexivity].
  eapply runs_event in R; [|apply (st_set _ 1 rb); reflexivity].
  eapply runs_silent in R; [|apply (st_oldlock _ 1 rb 0); reflexivity].
  eapply runs_silent in R; [|eapply (st_oldclose _ 1 rb 0 _ true); [reflexivity|reflexivity|reflexivity|apply cl_ok; reflexivity]].
  eapply runs_silent in R; [|eapply (st_oldremove _ 1 rb 0 _ true); [reflexivity|reflexivity|reflexivity|apply rm_ok]].
  eapply runs_silent in R; [|apply (st_oldunlock _ 1 rb 0 true); reflexivity].
  eapply runs_event in R; [|apply (st_swapped _ 1 rb); reflexivity].
  eapply runs_event in R; [|eapply (st_xlist _ 0 0); reflexivity].
  eexists. exact R.
Qed.
