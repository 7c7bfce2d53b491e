(** C43: the blocks the client prints. They are right for all matches, with any context,
    as long as no match reaches further back than an earlier one ([_partial]); everything a
    server search returns is of that kind ([C43_server]). For other contexts lines are lost
    ([_refuted]). *)
From Verif Require Import Model.Base Model.Grep Model.Matcher Model.Client Spec.MatchSpec Spec.GrepSpec Spec.ClientSpec
  Proofs.SplitProofs Proofs.MatchTop Proofs.GrepTop Proofs.ClientProofs Proofs.ClientServer.
From Coq Require Import Sorted.
Local Open Scope nat_scope.

Theorem C43_merge_partial : forall file ms, Forall (from_file file) ms -> in_order ms ->
  exists bs, coalesceMatches ms = Some bs /\ shows file ms bs.
Proof. exact coalesce_shows. Qed.
Print Assumptions C43_merge_partial.

(** Every search of a text, shown by the client ([pieces] are the lines of the text, and
    the empty one after a final newline, which the server may report: see C17). *)
Theorem C43_server : forall fuel p nctx m text m' out pieces,
  wf_prog p -> depth_ok fuel p -> used fuel p m ->
  grep_text fuel nctx m text = Some (m', out) -> splits text pieces ->
  exists bs, coalesceMatches out = Some bs /\ shows pieces out bs.
Proof. exact server_shows. Qed.
Print Assumptions C43_server.

(** Line 3 without context, then line 4 with both lines before it: line 2 is not shown. *)
Theorem C43_ragged_context_refuted : exists file ms bs, Forall (from_file file) ms /\
  StronglySorted lt (map h_no ms) /\ coalesceMatches ms = Some bs /\ ~ shows file ms bs.
Proof.
  exists [[97]; [98]; [99]; [100]]%N, [mkHit [99%N] 3 [] []; mkHit [100%N] 4 [[98%N]; [99%N]] []].
  eexists. split; [|split; [|split; [vm_compute; reflexivity|]]].
  - repeat constructor; cbn; try lia; intros [|[|[|]]] l H; cbn in *; congruence.
  - repeat constructor.
  - intros (_ & _ & C & _). destruct (proj2 (C 2%Z)) as (t & mk & I).
    + exists (mkHit [100%N] 4 [[98%N]; [99%N]] []). split; [right; left; reflexivity|]. cbn. lia.
    + cbn in I. intuition congruence.
Qed.
Print Assumptions C43_ragged_context_refuted.

(** Lines 2 and 4 with one line of context, then line 8. *)
Definition C43_file : list str := [[1];[2];[3];[4];[5];[6];[7];[8]]%N.
Definition C43_ms := [mkHit [2%N] 2 [[1%N]] [[3%N]]; mkHit [4%N] 4 [[3%N]] [[5%N]]; mkHit [8%N] 8 [[7%N]] []].
Example C43_example : Forall (from_file C43_file) C43_ms /\ in_order C43_ms /\
  coalesceMatches C43_ms = Some [mkBlock [[1];[2];[3];[4];[5]]%N [false;true;false;true;false] 1;
                                 mkBlock [[7];[8]]%N [false;true] 7].
Proof.
  split; [|split; [|reflexivity]].
  - repeat constructor; cbn; try lia; intros [|[|[|]]] l H; cbn in *; congruence.
  - repeat constructor; cbn; lia.
Qed.
