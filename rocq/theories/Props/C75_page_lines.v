(** C75: the lines the page shows for a file. *)
From Verif Require Import Model.Base Model.Grep Model.Matcher Model.PageView Spec.MatchSpec Spec.GrepSpec Spec.ClientSpec Spec.PresentSpec Spec.ViewSpec
  Proofs.SplitProofs Proofs.MatchTop Proofs.GrepTop Proofs.ClientServer Proofs.PageViewProofs.
From Coq Require Import Sorted.
Local Open Scope nat_scope.

(** For all matches with any context, as long as no match reaches further back than an
    earlier one: every line that is a match or in the context of one is shown once, in
    order, with its number and its text, marked exactly if it is a match; a block holds
    lines that follow each other. *)
Theorem C75_merge_partial : forall file ms, Forall (from_file file) ms -> in_order ms ->
  exists gs, CoalesceMatches ms = Some gs /\ covers file ms (concat gs) /\ Forall consecutive gs.
Proof. exact page_rows. Qed.
Print Assumptions C75_merge_partial.

(** Everything a search of a text returns is of that kind. *)
Theorem C75_server : forall fuel p nctx m text m' out pieces,
  wf_prog p -> depth_ok fuel p -> used fuel p m ->
  grep_text fuel nctx m text = Some (m', out) -> splits text pieces ->
  exists gs, CoalesceMatches out = Some gs /\ covers pieces out (concat gs) /\ Forall consecutive gs.
Proof.
  intros fuel p nctx m text m' out pieces WF D U E SP.
  destruct (server_in_order fuel p nctx m text m' out pieces WF D U E SP) as (A & B). exact (page_rows pieces out A B).
Qed.
Print Assumptions C75_server.

(** Line 3 without context, then line 4 with the lines before it: line 2 is not shown. *)
Theorem C75_ragged_context_refuted : exists file ms gs, Forall (from_file file) ms /\
  StronglySorted lt (map h_no ms) /\ CoalesceMatches ms = Some gs /\ ~ covers file ms (concat gs).
Proof.
  exists [[97]; [98]; [99]; [100]]%N, [mkHit [99%N] 3 [] []; mkHit [100%N] 4 [[98%N]; [99%N]] []].
  eexists. split; [|split; [|split; [vm_compute; reflexivity|]]].
  - repeat constructor; cbn; try lia; intros [|[|[|]]] l H; cbn in *; congruence.
  - repeat constructor.
  - intros (_ & C & _). destruct (proj2 (C 2%Z)) as (t & mk & I).
    + exists (mkHit [100%N] 4 [[98%N]; [99%N]] []). split; [right; left; reflexivity|]. cbn. lia.
    + cbn in I. intuition congruence.
Qed.
Print Assumptions C75_ragged_context_refuted.

(** Lines 2 and 4 with one line of context, then line 8: lines 1 to 5 and lines 7 and 8;
    line 3 is shown once, and line 4, which the first match does not show, is marked. *)
Definition C75_file : list str := [[1];[2];[3];[4];[5];[6];[7];[8]]%N.
Definition C75_ms := [mkHit [2%N] 2 [[1%N]] [[3%N]]; mkHit [4%N] 4 [[3%N]] [[5%N]]; mkHit [8%N] 8 [[7%N]] []].
Example C75_example : Forall (from_file C75_file) C75_ms /\ in_order C75_ms /\
  CoalesceMatches C75_ms =
  Some [[(1%Z, [1%N], false); (2%Z, [2%N], true); (3%Z, [3%N], false); (4%Z, [4%N], true); (5%Z, [5%N], false)];
        [(7%Z, [7%N], false); (8%Z, [8%N], true)]].
Proof.
  split; [|split; [|reflexivity]].
  - repeat constructor; cbn; try lia; intros [|[|[|]]] l H; cbn in *; congruence.
  - repeat constructor; cbn; lia.
Qed.
(** Lines 2 and 3, each in the context of the other: line 3 is marked in the block there is. *)
Example C75_example_marked :
  CoalesceMatches [mkHit [2%N] 2 [[1%N]] [[3%N]]; mkHit [3%N] 3 [[2%N]] [[4%N]]] =
  Some [[(1%Z, [1%N], false); (2%Z, [2%N], true); (3%Z, [3%N], true); (4%Z, [4%N], false)]].
Proof. reflexivity. Qed.
