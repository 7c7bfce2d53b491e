(** Context lines. *)
From Verif Require Import Model.Base Model.Grep Model.Matcher Spec.MatchSpec Spec.GrepSpec Proofs.SplitProofs
  Proofs.GrepProofs Proofs.GrepPos Proofs.MatchTop Proofs.GrepTop.
From Coq Require Import Sorted.
Local Open Scope nat_scope.

Lemma drop_tail_app : forall a x b, drop_tail (a ++ x :: b) = a ++ drop_tail (x :: b).
Proof.
  induction a as [|y a IH]; intros x b; [reflexivity|]. cbn [app].
  destruct (a ++ x :: b) as [|z r] eqn:E; [destruct a; discriminate|].
  rewrite drop_tail_cons, <- E, IH. reflexivity.
Qed.

Lemma hit_context : forall fuel p nctx m text m' out h, wf_prog p -> depth_ok fuel p -> used fuel p m ->
  grep_text fuel nctx m text = Some (m', out) -> In h out ->
  ctx_ok nctx 0 (split_nl text) out h.
Proof.
  intros fuel p nctx m text m' out h WF D U E I.
  destruct (grep_text_ok fuel p nctx m text WF D U) as (m1 & E1 & _). rewrite E in E1. injection E1 as _ ->.
  destruct (grep_text_scan fuel p nctx text WF D) as (SC & _).
  destruct (scan_pos _ _ _ _ _ SC) as (_ & _ & _ & CX). auto.
Qed.

Lemma after_lines : forall fuel p nctx m text m' out lines h, wf_prog p -> depth_ok fuel p -> used fuel p m ->
  grep_text fuel nctx m text = Some (m', out) -> file_lines text lines -> In h out ->
  h_after h = firstn nctx (skipn (h_no h) lines).
Proof.
  intros fuel p nctx m text m' out lines h WF D U E FL I.
  destruct (hit_context fuel p nctx m text m' out h WF D U E I) as (A0 & pre & post & EP & En & _ & _ & _ & ->).
  apply file_lines_iff in FL. f_equal. rewrite FL, EP, En, app_assoc, drop_tail_app. cbn [Nat.add].
  replace (length A0 + length pre + 1) with (length (A0 ++ pre) + 1) by (rewrite app_length; lia).
  rewrite skipn_app, skipn_all2 by lia. replace (length (A0 ++ pre) + 1 - length (A0 ++ pre)) with 1 by lia.
  destruct post as [|y post]; [|rewrite drop_tail_cons; reflexivity].
  destruct (h_line h); reflexivity.
Qed.

Lemma before_exact : forall fuel p nctx m text m' out lines h, wf_prog p -> depth_ok fuel p -> used fuel p m ->
  grep_text fuel nctx m text = Some (m', out) -> file_lines text lines -> In h out ->
  exists j, (j = 0 \/ exists h', In h' out /\ h_no h' = j) /\ j < h_no h /\
    (forall h', In h' out -> ~ (j < h_no h' < h_no h)) /\
    h_before h = lastn nctx (drop_head (skipn j (firstn (h_no h - 1) lines))).
Proof.
  intros fuel p nctx m text m' out lines h WF D U E FL I.
  destruct (hit_context fuel p nctx m text m' out h WF D U E I) as (A0 & pre & post & EP & En & FR & NB & Eb & _).
  assert (Blt : Forall (fun h => 0 < h_no h) out).
  { destruct (grep_text_ok fuel p nctx m text WF D U) as (m1 & E1 & _). rewrite E in E1. injection E1 as _ ->.
    destruct (grep_text_scan fuel p nctx text WF D) as (SC & _).
    destruct (scan_pos _ _ _ _ _ SC) as (B & _). eapply Forall_impl; [|exact B]. cbn beta. intros; lia. }
  apply (fresh_iff 0 out (length A0) Blt) in FR. cbn [Nat.add] in *.
  exists (length A0). split.
  { destruct FR as [FR|(h' & I' & E')]; [auto|]. right. exists h'. split; [assumption|lia]. }
  split; [lia|]. split.
  { intros h' I'. destruct (NB h' I'); lia. }
  rewrite Eb. f_equal. f_equal. apply file_lines_iff in FL.
  rewrite FL, EP, En, app_assoc, drop_tail_app.
  replace (length A0 + length pre + 1 - 1) with (length (A0 ++ pre)) by (rewrite app_length; lia).
  rewrite firstn_exact, skipn_exact. reflexivity.
Qed.

Lemma before_window : forall fuel p nctx m text m' out lines h, wf_prog p -> depth_ok fuel p -> used fuel p m ->
  grep_text fuel nctx m text = Some (m', out) -> file_lines text lines -> In h out ->
  (forall h', In h' out -> ~ (h_no h <= h_no h' + nctx /\ h_no h' < h_no h)) ->
  nth_error lines (h_no h - 1 - nctx) <> Some [] \/ h_no h = 1 ->
  h_before h = lastn nctx (firstn (h_no h - 1) lines).
Proof.
  intros fuel p nctx m text m' out lines h WF D U E FL I NR NE.
  destruct (before_exact fuel p nctx m text m' out lines h WF D U E FL I) as (j & J & JL & NB & ->).
  assert (HL : h_no h - 1 <= length lines).
  { destruct (hit_context fuel p nctx m text m' out h WF D U E I) as (A0 & pre & post & EP & En & _).
    apply file_lines_iff in FL. rewrite FL, EP, En, app_assoc, drop_tail_app, !app_length. lia. }
  destruct NE as [NE|H1].
  2:{ rewrite H1. cbn [Nat.sub firstn]. rewrite skipn_nil. reflexivity. }
  set (k := h_no h - 1) in *. set (L := firstn k lines).
  assert (LL : length L = k) by (unfold L; rewrite firstn_length; lia).
  assert (SK : lastn nctx (skipn j L) = lastn nctx L).
  { destruct J as [->|(h' & I' & E')]; [reflexivity|]. specialize (NR h' I').
    rewrite <- (firstn_skipn j L) at 2. rewrite lastn_app; [reflexivity|]. rewrite skipn_length. lia. }
  rewrite <- SK.
  destruct (skipn j L) as [|[|c x] r] eqn:ES; [reflexivity| |reflexivity].
  (* the scan started at an empty line *)
  cbn [drop_head]. assert (LEN : length (skipn j L) = k - j) by (rewrite skipn_length; lia).
  rewrite ES in LEN. cbn [length] in LEN.
  destruct (Nat.le_gt_cases nctx (length r)) as [LE|GT].
  { symmetry. exact (lastn_app nctx [[]] r LE). }
  exfalso. apply NE.
  assert (J0 : j = k - nctx).
  { destruct J as [->|(h' & I' & E')]; [lia|]. specialize (NR h' I'). lia. }
  rewrite <- J0. rewrite <- (firstn_skipn k lines). fold L.
  rewrite nth_error_app1 by lia. rewrite <- (firstn_skipn j L), ES.
  rewrite nth_error_app2 by (rewrite firstn_length; lia). rewrite firstn_length.
  replace (j - Nat.min j (length L)) with 0 by lia. reflexivity.
Qed.
