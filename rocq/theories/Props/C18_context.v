(** C18: context lines. The lines after a match are always right. The lines before are
    cut at the previous match, and lose the first scanned line if that is empty: the claim
    holds if no match is within the context and the context does not begin with an empty
    line. *)
From Verif Require Import Model.Base Model.Grep Model.Matcher Spec.MatchSpec Spec.GrepSpec Proofs.MatchTop
  Proofs.GrepProofs Proofs.GrepTop Proofs.ContextProofs.
Local Open Scope nat_scope.

Theorem C18_after : forall fuel p nctx m text m' out lines h,
  wf_prog p -> depth_ok fuel p -> used fuel p m ->
  grep_text fuel nctx m text = Some (m', out) -> file_lines text lines -> In h out ->
  h_after h = firstn nctx (skipn (h_no h) lines).
Proof. exact after_lines. Qed.
Print Assumptions C18_after.

Theorem C18_before_partial : forall fuel p nctx m text m' out lines h,
  wf_prog p -> depth_ok fuel p -> used fuel p m ->
  grep_text fuel nctx m text = Some (m', out) -> file_lines text lines -> In h out ->
  (forall h', In h' out -> ~ (h_no h <= h_no h' + nctx /\ h_no h' < h_no h)) ->
  nth_error lines (h_no h - 1 - nctx) <> Some [] \/ h_no h = 1 ->
  h_before h = lastn nctx (firstn (h_no h - 1) lines).
Proof. exact before_window. Qed.
Print Assumptions C18_before_partial.

(** What is reported in every case: [j] is the number of the previous hit. *)
Theorem C18_before_exact : forall fuel p nctx m text m' out lines h,
  wf_prog p -> depth_ok fuel p -> used fuel p m ->
  grep_text fuel nctx m text = Some (m', out) -> file_lines text lines -> In h out ->
  exists j, (j = 0 \/ exists h', In h' out /\ h_no h' = j) /\ j < h_no h /\
    (forall h', In h' out -> ~ (j < h_no h' < h_no h)) /\
    h_before h = lastn nctx (drop_head (skipn j (firstn (h_no h - 1) lines))).
Proof. exact before_exact. Qed.
Print Assumptions C18_before_exact.

Definition C18_prog := mkProg [IFail; IByte 98 98 false 2; IMatch] 1%N.
Lemma C18_wf : wf_prog C18_prog /\ depth_ok 260 C18_prog.
Proof.
  split.
  - split; [reflexivity|]. split; [reflexivity|]. intros i I. cbn in I.
    decompose [or] I; subst; repeat constructor; contradiction.
  - unfold depth_ok. apply Nat.ltb_lt. vm_compute. reflexivity.
Qed.

(** b on "\nb": the empty line before the match is lost. *)
Theorem C18_empty_line_refuted : exists fuel p m text lines m' h,
  wf_prog p /\ depth_ok fuel p /\ used fuel p m /\ file_lines text lines /\
  grep_text fuel 1 m text = Some (m', [h]) /\ h_no h = 2 /\ h_before h = [] /\
  lastn 1 (firstn (h_no h - 1) lines) = [[]].
Proof.
  destruct (matcher_init 260 C18_prog) as [m|] eqn:E; [|vm_compute in E; discriminate].
  exists 260, C18_prog, m, [10;98]%N, [[];[98]]%N.
  destruct (grep_text 260 1 m [10;98]%N) as [[m' out]|] eqn:G;
    vm_compute in E; injection E as <-; vm_compute in G; [|discriminate].
  eexists. eexists. split; [apply C18_wf|]. split; [apply C18_wf|].
  split; [constructor; vm_compute; reflexivity|]. split; [apply file_lines_iff; reflexivity|].
  split; [symmetry; exact G|]. repeat split.
Qed.
Print Assumptions C18_empty_line_refuted.

(** b on "b\nb": the second match has no line before. *)
Theorem C18_previous_match_refuted : exists fuel p m text lines m' h1 h2,
  wf_prog p /\ depth_ok fuel p /\ used fuel p m /\ file_lines text lines /\
  grep_text fuel 1 m text = Some (m', [h1; h2]) /\ h_no h2 = 2 /\ h_before h2 = [] /\
  lastn 1 (firstn (h_no h2 - 1) lines) = [[98%N]].
Proof.
  destruct (matcher_init 260 C18_prog) as [m|] eqn:E; [|vm_compute in E; discriminate].
  exists 260, C18_prog, m, [98;10;98]%N, [[98];[98]]%N.
  destruct (grep_text 260 1 m [98;10;98]%N) as [[m' out]|] eqn:G;
    vm_compute in E; injection E as <-; vm_compute in G; [|discriminate].
  do 3 eexists. split; [apply C18_wf|]. split; [apply C18_wf|].
  split; [constructor; vm_compute; reflexivity|]. split; [apply file_lines_iff; reflexivity|].
  split; [symmetry; exact G|]. repeat split.
Qed.
Print Assumptions C18_previous_match_refuted.

(** b on "x\ny\n\nb\nz" with two lines of context: the hypotheses of the partial theorem
    hold and both sides are complete. *)
Example C18_example : exists m m' h, matcher_init 260 C18_prog = Some m /\
  grep_text 260 2 m [120;10;121;10;10;98;10;122]%N = Some (m', [h]) /\
  file_lines [120;10;121;10;10;98;10;122]%N [[120];[121];[];[98];[122]]%N /\
  nth_error [[120];[121];[];[98];[122]]%N (h_no h - 1 - 2) <> Some [] /\
  h_before h = [[121];[]]%N /\ h_after h = [[122]]%N.
Proof.
  do 3 eexists. split; [vm_compute; reflexivity|]. split; [vm_compute; reflexivity|].
  split; [apply file_lines_iff; reflexivity|]. split; [discriminate|]. split; reflexivity.
Qed.
