(** C17: the lines reported for a file. Two defects keep the full claim from holding:
    \A is tested anew after every hit, and the empty piece after a final newline counts as
    a line when the last real line was not reported. [C17_exact] says exactly what is
    reported; the partial theorem covers programs without \A, and confines the extra line. *)
From Verif Require Import Model.Base Model.Grep Model.Matcher Spec.MatchSpec Spec.GrepSpec Proofs.MatchTop
  Proofs.GrepTop.
From Coq Require Import Sorted.
Local Open Scope N_scope.

Theorem C17_exact : forall fuel p nctx m text, wf_prog p -> depth_ok fuel p -> used fuel p m ->
  exists m' out, grep_text fuel nctx m text = Some (m', out) /\ used fuel p m' /\
    StronglySorted lt (map h_no out) /\
    forall pieces, splits text pieces -> forall k line,
      reported out k line <-> piece_reported (line_match p) (map h_no out) pieces k line.
Proof. exact grep_exact. Qed.
Print Assumptions C17_exact.

(** Missing for the full claim: programs with \A, and the exclusion of the number after
    the last line. *)
Theorem C17_matching_lines_partial : forall fuel p nctx m text lines,
  wf_prog p -> depth_ok fuel p -> used fuel p m ->
  no_begin_text p -> file_lines text lines ->
  exists m' out, grep_text fuel nctx m text = Some (m', out) /\ used fuel p m' /\
    StronglySorted lt (map h_no out) /\
    (forall k line, (k < length lines)%nat ->
       (reported out k line <-> nth_error lines k = Some line /\ line_matches (line_match p) text k)) /\
    (forall k line, (length lines <= k)%nat -> reported out k line ->
       k = length lines /\ line = [] /\ lines <> [] /\ line_match p false true []).
Proof. exact grep_lines. Qed.
Print Assumptions C17_matching_lines_partial.

Theorem C17_lines_exist : forall text, exists lines, file_lines text lines /\
  forall l', file_lines text l' -> l' = lines.
Proof. exact file_lines_total. Qed.
Print Assumptions C17_lines_exist.

(** (?m)^$ on "a\n": line 2 is reported although the file has one line. *)
Definition C17_p1 := mkProg [IFail; IEmpty 1 2; IEmpty 2 3; IMatch] 1.
Theorem C17_phantom_line_refuted : exists fuel p m text lines m' h,
  wf_prog p /\ depth_ok fuel p /\ used fuel p m /\ file_lines text lines /\
  grep_text fuel 0 m text = Some (m', [h]) /\ length lines = 1%nat /\ h_no h = 2%nat.
Proof.
  destruct (matcher_init 520 C17_p1) as [m|] eqn:E; [|vm_compute in E; discriminate].
  exists 520%nat, C17_p1, m, [97;10], [[97]].
  destruct (grep_text 520 0 m [97;10]) as [[m' out]|] eqn:G.
  - exists m', (mkHit [] 2 [] []). split; [|split; [|split; [|split; [|split]]]].
    + split; [reflexivity|]. split; [reflexivity|]. intros i I. cbn in I.
      decompose [or] I; subst; repeat constructor; contradiction.
    + unfold depth_ok. apply Nat.ltb_lt. vm_compute. reflexivity.
    + constructor. assumption.
    + apply file_lines_iff. reflexivity.
    + cut (out = [mkHit [] 2 [] []]); [intros ->; reflexivity|].
      vm_compute in E. injection E as <-. vm_compute in G. congruence.
    + auto.
  - exfalso. vm_compute in E. injection E as <-. vm_compute in G. discriminate.
Qed.
Print Assumptions C17_phantom_line_refuted.

(** \Aa on "a\na": line 2 is reported although it does not match. *)
Definition C17_p2 := mkProg [IFail; IEmpty 4 2; IByte 97 97 false 3; IMatch] 1.
Theorem C17_begin_text_refuted : exists fuel p m text m' h1 h2,
  wf_prog p /\ depth_ok fuel p /\ used fuel p m /\
  grep_text fuel 0 m text = Some (m', [h1; h2]) /\ h_no h2 = 2%nat /\
  ~ line_matches (line_match p) text 1.
Proof.
  destruct (matcher_init 520 C17_p2) as [m|] eqn:E; [|vm_compute in E; discriminate].
  exists 520%nat, C17_p2, m, [97;10;97].
  destruct (grep_text 520 0 m [97;10;97]) as [[m' out]|] eqn:G.
  - exists m', (mkHit [97] 1 [] []), (mkHit [97] 2 [] []).
    assert (WF : wf_prog C17_p2).
    { split; [reflexivity|]. split; [reflexivity|]. intros i I. cbn in I.
      decompose [or] I; subst; repeat constructor; contradiction. }
    split; [assumption|]. split; [|split; [|split; [|split]]].
    + unfold depth_ok. apply Nat.ltb_lt. vm_compute. reflexivity.
    + constructor. assumption.
    + cut (out = [mkHit [97] 1 [] []; mkHit [97] 2 [] []]); [intros ->; reflexivity|].
      vm_compute in E. injection E as <-. vm_compute in G. congruence.
    + reflexivity.
    + intros (pcs & l & SP & Nl & M).
      assert (X : match_bytes 520 m [97] false true = None \/ exists m2, match_bytes 520 m [97] false true = Some (m2, None)).
      { right. vm_compute in E. injection E as <-. eexists. vm_compute. reflexivity. }
      assert (D : depth_ok 520 C17_p2) by (unfold depth_ok; apply Nat.ltb_lt; vm_compute; reflexivity).
      destruct (match_first_line 520 C17_p2 m [97] false true WF D (used_init _ _ _ E)) as (m3 & r & E3 & FH).
      destruct X as [X|(m2 & X)]; rewrite E3 in X; [discriminate|]. injection X as _ ->.
      apply Proofs.SplitProofs.splits_iff in SP. subst pcs. cbn in Nl. injection Nl as <-.
      apply (FH [[97]]) with (pre := []) (l := [97]) (post := []); [|reflexivity|exact M].
      apply Proofs.SplitProofs.splits_iff. reflexivity.
  - exfalso. vm_compute in E. injection E as <-. vm_compute in G. discriminate.
Qed.
Print Assumptions C17_begin_text_refuted.

(** b$ on "ab\nc\n\nb": lines 1 and 4, with one line of context. *)
Definition C17_p3 := mkProg [IFail; IByte 98 98 false 2; IEmpty 2 3; IMatch] 1.
Example C17_example : wf_prog C17_p3 /\ depth_ok 520 C17_p3 /\ no_begin_text C17_p3 /\
  exists m m', matcher_init 520 C17_p3 = Some m /\ used 520 C17_p3 m /\
    file_lines [97;98;10;99;10;10;98] [[97;98];[99];[];[98]] /\
    grep_text 520 1 m [97;98;10;99;10;10;98] =
      Some (m', [mkHit [97;98] 1 [] [[99]]; mkHit [98] 4 [[]] []]).
Proof.
  split; [|split; [|split]].
  - split; [reflexivity|]. split; [reflexivity|]. intros i I. cbn in I.
    decompose [or] I; subst; repeat constructor; contradiction.
  - unfold depth_ok. apply Nat.ltb_lt. vm_compute. reflexivity.
  - intros w a I. cbn in I. decompose [or] I; try discriminate; [|contradiction].
    injection H as <- _. reflexivity.
  - eexists. eexists. split; [vm_compute; reflexivity|]. split; [constructor; vm_compute; reflexivity|].
    split; [apply file_lines_iff; reflexivity|]. vm_compute. reflexivity.
Qed.
