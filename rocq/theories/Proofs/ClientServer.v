(** The hits of a server search are of the shape the client's merging needs. *)
From Verif Require Import Model.Base Model.Grep Model.Matcher Model.Client Spec.MatchSpec Spec.GrepSpec Spec.ClientSpec
  Proofs.SplitProofs Proofs.GrepProofs Proofs.MatchTop Proofs.GrepTop Proofs.ContextProofs Proofs.ClientProofs.
From Coq Require Import Sorted Lia.
Local Open Scope nat_scope.

Lemma nth_firstn : forall {A} n (l : list A) i x, nth_error (firstn n l) i = Some x -> i < n /\ nth_error l i = Some x.
Proof.
  induction n; intros [|a l] [|i] x H; cbn in H; try discriminate.
  - split; [lia|exact H].
  - destruct (IHn _ _ _ H). split; [lia|assumption].
Qed.

Lemma drop_tail_prefix : forall l i x, nth_error (drop_tail l) i = Some x -> nth_error l i = Some x.
Proof.
  intros l i x H. destruct l as [|a l]; [exact H|].
  destruct (drop_tail_cases (a :: l)) as [C|[C _]]; [discriminate| |]; rewrite C.
  - rewrite nth_error_app1; [exact H|]. apply nth_error_Some. congruence.
  - rewrite C in H. rewrite <- C in H. exact H.
Qed.

(** lastn n (drop_head l) is a suffix of l *)
Lemma suffix_len : forall n (l : list str), exists k, lastn n (drop_head l) = skipn k l /\ k <= length l.
Proof.
  intros n l. unfold lastn. destruct l as [|[|c x] l]; cbn [drop_head].
  - exists 0. split; [apply skipn_nil|reflexivity].
  - exists (Datatypes.S (length l - n)). cbn [skipn length]. split; [reflexivity|lia].
  - exists (length ((c :: x) :: l) - n). split; [reflexivity|lia].
Qed.

Lemma hit_from_file : forall fuel p nctx m text m' out pieces h,
  wf_prog p -> depth_ok fuel p -> used fuel p m ->
  grep_text fuel nctx m text = Some (m', out) -> splits text pieces -> In h out -> from_file pieces h /\
    forall h', In h' out -> h_no h' < h_no h -> h_no h' < first_line h.
Proof.
  intros fuel p nctx m text m' out pieces h WF D U E SP I.
  destruct (grep_exact fuel p nctx m text WF D U) as (m1 & out1 & E1 & _ & SS & X).
  rewrite E in E1. injection E1 as <- <-.
  destruct (file_lines_total text) as (lines & FL & _).
  assert (PL : forall i x, nth_error lines i = Some x -> nth_error pieces i = Some x).
  { apply splits_iff in SP. apply file_lines_iff in FL. subst pieces lines. intros i x. apply drop_tail_prefix. }
  pose proof (after_lines _ _ _ _ _ _ _ _ _ WF D U E FL I) as EA.
  destruct (before_exact _ _ _ _ _ _ _ _ _ WF D U E FL I) as (j & J & JL & NB & EB).
  assert (HL : h_no h - 1 <= length lines).
  { destruct (hit_context fuel p nctx m text m' out h WF D U E I) as (A0 & pre & post & EP & En & _).
    apply file_lines_iff in FL. rewrite FL, EP, En, app_assoc, drop_tail_app, !app_length. lia. }
  destruct (suffix_len nctx (skipn j (firstn (h_no h - 1) lines))) as (k & EK & LK).
  rewrite EK in EB. rewrite skipn_length, firstn_length in LK.
  assert (LB : length (h_before h) = h_no h - 1 - j - k).
  { rewrite EB, !skipn_length, firstn_length. lia. }
  assert (NZ : 0 < h_no h) by lia.
  split.
  - split; [lia|]. split; [|split].
    + assert (R : reported out (h_no h - 1) (h_line h)).
      { exists h. split; [exact I|]. split; [lia|reflexivity]. }
      apply (X pieces SP) in R. apply R.
    + intros i l H. apply PL. rewrite EB in H. rewrite !nth_skipn in H. apply nth_firstn in H.
      destruct H as [H1 H2]. rewrite <- H2. f_equal. unfold first_line. lia.
    + intros i l H. apply PL. rewrite EA in H. apply nth_firstn in H. destruct H as [H1 H2].
      rewrite nth_skipn in H2. rewrite <- H2. f_equal.
  - intros h' I' L. specialize (NB h' I'). unfold first_line. lia.
Qed.

Theorem server_in_order : forall fuel p nctx m text m' out pieces,
  wf_prog p -> depth_ok fuel p -> used fuel p m ->
  grep_text fuel nctx m text = Some (m', out) -> splits text pieces ->
  Forall (from_file pieces) out /\ in_order out.
Proof.
  intros fuel p nctx m text m' out pieces WF D U E SP.
  pose proof (fun h I => hit_from_file fuel p nctx m text m' out pieces h WF D U E SP I) as H.
  split; [apply Forall_forall; intros h I; apply (H h I)|].
  destruct (grep_exact fuel p nctx m text WF D U) as (m1 & out1 & E1 & _ & SS & _).
  rewrite E in E1. injection E1 as <- <-.
  assert (G : forall l, incl l out -> StronglySorted lt (map h_no l) -> in_order l).
  { clear SS. induction l as [|h l IH]; intros IN SS; [constructor|].
    inversion SS as [|? ? S1 S2]. subst. constructor.
    - apply IH; [|exact S1]. intros x I. apply IN. right. exact I.
    - apply Forall_forall. intros h' I'. rewrite Forall_forall in S2.
      assert (L : h_no h < h_no h') by (apply S2; apply in_map; exact I').
      split; [exact L|]. destruct (H h' (IN _ (or_intror I'))) as (_ & Y).
      specialize (Y h (IN _ (or_introl eq_refl)) L). unfold first_line in *. lia. }
  apply G; [apply incl_refl|exact SS].
Qed.

Theorem server_shows : forall fuel p nctx m text m' out pieces,
  wf_prog p -> depth_ok fuel p -> used fuel p m ->
  grep_text fuel nctx m text = Some (m', out) -> splits text pieces ->
  exists bs, coalesceMatches out = Some bs /\ shows pieces out bs.
Proof.
  intros fuel p nctx m text m' out pieces WF D U E SP.
  destruct (server_in_order fuel p nctx m text m' out pieces WF D U E SP) as (A & B).
  apply coalesce_shows; assumption.
Qed.
