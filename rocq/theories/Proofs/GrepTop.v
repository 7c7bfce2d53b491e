(** index/grep.go with the real matcher. *)
From Verif Require Import Model.Base Model.Grep Model.Matcher Spec.MatchSpec Spec.GrepSpec Proofs.SplitProofs
  Proofs.GrepProofs Proofs.GrepPos Proofs.MatchTop.
From Coq Require Import Sorted Relations.
Local Open Scope nat_scope.

(** Search a whole text with the compiled expression [m], collecting the hits. *)
Definition re_match (fuel : nat) (m : matcher) (b : bytes) : option (matcher * option nat) :=
  match_bytes fuel m b true true.
Definition collect (acc : list hit) (h : hit) : list hit * bool := (acc ++ [h], true).
Definition grep_text (fuel nctx : nat) (m : matcher) (text : bytes) : option (matcher * list hit) :=
  grep2 (re_match fuel) collect nctx m [] text.

Definition ans_of (fuel : nat) (p : prog) (b : bytes) : option nat :=
  match matcher_init fuel p with
  | None => None
  | Some m => match re_match fuel m b with Some (_, r) => r | None => None end
  end.

Lemma re_match_ok : forall fuel p, wf_prog p -> depth_ok fuel p ->
  forall m b, used fuel p m -> exists m', re_match fuel m b = Some (m', ans_of fuel p b) /\ used fuel p m'.
Proof.
  intros fuel p WF D m b U. unfold re_match, ans_of.
  destruct (matcher_init fuel p) as [m0|] eqn:E0; [|exfalso; eapply init_total; eassumption].
  assert (U0 : used fuel p m0) by (constructor; assumption).
  destruct (match_first_line fuel p m b true true WF D U) as (m' & r & E & _).
  destruct (match_first_line fuel p m0 b true true WF D U0) as (m0' & r0 & E' & _).
  exists m'. unfold re_match. rewrite E'. rewrite (match_reuse _ _ _ _ _ _ _ _ _ _ _ WF D U U0 E E') in E.
  split; [assumption|]. exact (used_match fuel p m b true true m' r0 U E).
Qed.

Lemma ans_first : forall fuel p b, wf_prog p -> depth_ok fuel p ->
  first_hit (line_match p) true true b (ans_of fuel p b).
Proof.
  intros fuel p b WF D. unfold ans_of.
  destruct (matcher_init fuel p) as [m0|] eqn:E0; [|exfalso; eapply init_total; eassumption].
  assert (U0 : used fuel p m0) by (constructor; assumption). unfold re_match.
  destruct (match_first_line fuel p m0 b true true WF D U0) as (m0' & r0 & E' & H). rewrite E'. exact H.
Qed.

Lemma feed_collect : forall hs acc, feed collect acc hs = acc ++ hs.
Proof.
  induction hs as [|h hs IH]; intros acc; cbn [feed collect]; [rewrite app_nil_r; reflexivity|].
  rewrite IH, <- app_assoc. reflexivity.
Qed.

Definition hits_of (fuel nctx : nat) (p : prog) (text : bytes) : list hit :=
  match matcher_init fuel p with
  | None => []
  | Some m => match grep_text fuel nctx m text with Some (_, o) => o | None => [] end
  end.

Lemma grep_text_scan : forall fuel p nctx text, wf_prog p -> depth_ok fuel p ->
  scan (line_match p) nctx 0 (split_nl text) (hits_of fuel nctx p text) /\
  forall A (fn : A -> hit -> A * bool) m a, used fuel p m ->
    exists m', grep2 (re_match fuel) fn nctx m a text = Some (m', feed fn a (hits_of fuel nctx p text)) /\
      used fuel p m'.
Proof.
  intros fuel p nctx text WF D.
  destruct (grep2_text (line_match p) nctx _ (re_match fuel) (used fuel p) (ans_of fuel p)
              (re_match_ok fuel p WF D) (fun b => ans_first fuel p b WF D) text) as (out & SC & GO).
  assert (E : hits_of fuel nctx p text = out).
  { unfold hits_of. destruct (matcher_init fuel p) as [m0|] eqn:E0; [|exfalso; eapply init_total; eassumption].
    destruct (GO _ collect m0 [] (used_init _ _ _ E0)) as (m' & E & _). unfold grep_text. rewrite E.
    rewrite feed_collect. reflexivity. }
  rewrite E. auto.
Qed.

Lemma grep_text_ok : forall fuel p nctx m text, wf_prog p -> depth_ok fuel p -> used fuel p m ->
  exists m', grep_text fuel nctx m text = Some (m', hits_of fuel nctx p text) /\ used fuel p m'.
Proof.
  intros fuel p nctx m text WF D U. destruct (grep_text_scan fuel p nctx text WF D) as (_ & GO).
  destruct (GO _ collect m [] U) as (m' & E & U'). rewrite feed_collect in E. eauto.
Qed.

Lemma nos_0 : forall out, nos 0 out = map h_no out.
Proof. intros. unfold nos. apply map_ext. intros. lia. Qed.

Definition reported (out : list hit) (k : nat) (line : bytes) : Prop :=
  exists h, In h out /\ h_no h = S k /\ h_line h = line.

Lemma grep_exact : forall fuel p nctx m text, wf_prog p -> depth_ok fuel p -> used fuel p m ->
  exists m' out, grep_text fuel nctx m text = Some (m', out) /\ used fuel p m' /\
    StronglySorted lt (map h_no out) /\
    forall pieces, splits text pieces -> forall k line,
      reported out k line <-> piece_reported (line_match p) (map h_no out) pieces k line.
Proof.
  intros fuel p nctx m text WF D U. destruct (grep_text_ok fuel p nctx m text WF D U) as (m' & E & U').
  destruct (grep_text_scan fuel p nctx text WF D) as (SC & _).
  destruct (scan_pos _ _ _ _ _ SC) as (B & SS & PO & _).
  exists m', (hits_of fuel nctx p text). split; [assumption|]. split; [assumption|]. split; [assumption|].
  intros pieces SP. apply splits_iff in SP. subst pieces. intros k line. rewrite <- nos_0. apply PO.
Qed.

(** ** Programs without a begin-of-text assertion *)
Definition no_begin_text (p : prog) : Prop :=
  forall w a, In (IEmpty w a) (p_inst p) -> N.testbit w 2 = false.

Lemma line_match_bot : forall p b b' e l, no_begin_text p -> line_match p b e l -> line_match p b' e l.
Proof.
  intros p b b' e l NB (k0 & pc & k & L & R & M). exists k0, pc, k. split; [assumption|]. split; [|assumption].
  clear M L. induction R as [x y ST|x|x y z _ IH1 _ IH2]; [|apply rt_refl|eapply rt_trans; eassumption].
  apply rt_step. destruct ST; try (econstructor; eassumption).
  eapply step_assert; [eassumption|]. intros n T. specialize (H0 n T).
  destruct n as [|[[q|q|]|[q|q|]|]]; cbn [holds] in *; try assumption.
  exfalso. assert (X : N.testbit w 2 = false).
  { eapply NB. eapply nth_error_In. unfold instr in H. eassumption. }
  congruence.
Qed.

(** ** Lines of a file *)
Lemma drop_tail_last : forall l x, x <> [] -> drop_tail (l ++ [x]) = l ++ [x].
Proof. intros l x N. unfold drop_tail. rewrite rev_app_distr. cbn [rev app]. destruct x; [contradiction|reflexivity]. Qed.
Lemma drop_tail_nil : forall l, drop_tail (l ++ [[]]) = l.
Proof. intros l. unfold drop_tail. rewrite rev_app_distr. cbn [rev app]. apply rev_involutive. Qed.

Lemma file_lines_iff : forall text lines, file_lines text lines <-> lines = drop_tail (split_nl text).
Proof.
  intros text lines. split.
  - intros (pcs & SP & H). apply splits_iff in SP. rewrite <- SP. clear SP.
    destruct H as [->|[-> NL]]; [symmetry; apply drop_tail_nil|].
    destruct lines as [|x l]; [cbn in NL; contradiction|].
    destruct (@exists_last _ (x :: l)) as (i & y & E); [discriminate|]. rewrite E in *.
    rewrite last_last in NL. symmetry. apply drop_tail_last. assumption.
  - intros ->. exists (split_nl text). split; [apply splits_iff; reflexivity|].
    destruct (exists_last (split_nl_nonempty text)) as (i & y & E). rewrite E. destruct y as [|c y].
    + left. rewrite drop_tail_nil. reflexivity.
    + right. rewrite drop_tail_last by discriminate. rewrite last_last. split; [reflexivity|discriminate].
Qed.

Lemma file_lines_total : forall text, exists lines, file_lines text lines /\
  forall l', file_lines text l' -> l' = lines.
Proof.
  intros text. exists (drop_tail (split_nl text)). split; [apply file_lines_iff; reflexivity|].
  intros l'. apply file_lines_iff.
Qed.

Lemma drop_tail_cases : forall l, l <> [] ->
  l = drop_tail l ++ [[]] \/ (l = drop_tail l /\ exists i c y, l = i ++ [c :: y]).
Proof.
  intros l N. destruct (exists_last N) as (i & y & ->). destruct y as [|c y].
  - left. rewrite drop_tail_nil. reflexivity.
  - right. rewrite drop_tail_last by discriminate. eauto.
Qed.

Lemma grep_lines : forall fuel p nctx m text lines, wf_prog p -> depth_ok fuel p -> used fuel p m ->
  no_begin_text p -> file_lines text lines ->
  exists m' out, grep_text fuel nctx m text = Some (m', out) /\ used fuel p m' /\
    StronglySorted lt (map h_no out) /\
    (forall k line, k < length lines ->
       (reported out k line <-> nth_error lines k = Some line /\ line_matches (line_match p) text k)) /\
    (forall k line, length lines <= k -> reported out k line ->
       k = length lines /\ line = [] /\ lines <> [] /\ line_match p false true []).
Proof.
  intros fuel p nctx m text lines WF D U NB FL.
  destruct (grep_exact fuel p nctx m text WF D U) as (m' & out & E & U' & SS & X).
  exists m', out. split; [assumption|]. split; [assumption|]. split; [assumption|].
  specialize (X (split_nl text) (proj2 (splits_iff _ _) eq_refl)).
  apply file_lines_iff in FL.
  assert (BOT : forall b b' e l, line_match p b e l <-> line_match p b' e l).
  { intros. split; apply line_match_bot; assumption. }
  assert (LM : forall k line, nth_error (split_nl text) k = Some line ->
     (line_matches (line_match p) text k <-> line_match p (k =? 0) (S k =? length (split_nl text)) line)).
  { intros k line Nk. split.
    - intros (pc & l & SP & Nl & M). apply splits_iff in SP. subst pc. rewrite Nk in Nl. injection Nl as <-. assumption.
    - intros M. exists (split_nl text), line. split; [apply splits_iff; reflexivity|]. auto. }
  pose proof (split_nl_nonempty text) as NE.
  destruct (drop_tail_cases _ NE) as [C|[C (i & c & y & Ci)]]; rewrite <- FL in C.
  - split.
    + intros k line L. rewrite X. split.
      * intros (Nk & M & _). split.
        -- rewrite C in Nk. rewrite nth_error_app1 in Nk by assumption. assumption.
        -- rewrite (LM k line Nk). eapply BOT. exact M.
      * intros (Nk & M). assert (Nk' : nth_error (split_nl text) k = Some line).
        { rewrite C, nth_error_app1 by assumption. assumption. }
        split; [assumption|]. split.
        -- rewrite (LM k line Nk') in M. eapply BOT. exact M.
        -- intros (LL & _). rewrite C, app_length in LL. cbn in LL. lia.
    + intros k line L R. apply X in R. destruct R as (Nk & M & NP). rewrite C in Nk, M, NP.
      rewrite app_length in M, NP. cbn [length] in M, NP.
      assert (KL : k = length lines).
      { assert (HL : k < length (lines ++ [[]])) by (apply nth_error_Some; congruence).
        rewrite app_length in HL. cbn [length] in HL. lia. }
      subst k. rewrite nth_error_app2, Nat.sub_diag in Nk by lia. injection Nk as <-.
      split; [reflexivity|]. split; [reflexivity|]. split.
      * intros E0. apply NP. rewrite E0. cbn. auto.
      * rewrite (proj2 (Nat.eqb_eq _ _)) in M by lia. eapply BOT. exact M.
  - split.
    + intros k line L. rewrite X, <- C. split.
      * intros (Nk & M & _). split; [assumption|]. rewrite C in *. rewrite (LM k line Nk). eapply BOT. exact M.
      * intros (Nk & M). split; [assumption|]. split.
        -- rewrite C in *. rewrite (LM k line Nk) in M. eapply BOT. exact M.
        -- intros (LL & E0 & _). subst line. rewrite Ci in Nk, LL.
           rewrite app_length in LL. cbn in LL.
           replace k with (length i) in Nk by lia. rewrite nth_error_app2, Nat.sub_diag in Nk by lia. discriminate.
    + intros k line L R. apply X in R. destruct R as (Nk & _). rewrite C in Nk.
      assert (k < length lines) by (apply nth_error_Some; congruence). lia.
Qed.
