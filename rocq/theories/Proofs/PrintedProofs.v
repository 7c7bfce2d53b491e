(** From the working copies of several repositories to what hound prints. *)
From Verif Require Import Model.Base Model.GoStr Model.Config Model.Query Model.Reader Model.Utf8 Model.Syntax Model.Matcher Model.Utf Model.Analyze Model.Grep Model.Search Model.Api
  Model.Request Model.Json Model.Wire Model.Client Model.Present Model.Whole Model.GoRegexp Model.GoParse Model.IndexDir
  Spec.Utf8Spec Spec.RunSpec Spec.IndexSpec Spec.RegexSpec Spec.MatchSpec Spec.ExprSpec Spec.GrepSpec Spec.LiteralSpec Spec.ApiSpec Spec.ClientSpec Spec.PresentSpec Spec.WireSpec
  Spec.WholeSpec Spec.TreeSpec Spec.CommitSpec Spec.PlainSpec Spec.WrittenSpec Spec.PrintedSpec
  Proofs.GrepTop Proofs.MatchTop Proofs.EndToEnd Proofs.ExprSearch Proofs.WholeSearch Proofs.WholeTop Proofs.LiteralParse Proofs.LiteralTop Proofs.StrLemmas Proofs.ApiProofs Proofs.AddressProofs Proofs.PageLiteral
  Proofs.CommitProofs Proofs.WrittenProofs.
From Coq Require Import Permutation Sorted Lia.
Local Open Scope N_scope.

Lemma rows_ext : forall ctx lines M M' rs, (forall k, (k < length lines)%nat -> (M k <-> M' k)) -> rows_shown ctx lines M rs -> rows_shown ctx lines M' rs.
Proof.
  intros ctx lines M M' rs EQ (SS & H). split; [exact SS|]. intros no t mk. rewrite (H no t mk).
  assert (LT : forall k, nth_error lines k = Some t -> (k < length lines)%nat) by (intros k E; apply nth_error_Some; congruence).
  split; intros (k & -> & E & MK & (k' & L & Mk' & A & B) & F); exists k; (split; [reflexivity|]); (split; [exact E|]); pose proof (LT k E) as Lk.
  - split; [rewrite <- (EQ k Lk); exact MK|]. split; [exists k'; rewrite <- (EQ k' L); auto|]. intros -> T. apply (EQ 0%nat Lk). exact (F eq_refl T).
  - split; [rewrite (EQ k Lk); exact MK|]. split; [exists k'; rewrite (EQ k' L); auto|]. intros -> T. apply (EQ 0%nat Lk). exact (F eq_refl T).
Qed.

Section Printed.
Variable sf : N -> N.
Variable ex : regexp.
Variable ic : bool.
Variable rs : list N.
Hypothesis TL : forall text lines k line, file_lines text lines -> nth_error lines k = Some line -> (expr_on_line sf ex text k <-> contains_text sf ic rs line).

Lemma on_line : forall text lines k, file_lines text lines -> (k < length lines)%nat -> (expr_on_line sf ex text k <-> exists line, line_with sf ic rs text k line).
Proof.
  intros text lines k FL L. destruct (nth_error lines k) as [line|] eqn:EN; [|apply nth_error_None in EN; lia]. rewrite (TL _ _ _ _ FL EN). split.
  - intros X. exists line, lines. auto.
  - intros (line' & lines' & FL' & EN' & X). destruct (file_lines_total text) as (l & _ & FU). rewrite (FU _ FL') in EN'. rewrite (FU _ FL) in EN. congruence.
Qed.
Lemma wanted_text : forall d, wanted sf ex None d <-> with_text sf ic rs (snd d).
Proof.
  intros d. split.
  - intros (_ & lines & k & FL & L & X). apply (on_line _ _ _ FL L) in X. destruct X as (line & X). exists k, line. exact X.
  - intros (k & line & lines & FL & EN & X). assert (L : (k < length lines)%nat) by (apply nth_error_Some; congruence). split; [exact I|]. exists lines, k.
    split; [exact FL|]. split; [exact L|]. apply (TL _ _ _ _ FL EN). exact X.
Qed.
Lemma few_text : forall docs n, few_lines sf ic rs docs n -> few sf ex None docs n.
Proof.
  intros docs n F l ND H. apply F; [exact ND|]. intros name k I. destruct (H name k I) as (t & lines & Id & _ & FL & L & X).
  apply (on_line _ _ _ FL L) in X. destruct X as (line & X). exists t, line. auto.
Qed.
Lemma shown_printed : forall ctx d s, file_shown ctx sf ex d s -> file_printed ctx sf ic rs d s.
Proof.
  intros ctx d s (lines & gs & ts & FL & R & G & E). exists lines, gs, ts. split; [exact FL|]. split; [|auto].
  eapply rows_ext; [|exact R]. intros k L. exact (on_line _ _ _ FL L).
Qed.

Lemma output_sources : forall ctx src docs names (selected : str -> Prop) s, (forall r, selected r -> exists v, kept_of (src r) v (docs r)) ->
  output_shown ctx sf ex None docs names selected s -> sources_printed ctx sf ic rs src names selected s.
Proof.
  intros ctx src docs names selected s K (rl & ts & ND & WHO & F & E). exists rl, ts. split; [exact ND|]. split; [intros r I; apply (WHO r), I|]. split; [|split; [|exact E]].
  - intros r name c SE HE T. apply WHO. split; [exact SE|]. destruct (K r SE) as (v & KP). exists (name, c). split; [apply KP; exact HE|]. apply wanted_text. exact T.
  - clear E. assert (WH : forall r, In r rl -> selected r /\ exists d, In d (docs r) /\ wanted sf ex None d) by (intros r I; apply WHO; exact I). clear WHO ND.
    induction F as [|r t rl ts (w & fts & W & FS & E) _ IH]; [constructor|]. constructor; [|apply IH; intros x I; apply WH; right; exact I].
    destruct (WH r (or_introl eq_refl)) as (SE & d & Id & Wd). destruct (K r SE) as (v & KP). exists (filter w (docs r)), fts. split; [|split; [|split; [|split; [|split; [|exact E]]]]].
    + intros X. assert (In d (filter w (docs r))) as Y by (apply filter_In; split; [exact Id|apply (W d Id); exact Wd]). rewrite X in Y. destruct Y.
    + apply nodup_kept. apply KP.
    + intros name c I. apply filter_In in I. destruct I as (I & X). split; [apply KP; exact I|]. apply (W _ I) in X. apply wanted_text in X. exact X.
    + intros name c HE T. assert (I : In (name, c) (docs r)) by (apply KP; exact HE). apply filter_In. split; [exact I|]. apply (W _ I). apply wanted_text. exact T.
    + eapply Forall2_imp; [|exact FS]. intros x y. apply shown_printed.
Qed.
End Printed.

(** The indices can be sent: names, revisions and sizes. *)
Definition sendable (src : str -> source) (servers : list (str * (repo * served))) : Prop := forall r s, get servers r = Some s ->
  valid_utf8 r /\ valid_utf8 (sv_rev (snd s)) /\ forall name c, file_in (src r) name c -> (Z.of_nat (length c) < 2 ^ 63 - 1)%Z.

Theorem text_printed : forall grow sf om beyond fuel servers def src, folding sf om -> NoDup (map fst servers) -> made_of src servers -> sendable src servers ->
  forall ic rs chars repos w st ctx host names listing en find, Forall2 utf8 rs chars -> feasible sf om fuel ic rs ->
  (def <= 0)%Z \/ (forall r, In r (map fst servers) -> few_lines_in sf ic rs (src r) def) ->
  ~ In 35 host -> ~ In 63 host -> Forall (fun c => c < 256) repos -> (ctx <= 20)%nat -> trimmed repos w ->
  (forall r, In r (map fst servers) -> repoNameFor listing r = Some (names r)) -> (forall t, positions 0 (length t) (find t)) ->
  let compile := compile_pattern sf om grow fuel beyond in
  let q := read_search (form_of (search_url host (QuoteMeta (List.concat chars)) repos [] (Z.of_nat ctx) ic st)) (map (fun s => (fst s, fst (snd s))) servers) def in
  exists arr, run_searches fuel compile QuoteMeta q servers (q_repos q) = Some arr /\
  forall arr' short msg dur, Permutation arr arr' -> int64_range dur -> int64_range (opened arr') ->
  exists res stats, read_answer (search_body short msg (q_stats q) dur arr') = Some (mkRecv (Some res) stats) /\
  forall order, Permutation res order ->
  exists out plain, Present en find (fun _ _ => false) (Z.of_nat ctx) listing (shape order) = (out, Done) /\ coloured plain (List.concat out) /\
    sources_printed ctx sf ic rs src names (fun r => In r (map fst servers) /\ (w = [42] \/ element w r)) plain.
Proof.
  intros grow sf om beyond fuel servers def src FO ND MADE SEND ic rs chars repos w st ctx host names listing en find CH FE LIM H1 H2 BR CX TR LN POS compile q.
  destruct (choose (fun r s d => kept_of (src r) (snd s) d) servers) as (docs & KD).
  { intros r s G. destruct (MADE r s G) as (rev & u & es & T & GT & UT & MF & _). exact (made_kept _ _ _ _ _ T GT UT MF). }
  destruct (literal_parts grow sf om beyond fuel FO ic rs chars CH FE) as (p & tq & m & P & CP & D & U & CO & NS & NN & TL).
  set (ex := erase (text_expr sf om ic rs)) in *.
  assert (BP : Forall (fun c => c < 256) (QuoteMeta (List.concat chars))).
  { apply quote_bytes. apply Forall_concat. clear - CH. induction CH as [|r bs rs chars X _ IH]; constructor; [exact (utf8_bytes _ _ X)|exact IH]. }
  destruct (whole_output fuel compile QuoteMeta grow sf om ex P tq p m None None None ctx CO NS NN D U I host (QuoteMeta (List.concat chars)) repos [] ic st servers def w docs names en find listing)
    as (arr & RUN & OUT); try assumption; try reflexivity; [constructor| |].
  - intros name r s IN _. pose proof (in_get servers name (r, s) ND IN) as G. destruct (SEND name (r, s) G) as (V1 & V2 & SZ). cbn [snd] in *. split; [exact V1|].
    assert (IK : In name (map fst servers)) by (apply (in_map fst) in IN; exact IN). split; [exact (LN name IK)|].
    pose proof (KD name (r, s) G) as K. destruct (MADE name (r, s) G) as (rev & u & es & _ & _ & _ & _ & CN). pose proof (few_kept _ _ _ K CN) as FK. cbn [snd] in *. constructor; try exact V2; try exact FK; try apply K.
    + destruct K as (_ & _ & VU & KI & _). rewrite Forall_forall in *. intros [n c] I0. destruct (VU _ I0) as (X & Y). split; [exact X|]. split; [exact Y|]. exact (SZ n c (KI n c I0)).
    + destruct LIM as [LIM|LIM]; [left; exact LIM|right]. apply (few_text sf ex ic rs TL). exact (few_lines_kept _ _ _ _ _ _ _ K (LIM name IK)).
  - exists arr. split; [exact RUN|]. intros arr' short msg dur PE I1 I2. destruct (OUT arr' short msg dur PE I1 I2) as (res & stats & RA & K). exists res, stats. split; [exact RA|].
    intros order PO. destruct (K order PO) as (out & plain & E1 & E2 & SH). exists out, plain. split; [exact E1|]. split; [exact E2|].
    apply (output_sources sf ex ic rs TL ctx src docs); [|exact SH]. intros r (IK & _). apply get_some in IK. destruct IK as (s & G). exists (snd s). exact (KD r s G).
Qed.
