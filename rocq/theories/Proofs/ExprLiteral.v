(** Literal expressions. *)
From Verif Require Import Model.Base Model.Writer Model.IndexRun Model.Query Model.Reader Model.Syntax Model.Analyze
  Model.Matcher Model.Utf Model.Utf8 Model.Grep Model.Search Spec.IndexSpec Spec.RunSpec Spec.QuerySpec Spec.Utf8Spec
  Spec.RegexSpec Spec.MatchSpec Spec.RuneProgSpec Spec.ExprSpec Spec.GrepSpec Spec.SearchSpec
  Proofs.GrepTop Proofs.MatchTop Proofs.SearchTop Proofs.Utf8Proofs Proofs.LookupProofs Proofs.EndToEnd Proofs.AnalyzeTop
  Proofs.UtfTop Proofs.ExprLines Proofs.ExprSearch Proofs.GrepProofs Proofs.ContextProofs.
From Coq Require Import Sorted.
Local Open Scope N_scope.

Lemma encode_nonl : forall rs, Forall scalar rs -> ~ In 10 rs -> ~ In 10 (encode_runes rs).
Proof.
  induction rs as [|r rs IH]; intros F H; [intros []|]. apply Forall_cons_iff in F. destruct F as (Sr & F).
  change (encode_runes (r :: rs)) with (encode_rune r ++ encode_runes rs). rewrite in_app_iff. intros [I|I].
  - pose proof (encode_rune_utf8 r Sr) as U. apply H. left.
    destruct U; cbn [In] in I; repeat (destruct I as [I|I]; [lia|]); destruct I.
  - revert I. apply IH; [exact F|]. intros X. apply H. right. exact X.
Qed.

Lemma encode_some : forall rs, Forall scalar rs -> rs <> [] -> encode_runes rs <> [].
Proof.
  intros [|r rs] F NE; [congruence|]. apply Forall_cons_iff in F. destruct F as (Sr & _).
  change (encode_runes (r :: rs)) with (encode_rune r ++ encode_runes rs).
  pose proof (encode_rune_utf8 r Sr) as U. destruct (encode_rune r); [inversion U|discriminate].
Qed.

(** What is not empty and has no newline lies in a line of the file. *)
Lemma line_there : forall pre w post lines, w <> [] -> ~ In 10 w -> file_lines (pre ++ w ++ post) lines ->
  exists line, nth_error lines (newlines pre) = Some line.
Proof.
  intros pre w post lines NE W FL. apply file_lines_iff in FL. destruct (split_at pre w post W) as (a & u & v & b & E & L & _).
  subst lines. rewrite E, drop_tail_app. exists (u ++ w ++ v). rewrite nth_error_app2, L, Nat.sub_diag by lia.
  destruct b as [|x b]; [|rewrite drop_tail_cons; reflexivity].
  assert (u ++ w ++ v <> []) as X by (destruct u; [destruct w; [congruence|discriminate]|discriminate]).
  change [u ++ w ++ v] with ([] ++ [u ++ w ++ v]). rewrite drop_tail_last by exact X. reflexivity.
Qed.

Lemma literal_line : forall sf rs text k, Forall scalar rs -> ~ In 10 rs ->
  (expr_on_line sf (RLiteral false rs) text k <-> exists pre post, text = pre ++ encode_runes rs ++ post /\ newlines pre = k).
Proof.
  intros sf rs text k F NN. split.
  - intros (pre & w & post & -> & K & _ & M). cbn [rmatch] in M. apply spells_encode in M; [|exact F]. subst w. eauto.
  - intros (pre & post & -> & K). exists pre, (encode_runes rs), post. split; [reflexivity|]. split; [exact K|].
    split; [apply encode_nonl; assumption|]. cbn [rmatch]. apply spells_encode; auto.
Qed.

Lemma literal_compiled : forall grow sf om rs P h q p, ascii_case sf -> Forall scalar rs -> rs <> [] ->
  wf_xprog sf om P -> faithful sf (RLiteral false rs) P -> toByteProg sf om P = Some p ->
  N.of_nat (length (p_inst p)) < 2^32 - 1 -> regexp_query grow sf om (RLiteral false rs) = (h, q) ->
  compiled grow sf om (RLiteral false rs) P q p /\ no_text_start (RLiteral false rs) /\
  ends_well sf (RLiteral false rs).
Proof.
  intros grow sf om rs P h q p AC F NE W FA TB SM RQ. split; [|split].
  - constructor; try assumption; [exact I|]. exists h. split; [exact RQ|]. eapply no_alt_query; [|exact RQ]. exact I.
  - exact I.
  - intros X. exfalso. revert X. intros (u & w & v & E & M). cbn [rmatch] in M. apply spells_encode in M; [|exact F]. subst w.
    destruct u; [|discriminate]. pose proof (encode_some rs F NE) as X. destruct (encode_runes rs); [congruence|discriminate].
Qed.

Theorem literal_search : forall cap mem files vs b grow sf om rs P h q p fuel nctx raw auto rev re,
  (1 <= cap)%nat -> files_ok files -> build_index cap mem [] files = Some (vs, b) ->
  ascii_case sf -> Forall scalar rs -> rs <> [] -> ~ In 10 rs ->
  wf_xprog sf om P -> faithful sf (RLiteral false rs) P -> toByteProg sf om P = Some p ->
  N.of_nat (length (p_inst p)) < 2^32 - 1 -> regexp_query grow sf om (RLiteral false rs) = (h, q) ->
  depth_ok fuel p -> used fuel p re ->
  exists docs ix, kept files vs docs /\ ix_open b = Some ix /\
    (raw_ok raw docs ->
      exists r, search fuel (unlimited nctx) raw auto rev ix q re None None = Some (Some r) /\
        (forall f k line, In f (rs_matches r) -> reported (fm_hits f) k line -> no_surrogates line ->
           exists text, In (fm_name f, text) docs /\
             exists pre post, text = pre ++ encode_runes rs ++ post /\ newlines pre = k) /\
        (forall name pre post, In (name, pre ++ encode_runes rs ++ post) docs ->
           exists f line, In f (rs_matches r) /\ fm_name f = name /\ reported (fm_hits f) (newlines pre) line)).
Proof.
  intros cap mem files vs b grow sf om rs P h q p fuel nctx raw auto rev re C FO BI AC F NE NN W FA TB SM RQ D U.
  destruct (literal_compiled grow sf om rs P h q p AC F NE W FA TB SM RQ) as (CO & NS & NI).
  destruct (expression_search cap mem files vs b grow sf om _ P q p fuel nctx raw auto rev re C FO BI CO NS NI D U)
    as (docs & ix & K & OP & S).
  exists docs, ix. split; [exact K|]. split; [exact OP|]. intros RO. destruct (S RO) as (r & ES & SO & CM).
  exists r. split; [exact ES|]. split.
  - intros f k line If RP NSu. destruct (SO f If) as ([name text] & Id & EN & _ & _ & FI). cbn [fst snd] in *.
    exists text. rewrite EN. split; [exact Id|].
    assert (exists lines, file_lines text lines) as (lines & FL) by (destruct (file_lines_total text) as (l & A & _); eauto).
    destruct (FI lines FL) as (A & _). destruct (A k line RP) as (_ & B). apply (literal_line sf); [assumption..|]. apply B, NSu.
  - intros name pre post Id. destruct (file_lines_total (pre ++ encode_runes rs ++ post)) as (lines & FL & _).
    destruct (line_there pre (encode_runes rs) post lines) as (line & L); [apply encode_some; assumption|apply encode_nonl; assumption|exact FL|].
    destruct (CM (name, _) lines (newlines pre) line Id FL L) as (f & If & EN & RP); [|exists f, line; cbn [fst] in EN; auto].
    apply literal_line; [assumption..|]. exists pre, post. split; reflexivity.
Qed.
