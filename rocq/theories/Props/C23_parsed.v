(** C23 for expressions as parsed: Simplify, syntax.Compile and toByteProg are models (C73), so
    nothing is assumed of the program. *)
From Verif Require Import Model.Base Model.Writer Model.IndexRun Model.Query Model.Reader Model.Syntax Model.Analyze
  Model.Matcher Model.Utf Model.Utf8 Model.Grep Model.Search Model.GoRegexp Model.IndexDir Spec.RunSpec Spec.QuerySpec Spec.Utf8Spec
  Spec.RegexSpec Spec.MatchSpec Spec.RuneProgSpec Spec.ExprSpec Spec.ParsedSpec Spec.GrepSpec Spec.SearchSpec Spec.TreeSpec
  Proofs.GrepTop Proofs.MatchTop Proofs.FillProofs Proofs.SearchTop Proofs.LookupProofs Proofs.IndexProofs Proofs.EndToEnd
  Proofs.AnalyzeTop Proofs.TreeSearch Proofs.UtfTop Proofs.ExprSearch Proofs.ExprTree Proofs.GoRegexpTop
  Props.C01_prefilter Props.C23_expressions Props.C73_compiled_expressions.
From Coq Require Import Sorted.
Local Open Scope N_scope.

(** Missing: expressions with \A and those that match the empty line behind the last newline
    but not every line, like ^$ (C17), and
    those whose analysis shares storage (C01, refuted in C23_expressions). *)
Theorem C23_parsed_partial : forall cap mem files vs b grow sf om g h q p fuel nctx raw auto rev re,
  (1 <= cap)%nat -> files_ok files -> build_index cap mem [] files = Some (vs, b) ->
  ascii_case sf -> parsed g -> runes_ok sf om (erase g) ->
  byte_program sf om g = Some p -> N.of_nat (length (p_inst p)) < 2^32 - 1 -> depth_ok fuel p -> used fuel p re ->
  regexp_query grow sf om (erase g) = (h, q) -> st_shared h = false ->
  no_text_start (erase g) -> ends_well sf (erase g) ->
  exists docs ix, kept files vs docs /\ ix_open b = Some ix /\
    (raw_ok raw docs ->
      exists r, search fuel (unlimited nctx) raw auto rev ix q re None None = Some (Some r) /\
        (forall f, In f (rs_matches r) -> exists d, In d docs /\ fm_name f = fst d /\ fm_hits f <> [] /\ finds sf (erase g) d (fm_hits f)) /\
        (forall d lines k line, In d docs -> file_lines (snd d) lines -> nth_error lines k = Some line ->
           expr_on_line sf (erase g) (snd d) k ->
           exists f, In f (rs_matches r) /\ fm_name f = fst d /\ reported (fm_hits f) k line)).
Proof.
  intros cap mem files vs b grow sf om g h q p fuel nctx raw auto rev re CA FO BI AC PA RO BP SM D U EQ SH NT NE.
  destruct (parsed_compiled grow sf om g p q h AC PA RO BP SM EQ SH) as (P & CO). eapply expression_search; eassumption.
Qed.
Print Assumptions C23_parsed_partial.

Theorem C23_parsed_repository_partial : forall cap opt mk_ok cr_ok json_ok mem rname u es b raw excl grow sf om g h q p fuel nctx rdr auto rev re,
  (1 <= cap)%nat -> good_tree (NDir u es) ->
  index_all_files cap opt mk_ok cr_ok json_ok mem rname (NDir u es) = Some (Some (b, raw, excl)) ->
  serves rdr raw ->
  ascii_case sf -> parsed g -> runes_ok sf om (erase g) ->
  byte_program sf om g = Some p -> N.of_nat (length (p_inst p)) < 2^32 - 1 -> depth_ok fuel p -> used fuel p re ->
  regexp_query grow sf om (erase g) = (h, q) -> st_shared h = false ->
  no_text_start (erase g) -> ends_well sf (erase g) ->
  exists ix r, ix_open b = Some ix /\ search fuel (unlimited nctx) rdr auto rev ix q re None None = Some (Some r) /\
    (forall f, In f (rs_matches r) -> exists cs m pk evs,
       found opt rname (NDir u es) cs m (NFile pk (Some evs)) /\ joined cs (fm_name f) /\ ~ hidden opt m /\
       fm_hits f <> [] /\ finds sf (erase g) (fm_name f, ev_content evs) (fm_hits f)) /\
    (forall cs m pk evs name lines k line, found opt rname (NDir u es) cs m (NFile pk (Some evs)) -> joined cs name ->
       ~ special opt m -> ev_ok evs -> ~ In name (map fst excl) ->
       file_lines (ev_content evs) lines -> nth_error lines k = Some line -> expr_on_line sf (erase g) (ev_content evs) k ->
       exists f, In f (rs_matches r) /\ fm_name f = name /\ reported (fm_hits f) k line).
Proof.
  intros cap opt mk_ok cr_ok json_ok mem rname u es b raw excl grow sf om g h q p fuel nctx rdr auto rev re CA GT IX SV AC PA RO BP SM D U EQ SH NT NE.
  destruct (parsed_compiled grow sf om g p q h AC PA RO BP SM EQ SH) as (P & CO). eapply expression_tree; eassumption.
Qed.
Print Assumptions C23_parsed_repository_partial.

(** The expression of C73's example meets the hypotheses: it compiles to a small program, a
    matcher can be made, its query shares no storage, and it does not match the empty line. *)
Example C23_parsed_example :
  exists p h q fuel re, byte_program ascii_fold 4 C73_re = Some p /\ N.of_nat (length (p_inst p)) < 2^32 - 1 /\
    depth_ok fuel p /\ used fuel p re /\ regexp_query go_grow ascii_fold 4 (erase C73_re) = (h, q) /\ st_shared h = false /\
    no_text_start (erase C73_re) /\ ends_well ascii_fold (erase C73_re) /\
    expr_on_line ascii_fold (erase C73_re) ([97; 10] ++ [107; 49; 50] ++ [10]) 1.
Proof.
  destruct C73_example as (AC & PA & RO & p & BP & SM & _).
  destruct (regexp_query go_grow ascii_fold 4 (erase C73_re)) as (h & q) eqn:EQ.
  destruct (C73_compiles ascii_fold 4 C73_re AC PA RO) as (p' & BP' & MK). rewrite BP in BP'. injection BP' as <-.
  assert (D : depth_ok (S (32 * 2 ^ length (p_inst p)))%nat p) by (unfold depth_ok; lia).
  destruct (MK SM _ D) as (m & _ & U).
  exists p, h, q, (S (32 * 2 ^ length (p_inst p)))%nat, m. split; [exact BP|]. split; [exact SM|]. split; [exact D|]. split; [exact U|].
  split; [reflexivity|]. split; [clear - EQ; vm_compute in EQ; injection EQ as <- _; reflexivity|]. split; [cbn; tauto|]. split.
  - intros X. exfalso. revert X. intros (u & w & v & E & M). destruct u; [|discriminate]. destruct w; [|discriminate]. cbn [rmatch erase map C73_re] in M.
    destruct M as (w1 & w2 & E1 & M & _). destruct w1; [|discriminate].
    cbn [spells] in M. destruct M as (r & u & v' & E3 & X & _). symmetry in E3. apply app_eq_nil in E3. destruct E3 as (-> & _). inversion X.
  - exists [97; 10], [107; 49; 50], [10]. split; [reflexivity|]. split; [reflexivity|]. split.
    { cbn. intros X. repeat (destruct X as [X|X]; [discriminate X|]). exact X. }
    exists [107], [49; 50]. split; [reflexivity|]. split.
    { exists 107, [107], []. split; [reflexivity|]. split; [apply utf8_1; reflexivity|]. split; [reflexivity|exists 1%nat; reflexivity]. }
    exists [49; 50], []. split; [reflexivity|]. split.
    { exists 2%nat. split; [|lia]. exists [49], [50]. split; [reflexivity|]. split.
      - exists 49. split; [apply utf8_1; reflexivity|]. left. split; discriminate.
      - exists [50], []. split; [reflexivity|]. split; [|reflexivity]. exists 50. split; [apply utf8_1; reflexivity|]. left. split; discriminate. }
    exists [], []. split; [reflexivity|]. split; [exists 0%nat; reflexivity|]. exists [], []. split; [reflexivity|]. split; [|reflexivity].
    split; [reflexivity|]. right. exists []. reflexivity.
Qed.
