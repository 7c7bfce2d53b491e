(** Index a directory tree, search it for an expression. *)
From Verif Require Import Model.Base Model.Writer Model.IndexRun Model.Query Model.Reader Model.Syntax Model.Analyze
  Model.Matcher Model.Utf Model.Utf8 Model.Grep Model.Search Model.IndexDir Spec.IndexSpec Spec.RunSpec Spec.QuerySpec Spec.Utf8Spec
  Spec.RegexSpec Spec.MatchSpec Spec.RuneProgSpec Spec.ExprSpec Spec.GrepSpec Spec.SearchSpec Spec.TreeSpec
  Proofs.GrepTop Proofs.MatchTop Proofs.FillProofs Proofs.SearchTop Proofs.LookupProofs Proofs.IndexProofs Proofs.EndToEnd
  Proofs.DirProofs Proofs.DirTop Proofs.TreeSearch Proofs.UtfTop Proofs.ExprLines Proofs.ExprSearch.
From Coq Require Import Sorted.
Local Open Scope N_scope.

Theorem expression_tree : forall cap opt mk_ok cr_ok json_ok mem rname u es b raw excl grow sf om ex P q p fuel nctx rdr auto rev re,
  (1 <= cap)%nat -> good_tree (NDir u es) ->
  index_all_files cap opt mk_ok cr_ok json_ok mem rname (NDir u es) = Some (Some (b, raw, excl)) ->
  serves rdr raw ->
  compiled grow sf om ex P q p -> no_text_start ex -> ends_well sf ex ->
  depth_ok fuel p -> used fuel p re ->
  exists ix r, ix_open b = Some ix /\ search fuel (unlimited nctx) rdr auto rev ix q re None None = Some (Some r) /\
    (forall f, In f (rs_matches r) -> exists cs m pk evs,
       found opt rname (NDir u es) cs m (NFile pk (Some evs)) /\ joined cs (fm_name f) /\ ~ hidden opt m /\
       fm_hits f <> [] /\ finds sf ex (fm_name f, ev_content evs) (fm_hits f)) /\
    (forall cs m pk evs name lines k line, found opt rname (NDir u es) cs m (NFile pk (Some evs)) -> joined cs name ->
       ~ special opt m -> ev_ok evs -> ~ In name (map fst excl) ->
       file_lines (ev_content evs) lines -> nth_error lines k = Some line -> expr_on_line sf ex (ev_content evs) k ->
       exists f, In f (rs_matches r) /\ fm_name f = name /\ reported (fm_hits f) k line).
Proof.
  intros cap opt mk_ok cr_ok json_ok mem rname u es b raw excl grow sf om ex P q p fuel nctx rdr auto rev re C G IA SV CP NS NE D U.
  destruct (index_tree _ _ _ _ _ _ _ _ _ _ _ _ C G IA) as (files & vs & docs & BI & FO & K & _ & _ & DO & EX & ALL & _).
  destruct (expression_search cap mem files vs b grow sf om ex P q p fuel nctx rdr auto rev re C FO BI CP NS NE D U)
    as (docs' & ix & K' & OP & S). rewrite <- (kept_fun _ _ _ K _ K') in S. clear K' docs'.
  assert (RO : raw_ok rdr docs).
  { intros [name c] Id. destruct (DO name c Id) as [IR _]. exact (SV name c IR). }
  destruct (S RO) as (r & ES & SO & CO). exists ix, r. split; [assumption|]. split; [assumption|]. split.
  - intros f If. destruct (SO f If) as ([name c] & Id & EN & NH & FI). cbn [fst snd] in *.
    destruct (DO name c Id) as (_ & cs & m & pk & evs & Fo & J & NHi & TX & OK & -> & AC). subst name.
    exists cs, m, (Some pk), evs. repeat (split; [assumption|]). assumption.
  - intros cs m pk evs name lines k line Fo J NSp OK NX FL L M.
    destruct (ALL cs m pk (Some evs) name Fo J NSp) as [(c & Id)|[(why & Ie)|(evs' & E & NOK)]].
    + destruct (DO name c Id) as (_ & cs' & m' & pk' & evs' & Fo' & J' & _ & _ & OK' & -> & _).
      assert (cs' = cs).
      { apply joined_iff in J. apply joined_iff in J'. destruct J as [N1 J], J' as [N2 J'].
        apply join_inj; try assumption; [apply (found_good _ _ _ _ _ _ Fo' G)|apply (found_good _ _ _ _ _ _ Fo G)|congruence]. }
      subst cs'. destruct (found_fun _ _ _ _ _ _ Fo G _ _ Fo') as [_ EQ]. injection EQ as -> <-.
      destruct (CO (name, ev_content evs) lines k line Id FL L M) as (f & If & EN & RP). exists f. auto.
    + exfalso. apply NX. apply (in_map fst) in Ie. exact Ie.
    + injection E as <-. contradiction.
Qed.
