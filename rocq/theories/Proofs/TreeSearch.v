(** Index a directory tree, search it. *)
From Verif Require Import Model.Base Model.Writer Model.IndexRun Model.Query Model.Reader Model.Matcher Model.Utf8 Model.Grep
  Model.Search Model.IndexDir Spec.IndexSpec Spec.RunSpec Spec.QuerySpec Spec.MatchSpec Spec.GrepSpec Spec.SearchSpec Spec.TreeSpec
  Proofs.GrepTop Proofs.MatchTop Proofs.FillProofs Proofs.SearchTop Proofs.LookupProofs Proofs.IndexProofs Proofs.EndToEnd
  Proofs.DirProofs Proofs.DirTop.
From Coq Require Import Sorted.
Local Open Scope N_scope.

(** [rdr] opens the raw copies: what it delivers for a name is what was stored. *)
Definition serves (rdr : str -> option reader) (raw : list (str * bytes)) : Prop :=
  forall name c, In (name, c) raw -> exists r, rdr name = Some r /\ rd_ok r = true /\ rd_content r = c.

Theorem search_tree : forall cap opt mk_ok cr_ok json_ok mem rname u es b raw excl fuel nctx p q rdr auto rev re,
  (1 <= cap)%nat -> good_tree (NDir u es) ->
  index_all_files cap opt mk_ok cr_ok json_ok mem rname (NDir u es) = Some (Some (b, raw, excl)) ->
  serves rdr raw ->
  wf_prog p -> depth_ok fuel p -> used fuel p re -> wf_query q -> bytes_query q -> covers q p ->
  no_begin_text p -> ~ line_match p false true [] ->
  exists ix r, ix_open b = Some ix /\ search fuel (unlimited nctx) rdr auto rev ix q re None None = Some (Some r) /\
    (forall f, In f (rs_matches r) -> exists cs m pk evs lines,
       found opt rname (NDir u es) cs m (NFile pk (Some evs)) /\ joined cs (fm_name f) /\ ~ hidden opt m /\
       file_lines (ev_content evs) lines /\
       (exists k, (k < length lines)%nat /\ line_matches (line_match p) (ev_content evs) k) /\
       StronglySorted lt (map h_no (fm_hits f)) /\
       forall k line, reported (fm_hits f) k line <->
         nth_error lines k = Some line /\ line_matches (line_match p) (ev_content evs) k) /\
    (forall cs m pk evs name lines k, found opt rname (NDir u es) cs m (NFile pk (Some evs)) -> joined cs name ->
       ~ special opt m -> ev_ok evs -> ~ In name (map fst excl) ->
       file_lines (ev_content evs) lines -> (k < length lines)%nat -> line_matches (line_match p) (ev_content evs) k ->
       exists f, In f (rs_matches r) /\ fm_name f = name /\ exists line, reported (fm_hits f) k line).
Proof.
  intros cap opt mk_ok cr_ok json_ok mem rname u es b raw excl fuel nctx p q rdr auto rev re C G IA SV WF D U WQ BQ CV NB NE.
  destruct (index_tree _ _ _ _ _ _ _ _ _ _ _ _ C G IA) as (files & vs & docs & BI & FO & K & _ & _ & DO & EX & ALL & _).
  destruct (end_to_end_lines cap mem files vs b fuel nctx p q rdr auto rev re C FO BI WF D U WQ BQ CV NB NE)
    as (docs' & ix & K' & OP & S). rewrite <- (kept_fun _ _ _ K _ K') in S. clear K' docs'.
  assert (RO : raw_ok rdr docs).
  { intros [name c] Id. destruct (DO name c Id) as [IR _]. exact (SV name c IR). }
  destruct (S RO) as (r & ES & SO & CO). exists ix, r. split; [assumption|]. split; [assumption|]. split.
  - intros f If. destruct (SO f If) as ([name c] & lines & Id & EN & FL & EK & SS & RP). cbn [fst snd] in *.
    destruct (DO name c Id) as (_ & cs & m & pk & evs & Fo & J & NH & TX & OK & -> & AC). subst name.
    exists cs, m, (Some pk), evs, lines. repeat (split; [assumption|]). assumption.
  - intros cs m pk evs name lines k Fo J NS OK NX FL L M.
    destruct (ALL cs m pk (Some evs) name Fo J NS) as [(c & Id)|[(why & Ie)|(evs' & E & NOK)]].
    + destruct (DO name c Id) as (_ & cs' & m' & pk' & evs' & Fo' & J' & _ & _ & OK' & -> & _).
      assert (cs' = cs).
      { apply joined_iff in J. apply joined_iff in J'. destruct J as [N1 J], J' as [N2 J'].
        apply join_inj; try assumption; [apply (found_good _ _ _ _ _ _ Fo' G)|apply (found_good _ _ _ _ _ _ Fo G)|congruence]. }
      subst cs'. destruct (found_fun _ _ _ _ _ _ Fo G _ _ Fo') as [_ EQ]. injection EQ as -> <-.
      destruct (CO (name, ev_content evs) lines k Id FL L M) as (f & If & EN & RP). exists f. auto.
    + exfalso. apply NX. apply (in_map fst) in Ie. exact Ie.
    + injection E as <-. contradiction.
Qed.
