(** A search for a plain text, from the request to the lines of the files. *)
From Verif Require Import Model.Base Model.GoStr Model.Query Model.Reader Model.Utf8 Model.Syntax Model.Matcher Model.Utf Model.Analyze Model.Grep Model.Search Model.Api
  Model.Request Model.Whole Model.GoRegexp Model.GoParse Spec.Utf8Spec Spec.RegexSpec Spec.MatchSpec Spec.GrepSpec Spec.RuneProgSpec Spec.ExprSpec Spec.ParsedSpec Spec.LiteralSpec
  Spec.WholeSpec Proofs.GrepTop Proofs.MatchTop Proofs.EndToEnd Proofs.SearchTop Proofs.UtfTop Proofs.AnalyzeTop Proofs.ExprLines Proofs.ExprSearch Proofs.ExprLiteral Proofs.GoRegexpTop Proofs.WholeSearch Proofs.LiteralParse Proofs.SplitProofs.
From Coq Require Import Sorted Lia.
Local Open Scope N_scope.

Lemma text_line : forall sf om ic rs file lines k line, folding sf om -> Forall scalar rs ->
  (ic = true -> forall r, In r rs -> 0x1044f < r -> sf r = r) -> file_lines file lines -> nth_error lines k = Some line ->
  (expr_on_line sf (erase (text_expr sf om ic rs)) file k <-> contains_text sf ic rs line).
Proof.
  intros sf om ic rs file lines k line FO SC OLD FL EN. destruct (text_expr_ok sf om FO ic rs SC OLD) as (_ & _ & M).
  pose proof (lines_pieces _ _ FL _ _ EN) as EP. rewrite expr_lines. split.
  - intros (pieces & l & SP & NP & u & w & v & E & H). apply splits_iff in SP. subst pieces. rewrite EP in NP. injection NP as <-.
    exists u, w, v. split; [exact E|]. apply M in H. exact H.
  - intros (u & w & v & E & H). exists (split_nl file), line. split; [apply splits_iff; reflexivity|]. split; [exact EP|].
    exists u, w, v. split; [exact E|]. apply M. exact H.
Qed.

(** The searcher: a stocked index with texts in UTF-8, and fewer lines with the text than the limit. *)
Record holding sf ic rs (max : Z) (s : served) (docs : list (str * str)) : Prop := {
  ho_stock : stocked (sv_ix s) (sv_raw s) docs;
  ho_names : NoDup (map fst docs);
  ho_texts : Forall (fun d => valid_utf8 (fst d) /\ valid_utf8 (snd d)) docs;
  ho_limit : (max <= 0)%Z \/ forall l : list (str * nat), NoDup l ->
    (forall name k, In (name, k) l -> exists text line, In (name, text) docs /\ line_with sf ic rs text k line) ->
    (Z.of_nat (length l) < max)%Z }.

Theorem literal_repo : forall grow sf om beyond ic rs chars, folding sf om -> Forall2 utf8 rs chars ->
  (ic = true -> forall r, In r rs -> 0x1044f < r -> sf r = r) -> 3 * N.of_nat (length rs) <= 2^25 ->
  exists p, byte_program sf om (text_expr sf om ic rs) = Some p /\
  (N.of_nat (length (p_inst p)) < 2^32 - 1 -> forall fuel, depth_ok fuel p ->
   forall q s docs, q_literal q = true -> q_query q = List.concat chars -> q_icase q = ic -> q_files q = [] -> q_exclude q = [] ->
   q_offset q = 0%Z -> q_limit q = 0%Z -> holding sf ic rs (q_max q) s docs ->
   exists r, search_repo fuel (compile_pattern sf om grow fuel beyond) QuoteMeta q s = Some (Some r) /\
     exists w, (forall d, In d docs -> (w d = true <-> exists k line, line_with sf ic rs (snd d) k line)) /\
       Forall2 (fun d f => fm_name f = fst d /\ forall k line, reported (fm_hits f) k line <-> line_with sf ic rs (snd d) k line)
         (filter w docs) (rs_matches r)).
Proof.
  intros grow sf om beyond ic rs chars FO CH OLD SM.
  assert (SC : Forall scalar rs) by (clear - CH; induction CH as [|r bs rs chars U _ IH]; constructor; [eapply Utf8Proofs.utf8_scalar; exact U|exact IH]).
  destruct (text_expr_ok sf om FO ic rs SC OLD) as (PA & RO & M). set (g := text_expr sf om ic rs) in *.
  destruct (regexp_Compile_ok sf om g (fo_ascii _ _ FO) PA RO) as (p & BP & MK). exists p. split; [exact BP|].
  intros SZ fuel D q s docs QL QQ QI QF QX QO QM [SK ND VU LM]. destruct (MK SZ fuel D) as (m & EM & U).
  destruct (regexp_query grow sf om (erase g)) as (h & tq) eqn:RQ.
  assert (SH : st_shared h = false).
  { eapply no_alt_query; [|exact RQ]. unfold g, text_expr. destruct rs; exact I. }
  destruct (parsed_compiled grow sf om g p tq h (fo_ascii _ _ FO) PA RO BP SZ RQ SH) as (P & CO).
  assert (NS : no_text_start (erase g)) by (unfold g, text_expr; destruct rs; exact I).
  assert (NN : ends_well sf (erase g)).
  { intros (u & w & v & E & MM) line _. apply M in MM. destruct u; [|discriminate]. destruct w; [|discriminate].
    exists line, [], []. split; [rewrite app_nil_r; reflexivity|]. apply M. exact MM. }
  assert (TL : forall text lines k line, file_lines text lines -> nth_error lines k = Some line -> (expr_on_line sf (erase g) text k <-> contains_text sf ic rs line))
    by (intros text lines k line; apply text_line; assumption).
  destruct (repo_found grow sf om (erase g) P tq p fuel (N.to_nat (q_ctx q)) None None m None CO NS NN D U I (sv_ix s) (sv_raw s) docs (sv_auto s) (sv_rev s) (request_opts q) SK ND VU)
    as (r & E & R & _); try (cbn [request_opts o_nctx o_offset o_limit]; auto; fail).
  { cbn [request_opts o_max]. destruct LM as [LM|LM]; [left; exact LM|right]. intros l NDl Hl. apply LM; [exact NDl|].
    intros name k I. destruct (Hl name k I) as (text & lines & Id & _ & FL & L & X). destruct (nth_error lines k) as [line|] eqn:EN; [|apply nth_error_None in EN; lia].
    exists text, line. split; [exact Id|]. exists lines. split; [exact FL|]. split; [exact EN|]. apply (TL _ _ _ _ FL EN), X. }
  exists r. split.
  { unfold search_repo. rewrite QL, QQ, QI, QF, QX. cbn [optional_filter]. unfold compile_pattern.
    rewrite (parse_quoted sf om ic rs chars CH). replace (max_runes <? 3 * N.of_nat (length rs)) with false by (symmetry; apply N.ltb_ge; exact SM).
    fold g. rewrite EM. cbn [bind]. rewrite RQ. cbn [snd]. exact E. }
  exists (keep p fuel (N.to_nat (q_ctx q)) None). split.
  - intros d Id. rewrite Forall_forall in VU. destruct (VU d Id) as (V1 & V2).
    rewrite (keep_spec grow sf om (erase g) P tq p fuel (N.to_nat (q_ctx q)) None None None CO NS NN D I d V1 V2).
    unfold wanted. split.
    + intros (_ & lines & k & FL & L & X). destruct (nth_error lines k) as [line|] eqn:EN; [|apply nth_error_None in EN; lia].
      exists k, line, lines. split; [exact FL|]. split; [exact EN|apply (TL _ _ _ _ FL EN), X].
    + intros (k & line & lines & FL & EN & X). split; [exact I|]. exists lines, k. split; [exact FL|]. split; [apply nth_error_Some; congruence|apply (TL _ _ _ _ FL EN), X].
  - rewrite R. assert (forall l, incl l docs -> Forall2 (fun d f => fm_name f = fst d /\ forall k line, reported (fm_hits f) k line <-> line_with sf ic rs (snd d) k line)
          l (map (doc_entry fuel (N.to_nat (q_ctx q)) p (sv_auto s)) l)) as G; [|apply G; intros d Id; apply filter_In in Id; apply Id].
    induction l as [|d l IH]; intros IN; [constructor|]. cbn [map]. constructor; [|apply IH; intros x I; apply IN; right; exact I].
    cbn [doc_entry fm_name fm_hits]. split; [reflexivity|]. intros k line. destruct (file_lines_total (snd d)) as (lines & FL & FU).
    destruct (compiled_wf _ _ _ _ _ _ _ CO) as (WF & _).
    destruct (hits_find _ _ _ _ _ _ _ fuel (N.to_nat (q_ctx q)) d CO NS NN WF D) as (_ & HF). destruct (HF lines FL) as (A & B).
    assert (V : valid_utf8 (snd d)) by (rewrite Forall_forall in VU; apply VU, IN; left; reflexivity).
    split.
    + intros RP. destruct (A k line RP) as (X & Y). exists lines. split; [exact FL|]. split; [exact X|]. apply (TL _ _ _ _ FL X), Y. apply valid_no_surrogates.
      eapply piece_valid; [exact V|apply splits_iff; reflexivity|]. eapply lines_pieces; eassumption.
    + intros (lines' & FL' & X & Y). rewrite (FU lines' FL') in X. apply B; [exact X|apply (TL _ _ _ _ FL X), Y].
Qed.

(** A text that is not UTF-8 is an error, and so is one that is too long. *)
Theorem literal_refused : forall grow sf om beyond fuel q s, q_literal q = true -> Forall is_byte (q_query q) ->
  (~ valid_utf8 (q_query q) \/ exists rs chars, Forall2 utf8 rs chars /\ q_query q = List.concat chars /\ 2^25 < 3 * N.of_nat (length rs)) ->
  search_repo fuel (compile_pattern sf om grow fuel beyond) QuoteMeta q s = Some None.
Proof.
  intros grow sf om beyond fuel q s QL FB H. unfold search_repo. rewrite QL. unfold compile_pattern.
  assert (Parse sf om (GetRegexpPattern (QuoteMeta (q_query q)) (q_icase q)) = Refused) as ->; [|reflexivity].
  destruct H as [NV|(rs & chars & CH & E & L)]; [apply parse_refused; assumption|]. rewrite E, (parse_quoted sf om _ rs chars CH).
  apply N.ltb_lt in L. change (2^25) with max_runes in L. rewrite L. reflexivity.
Qed.
