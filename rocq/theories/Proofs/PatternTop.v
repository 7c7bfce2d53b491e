(** A search for a pattern, from the request to the lines of the files. *)
From Verif Require Import Model.Base Model.GoStr Model.Config Model.Query Model.Reader Model.Utf8 Model.Syntax Model.Matcher Model.Utf Model.Analyze Model.Grep Model.Search Model.Api
  Model.Request Model.Whole Model.PageState Model.PageView Model.GoRegexp Model.GoParse Spec.IndexSpec Spec.RunSpec Spec.QuerySpec Spec.Utf8Spec Spec.RegexSpec Spec.MatchSpec Spec.GrepSpec Spec.RuneProgSpec Spec.ExprSpec Spec.ParsedSpec Spec.LiteralSpec
  Spec.WholeSpec Spec.ClientSpec Spec.PresentSpec Spec.ViewSpec Spec.ApiSpec Spec.SearchSpec Spec.LoadSpec Spec.Names Spec.PlainSpec Spec.ExprPageSpec Spec.PatternSpec
  Proofs.GrepTop Proofs.MatchTop Proofs.EndToEnd Proofs.FillProofs Proofs.LookupProofs Proofs.IndexProofs Proofs.SearchProofs Proofs.SearchTop Proofs.UtfTop Proofs.AnalyzeTop Proofs.ExprLines Proofs.ExprSearch Proofs.GoRegexpTop Proofs.WholeSearch Proofs.SplitProofs
  Proofs.StrLemmas Proofs.PageServe Proofs.PageLoad Proofs.PageExpr Proofs.PatternParse.
From Coq Require Import Sorted Lia.
Local Open Scope N_scope.

(** The program that a pattern is compiled to is not too large for the matcher. *)
Definition fits (sf : N -> N) (om fuel : nat) (s : str) : Prop :=
  exists g p, Parse sf om s = Parsed g /\ byte_program sf om g = Some p /\ N.of_nat (length (p_inst p)) < 2^32 - 1 /\ depth_ok fuel p.

(** A pattern for lines is written as [s]; a pattern for names, if there is one. *)
Definition search_text (sf : N -> N) (om fuel : nat) (ic : bool) (pt : pat) (s : str) : Prop :=
  written Seq pt s /\ (ic = true -> forall r, In r (chars_of pt) -> 0x1044f < r -> sf r = r) /\ classes_ok sf om ic pt /\ (length s <= 997)%nat /\
  lines_only sf ic pt /\ fits sf om fuel (GetRegexpPattern s ic).
Definition filter_text (sf : N -> N) (om fuel : nat) (pt : option pat) (s : str) : Prop :=
  match pt with
  | None => s = []
  | Some pt => s <> [] /\ written Seq pt s /\ classes_ok sf om false pt /\ (length s <= 997)%nat /\ fits sf om fuel s
  end.

(** A file is looked for. *)
Definition pattern_looked (sf : N -> N) (ic : bool) (pt : pat) (ft xt : option pat) (d : str * str) : Prop :=
  match ft with None => True | Some ft => matched_name sf ft (fst d) end /\
  match xt with None => True | Some xt => ~ matched_name sf xt (fst d) end /\
  exists k line, matched_line sf ic pt (snd d) k line.

Section Pattern.
Variable grow : nat -> nat -> nat.
Variable sf : N -> N.
Variable om : nat.
Variable beyond : str -> option (query * matcher).
Variable fuel : nat.
Hypothesis FO : folding sf om.
Let compile := compile_pattern sf om grow fuel beyond.

Lemma compiles : forall s g ml, Parse sf om s = Parsed g -> good sf om ml g -> fits sf om fuel s ->
  exists P tq prog re, compile s = Some (tq, re) /\ compiled grow sf om (erase g) P tq prog /\ depth_ok fuel prog /\ used fuel prog re.
Proof.
  intros s g ml EP (PA & RO & NA & _) (g' & p & EP' & BP & SZ & D). assert (g' = g) by congruence. subst g'.
  destruct (regexp_Compile_ok sf om g (fo_ascii _ _ FO) PA RO) as (p' & BP' & MK). assert (p' = p) by congruence. subst p'.
  destruct (MK SZ fuel D) as (m & EM & U). destruct (regexp_query grow sf om (erase g)) as (h & tq) eqn:RQ.
  assert (SH : st_shared h = false) by (eapply no_alt_query; [exact NA|exact RQ]).
  destruct (parsed_compiled grow sf om g p tq h (fo_ascii _ _ FO) PA RO BP SZ RQ SH) as (P & CO).
  exists P, tq, p, m. split; [|auto]. unfold compile, compile_pattern. rewrite EP, EM. cbn [bind]. rewrite RQ. reflexivity.
Qed.
(** What a text is parsed as. *)
Definition parsed_as (s : str) : regexp := match Parse sf om s with Parsed g => erase g | _ => RNoMatch end.
Definition filter_as (s : str) : option regexp := match s with [] => None | _ => Some (parsed_as s) end.
Lemma search_parts : forall ic pt s, search_text sf om fuel ic pt s -> let ex := parsed_as (GetRegexpPattern s ic) in
  exists P tq prog re, compile (GetRegexpPattern s ic) = Some (tq, re) /\ compiled grow sf om ex P tq prog /\ no_text_start ex /\ ends_well sf ex /\ depth_ok fuel prog /\ used fuel prog re /\
    forall pre w post, rmatch sf ex pre w post <-> pmatch sf ic true pt pre w post.
Proof.
  intros ic pt s (W & OLD & CK & L & LO & FI) ex.
  destruct (parse_search sf om ic pt s FO W) as (g & EP & G & M); [split; [intros r I E; apply OLD; assumption|exact CK]|exact L|].
  destruct (compiles _ g true EP G FI) as (P & tq & prog & re & CP & CO & D & U). assert (EX : ex = erase g) by (unfold ex, parsed_as; rewrite EP; reflexivity). rewrite EX. exists P, tq, prog, re.
  split; [exact CP|]. split; [exact CO|]. split; [apply G; reflexivity|]. split; [|auto].
  intros (u & w & v & E & X) line NL. destruct (LO) with (line := line) as (u' & w' & v' & E' & X'); [|exact NL|].
  - exists u, w, v. split; [exact E|]. apply M, X.
  - exists u', w', v'. split; [exact E'|]. apply M, X'.
Qed.
Lemma filter_parts : forall pt s, filter_text sf om fuel pt s -> let fe := filter_as s in
  exists fp fre, optional_filter compile s = Some fre /\ filter_compiled fuel sf om fe fp fre /\
    match pt, fe with
    | None, None => True
    | Some pt, Some fe => forall pre w post, rmatch sf fe pre w post <-> pmatch sf false false pt pre w post
    | _, _ => False
    end.
Proof.
  intros [pt|] s H; cbn [filter_text] in H.
  - destruct H as (NE & W & CK & L & FI). destruct (parse_filter sf om pt s FO W CK L) as (g & EP & G & M).
    destruct (compiles s g false EP G FI) as (P & tq & prog & re & CP & CO & D & U). assert (EX : filter_as s = Some (erase g)) by (destruct s; [congruence|]; unfold filter_as, parsed_as; rewrite EP; reflexivity). cbv zeta. rewrite EX. exists (Some prog), (Some re).
    split; [destruct s; [congruence|]; cbn [optional_filter]; rewrite CP; reflexivity|]. split; [|exact M]. split; [eauto|auto].
  - subst s. exists None, None. split; [reflexivity|]. split; exact I.
Qed.

Lemma on_line : forall ic pt ex, (forall pre w post, rmatch sf ex pre w post <-> pmatch sf ic true pt pre w post) -> forall file k line,
  (exists lines, file_lines file lines /\ nth_error lines k = Some line /\ expr_on_line sf ex file k) <-> matched_line sf ic pt file k line.
Proof.
  intros ic pt ex M file k line. split.
  - intros (lines & FL & EN & (pre & w & post & E & NL & NW & X)). split; [eauto|]. exists pre, w, post. split; [exact E|]. split; [exact NL|]. split; [exact NW|apply M, X].
  - intros ((lines & FL & EN) & (pre & w & post & E & NL & NW & X)). exists lines. split; [exact FL|]. split; [exact EN|]. exists pre, w, post. split; [exact E|]. split; [exact NL|]. split; [exact NW|apply M, X].
Qed.
Lemma on_name : forall pt fe, (forall pre w post, rmatch sf fe pre w post <-> pmatch sf false false pt pre w post) -> forall name,
  (exists k, expr_on_line sf fe name k) <-> matched_name sf pt name.
Proof.
  intros pt fe M name. split.
  - intros (k & pre & w & post & E & _ & NW & X). exists pre, w, post. split; [exact E|]. split; [exact NW|apply M, X].
  - intros (pre & w & post & E & NW & X). exists (newlines pre), pre, w, post. split; [exact E|]. split; [reflexivity|]. split; [exact NW|apply M, X].
Qed.
Lemma looked_same : forall ic pt ft xt ex fe xe,
  (forall pre w post, rmatch sf ex pre w post <-> pmatch sf ic true pt pre w post) ->
  match ft, fe with None, None => True | Some pt, Some fe => forall pre w post, rmatch sf fe pre w post <-> pmatch sf false false pt pre w post | _, _ => False end ->
  match xt, xe with None, None => True | Some pt, Some fe => forall pre w post, rmatch sf fe pre w post <-> pmatch sf false false pt pre w post | _, _ => False end ->
  forall d, looked_for sf ex fe xe d <-> pattern_looked sf ic pt ft xt d.
Proof.
  intros ic pt ft xt ex fe xe M MF MX d. unfold looked_for, wanted, pattern_looked.
  assert (A : match fe with None => True | Some fe => exists k, expr_on_line sf fe (fst d) k end <-> match ft with None => True | Some ft => matched_name sf ft (fst d) end)
    by (destruct ft, fe; try contradiction; [apply on_name, MF|reflexivity]).
  assert (B : match xe with None => True | Some xe => forall k, ~ expr_on_line sf xe (fst d) k end <-> match xt with None => True | Some xt => ~ matched_name sf xt (fst d) end).
  { destruct xt, xe; try contradiction; [|reflexivity]. rewrite <- (on_name _ _ MX). split; [intros X (k & Y); exact (X k Y)|intros X k Y; apply X; eauto]. }
  assert (C : (exists lines k, file_lines (snd d) lines /\ (k < length lines)%nat /\ expr_on_line sf ex (snd d) k) <-> exists k line, matched_line sf ic pt (snd d) k line).
  { split.
    - intros (lines & k & FL & L & X). destruct (nth_error lines k) as [line|] eqn:EN; [|apply nth_error_None in EN; lia]. exists k, line. apply (on_line _ _ _ M). eauto.
    - intros (k & line & X). apply (on_line _ _ _ M) in X. destruct X as (lines & FL & EN & X). exists lines, k. split; [exact FL|]. split; [apply nth_error_Some; congruence|exact X]. }
  rewrite A, B, C. tauto.
Qed.

(** ** One repository *)
Record holds (ic : bool) (pt : pat) (max : Z) (s : served) (docs : list (str * str)) : Prop := {
  hd_stock : stocked (sv_ix s) (sv_raw s) docs;
  hd_names : NoDup (map fst docs);
  hd_texts : Forall (fun d => valid_utf8 (fst d) /\ valid_utf8 (snd d)) docs;
  hd_plain : Forall (fun d => plain_name (fst d)) docs;
  hd_limit : (max <= 0)%Z \/ forall l : list (str * nat), NoDup l ->
    (forall name k, In (name, k) l -> exists text line, In (name, text) docs /\ matched_line sf ic pt text k line) ->
    (Z.of_nat (length l) < max)%Z }.
Lemma found_filtered : forall ex P tq p fe fp fre xe xp xre re,
  compiled grow sf om ex P tq p -> no_text_start ex -> ends_well sf ex -> depth_ok fuel p -> used fuel p re -> filter_compiled fuel sf om fe fp fre -> filter_compiled fuel sf om xe xp xre ->
  forall ix raw docs auto rev o, stocked ix raw docs -> NoDup (map fst docs) ->
  Forall (fun d => valid_utf8 (fst d) /\ valid_utf8 (snd d)) docs -> Forall (fun d => plain_name (fst d)) docs ->
  o_offset o = 0%Z -> o_limit o = 0%Z -> (o_max o <= 0)%Z \/ few sf ex fe docs (o_max o) ->
  exists r, search fuel o raw auto rev ix tq re fre xre = Some (Some r) /\
    (forall d, In d docs -> (keep2 p fuel fp xp (o_nctx o) d = true <-> looked_for sf ex fe xe d)) /\
    rs_found r = Z.of_nat (length (rs_matches r)) /\
    Forall2 (fun d f => fm_name f = fst d /\ forall k line, reported (fm_hits f) k line <-> exists lines, file_lines (snd d) lines /\ nth_error lines k = Some line /\ expr_on_line sf ex (snd d) k)
      (filter (keep2 p fuel fp xp (o_nctx o)) docs) (rs_matches r).
Proof.
  intros ex P tq p fe fp fre xe xp xre re CO NS NE D U FC XC ix raw docs auto rev o SK ND VU PL OO OL MX.
  destruct (expr_entries grow sf om ex P tq p fuel fe xe fp xp re fre xre CO NS NE D U FC XC ix raw docs auto rev (o_nctx o) SK ND VU PL) as ((sub & SB) & r0 & E0 & KS & _ & FEW & RM0).
  assert (FE0 : exists r, search fuel o raw auto rev ix tq re fre xre = Some (Some r) /\ rs_matches r = rs_matches r0 /\ rs_found r = Z.of_nat (length (rs_matches r))).
  { destruct (search_pure fuel o p fp xp auto rev ix raw tq re fre xre sub SB) as (r & E & R & F & _).
    destruct (search_pure fuel (mkOpts (o_nctx o) 0 0 0) p fp xp auto rev ix raw tq re fre xre sub SB) as (r0' & E0' & R0 & _).
    assert (r0' = r0) by congruence. subst r0'. exists r. split; [exact E|].
    rewrite (entry_nctx fuel (mkOpts (o_nctx o) 0 0 0) o p auto eq_refl) in R0. set (fs := map (entry fuel o p auto) (sel_docs fuel fp xp sub)) in *.
    destruct (pfold_nomax (mkOpts (o_nctx o) 0 0 0) fs (Z.le_refl 0)) as (A0 & _). cbn [o_offset o_limit] in A0. rewrite window_all in A0.
    destruct (Z.le_gt_cases (o_max o) 0) as [L|L].
    - destruct (pfold_nomax o fs L) as (A & B & _). rewrite OO, OL, window_all in A. rewrite R, F, R0, A0, A, B. auto.
    - destruct MX as [MX|MX]; [lia|]. specialize (FEW _ MX). destruct (pfold_max o fs ltac:(lia)) as (A & B & _ & _ & _ & G). rewrite OO, OL, window_all in *.
      rewrite R0, A0 in FEW. destruct G as (G1 & G2 & _); [rewrite B, A, firstn_length; lia|]. rewrite R, F, R0, A0, G1, G2. auto. }
  destruct FE0 as (r & E & RM & RF). exists r. split; [exact E|]. split; [exact KS|]. split; [exact RF|]. rewrite RM.
  rewrite RM0. assert (G : forall l, incl l docs -> Forall2 (fun d f => fm_name f = fst d /\ forall k line, reported (fm_hits f) k line <-> exists lines, file_lines (snd d) lines /\ nth_error lines k = Some line /\ expr_on_line sf ex (snd d) k)
     l (map (doc_entry fuel (o_nctx o) p auto) l)); [|apply G; intros d Id; apply filter_In in Id; apply Id].
  induction l as [|d l IH]; intros IN; [constructor|]. cbn [map]. constructor; [|apply IH; intros x I0; apply IN; right; exact I0].
  split; [reflexivity|]. cbn [doc_entry fm_hits]. intros k line. destruct (file_lines_total (snd d)) as (lines & FL & FU).
  destruct (compiled_wf _ _ _ _ _ _ _ CO) as (WF & _). destruct (hits_find _ _ _ _ _ _ _ fuel (o_nctx o) d CO NS NE WF D) as (_ & HF). destruct (HF lines FL) as (A & B).
  assert (V : valid_utf8 (snd d)) by (rewrite Forall_forall in VU; apply VU, IN; left; reflexivity).
  split.
  - intros RP. destruct (A k line RP) as (X & Y). exists lines. split; [exact FL|]. split; [exact X|]. apply Y. apply valid_no_surrogates.
    eapply piece_valid; [exact V|apply splits_iff; reflexivity|]. eapply lines_pieces; eassumption.
  - intros (lines' & FL' & X & Y). rewrite (FU lines' FL') in X. apply B; [exact X|exact Y].
Qed.

Theorem pattern_repo : forall ic pt ft xt q s docs, q_literal q = false -> q_icase q = ic -> q_offset q = 0%Z -> q_limit q = 0%Z ->
  search_text sf om fuel ic pt (q_query q) -> filter_text sf om fuel ft (q_files q) -> filter_text sf om fuel xt (q_exclude q) -> holds ic pt (q_max q) s docs ->
  exists r, search_repo fuel compile QuoteMeta q s = Some (Some r) /\ rs_found r = Z.of_nat (length (rs_matches r)) /\
    exists w, (forall d, In d docs -> (w d = true <-> pattern_looked sf ic pt ft xt d)) /\
      Forall2 (fun d f => fm_name f = fst d /\ forall k line, reported (fm_hits f) k line <-> matched_line sf ic pt (snd d) k line) (filter w docs) (rs_matches r).
Proof.
  intros ic pt ft xt q s docs QL QI QO QM ST SF SX [SK ND VU PL LM].
  destruct (search_parts ic pt (q_query q) ST) as (P & tq & p & re & CP & CO & NS & NE & D & U & M).
  destruct (filter_parts ft (q_files q) SF) as (fp & fre & OF & FC & MF). destruct (filter_parts xt (q_exclude q) SX) as (xp & xre & OX & XC & MX).
  destruct (found_filtered _ P tq p _ fp fre _ xp xre re CO NS NE D U FC XC (sv_ix s) (sv_raw s) docs (sv_auto s) (sv_rev s) (request_opts q) SK ND VU PL) as (r & E & KS & RF & F2); try assumption.
  { cbn [request_opts o_max]. destruct LM as [LM|LM]; [left; exact LM|right]. intros l NDl Hl. apply LM; [exact NDl|].
    intros name k I. destruct (Hl name k I) as (text & lines & Id & _ & FL & L & X). destruct (nth_error lines k) as [line|] eqn:EN; [|apply nth_error_None in EN; lia].
    exists text, line. split; [exact Id|]. apply (on_line _ _ _ M). eauto. }
  exists r. split; [|split; [exact RF|]].
  { unfold search_repo. rewrite QL, QI, CP, OF, OX. exact E. }
  exists (keep2 p fuel fp xp (o_nctx (request_opts q))). split.
  - intros d Id. rewrite (KS d Id). apply looked_same; assumption.
  - eapply Forall2_imp; [|exact F2]. cbn beta. intros d f (A & B). split; [exact A|]. intros k line. rewrite (B k line). apply on_line, M.
Qed.

(** ** The page *)
(** What the parameters of a search ask for. *)
Definition pattern_asked (p : params) (ic : bool) (pt : pat) (ft xt : option pat) : Prop :=
  exists qt fs xs, given p (text "q") qt /\ given p (text "files") fs /\ given p (text "excludeFiles") xs /\ ~ on p (text "literal") /\ (ic = true <-> on p (text "i")) /\
    search_text sf om fuel ic pt qt /\ filter_text sf om fuel ft fs /\ filter_text sf om fuel xt xs.
Lemma asked_stands : forall p ic pt ft xt, pattern_asked p ic pt ft xt ->
  let ex := parsed_as (GetRegexpPattern (form_value p (text "q")) ic) in let fe := filter_as (form_value p (text "files")) in let xe := filter_as (form_value p (text "excludeFiles")) in
  stands_for fuel compile QuoteMeta grow sf om p ex fe xe /\
  (forall pre w post, rmatch sf ex pre w post <-> pmatch sf ic true pt pre w post) /\ (forall d, looked_for sf ex fe xe d <-> pattern_looked sf ic pt ft xt d).
Proof.
  intros p ic pt ft xt (qt & fs & xs & GQ & GF & GX & NL & IC & ST & SF & SX). rewrite (given_value _ _ _ GQ), (given_value _ _ _ GF), (given_value _ _ _ GX). cbv zeta.
  destruct (search_parts ic pt qt ST) as (P & tq & prog & re & CP & CO & NS & NE & D & U & M).
  destruct (filter_parts ft fs SF) as (fp & fre & OF & FC & MF). destruct (filter_parts xt xs SX) as (xp & xre & OX & XC & MX).
  split; [|split; [exact M|apply looked_same; assumption]].
  exists qt, fs, xs, false, ic, tq, re, P, prog, fp, fre, xp, xre. split; [exact GQ|]. split; [exact GF|]. split; [exact GX|]. split; [split; [discriminate|contradiction]|].
  split; [exact IC|]. split; [exact CP|]. auto 12.
Qed.
(** The rows of a file. *)
Definition pattern_listed (ic : bool) (pt : pat) (d : str * str) (f : file_match) : Prop :=
  fm_name f = fst d /\ exists blocks, CoalesceMatches (fm_hits f) = Some blocks /\
  Forall consecutive blocks /\ StronglySorted (fun r r' => row_no r < row_no r')%Z (List.concat blocks) /\
  (forall k t mk, In (k, t, mk) (List.concat blocks) -> (0 < k)%Z /\ exists pieces, splits (snd d) pieces /\ nth_error pieces (Z.to_nat k - 1) = Some t) /\
  (forall k line, In (Z.of_nat (S k), line, true) (List.concat blocks) <-> matched_line sf ic pt (snd d) k line).
Lemma listed_same : forall ic pt ex, (forall pre w post, rmatch sf ex pre w post <-> pmatch sf ic true pt pre w post) -> forall d f, listed_as sf ex d f -> pattern_listed ic pt d f.
Proof.
  intros ic pt ex M d f (A & blocks & B & C1 & C2 & C3 & C4). split; [exact A|]. exists blocks. split; [exact B|]. split; [exact C1|]. split; [exact C2|]. split; [exact C3|].
  intros k line. rewrite C4. apply on_line, M.
Qed.
Lemma lists_ext : forall (look look' : str * str -> Prop) (entry entry' : str * str -> file_match -> Prop) docs known p res, (forall d, look d <-> look' d) -> (forall d f, entry d f -> entry' d f) ->
  page_lists look entry docs known p res -> page_lists look' entry' docs known p res.
Proof.
  intros look look' entry entry' docs known p res L E (A & B & C). split; [exact A|]. split.
  - intros r. rewrite B. split; intros (X & d & I & Y); (split; [exact X|]); exists d; (split; [exact I|apply L, Y]).
  - eapply Forall_impl; [|exact C]. cbn beta. intros x (w & sel & rest & W & S1 & S2 & S3 & S4). exists w, sel, rest. split; [intros d I; rewrite (W d I); apply L|].
    split; [exact S1|]. split; [exact S2|]. split; [exact S3|]. eapply Forall2_imp; [|exact S4]. exact E.
Qed.

Section Page.
Variable servers : list (str * (repo * served)).
Variable def : Z.
Variable msg : str.
Variable docs : str -> list (str * str).
Variable ok ic : params -> bool.
Variable pt : params -> pat.
Variable ft xt : params -> option pat.
Hypothesis SAME : forall p p', same_search p p' -> ok p = ok p'.
Hypothesis NAMES : forall r, In r (map fst servers) -> trimmed r r /\ ~ In 44 r.
Hypothesis STOCK : forall r s, get servers r = Some s -> stocked (sv_ix (snd s)) (sv_raw (snd s)) (docs r) /\ NoDup (map fst (docs r)) /\
  Forall (fun d => valid_utf8 (fst d) /\ valid_utf8 (snd d)) (docs r) /\ Forall (fun d => plain_name (fst d)) (docs r) /\ (Z.of_nat (length (docs r)) < 2 ^ 63)%Z.
Hypothesis ASKED : forall p, ok p = true -> pattern_asked p (ic p) (pt p) (ft p) (xt p) /\
  ((def <= 0)%Z \/ forall r, In r (map fst servers) -> forall l : list (str * nat), NoDup l ->
     (forall name k, In (name, k) l -> exists text line, In (name, text) (docs r) /\ matched_line sf (ic p) (pt p) text k line) -> (Z.of_nat (length l) < def)%Z).
Let exof (p : params) := parsed_as (GetRegexpPattern (form_value p (text "q")) (ic p)).
Let feof (p : params) := filter_as (form_value p (text "files")).
Let xeof (p : params) := filter_as (form_value p (text "excludeFiles")).
Lemma asked_means : forall p, ok p = true -> stands_for fuel compile QuoteMeta grow sf om p (exof p) (feof p) (xeof p) /\
  ((def <= 0)%Z \/ forall r, In r (map fst servers) -> few sf (exof p) (feof p) (docs r) def).
Proof.
  intros p O. destruct (ASKED p O) as (PA & LM). destruct (asked_stands p _ _ _ _ PA) as (SF & M & _). split; [exact SF|]. destruct LM as [LM|LM]; [left; exact LM|right].
  intros r Ir l NDl Hl. apply (LM r Ir l NDl). intros name k I. destruct (Hl name k I) as (tx & lines & Id & _ & FL & L & X).
  destruct (nth_error lines k) as [line|] eqn:EN; [|apply nth_error_None in EN; lia]. exists tx, line. split; [exact Id|]. apply (on_line _ _ _ M). eauto.
Qed.
Theorem page_pattern : forall locale serve, msg <> [] ->
  (forall p, get_param p (text "limit") = None -> sends fuel compile QuoteMeta servers def msg p (serve p)) ->
  forall s last res, visit_of ok locale serve s last -> displays s res ->
  exists p, last = Some p /\ page_lists (pattern_looked sf (ic p) (pt p) (ft p) (xt p)) (pattern_listed (ic p) (pt p)) docs (fun r => In r (map fst servers)) p res.
Proof.
  intros locale serve ME SE s last res V DI.
  destruct (page_expr fuel compile QuoteMeta grow sf om servers def msg docs ok exof feof xeof SAME NAMES STOCK asked_means locale serve ME SE s last res V DI) as (p & E & L).
  exists p. split; [exact E|]. subst last. assert (O : ok p = true).
  { remember (Some p) as l eqn:EL. clear - V EL. revert EL. induction V as [|s last e s' V IH PO OK ST]; intros EL; [discriminate|]. destruct e; try (apply IH, EL). injection EL as <-. apply OK. reflexivity. }
  destruct (ASKED p O) as (PA & _). destruct (asked_stands p _ _ _ _ PA) as (_ & M & LK).
  eapply lists_ext; [exact LK|apply listed_same, M|exact L].
Qed.
Theorem page_pattern_all : forall locale serve, msg <> [] ->
  (forall p, get_param p (text "limit") = None -> sends fuel compile QuoteMeta servers def msg p (serve p)) ->
  forall s last p, visit_of ok locale serve s last -> polite serve s (Search p) -> ok p = true ->
  (forall req, same_search req p -> serve req <> Broke) ->
  exists s1 s2 res, page_step locale s (Search p) s1 /\ goes serve locale s1 s2 /\ displays s2 res /\
    page_lists (pattern_looked sf (ic p) (pt p) (ft p) (xt p)) (pattern_listed (ic p) (pt p)) docs (fun r => In r (map fst servers)) p res /\
    Forall (fun x => r_files x = Z.of_nat (length (r_matches x))) res.
Proof.
  intros locale serve ME SE s last p V PO O NB.
  destruct (page_expr_all fuel compile QuoteMeta grow sf om servers def msg docs ok exof feof xeof SAME NAMES STOCK asked_means locale serve ME SE s last p V PO O NB) as (s1 & s2 & res & A & B & C & L & F).
  exists s1, s2, res. split; [exact A|]. split; [exact B|]. split; [exact C|]. split; [|exact F].
  destruct (ASKED p O) as (PA & _). destruct (asked_stands p _ _ _ _ PA) as (_ & M & LK). eapply lists_ext; [exact LK|apply listed_same, M|exact L].
Qed.
End Page.
End Pattern.
