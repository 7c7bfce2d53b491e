(** A search for a plain text on the page, down to the files. *)
From Verif Require Import Model.Base Model.GoStr Model.Config Model.Query Model.Reader Model.Utf8 Model.Syntax Model.Matcher Model.Utf Model.Analyze Model.Grep Model.Search Model.Api
  Model.Request Model.Whole Model.GoRegexp Model.GoParse Model.PageState Model.PageView Spec.IndexSpec Spec.RunSpec Spec.QuerySpec Spec.Utf8Spec Spec.RegexSpec Spec.MatchSpec Spec.GrepSpec Spec.RuneProgSpec Spec.ExprSpec Spec.ParsedSpec Spec.LiteralSpec
  Spec.WholeSpec Spec.ClientSpec Spec.PresentSpec Spec.ViewSpec Spec.ApiSpec Spec.SearchSpec Spec.LoadSpec Spec.Names Spec.PlainSpec
  Proofs.GrepTop Proofs.MatchTop Proofs.EndToEnd Proofs.FillProofs Proofs.LookupProofs Proofs.IndexProofs Proofs.SearchProofs Proofs.SearchTop Proofs.UtfTop Proofs.AnalyzeTop Proofs.ExprLines Proofs.ExprSearch Proofs.ExprLiteral Proofs.GoRegexpTop Proofs.WholeSearch Proofs.LiteralParse Proofs.LiteralTop Proofs.SplitProofs
  Proofs.StrLemmas Proofs.ClientServer Proofs.PageViewProofs Proofs.ApiProofs Proofs.PageServe Proofs.PageLoad.
From Coq Require Import Sorted Lia.
Local Open Scope N_scope.

(** ** The searcher *)
Lemma stocked_searchable : forall grow sf om ex P q p fuel re ix raw docs, compiled grow sf om ex P q p -> depth_ok fuel p -> used fuel p re ->
  stocked ix raw docs -> exists sub, searchable fuel p None None ix raw q re None None sub.
Proof.
  intros grow sf om ex P q p fuel re ix raw docs CO D U (cap & mem & files & vs & b & C & FO & BI & K & OP & RO).
  destruct (compiled_wf _ _ _ _ _ _ _ CO) as (WF & WQ & BQ & _).
  destruct (names_roundtrip cap mem [] files vs b C FO (Forall_nil _) BI) as (docs' & ix' & K' & OP' & _ & NM & _).
  rewrite OP in OP'. injection OP' as <-. rewrite <- (kept_fun _ _ _ K _ K') in NM. clear K' docs'.
  destruct (lookup_exact cap mem [] files vs b q None C FO BI WQ BQ) as (docs' & ix' & K' & OP' & LK).
  rewrite OP in OP'. injection OP' as <-. rewrite <- (kept_fun _ _ _ K _ K') in LK. clear K' docs'.
  destruct (LK I) as (ids & EQ & SS & HI).
  destruct (pick_docs (fun d => sat (fun t => exists p s, snd d = p ++ t ++ s) q) docs 0 (slice_list ids) SS) as (sub & F2 & FE).
  { intros i. rewrite HI. rewrite N.sub_0_r. split; [intros [_ H]; split; [lia|exact H]|intros [_ H]; auto]. }
  exists sub. constructor; try assumption; try exact I. exists ids. split; [assumption|].
  eapply Forall2_imp; [|exact F2]. cbn beta. intros i d (_ & E). rewrite N.sub_0_r in E. split.
  + specialize (NM (N.to_nat i) d E). rewrite Nnat.N2Nat.id in NM. exact NM.
  + apply RO. eapply nth_error_In. exact E.
Qed.
Lemma hits_in_order : forall fuel nctx p text pieces, wf_prog p -> depth_ok fuel p -> splits text pieces ->
  Forall (from_file pieces) (hits_of fuel nctx p text) /\ in_order (hits_of fuel nctx p text).
Proof.
  intros fuel nctx p text pieces WF D SP. unfold hits_of. destruct (matcher_init fuel p) as [m|] eqn:EM; [|split; constructor].
  destruct (grep_text fuel nctx m text) as [[m' out]|] eqn:EG; [|split; constructor].
  eapply server_in_order; try eassumption. constructor. exact EM.
Qed.

Section Text.
Variable grow : nat -> nat -> nat.
Variable sf : N -> N.
Variable om : nat.
Variable beyond : str -> option (query * matcher).
Variable fuel : nat.
Hypothesis FO : folding sf om.

Definition feasible (ic : bool) (rs : list N) : Prop :=
  (ic = true -> forall r, In r rs -> 0x1044f < r -> sf r = r) /\ 3 * N.of_nat (length rs) <= 2^25 /\
  exists p, byte_program sf om (text_expr sf om ic rs) = Some p /\ N.of_nat (length (p_inst p)) < 2^32 - 1 /\ depth_ok fuel p.

Lemma literal_parts : forall ic rs chars, Forall2 utf8 rs chars -> feasible ic rs ->
  exists p tq m P, compile_pattern sf om grow fuel beyond (GetRegexpPattern (QuoteMeta (List.concat chars)) ic) = Some (tq, m) /\
    depth_ok fuel p /\ used fuel p m /\ compiled grow sf om (erase (text_expr sf om ic rs)) P tq p /\
    no_text_start (erase (text_expr sf om ic rs)) /\ ends_well sf (erase (text_expr sf om ic rs)) /\
    (forall text lines k line, file_lines text lines -> nth_error lines k = Some line ->
      (expr_on_line sf (erase (text_expr sf om ic rs)) text k <-> contains_text sf ic rs line)).
Proof.
  intros ic rs chars CH (OLD & SM & p & BP & SZ & D).
  assert (SC : Forall scalar rs) by (clear - CH; induction CH as [|r bs rs chars U _ IH]; constructor; [eapply Utf8Proofs.utf8_scalar; exact U|exact IH]).
  destruct (text_expr_ok sf om FO ic rs SC OLD) as (PA & RO & M). set (g := text_expr sf om ic rs) in *.
  destruct (regexp_Compile_ok sf om g (fo_ascii _ _ FO) PA RO) as (p' & BP' & MK). assert (p' = p) by congruence. subst p'.
  destruct (MK SZ fuel D) as (m & EM & U).
  destruct (regexp_query grow sf om (erase g)) as (h & tq) eqn:RQ.
  assert (SH : st_shared h = false) by (eapply no_alt_query; [|exact RQ]; unfold g, text_expr; destruct rs; exact I).
  destruct (parsed_compiled grow sf om g p tq h (fo_ascii _ _ FO) PA RO BP SZ RQ SH) as (P & CO).
  exists p, tq, m, P. split; [|split; [exact D|split; [exact U|split; [exact CO|split; [|split]]]]].
  - unfold compile_pattern. rewrite (parse_quoted sf om ic rs chars CH). replace (max_runes <? 3 * N.of_nat (length rs)) with false by (symmetry; apply N.ltb_ge; exact SM).
    fold g. rewrite EM. cbn [bind]. rewrite RQ. reflexivity.
  - unfold g, text_expr; destruct rs; exact I.
  - intros (u & w & v & E & MM) line _. apply M in MM. destruct u; [|discriminate]. destruct w; [|discriminate].
    exists line, [], []. split; [rewrite app_nil_r; reflexivity|]. apply M. exact MM.
  - intros text lines k line. apply text_line; assumption.
Qed.

Lemma literal_files : forall ic rs chars s docs ctx, Forall2 utf8 rs chars -> feasible ic rs ->
  stocked (sv_ix s) (sv_raw s) docs -> NoDup (map fst docs) -> Forall (fun d => valid_utf8 (fst d) /\ valid_utf8 (snd d)) docs ->
  exists tq m p, compile_pattern sf om grow fuel beyond (GetRegexpPattern (QuoteMeta (List.concat chars)) ic) = Some (tq, m) /\
    (exists sub, searchable fuel p None None (sv_ix s) (sv_raw s) tq m None None sub) /\
    exists r w, search fuel (mkOpts ctx 0 0 0) (sv_raw s) (sv_auto s) (sv_rev s) (sv_ix s) tq m None None = Some (Some r) /\
      (forall d, In d docs -> (w d = true <-> exists k line, line_with sf ic rs (snd d) k line)) /\
      Forall2 (entry_of sf ic rs) (filter w docs) (rs_matches r) /\
      (forall n, few_lines sf ic rs docs n -> (Z.of_nat (length (flat (rs_matches r))) < n)%Z).
Proof.
  intros ic rs chars s docs ctx CH FE SK ND VU. destruct (literal_parts ic rs chars CH FE) as (p & tq & m & P & CP & D & U & CO & NS & NN & TL).
  exists tq, m, p. split; [exact CP|]. split; [exact (stocked_searchable _ _ _ _ _ _ _ _ _ _ _ _ CO D U SK)|].
  destruct (repo_found grow sf om (erase (text_expr sf om ic rs)) P tq p fuel ctx None None m None CO NS NN D U I (sv_ix s) (sv_raw s) docs (sv_auto s) (sv_rev s) (mkOpts ctx 0 0 0) SK ND VU)
    as (r & E & R & _); try (cbn [o_nctx o_offset o_limit o_max]; auto; left; lia); try reflexivity.
  exists r, (keep p fuel ctx None). split; [exact E|]. split; [|split].
  - intros d Id. rewrite Forall_forall in VU. destruct (VU d Id) as (V1 & V2).
    rewrite (keep_spec grow sf om _ P tq p fuel ctx None None None CO NS NN D I d V1 V2). unfold wanted. split.
    + intros (_ & lines & k & FL & L & X). destruct (nth_error lines k) as [line|] eqn:EN; [|apply nth_error_None in EN; lia].
      exists k, line, lines. split; [exact FL|]. split; [exact EN|apply (TL _ _ _ _ FL EN), X].
    + intros (k & line & lines & FL & EN & X). split; [exact I|]. exists lines, k. split; [exact FL|]. split; [apply nth_error_Some; congruence|apply (TL _ _ _ _ FL EN), X].
  - rewrite R. assert (forall l, incl l docs -> Forall2 (entry_of sf ic rs) l (map (doc_entry fuel ctx p (sv_auto s)) l)) as G; [|apply G; intros d Id; apply filter_In in Id; apply Id].
    induction l as [|d l IH]; intros IN; [constructor|]. cbn [map]. constructor; [|apply IH; intros x I0; apply IN; right; exact I0].
    split; [reflexivity|]. cbn [doc_entry fm_hits]. destruct (file_lines_total (snd d)) as (lines & FL & FU).
    destruct (compiled_wf _ _ _ _ _ _ _ CO) as (WF & _).
    destruct (hits_find _ _ _ _ _ _ _ fuel ctx d CO NS NN WF D) as (_ & HF). destruct (HF lines FL) as (A & B).
    assert (V : valid_utf8 (snd d)) by (rewrite Forall_forall in VU; apply VU, IN; left; reflexivity).
    assert (SP : splits (snd d) (split_nl (snd d))) by (apply splits_iff; reflexivity).
    destruct (hits_in_order fuel ctx p (snd d) _ WF D SP) as (FF & OR). destruct (page_rows _ _ FF OR) as (gs & EG & (CS & CK & CT) & CC).
    exists gs. split; [exact EG|]. split; [exact CC|]. split; [exact CS|].
    assert (LW : forall k line, reported (hits_of fuel ctx p (snd d)) k line <-> line_with sf ic rs (snd d) k line).
    { intros k line. split.
      + intros RP. destruct (A k line RP) as (X & Y). exists lines. split; [exact FL|]. split; [exact X|]. apply (TL _ _ _ _ FL X), Y. apply valid_no_surrogates.
        eapply piece_valid; [exact V|exact SP|]. eapply lines_pieces; eassumption.
      + intros (lines' & FL' & X & Y). rewrite (FU lines' FL') in X. apply B; [exact X|apply (TL _ _ _ _ FL X), Y]. }
    split.
    + intros k t mk I0. destruct (CT k t mk I0) as (X & Y & _). split; [exact X|]. eauto.
    + intros k line. rewrite <- LW. split.
      * intros I0. destruct (CT _ _ _ I0) as (_ & Y & Z). destruct (proj1 Z eq_refl) as (h & Ih & Eh). exists h. split; [exact Ih|]. split; [lia|].
        rewrite Forall_forall in FF. destruct (FF h Ih) as (_ & N1 & _). replace (Z.to_nat (Z.of_nat (S k)) - 1)%nat with (h_no h - 1)%nat in Y by lia. congruence.
      * intros (h & Ih & Eh & El). destruct (proj2 (CK (Z.of_nat (S k)))) as (t & mk & I0).
        { exists h. split; [exact Ih|]. unfold first_line, last_line. lia. }
        destruct (CT _ _ _ I0) as (_ & Y & Z). assert (mk = true) by (apply Z; exists h; split; [exact Ih|lia]). subst mk.
        rewrite Forall_forall in FF. destruct (FF h Ih) as (_ & N1 & _). replace (Z.to_nat (Z.of_nat (S k)) - 1)%nat with (h_no h - 1)%nat in Y by lia.
        assert (t = line) by congruence. subst t. exact I0.
  - intros n FW. rewrite R. refine (found_few grow sf om _ P tq p fuel ctx None None None CO NS NN D I docs (sv_auto s) n ND VU _). intros l NDl Hl. apply FW; [exact NDl|].
    intros name k I0. destruct (Hl name k I0) as (text & lines & Id & _ & FL & L & X). destruct (nth_error lines k) as [line|] eqn:EN; [|apply nth_error_None in EN; lia].
    exists text, line. split; [exact Id|]. exists lines. split; [exact FL|]. split; [exact EN|]. apply (TL _ _ _ _ FL EN), X.
Qed.
End Text.

(** ** The page *)
Lemma f2_len : forall {A B} (R : A -> B -> Prop) l m, Forall2 R l m -> length l = length m.
Proof. intros A B R l m F. induction F; cbn [length]; congruence. Qed.
Lemma f2_split : forall {A B} (R : A -> B -> Prop) l m1 m2, Forall2 R l (m1 ++ m2) -> exists l1 l2, l = l1 ++ l2 /\ Forall2 R l1 m1 /\ Forall2 R l2 m2.
Proof.
  intros A B R l m1. revert l. induction m1 as [|b m1 IH]; intros l m2 F; cbn [app] in F; [exists [], l; auto|].
  inversion F as [|a b' l' m' HR F' E1 E2]; subst. destruct (IH _ _ F') as (l1 & l2 & -> & F1 & F2). exists (a :: l1), l2. auto.
Qed.
Lemma step_pending : forall locale s before a after rep s', pg_pending s = before ++ a :: after ->
  (let rest := mkPage (pg_params s) (pg_objs s) (pg_results s) (pg_by s) (before ++ after) (v_results s) (v_error s) in
   match a with PSearch _ => search_answer locale rep rest | PMore obj repo _ => load_answer obj repo rep rest end) = Some s' ->
  pg_pending s' = before ++ after /\ pg_params s' = pg_params s.
Proof.
  intros locale s before a after rep s' P H. cbv zeta in H. destruct a; cbn [search_answer load_answer] in H.
  - destruct rep as [rs [|]|[|]|]; try discriminate; injection H as <-; split; reflexivity.
  - destruct rep as [rs st|[|]|]; try discriminate; try (injection H as <-; split; reflexivity).
    cbn [load_answer] in H. destruct (find_result _ _); [|discriminate]; cbn [bind] in H. destruct (nth_error _ _); [|discriminate]; cbn [bind] in H.
    destruct (list_set _ _ _); [|discriminate]; cbn [bind] in H. injection H as <-. split; reflexivity.
Qed.

Section Restrict.
Variable ok : params -> bool.
Hypothesis SAME : forall p p', same_search p p' -> ok p = ok p'.
Definition restrict (serve : params -> reply) (p : params) : reply := if ok p then serve p else Broke.
Record kept_to (s : pstate) : Prop := {
  kt_params : ok (pg_params s) = true \/ pg_by s = [] /\ pg_pending s = [];
  kt_pending : forall a, In a (pg_pending s) -> ok (req_of a) = true }.
Lemma polite_restrict : forall serve s e, kept_to s -> polite serve s e -> (match e with Arrive a _ => In a (pg_pending s) | _ => True end) -> polite (restrict serve) s e.
Proof.
  intros serve s e [_ K] P I. destruct e as [p|r|a rep]; cbn [polite] in *; [exact P|exact P|].
  destruct P as [->|P]; [left|right; exact P]. unfold restrict. rewrite (K a I). reflexivity.
Qed.
Lemma kept_step : forall locale s e s', kept_to s -> (forall p, e = Search p -> ok p = true) -> page_step locale s e s' -> kept_to s'.
Proof.
  intros locale s e s' [A B] OK ST. destruct ST as [p s' H|repo s' H|before after a rep s' P H].
  - assert (OS : ok (search_params p) = true) by (rewrite (SAME _ _ (search_same p)); apply OK; reflexivity).
    unfold do_search in H. destruct (get_param _ n_q) as [[|]|]; try discriminate; injection H as <-;
      (constructor; cbn; [auto|intros a I; apply in_app_iff in I; destruct I as [I|[<-|[]]]; [exact (B a I)|exact OS]]).
  - unfold do_load in H. destruct (by_repo (pg_by s) repo) as [o|] eqn:BR; [|discriminate]. cbn [bind] in H.
    destruct (nth_error _ _); [|discriminate]. cbn [bind] in H. injection H as <-.
    assert (OP : ok (pg_params s) = true) by (destruct A as [A|[A _]]; [exact A|rewrite A in BR; discriminate]).
    constructor; cbn; [auto|]. intros a I. apply in_app_iff in I. destruct I as [I|[<-|[]]]; [exact (B a I)|]. cbn [req_of].
    rewrite <- OP. apply SAME. intros k K1 K2 K3. unfold merge. cbn [app get_param].
    destruct (str_eqb n_rng k) eqn:E1; [apply str_eqb_eq in E1; exfalso; apply K1; rewrite <- E1; reflexivity|].
    destruct (str_eqb n_repos k) eqn:E2; [apply str_eqb_eq in E2; exfalso; apply K2; rewrite <- E2; reflexivity|]. reflexivity.
  - destruct (step_pending _ _ _ _ _ _ _ P H) as [E1 E2]. constructor.
    + rewrite E2. destruct A as [A|[_ A]]; [auto|]. rewrite P in A. destruct before; discriminate.
    + rewrite E1. intros x I. apply B. rewrite P. apply in_app_iff in I. apply in_app_iff. cbn. tauto.
Qed.
Lemma visit_restrict : forall locale serve s last, visit_of ok locale serve s last -> visit locale (restrict serve) s last /\ kept_to s /\ (forall p, last = Some p -> ok p = true).
Proof.
  intros locale serve s last V. induction V as [|s last e s' V IH PO OK ST].
  - split; [constructor|]. split; [constructor; [right; auto|intros a []]|discriminate].
  - destruct IH as (V' & K & L). split; [|split].
    + apply (vi_step _ _ s last e s' V'); [|exact ST]. apply polite_restrict; [exact K|exact PO|]. destruct ST as [| |before after a rep s' P H]; try exact I.
      rewrite P. apply in_app_iff. right. left. reflexivity.
    + exact (kept_step _ _ _ _ K OK ST).
    + intros p E. destruct e; [injection E as <-; apply OK; reflexivity|exact (L p E)|exact (L p E)].
Qed.
Lemma goes_restrict : forall locale serve s s', goes (restrict serve) locale s s' -> goes serve locale s s'.
Proof.
  intros locale serve s s' G. induction G as [|s1 e s2 G IH PO NS ST]; [constructor|]. apply (go_on _ _ _ s1 e); [exact IH| |exact NS|exact ST].
  destruct e as [p|r|a rep]; cbn [polite] in *; [exact PO|exact PO|]. unfold restrict in PO. destruct (ok (req_of a)); [exact PO|]. right. destruct PO as [PO|PO]; exact PO.
Qed.
Lemma goes_visit : forall locale serve s s' last, visit_of ok locale serve s last -> goes serve locale s s' -> visit_of ok locale serve s' last.
Proof.
  intros locale serve s s' last V G. induction G as [|s1 e s2 G IH PO NS ST]; [exact V|].
  replace last with (match e with Search p => Some p | _ => last end) by (destruct e as [p| |]; [destruct (NS p); reflexivity| |]; reflexivity).
  apply (vo_step _ _ _ s1 last e s2); [exact IH|exact PO| |exact ST]. intros p ->. destruct (NS p). reflexivity.
Qed.
(** Everything can be brought on the page. *)
Lemma restrict_all : forall known files locale serve, honest known files (restrict serve) ->
  (forall r, known r -> trimmed r r /\ ~ In 44 r) -> (forall p r, (Z.of_nat (length (files p r)) < 2 ^ 63)%Z) ->
  forall s last p, visit_of ok locale serve s last -> polite serve s (Search p) -> ok p = true ->
  (forall req, same_search req p -> exists rs st, serve req = Results rs st) ->
  exists s1 s2 rs, page_step locale s (Search p) s1 /\ goes serve locale s1 s2 /\ visit_of ok locale serve s2 (Some p) /\ displays s2 rs /\
    Forall (fun x => r_files x = Z.of_nat (length (r_matches x))) rs.
Proof.
  intros known files locale serve HO NA SM s last p V PO O ANS. destruct (visit_restrict locale serve s last V) as (V' & _ & _).
  destruct (searched_all known files (restrict serve) locale HO NA SM s last p V') as (s1 & s2 & rs & ST & G & _ & D & FA).
  - exact PO.
  - intros req S. unfold restrict. rewrite (SAME _ _ S), O. exact (ANS req S).
  - apply goes_restrict in G. exists s1, s2, rs. split; [exact ST|]. split; [exact G|]. split; [|split; [exact D|]].
    + apply (goes_visit locale serve s1 s2); [|exact G]. apply (vo_step _ _ _ s last (Search p) s1); [exact V|exact PO| |exact ST]. intros p' E. injection E as <-. exact O.
    + eapply Forall_impl; [|exact FA]. intros x [_ X]. exact X.
Qed.
End Restrict.

Section Page.
Variable grow : nat -> nat -> nat.
Variable sf : N -> N.
Variable om : nat.
Variable beyond : str -> option (query * matcher).
Variable fuel : nat.
Variable servers : list (str * (repo * served)).
Variable def : Z.
Variable msg : str.
Variable docs : str -> list (str * str).
Variable ok : params -> bool.
Hypothesis FO : folding sf om.
Hypothesis SAME : forall p p', same_search p p' -> ok p = ok p'.
Hypothesis NAMES : forall r, In r (map fst servers) -> trimmed r r /\ ~ In 44 r.
Hypothesis STOCK : forall r s, get servers r = Some s -> stocked (sv_ix (snd s)) (sv_raw (snd s)) (docs r) /\ NoDup (map fst (docs r)) /\
  Forall (fun d => valid_utf8 (fst d) /\ valid_utf8 (snd d)) (docs r) /\ (Z.of_nat (length (docs r)) < 2 ^ 63)%Z.
Hypothesis PLAIN : forall p, ok p = true -> exists ic rs, plain_search p ic rs /\ feasible sf om fuel ic rs /\
  ((def <= 0)%Z \/ forall r, In r (map fst servers) -> few_lines sf ic rs (docs r) def).
Let compile := compile_pattern sf om grow fuel beyond.
Let known := fun r => In r (map fst servers).

Lemma plain_request : forall p ic rs, plain_search p ic rs -> exists chars, Forall2 utf8 rs chars /\
  q_query (request servers def p) = List.concat chars /\ q_literal (request servers def p) = true /\ q_icase (request servers def p) = ic /\
  q_files (request servers def p) = [] /\ q_exclude (request servers def p) = [].
Proof.
  intros p ic rs ((chars & CH & Q) & (v & L & Y) & IC & FI & EX). exists chars. split; [exact CH|].
  destruct (read_fields (form_value p) (map (fun s => (fst s, fst (snd s))) servers) def) as (A & B & C & D & E & _).
  fold (request servers def p) in A, B, C, D, E. unfold form_value in A, B, C, D, E.
  change (text "q") with (text "q") in A. rewrite Q in A. rewrite L in E. split; [exact A|]. split; [apply E; exact Y|]. split; [|split].
  - destruct (q_icase (request servers def p)) eqn:X; symmetry.
    + apply IC. pose proof (proj1 D eq_refl) as Z. destruct (get_param p (text "i")) as [w|]; [eauto|]. exfalso. clear - Z. unfold yes, any_case in Z. destruct Z as [Z|[Z|Z]]; [inversion Z|discriminate|inversion Z].
    + destruct ic; [|reflexivity]. destruct (proj1 IC eq_refl) as (w & G & Yw). rewrite G in D. apply D in Yw. discriminate.
  - rewrite B. destruct FI as [-> | ->]; reflexivity.
  - rewrite C. destruct EX as [-> | ->]; reflexivity.
Qed.

Lemma plain_files : forall p ic rs r s, plain_search p ic rs -> feasible sf om fuel ic rs -> get servers r = Some s ->
  can_search fuel compile QuoteMeta servers def p (snd s) /\
  (forall n, few_lines sf ic rs (docs r) n -> (Z.of_nat (length (flat (all_files fuel compile QuoteMeta servers def p r))) < n)%Z) /\
  exists w, (forall d, In d (docs r) -> (w d = true <-> exists k line, line_with sf ic rs (snd d) k line)) /\
    Forall2 (entry_of sf ic rs) (filter w (docs r)) (all_files fuel compile QuoteMeta servers def p r).
Proof.
  intros p ic rs r s PS FE G. destruct (plain_request p ic rs PS) as (chars & CH & QQ & QL & QI & QF & QX). destruct (STOCK r s G) as (SK & ND & VU & _).
  destruct (literal_files grow sf om beyond fuel FO ic rs chars (snd s) (docs r) (N.to_nat (q_ctx (request servers def p))) CH FE SK ND VU)
    as (tq & m & pr & CP & (sub & SB) & res & w & ES & W & F2 & FW).
  assert (AF : all_files fuel compile QuoteMeta servers def p r = rs_matches res).
  { unfold all_files. rewrite G. unfold search_repo, everything. cbn [q_query q_files q_exclude q_icase q_literal]. rewrite QL, QQ, QI, QF, QX.
    unfold compile. rewrite CP. cbn [optional_filter]. unfold request_opts. cbn [q_ctx q_offset q_limit q_max]. rewrite ES. reflexivity. }
  split; [|split].
  - intros tq' re' fre xre E1 E2 E3. rewrite QL, QQ, QI in E1. unfold compile in E1. rewrite CP in E1. injection E1 as <- <-.
    rewrite QF in E2. rewrite QX in E3. injection E2 as <-. injection E3 as <-. eauto.
  - intros n F. rewrite AF. exact (FW n F).
  - exists w. rewrite AF. auto.
Qed.

Definition files_of (p : params) (r : str) : list file_match := if ok p then all_files fuel compile QuoteMeta servers def p r else [].
Lemma restrict_honest : forall serve, msg <> [] ->
  (forall p, get_param p (text "limit") = None -> sends fuel compile QuoteMeta servers def msg p (serve p)) ->
  honest known files_of (restrict ok serve).
Proof.
  intros serve MS SE.
  assert (H : honest known (all_files fuel compile QuoteMeta servers def) (restrict ok serve)).
  { apply (server_honest_when _ _ _ _ _ msg); [exact MS| |].
    - intros p NL. unfold restrict. destruct (ok p); [exact (SE p NL)|left; reflexivity].
    - intros p r s NL NB G. unfold restrict in NB. destruct (ok p) eqn:O; [|congruence]. destruct (PLAIN p O) as (ic & rs & PS & FE & LM).
      destruct (plain_files p ic rs r s PS FE G) as (CS & FW & _). split; [exact CS|]. destruct LM as [LM|LM]; [left; exact LM|right].
      apply FW, LM. apply get_in. eauto. }
  destruct H as [H1 H2]. split.
  - intros p p' r S. unfold files_of. rewrite (SAME p p' S), (H1 p p' r S). reflexivity.
  - intros p NL. specialize (H2 p NL). unfold restrict in *. destruct (ok p) eqn:O; [|exact I]. destruct (serve p); try exact H2.
    unfold files_of. rewrite O. exact H2.
Qed.

Lemma files_small : forall p r, (Z.of_nat (length (files_of p r)) < 2 ^ 63)%Z.
Proof.
  intros p r. unfold files_of. destruct (ok p) eqn:O; [|reflexivity]. destruct (PLAIN p O) as (ic & rs & PS & FE & _).
    destruct (get servers r) as [sv|] eqn:G; [|unfold all_files; rewrite G; reflexivity]. destruct (plain_files p ic rs r sv PS FE G) as (_ & _ & w & _ & F2).
    destruct (STOCK r sv G) as (_ & _ & _ & LN). apply f2_len in F2. rewrite <- F2.
    assert (X : (length (filter w (docs r)) <= length (docs r))%nat) by (clear; induction (docs r) as [|x l IH]; cbn [filter length]; [lia|]; destruct (w x); cbn [length]; lia). lia.
Qed.

Theorem page_text : forall locale serve, msg <> [] ->
  (forall p, get_param p (text "limit") = None -> sends fuel compile QuoteMeta servers def msg p (serve p)) ->
  forall s last res, visit_of ok locale serve s last -> displays s res ->
  exists p ic rs, last = Some p /\ plain_search p ic rs /\ page_shows sf docs known p ic rs res.
Proof.
  intros locale serve MS SE s last res V D. destruct (visit_restrict ok SAME _ _ _ _ V) as (V' & _ & L).
  destruct (page_right known files_of (restrict ok serve) locale (restrict_honest serve MS SE) NAMES files_small s last res V' D) as (p & -> & ND & IN & FA).
  pose proof (L p eq_refl) as O. destruct (PLAIN p O) as (ic & rs & PS & FE & _). exists p, ic, rs. split; [reflexivity|]. split; [exact PS|].
  split; [exact ND|]. assert (FI : forall r, files_of p r = all_files fuel compile QuoteMeta servers def p r) by (intros r; unfold files_of; rewrite O; reflexivity). split.
  - intros r. rewrite IN, FI. split; intros (A & B); (split; [exact A|]).
    + destruct (get servers r) as [sv|] eqn:G; [|exfalso; apply B; unfold all_files; rewrite G; reflexivity].
      destruct (plain_files p ic rs r sv PS FE G) as (_ & _ & w & W & F2). apply f2_len in F2.
      destruct (filter w (docs r)) as [|d l] eqn:X; [exfalso; apply B; destruct (all_files fuel compile QuoteMeta servers def p r); [reflexivity|discriminate]|].
      assert (Id : In d (filter w (docs r))) by (rewrite X; left; reflexivity). apply filter_In in Id. destruct Id as [Id Wd].
      apply (W d Id) in Wd. destruct Wd as (k & line & LW). exists d, k, line. auto.
    + destruct B as (d & k & line & Id & LW). assert (KN : In r (map fst servers)) by (destruct A as [A _]; exact A).
      apply get_in in KN. destruct KN as (sv & G). destruct (plain_files p ic rs r sv PS FE G) as (_ & _ & w & W & F2).
      intros Z. rewrite Z in F2. apply f2_len in F2. assert (Wd : w d = true) by (apply (W d Id); eauto).
      assert (X : In d (filter w (docs r))) by (apply filter_In; auto). destruct (filter w (docs r)); [exact X|discriminate].
  - rewrite Forall_forall in *. intros x Ix. destruct (FA x Ix) as (PX & NE & CX). rewrite FI in PX, CX.
    destruct PX as (tl & PX). destruct (get servers (r_repo x)) as [sv|] eqn:G.
    2:{ exfalso. assert (Z : all_files fuel compile QuoteMeta servers def p (r_repo x) = []) by (unfold all_files; rewrite G; reflexivity).
        rewrite Z in PX. destruct (r_matches x); [congruence|discriminate]. }
    destruct (plain_files p ic rs (r_repo x) sv PS FE G) as (_ & _ & w & W & F2). pose proof (f2_len _ _ _ F2) as LN. rewrite PX in F2.
    destruct (f2_split _ _ _ _ F2) as (sel & rest & ES & F3 & _). exists w, sel, rest. split; [exact W|]. split; [exact ES|]. split; [|split].
    + intros ->. apply f2_len in F3. destruct (r_matches x); [congruence|discriminate].
    + rewrite CX, <- LN, ES. reflexivity.
    + exact F3.
Qed.
Theorem page_text_all : forall locale serve, msg <> [] ->
  (forall p, get_param p (text "limit") = None -> sends fuel compile QuoteMeta servers def msg p (serve p)) ->
  forall s last p, visit_of ok locale serve s last -> polite serve s (Search p) -> ok p = true ->
  (forall req, same_search req p -> serve req <> Broke) ->
  exists s1 s2 res ic rs, page_step locale s (Search p) s1 /\ goes serve locale s1 s2 /\ displays s2 res /\
    plain_search p ic rs /\ page_shows sf docs known p ic rs res /\ Forall (fun x => r_files x = Z.of_nat (length (r_matches x))) res.
Proof.
  intros locale serve MS SE s last p V PO O NB.
  assert (ANS : forall req, same_search req p -> exists rs st, serve req = Results rs st).
  { intros req S. assert (OR : ok req = true) by (rewrite (SAME _ _ S); exact O). destruct (PLAIN req OR) as (ic & rs & PS & FE & _).
    assert (NL : get_param req (text "limit") = None) by (rewrite (S (text "limit")) by discriminate; apply PO).
    destruct (plain_request req ic rs PS) as (chars & CH & QQ & QL & QI & QF & QX).
    apply (replies fuel compile QuoteMeta servers def msg req _ (SE req NL) (NB req S)).
    - intros r sv G. apply (plain_files req ic rs r sv PS FE G).
    - rewrite QL, QQ, QI. destruct (literal_parts grow sf om beyond fuel FO ic rs chars CH FE) as (pr & tq & m & P & CP & _). unfold compile. rewrite CP. discriminate.
    - rewrite QF. discriminate.
    - rewrite QX. discriminate. }
  destruct (restrict_all ok SAME known files_of locale serve (restrict_honest serve MS SE) NAMES files_small s last p V PO O ANS) as (s1 & s2 & res & ST & G & V2 & D & FA).
  destruct (page_text locale serve MS SE s2 _ res V2 D) as (p' & ic & rs & E & PS & SH). injection E as <-. exists s1, s2, res, ic, rs. auto 6.
Qed.
End Page.
