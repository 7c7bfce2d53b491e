(** A search on the page with an expression and filters on names, down to the files. *)
From Verif Require Import Model.Base Model.GoStr Model.Config Model.Query Model.Reader Model.Utf8 Model.Syntax Model.Matcher Model.Utf Model.Analyze Model.Grep Model.Search Model.Api
  Model.Request Model.Whole Model.PageState Model.PageView Spec.IndexSpec Spec.RunSpec Spec.QuerySpec Spec.Utf8Spec Spec.RegexSpec Spec.MatchSpec Spec.GrepSpec Spec.RuneProgSpec Spec.ExprSpec Spec.ParsedSpec
  Spec.WholeSpec Spec.ClientSpec Spec.PresentSpec Spec.ViewSpec Spec.ApiSpec Spec.SearchSpec Spec.LoadSpec Spec.Names Spec.PlainSpec Spec.ExprPageSpec
  Proofs.GrepTop Proofs.MatchTop Proofs.EndToEnd Proofs.FillProofs Proofs.LookupProofs Proofs.IndexProofs Proofs.SearchProofs Proofs.SearchTop Proofs.UtfTop Proofs.AnalyzeTop Proofs.ExprLines Proofs.ExprSearch Proofs.WholeSearch Proofs.SplitProofs
  Proofs.StrLemmas Proofs.ClientServer Proofs.PageViewProofs Proofs.ApiProofs Proofs.PageServe Proofs.PageLoad Proofs.PageLiteral.
From Coq Require Import Sorted Lia.
Local Open Scope N_scope.

Section Expr.
Variable grow : nat -> nat -> nat.
Variable sf : N -> N.
Variable om : nat.
Variable ex : regexp.
Variable P : xprog.
Variable q : query.
Variable p : prog.
Variable fuel : nat.
Variable fe xe : option regexp.
Variable fp xp : option prog.
Variable re : matcher.
Variable fre xre : option matcher.
Hypothesis CO : compiled grow sf om ex P q p.
Hypothesis NS : no_text_start ex.
Hypothesis NE : ends_well sf ex.
Hypothesis D : depth_ok fuel p.
Hypothesis U : used fuel p re.
Hypothesis FC : filter_compiled fuel sf om fe fp fre.
Hypothesis XC : filter_compiled fuel sf om xe xp xre.

Definition keep2 (ctx : nat) (d : doc) : bool := keep p fuel ctx fp d && negb (excluded fuel xp (fst d)).
Lemma name_barred : forall name, valid_utf8 name -> plain_name name ->
  (excluded fuel xp name = false <-> match xe with None => True | Some xe => forall k, ~ expr_on_line sf xe name k end).
Proof.
  intros name V PN. pose proof (name_passes fuel sf om xe xp xre name XC V) as NP.
  destruct xe as [x|], xp as [y|], xre as [z|]; try contradiction; [|cbn; tauto].
  destruct XC as ((g & P' & q' & C') & D' & U'). destruct (compiled_wf _ _ _ _ _ _ _ C') as (WF & _).
  pose proof (excluded_spec fuel y name WF D' PN) as X. rewrite <- (included_spec fuel y name WF D') in X. rewrite NP in X.
  destruct (excluded fuel (Some y) name).
  - split; [discriminate|]. intros H. destruct (proj1 X eq_refl) as (k & K). exfalso. exact (H k K).
  - split; [|reflexivity]. intros _ k K. assert (false = true) by (apply X; eauto). discriminate.
Qed.
Lemma keep2_spec : forall ctx d, valid_utf8 (fst d) -> valid_utf8 (snd d) -> plain_name (fst d) -> (keep2 ctx d = true <-> looked_for sf ex fe xe d).
Proof.
  intros ctx d V1 V2 PN. unfold keep2, looked_for. rewrite andb_true_iff, negb_true_iff, (name_barred _ V1 PN).
  rewrite (keep_spec grow sf om ex P q p fuel ctx fe fp fre CO NS NE D FC d V1 V2). reflexivity.
Qed.

Lemma entry_rows : forall ctx auto d, valid_utf8 (snd d) -> listed_as sf ex d (doc_entry fuel ctx p auto d).
Proof.
  intros ctx auto d V. split; [reflexivity|]. cbn [doc_entry fm_hits]. destruct (file_lines_total (snd d)) as (lines & FL & FU).
  destruct (compiled_wf _ _ _ _ _ _ _ CO) as (WF & _).
  destruct (hits_find _ _ _ _ _ _ _ fuel ctx d CO NS NE WF D) as (_ & HF). destruct (HF lines FL) as (A & B).
  assert (SP : splits (snd d) (split_nl (snd d))) by (apply splits_iff; reflexivity).
  destruct (hits_in_order fuel ctx p (snd d) _ WF D SP) as (FF & OR). destruct (page_rows _ _ FF OR) as (gs & EG & (CS & CK & CT) & CC).
  exists gs. split; [exact EG|]. split; [exact CC|]. split; [exact CS|].
  assert (LW : forall k line, reported (hits_of fuel ctx p (snd d)) k line <-> exists lines, file_lines (snd d) lines /\ nth_error lines k = Some line /\ expr_on_line sf ex (snd d) k).
  { intros k line. split.
    + intros RP. destruct (A k line RP) as (X & Y). exists lines. split; [exact FL|]. split; [exact X|]. apply Y. apply valid_no_surrogates.
      eapply piece_valid; [exact V|exact SP|]. eapply lines_pieces; eassumption.
    + intros (lines' & FL' & X & Y). rewrite (FU lines' FL') in X. apply B; [exact X|exact Y]. }
  split.
  + intros k t mk I0. destruct (CT k t mk I0) as (X & Y & _). split; [exact X|]. eauto.
  + intros k line. rewrite <- LW. split.
    * intros I0. destruct (CT _ _ _ I0) as (_ & Y & Z). destruct (proj1 Z eq_refl) as (h & Ih & Eh). exists h. split; [exact Ih|]. split; [lia|].
      rewrite Forall_forall in FF. destruct (FF h Ih) as (_ & N1 & _). replace (Z.to_nat (Z.of_nat (S k)) - 1)%nat with (h_no h - 1)%nat in Y by lia. congruence.
    * intros (h & Ih & Eh & El). destruct (proj2 (CK (Z.of_nat (S k)))) as (t & mk & I0).
      { exists h. split; [exact Ih|]. unfold first_line, last_line. lia. }
      destruct (CT _ _ _ I0) as (_ & Y & Z). assert (mk = true) by (apply Z; exists h; split; [exact Ih|lia]). subst mk.
      rewrite Forall_forall in FF. destruct (FF h Ih) as (_ & N1 & _). replace (Z.to_nat (Z.of_nat (S k)) - 1)%nat with (h_no h - 1)%nat in Y by lia.
      assert (t = line) by congruence. subst t. exact I0.
Qed.

Lemma expr_entries : forall ix raw docs auto rev ctx, stocked ix raw docs -> NoDup (map fst docs) ->
  Forall (fun d => valid_utf8 (fst d) /\ valid_utf8 (snd d)) docs -> Forall (fun d => plain_name (fst d)) docs ->
  (exists sub, searchable fuel p fp xp ix raw q re fre xre sub) /\
  exists r, search fuel (mkOpts ctx 0 0 0) raw auto rev ix q re fre xre = Some (Some r) /\
    (forall d, In d docs -> (keep2 ctx d = true <-> looked_for sf ex fe xe d)) /\
    Forall2 (listed_as sf ex) (filter (keep2 ctx) docs) (rs_matches r) /\
    (forall n, few sf ex fe docs n -> (Z.of_nat (length (flat (rs_matches r))) < n)%Z) /\
    rs_matches r = map (doc_entry fuel ctx p auto) (filter (keep2 ctx) docs).
Proof.
  intros ix raw docs auto rev ctx (cap & mem & files & vs & b & C & FO & BI & K & OP & RO) ND VU PL.
  destruct (compiled_wf _ _ _ _ _ _ _ CO) as (WF & WQ & BQ & _ & _ & PF).
  destruct (names_roundtrip cap mem [] files vs b C FO (Forall_nil _) BI) as (docs' & ix' & K' & OP' & _ & NM & _).
  rewrite OP in OP'. injection OP' as <-. rewrite <- (kept_fun _ _ _ K _ K') in NM. clear K' docs'.
  destruct (lookup_exact cap mem [] files vs b q None C FO BI WQ BQ) as (docs' & ix' & K' & OP' & LK).
  rewrite OP in OP'. injection OP' as <-. rewrite <- (kept_fun _ _ _ K _ K') in LK. clear K' docs'.
  destruct (LK I) as (ids & EQ & SS & HI).
  destruct (pick_docs (fun d => sat (fun t => exists p s, snd d = p ++ t ++ s) q) docs 0 (slice_list ids) SS) as (sub & F2 & FE).
  { intros i. rewrite HI. rewrite N.sub_0_r. split; [intros [_ H]; split; [lia|exact H]|intros [_ H]; auto]. }
  assert (SB : searchable fuel p fp xp ix raw q re fre xre sub).
  { constructor; try assumption; [eapply filter_compiled_ok, FC|eapply filter_compiled_ok, XC|]. exists ids. split; [assumption|].
    eapply Forall2_imp; [|exact F2]. cbn beta. intros i d (_ & E). rewrite N.sub_0_r in E. split.
    + specialize (NM (N.to_nat i) d E). rewrite Nnat.N2Nat.id in NM. exact NM.
    + apply RO. eapply nth_error_In. exact E. }
  split; [exists sub; exact SB|].
  assert (KS : forall d, In d docs -> (keep2 ctx d = true <-> looked_for sf ex fe xe d)).
  { intros d Id. rewrite Forall_forall in VU, PL. destruct (VU d Id). apply keep2_spec; auto. }
  set (o := mkOpts ctx 0 0 0).
  assert (FK : filter has_hits (map (entry fuel o p auto) (sel_docs fuel fp xp sub)) = map (doc_entry fuel ctx p auto) (filter (keep2 ctx) docs)).
  { rewrite <- (FE (keep2 ctx)).
    - unfold sel_docs. rewrite filter_map_comm, filter_filter. unfold entry. change (o_nctx o) with ctx. fold (doc_entry fuel ctx p auto).
      f_equal. apply filter_ext. intros d. unfold selected, keep2, keep, has_hits. cbn [doc_entry fm_hits].
      destruct (included fuel fp (fst d)), (excluded fuel xp (fst d)), (hits_of fuel ctx p (snd d)); reflexivity.
    - intros d Id KD. apply KS in KD; [|exact Id]. destruct KD as ((_ & lines & k & _ & _ & M) & _). exact (PF _ _ M). }
  destruct (search_pure fuel o p fp xp auto rev ix raw q re fre xre sub SB) as (r & E & R & _).
  assert (RM : rs_matches r = map (doc_entry fuel ctx p auto) (filter (keep2 ctx) docs)).
  { rewrite R. destruct (pfold_nomax o (map (entry fuel o p auto) (sel_docs fuel fp xp sub)) (Z.le_refl 0)) as (A & _). rewrite A, FK. apply window_all. }
  exists r. split; [exact E|]. split; [exact KS|]. rewrite RM. split; [|split; [|reflexivity]].
  - assert (G : forall l, incl l docs -> Forall2 (listed_as sf ex) l (map (doc_entry fuel ctx p auto) l)); [|apply G; intros d Id; apply filter_In in Id; apply Id].
    induction l as [|d l IH]; intros IN; [constructor|]. cbn [map]. constructor; [|apply IH; intros x I0; apply IN; right; exact I0].
    apply entry_rows. rewrite Forall_forall in VU. apply VU, IN. left. reflexivity.
  - intros n F. pose proof (found_few grow sf om ex P q p fuel ctx fe fp fre CO NS NE D FC docs auto n ND VU F) as FF.
    assert (L : forall l, (length (flat (map (doc_entry fuel ctx p auto) (filter (keep2 ctx) l))) <= length (flat (map (doc_entry fuel ctx p auto) (filter (keep p fuel ctx fp) l))))%nat); [|specialize (L docs); lia].
    induction l as [|d l IH]; [apply Nat.le_refl|]. cbn [filter]. unfold keep2 at 1. destruct (keep p fuel ctx fp d); cbn [andb]; [|exact IH].
    assert (FL : forall x xs, length (flat (x :: xs)) = (length (flat [x]) + length (flat xs))%nat) by (intros x xs; change (x :: xs) with ([x] ++ xs); unfold flat; rewrite map_app, concat_app, app_length; reflexivity).
    destruct (negb (excluded fuel xp (fst d))); cbn [map].
    * rewrite (FL _ (map _ (filter (keep2 ctx) l))), (FL _ (map _ (filter (keep p fuel ctx fp) l))). lia.
    * rewrite (FL _ (map _ (filter (keep p fuel ctx fp) l))). lia.
Qed.
Lemma expr_files : forall ix raw docs auto rev ctx, stocked ix raw docs -> NoDup (map fst docs) ->
  Forall (fun d => valid_utf8 (fst d) /\ valid_utf8 (snd d)) docs -> Forall (fun d => plain_name (fst d)) docs ->
  (exists sub, searchable fuel p fp xp ix raw q re fre xre sub) /\
  exists r, search fuel (mkOpts ctx 0 0 0) raw auto rev ix q re fre xre = Some (Some r) /\
    (forall d, In d docs -> (keep2 ctx d = true <-> looked_for sf ex fe xe d)) /\
    Forall2 (listed_as sf ex) (filter (keep2 ctx) docs) (rs_matches r) /\
    (forall n, few sf ex fe docs n -> (Z.of_nat (length (flat (rs_matches r))) < n)%Z).
Proof.
  intros ix raw docs auto rev ctx SK ND VU PL. destruct (expr_entries ix raw docs auto rev ctx SK ND VU PL) as (A & r & E & B & C & F & _).
  split; [exact A|]. exists r. auto.
Qed.
End Expr.

(** ** The page *)
Section Page.
Variable fuel : nat.
Variable compile : str -> option (query * matcher).
Variable quote : str -> str.
Variable servers : list (str * (repo * served)).
Variable def : Z.
Variable msg : str.
Variable docs : str -> list (str * str).
Variable ok : params -> bool.
Variable look : params -> str * str -> Prop.
Variable entry : params -> str * str -> file_match -> Prop.
Hypothesis SAME : forall p p', same_search p p' -> ok p = ok p'.
Hypothesis NAMES : forall r, In r (map fst servers) -> trimmed r r /\ ~ In 44 r.
Hypothesis SIZE : forall r s, get servers r = Some s -> (Z.of_nat (length (docs r)) < 2 ^ 63)%Z.
Hypothesis FILES : forall p r s, ok p = true -> get servers r = Some s ->
  can_search fuel compile quote servers def p (snd s) /\ not_cut fuel compile quote servers def p r /\
  exists w, (forall d, In d (docs r) -> (w d = true <-> look p d)) /\
    Forall2 (entry p) (filter w (docs r)) (all_files fuel compile quote servers def p r).
Let known := fun r => In r (map fst servers).

Definition found_in (p : params) (r : str) : list file_match := if ok p then all_files fuel compile quote servers def p r else [].
Lemma found_honest : forall serve, msg <> [] ->
  (forall p, get_param p (text "limit") = None -> sends fuel compile quote servers def msg p (serve p)) ->
  honest known found_in (restrict ok serve).
Proof.
  intros serve MS SE.
  assert (H : honest known (all_files fuel compile quote servers def) (restrict ok serve)).
  { apply (server_honest_when _ _ _ _ _ msg); [exact MS| |].
    - intros p NL. unfold restrict. destruct (ok p); [exact (SE p NL)|left; reflexivity].
    - intros p r s NL NB G. unfold restrict in NB. destruct (ok p) eqn:O; [|congruence]. destruct (FILES p r s O G) as (A & B & _). auto. }
  destruct H as [H1 H2]. split.
  - intros p p' r S. unfold found_in. rewrite (SAME p p' S), (H1 p p' r S). reflexivity.
  - intros p NL. specialize (H2 p NL). unfold restrict in *. destruct (ok p) eqn:O; [|exact I]. destruct (serve p); try exact H2.
    unfold found_in. rewrite O. exact H2.
Qed.

Lemma found_small : forall p r, (Z.of_nat (length (found_in p r)) < 2 ^ 63)%Z.
Proof.
  intros p r. unfold found_in. destruct (ok p) eqn:O; [|reflexivity].
    destruct (get servers r) as [sv|] eqn:G; [|unfold all_files; rewrite G; reflexivity]. destruct (FILES p r sv O G) as (_ & _ & w & _ & F2).
    pose proof (SIZE r sv G) as LN. apply f2_len in F2. rewrite <- F2.
    assert (X : (length (filter w (docs r)) <= length (docs r))%nat) by (clear; induction (docs r) as [|x l IH]; cbn [filter length]; [lia|]; destruct (w x); cbn [length]; lia). lia.
Qed.

Theorem page_generic : forall locale serve, msg <> [] ->
  (forall p, get_param p (text "limit") = None -> sends fuel compile quote servers def msg p (serve p)) ->
  forall s last res, visit_of ok locale serve s last -> displays s res ->
  exists p, last = Some p /\ ok p = true /\ page_lists (look p) (entry p) docs known p res.
Proof.
  intros locale serve MS SE s last res V D. destruct (visit_restrict ok SAME _ _ _ _ V) as (V' & _ & L).
  destruct (page_right known found_in (restrict ok serve) locale (found_honest serve MS SE) NAMES found_small s last res V' D) as (p & -> & ND & IN & FA).
  pose proof (L p eq_refl) as O. exists p. split; [reflexivity|]. split; [exact O|].
  split; [exact ND|]. assert (FI : forall r, found_in p r = all_files fuel compile quote servers def p r) by (intros r; unfold found_in; rewrite O; reflexivity). split.
  - intros r. rewrite IN, FI. split; intros (A & B); (split; [exact A|]).
    + destruct (get servers r) as [sv|] eqn:G; [|exfalso; apply B; unfold all_files; rewrite G; reflexivity].
      destruct (FILES p r sv O G) as (_ & _ & w & W & F2). apply f2_len in F2.
      destruct (filter w (docs r)) as [|d l] eqn:X; [exfalso; apply B; destruct (all_files fuel compile quote servers def p r); [reflexivity|discriminate]|].
      assert (Id : In d (filter w (docs r))) by (rewrite X; left; reflexivity). apply filter_In in Id. destruct Id as [Id Wd].
      apply (W d Id) in Wd. exists d. auto.
    + destruct B as (d & Id & LW). assert (KN : In r (map fst servers)) by (destruct A as [A _]; exact A).
      apply get_in in KN. destruct KN as (sv & G). destruct (FILES p r sv O G) as (_ & _ & w & W & F2).
      intros Z. rewrite Z in F2. apply f2_len in F2. assert (Wd : w d = true) by (apply (W d Id); exact LW).
      assert (X : In d (filter w (docs r))) by (apply filter_In; auto). destruct (filter w (docs r)); [exact X|discriminate].
  - rewrite Forall_forall in *. intros x Ix. destruct (FA x Ix) as (PX & NE & CX). rewrite FI in PX, CX.
    destruct PX as (tl & PX). destruct (get servers (r_repo x)) as [sv|] eqn:G.
    2:{ exfalso. assert (Z : all_files fuel compile quote servers def p (r_repo x) = []) by (unfold all_files; rewrite G; reflexivity).
        rewrite Z in PX. destruct (r_matches x); [congruence|discriminate]. }
    destruct (FILES p (r_repo x) sv O G) as (_ & _ & w & W & F2). pose proof (f2_len _ _ _ F2) as LN. rewrite PX in F2.
    destruct (f2_split _ _ _ _ F2) as (sel & rest & ES & F3 & _). exists w, sel, rest. split; [exact W|]. split; [exact ES|]. split; [|split].
    + intros ->. apply f2_len in F3. destruct (r_matches x); [congruence|discriminate].
    + rewrite CX, <- LN, ES. reflexivity.
    + exact F3.
Qed.
Theorem generic_all : forall locale serve, msg <> [] ->
  (forall p, get_param p (text "limit") = None -> sends fuel compile quote servers def msg p (serve p)) ->
  (forall p, ok p = true -> compile (GetRegexpPattern (if q_literal (request servers def p) then quote (q_query (request servers def p)) else q_query (request servers def p)) (q_icase (request servers def p))) <> None /\
     optional_filter compile (q_files (request servers def p)) <> None /\ optional_filter compile (q_exclude (request servers def p)) <> None) ->
  forall s last p, visit_of ok locale serve s last -> polite serve s (Search p) -> ok p = true ->
  (forall req, same_search req p -> serve req <> Broke) ->
  exists s1 s2 res, page_step locale s (Search p) s1 /\ goes serve locale s1 s2 /\ displays s2 res /\
    page_lists (look p) (entry p) docs known p res /\ Forall (fun x => r_files x = Z.of_nat (length (r_matches x))) res.
Proof.
  intros locale serve MS SE CAN s last p V PO O NB.
  assert (ANS : forall req, same_search req p -> exists rs st, serve req = Results rs st).
  { intros req S. assert (OR : ok req = true) by (rewrite (SAME _ _ S); exact O). destruct (CAN req OR) as (C1 & C2 & C3).
    assert (NL : get_param req (text "limit") = None) by (rewrite (S (text "limit")) by discriminate; apply PO).
    apply (replies fuel compile quote servers def msg req _ (SE req NL) (NB req S)); [|assumption..].
    intros r sv G. apply (FILES req r sv OR G). }
  destruct (restrict_all ok SAME known found_in locale serve (found_honest serve MS SE) NAMES found_small s last p V PO O ANS) as (s1 & s2 & res & ST & G & V2 & D & FA).
  destruct (page_generic locale serve MS SE s2 _ res V2 D) as (p' & E & _ & PL). injection E as <-. exists s1, s2, res. auto.
Qed.
End Page.

(** The parameters [p] stand for the expression [ex] and the filters [fe] and [xe], through the
    parser. *)
Definition stands_for fuel (compile : str -> option (query * matcher)) (quote : str -> str) grow sf om (p : params) (ex : regexp) (fe xe : option regexp) : Prop :=
  exists qt ft xt lit ic tq re P prog fp fre xp xre,
    given p (text "q") qt /\ given p (text "files") ft /\ given p (text "excludeFiles") xt /\
    (lit = true <-> on p (text "literal")) /\ (ic = true <-> on p (text "i")) /\
    compile (GetRegexpPattern (if lit then quote qt else qt) ic) = Some (tq, re) /\ compiled grow sf om ex P tq prog /\ no_text_start ex /\ ends_well sf ex /\
    depth_ok fuel prog /\ used fuel prog re /\
    optional_filter compile ft = Some fre /\ filter_compiled fuel sf om fe fp fre /\
    optional_filter compile xt = Some xre /\ filter_compiled fuel sf om xe xp xre.

Lemma given_value : forall p k v, given p k v -> form_value p k = v.
Proof. intros p k v [E|(E & ->)]; unfold form_value; rewrite E; reflexivity. Qed.
Lemma not_yes_nil : ~ yes [].
Proof. unfold yes, any_case. intros [Z|[Z|Z]]; [inversion Z|discriminate|inversion Z]. Qed.
Lemma on_value : forall p k b c, (b = true <-> on p k) -> (c = true <-> yes (form_value p k)) -> b = c.
Proof.
  intros p k b c B C. assert (X : on p k <-> yes (form_value p k)).
  { unfold on, form_value. destruct (get_param p k) as [v|]; split.
    - intros (w & E & Y). injection E as <-. exact Y.
    - intros Y. eauto.
    - intros (w & E & _). discriminate.
    - intros Y. destruct (not_yes_nil Y). }
  rewrite X, <- C in B. destruct b, c; try reflexivity; [symmetry; apply B; reflexivity|apply B; reflexivity].
Qed.

Lemma expr_found : forall fuel compile quote grow sf om servers def docs ok ex fe xe,
  (forall r s, get servers r = Some s -> stocked (sv_ix (snd s)) (sv_raw (snd s)) (docs r) /\ NoDup (map fst (docs r)) /\
     Forall (fun d => valid_utf8 (fst d) /\ valid_utf8 (snd d)) (docs r) /\ Forall (fun d => plain_name (fst d)) (docs r) /\ (Z.of_nat (length (docs r)) < 2 ^ 63)%Z) ->
  (forall p, ok p = true -> stands_for fuel compile quote grow sf om p (ex p) (fe p) (xe p) /\
     ((def <= 0)%Z \/ forall r, In r (map fst servers) -> few sf (ex p) (fe p) (docs r) def)) ->
  forall p r s, ok p = true -> get servers r = Some s ->
    can_search fuel compile quote servers def p (snd s) /\ not_cut fuel compile quote servers def p r /\
    exists w, (forall d, In d (docs r) -> (w d = true <-> looked_for sf (ex p) (fe p) (xe p) d)) /\
      Forall2 (listed_as sf (ex p)) (filter w (docs r)) (all_files fuel compile quote servers def p r).
Proof.
  intros fuel compile quote grow sf om servers def docs ok ex fe xe STOCK MEAN.
  intros p r s O G. destruct (MEAN p O) as ((qt & ft & xt & lit & ic & tq & re & P & prog & fp & fre & xp & xre & GQ & GF & GX & LI & IC & CP & CO & NS & NE & DO & US & OF & FC & OX & XC) & LM).
    destruct (STOCK r s G) as (SK & ND & VU & PL & _).
    destruct (read_fields (form_value p) (map (fun s => (fst s, fst (snd s))) servers) def) as (A & B & C & D & E & _).
    fold (request servers def p) in A, B, C, D, E.
    assert (QQ : q_query (request servers def p) = qt) by (rewrite <- (given_value _ _ _ GQ); exact A).
    assert (QF : q_files (request servers def p) = ft) by (rewrite <- (given_value _ _ _ GF); exact B).
    assert (QX : q_exclude (request servers def p) = xt) by (rewrite <- (given_value _ _ _ GX); exact C).
    assert (QI : q_icase (request servers def p) = ic) by (symmetry; exact (on_value _ _ _ _ IC D)).
    assert (QL : q_literal (request servers def p) = lit) by (symmetry; exact (on_value _ _ _ _ LI E)).
    destruct (expr_files grow sf om (ex p) P tq prog fuel (fe p) (xe p) fp xp re fre xre CO NS NE DO US FC XC (sv_ix (snd s)) (sv_raw (snd s)) (docs r) (sv_auto (snd s)) (sv_rev (snd s)) (N.to_nat (q_ctx (request servers def p))) SK ND VU PL)
      as ((sub & SB) & res & ES & KS & F2 & FW).
    assert (AF : all_files fuel compile quote servers def p r = rs_matches res).
    { unfold all_files. rewrite G. unfold search_repo, everything. cbn [q_query q_files q_exclude q_icase q_literal]. rewrite QL, QQ, QI, QF, QX, CP, OF, OX.
      unfold request_opts. cbn [q_ctx q_offset q_limit q_max]. rewrite ES. reflexivity. }
    split; [|split].
    - intros tq' re' fre' xre' E1 E2 E3. rewrite QL, QQ, QI, CP in E1. rewrite QF, OF in E2. rewrite QX, OX in E3.
      injection E1 as <- <-. injection E2 as <-. injection E3 as <-. eauto.
    - unfold not_cut. destruct LM as [LM|LM]; [left; exact LM|right]. rewrite AF. apply FW, LM. apply get_in. eauto.
    - exists (keep2 prog fuel fp xp (N.to_nat (q_ctx (request servers def p)))). rewrite AF. auto.
Qed.
Theorem page_expr : forall fuel compile quote grow sf om servers def msg docs ok ex fe xe,
  (forall p p', same_search p p' -> ok p = ok p') ->
  (forall r, In r (map fst servers) -> trimmed r r /\ ~ In 44 r) ->
  (forall r s, get servers r = Some s -> stocked (sv_ix (snd s)) (sv_raw (snd s)) (docs r) /\ NoDup (map fst (docs r)) /\
     Forall (fun d => valid_utf8 (fst d) /\ valid_utf8 (snd d)) (docs r) /\ Forall (fun d => plain_name (fst d)) (docs r) /\ (Z.of_nat (length (docs r)) < 2 ^ 63)%Z) ->
  (forall p, ok p = true -> stands_for fuel compile quote grow sf om p (ex p) (fe p) (xe p) /\
     ((def <= 0)%Z \/ forall r, In r (map fst servers) -> few sf (ex p) (fe p) (docs r) def)) ->
  forall locale serve, msg <> [] ->
  (forall p, get_param p (text "limit") = None -> sends fuel compile quote servers def msg p (serve p)) ->
  forall s last res, visit_of ok locale serve s last -> displays s res ->
  exists p, last = Some p /\ page_lists (looked_for sf (ex p) (fe p) (xe p)) (listed_as sf (ex p)) docs (fun r => In r (map fst servers)) p res.
Proof.
  intros fuel compile quote grow sf om servers def msg docs ok ex fe xe SAME NAMES STOCK MEAN locale serve MS SE s last res V D.
  pose proof (expr_found fuel compile quote grow sf om servers def docs ok ex fe xe STOCK MEAN) as FILES.
  destruct (page_generic fuel compile quote servers def msg docs ok (fun p => looked_for sf (ex p) (fe p) (xe p)) (fun p => listed_as sf (ex p)) SAME NAMES) with (locale := locale) (serve := serve) (s := s) (last := last) (res := res)
    as (p & E & _ & PL); try assumption.
  - intros r s0 G. destruct (STOCK r s0 G) as (_ & _ & _ & _ & X). exact X.
  - exists p. auto.
Qed.
Lemma expr_compiles : forall fuel compile quote grow sf om servers def p ex fe xe, stands_for fuel compile quote grow sf om p ex fe xe ->
  compile (GetRegexpPattern (if q_literal (request servers def p) then quote (q_query (request servers def p)) else q_query (request servers def p)) (q_icase (request servers def p))) <> None /\
  optional_filter compile (q_files (request servers def p)) <> None /\ optional_filter compile (q_exclude (request servers def p)) <> None.
Proof.
  intros fuel compile quote grow sf om servers def p ex fe xe (qt & ft & xt & lit & ic & tq & re & P & prog & fp & fre & xp & xre & GQ & GF & GX & LI & IC & CP & CO & NS & NE & DO & US & OF & FC & OX & XC).
  destruct (read_fields (form_value p) (map (fun s => (fst s, fst (snd s))) servers) def) as (A & B & C & D & E & _).
  fold (request servers def p) in A, B, C, D, E.
  assert (QQ : q_query (request servers def p) = qt) by (rewrite <- (given_value _ _ _ GQ); exact A).
  assert (QF : q_files (request servers def p) = ft) by (rewrite <- (given_value _ _ _ GF); exact B).
  assert (QX : q_exclude (request servers def p) = xt) by (rewrite <- (given_value _ _ _ GX); exact C).
  assert (QI : q_icase (request servers def p) = ic) by (symmetry; exact (on_value _ _ _ _ IC D)).
  assert (QL : q_literal (request servers def p) = lit) by (symmetry; exact (on_value _ _ _ _ LI E)).
  rewrite QQ, QF, QX, QI, QL, CP, OF, OX. repeat split; discriminate.
Qed.
Theorem page_expr_all : forall fuel compile quote grow sf om servers def msg docs ok ex fe xe,
  (forall p p', same_search p p' -> ok p = ok p') ->
  (forall r, In r (map fst servers) -> trimmed r r /\ ~ In 44 r) ->
  (forall r s, get servers r = Some s -> stocked (sv_ix (snd s)) (sv_raw (snd s)) (docs r) /\ NoDup (map fst (docs r)) /\
     Forall (fun d => valid_utf8 (fst d) /\ valid_utf8 (snd d)) (docs r) /\ Forall (fun d => plain_name (fst d)) (docs r) /\ (Z.of_nat (length (docs r)) < 2 ^ 63)%Z) ->
  (forall p, ok p = true -> stands_for fuel compile quote grow sf om p (ex p) (fe p) (xe p) /\
     ((def <= 0)%Z \/ forall r, In r (map fst servers) -> few sf (ex p) (fe p) (docs r) def)) ->
  forall locale serve, msg <> [] ->
  (forall p, get_param p (text "limit") = None -> sends fuel compile quote servers def msg p (serve p)) ->
  forall s last p, visit_of ok locale serve s last -> polite serve s (Search p) -> ok p = true ->
  (forall req, same_search req p -> serve req <> Broke) ->
  exists s1 s2 res, page_step locale s (Search p) s1 /\ goes serve locale s1 s2 /\ displays s2 res /\
    page_lists (looked_for sf (ex p) (fe p) (xe p)) (listed_as sf (ex p)) docs (fun r => In r (map fst servers)) p res /\
    Forall (fun x => r_files x = Z.of_nat (length (r_matches x))) res.
Proof.
  intros fuel compile quote grow sf om servers def msg docs ok ex fe xe SAME NAMES STOCK MEAN locale serve MS SE s last p V PO O NB.
  pose proof (expr_found fuel compile quote grow sf om servers def docs ok ex fe xe STOCK MEAN) as FILES.
  apply (generic_all fuel compile quote servers def msg docs ok (fun p => looked_for sf (ex p) (fe p) (xe p)) (fun p => listed_as sf (ex p)) SAME NAMES) with (last := last); try assumption.
  - intros r s0 G. destruct (STOCK r s0 G) as (_ & _ & _ & _ & X). exact X.
  - intros p' O'. destruct (MEAN p' O') as (SF & _). exact (expr_compiles _ _ _ _ _ _ servers def _ _ _ _ SF).
Qed.
