(** C106: patterns mean what they say. The parser of regexp/syntax is a model for patterns of
    characters, escapes, numbers, . ^ $ \b \B, classes, groups and * + ? (Model/GoParse.v); compiler, matcher,
    analysis, index, Search and page are models too. What other patterns become is left open
    ([beyond]). The specification (Spec/PatternSpec.v) knows how a pattern is written and what it
    matches, files, lines and characters. *)
From Verif Require Import Model.Base Model.GoStr Model.Config Model.Writer Model.IndexRun Model.Query Model.Reader Model.Utf8 Model.Syntax Model.Matcher Model.Utf Model.Analyze Model.Grep Model.Search Model.Api
  Model.Request Model.Whole Model.PageState Model.PageView Model.GoRegexp Model.GoParse Spec.IndexSpec Spec.RunSpec Spec.Utf8Spec Spec.RegexSpec Spec.MatchSpec Spec.GrepSpec Spec.RuneProgSpec Spec.ExprSpec Spec.ParsedSpec Spec.LiteralSpec
  Spec.WholeSpec Spec.PresentSpec Spec.ViewSpec Spec.ApiSpec Spec.SearchSpec Spec.LoadSpec Spec.Names Spec.PlainSpec Spec.ExprPageSpec Spec.PatternSpec
  Proofs.GrepTop Proofs.MatchTop Proofs.EndToEnd Proofs.SearchTop Proofs.UtfTop Proofs.SearchExample Proofs.WholeSearch Proofs.WholeExample Proofs.PageServe Proofs.PageLoad Proofs.PageExpr
  Proofs.PatternParse Proofs.PatternTop Props.C01_prefilter Props.C23_expressions Props.C74_plain_text.
From Coq Require Import Lia.
Local Open Scope N_scope.

(** The texts of patterns are accepted, and the expressions that are made of them match what the
    patterns match: with the flags of a search, and as a filter on names. *)
Theorem C106_read_partial : forall sf om ic pt s, folding sf om -> written Seq pt s -> (length s <= 997)%nat ->
  ((ic = true -> forall r, In r (chars_of pt) -> 0x1044f < r -> sf r = r) -> classes_ok sf om ic pt ->
   exists g, Parse sf om (GetRegexpPattern s ic) = Parsed g /\ forall pre w post, rmatch sf (erase g) pre w post <-> pmatch sf ic true pt pre w post) /\
  (classes_ok sf om false pt -> exists g, Parse sf om s = Parsed g /\ forall pre w post, rmatch sf (erase g) pre w post <-> pmatch sf false false pt pre w post).
Proof.
  intros sf om ic pt s FO W L. split.
  - intros OLD CK. destruct (parse_search sf om ic pt s FO W) as (g & E & _ & M); [split; [intros r I X; apply OLD; assumption|exact CK]|exact L|]. eauto.
  - intros CK. destruct (parse_filter sf om pt s FO W CK L) as (g & E & _ & M). eauto.
Qed.
Print Assumptions C106_read_partial.

(** One repository: the files of the answer are those whose name the one filter matches and the
    other does not, and one of whose lines the pattern matches; the lines reported are those
    that match. Left out: patterns of more than 997 bytes; letters beyond U+1044F when case is
    ignored (C74), and the classes that [class_ok] leaves out; patterns for which the end of the file is a line ([lines_only], refuted
    below); files and names that are not UTF-8 (C14); names that start with a newline (C22). *)
Theorem C106_repo_partial : forall grow sf om beyond fuel, folding sf om -> forall ic pt ft xt q s docs,
  q_literal q = false -> q_icase q = ic -> q_offset q = 0%Z -> q_limit q = 0%Z ->
  search_text sf om fuel ic pt (q_query q) -> filter_text sf om fuel ft (q_files q) -> filter_text sf om fuel xt (q_exclude q) -> holds sf ic pt (q_max q) s docs ->
  exists r, search_repo fuel (compile_pattern sf om grow fuel beyond) QuoteMeta q s = Some (Some r) /\ rs_found r = Z.of_nat (length (rs_matches r)) /\
    exists w, (forall d, In d docs -> (w d = true <-> pattern_looked sf ic pt ft xt d)) /\
      Forall2 (fun d f => fm_name f = fst d /\ forall k line, reported (fm_hits f) k line <-> matched_line sf ic pt (snd d) k line) (filter w docs) (rs_matches r).
Proof. exact pattern_repo. Qed.
Print Assumptions C106_repo_partial.

(** The page: whenever results are shown, they are those of the patterns of the last search;
    and all of them can be brought on the page (as in C92). *)
Theorem C106_page_partial : forall grow sf om beyond fuel, folding sf om -> forall servers def msg docs ok ic pt ft xt,
  (forall p p', same_search p p' -> ok p = ok p') ->
  (forall r, In r (map fst servers) -> trimmed r r /\ ~ In 44 r) ->
  (forall r s, get servers r = Some s -> stocked (sv_ix (snd s)) (sv_raw (snd s)) (docs r) /\ NoDup (map fst (docs r)) /\
     Forall (fun d => valid_utf8 (fst d) /\ valid_utf8 (snd d)) (docs r) /\ Forall (fun d => plain_name (fst d)) (docs r) /\ (Z.of_nat (length (docs r)) < 2 ^ 63)%Z) ->
  (forall p, ok p = true -> pattern_asked sf om fuel p (ic p) (pt p) (ft p) (xt p) /\
     ((def <= 0)%Z \/ forall r, In r (map fst servers) -> forall l : list (str * nat), NoDup l ->
        (forall name k, In (name, k) l -> exists text line, In (name, text) (docs r) /\ matched_line sf (ic p) (pt p) text k line) -> (Z.of_nat (length l) < def)%Z)) ->
  forall locale serve, msg <> [] ->
  (forall p, get_param p (text "limit") = None -> sends fuel (compile_pattern sf om grow fuel beyond) QuoteMeta servers def msg p (serve p)) ->
  forall s last, visit_of ok locale serve s last ->
  (forall res, displays s res -> exists p, last = Some p /\
     page_lists (pattern_looked sf (ic p) (pt p) (ft p) (xt p)) (pattern_listed sf (ic p) (pt p)) docs (fun r => In r (map fst servers)) p res) /\
  (forall p, polite serve s (Search p) -> ok p = true -> (forall req, same_search req p -> serve req <> Broke) ->
     exists s1 s2 res, page_step locale s (Search p) s1 /\ goes serve locale s1 s2 /\ displays s2 res /\
       page_lists (pattern_looked sf (ic p) (pt p) (ft p) (xt p)) (pattern_listed sf (ic p) (pt p)) docs (fun r => In r (map fst servers)) p res /\
       Forall (fun x => r_files x = Z.of_nat (length (r_matches x))) res).
Proof.
  intros grow sf om beyond fuel FO servers def msg docs ok ic pt ft xt SAME NAMES STOCK ASKED locale serve ME SE s last V. split.
  - intros res DI. exact (page_pattern grow sf om beyond fuel FO servers def msg docs ok ic pt ft xt SAME NAMES STOCK ASKED locale serve ME SE s last res V DI).
  - intros p. exact (page_pattern_all grow sf om beyond fuel FO servers def msg docs ok ic pt ft xt SAME NAMES STOCK ASKED locale serve ME SE s last p V).
Qed.
Print Assumptions C106_page_partial.

(** [lines_only] is no obstacle for patterns that need a character, or have no positions. *)
Fixpoint needs_char (p : pat) : bool :=
  match p with
  | PChar _ | PAny | PClass _ _ => true
  | PGroup p | PPlus p => needs_char p
  | PCount p min _ => Nat.ltb 0 min && needs_char p
  | PThen p q => needs_char p || needs_char q
  | _ => false
  end.
Fixpoint no_positions (p : pat) : bool :=
  match p with
  | PStart | PEnd | PEdge | PNoEdge => false
  | PGroup p | PStar p | PPlus p | PQuest p | PCount p _ _ => no_positions p
  | PThen p q => no_positions p && no_positions q
  | _ => true
  end.
Lemma needs_some : forall sf ic ml p pre w post, pmatch sf ic ml p pre w post -> needs_char p = true -> w <> [].
Proof.
  induction 1; cbn [needs_char]; intros N; try discriminate; try (eapply Utf8Proofs.utf8_nonempty; eassumption); auto.
  - intros E. apply app_eq_nil in E. destruct E as (-> & _). apply IHpmatch1; auto.
  - apply andb_true_iff in N. destruct N as (N1 & N2). apply Nat.ltb_lt in N1. apply IHpmatch. destruct k as [|k]; [lia|]. change (Nat.iter (S k) (PThen p) PEmpty) with (PThen p (Nat.iter k (PThen p) PEmpty)). cbn [needs_char]. rewrite N2. reflexivity.
  - intros E. apply app_eq_nil in E. destruct E as (-> & ->). apply orb_true_iff in N. destruct N as [N|N]; [apply IHpmatch1|apply IHpmatch2]; auto.
Qed.
Lemma anywhere : forall sf ic ml p pre w post, pmatch sf ic ml p pre w post -> no_positions p = true -> forall pre' post', pmatch sf ic ml p pre' w post'.
Proof.
  induction 1; cbn [no_positions]; intros N pre' post'; try discriminate.
  - apply pm_empty.
  - eapply pm_char; eassumption.
  - eapply pm_any; eassumption.
  - eapply pm_class; eassumption.
  - apply pm_group, IHpmatch, N.
  - apply pm_none.
  - apply pm_more; [apply IHpmatch1, N|apply IHpmatch2, N].
  - apply pm_plus; [apply IHpmatch1, N|apply IHpmatch2, N].
  - apply pm_quest0.
  - apply pm_quest1, IHpmatch, N.
  - apply pm_count with k; [assumption|assumption|]. apply IHpmatch. clear - N. induction k as [|k IH]; [reflexivity|]. change (Nat.iter (S k) (PThen p) PEmpty) with (PThen p (Nat.iter k (PThen p) PEmpty)). cbn [no_positions]. rewrite N. exact IH.
  - apply andb_true_iff in N. destruct N as (N1 & N2). apply pm_then; [apply IHpmatch1, N1|apply IHpmatch2, N2].
Qed.
Theorem C106_lines_only : forall sf ic p, needs_char p = true \/ no_positions p = true -> lines_only sf ic p.
Proof.
  intros sf ic p H (u & w & v & E & M) line NL. destruct u; [|discriminate]. destruct w; [|discriminate]. destruct H as [H|H].
  - exfalso. exact (needs_some _ _ _ _ _ _ _ M H eq_refl).
  - exists line, [], []. split; [rewrite app_nil_r; reflexivity|]. eapply anywhere; eassumption.
Qed.
Print Assumptions C106_lines_only.

(** ** Examples *)
Definition pt_request (pat files : str) (ic : bool) : search_request := mkReq false [[114]] pat 0 0 files [] ic false 0 1.
Definition pt_found (sf : N -> N) (fuel : nat) (pat files txt : str) (ic : bool) : option (list (nat * str)) :=
  r <- search_repo fuel (compile_pattern sf 4 go_grow fuel (fun _ => None)) QuoteMeta (pt_request pat files ic) (lt_server txt) ;;
  match r with
  | Some r => Some (flat_map (fun f => map (fun h => (h_no h, h_line h)) (fm_hits f)) (rs_matches r))
  | None => None
  end.

(** ^a(b.)+\.$ among the lines ab-.  xab-.  AB-b.. and ab.; the file is called a, the filter is ^a?$ *)
Definition pt_pat : pat := PThen PStart (PThen (PChar 97) (PThen (PPlus (PGroup (PThen (PChar 98) (PThen PAny PEmpty)))) (PThen (PChar 46) (PThen PEnd PEmpty)))).
Definition pt_txt : str := text "^a(b.)+\.$".
Definition pt_filter : pat := PThen PStart (PThen (PQuest (PChar 97)) (PThen PEnd PEmpty)).
Definition pt_file : str := text "ab-." ++ [10] ++ text "xab-." ++ [10] ++ text "AB-b.." ++ [10] ++ text "ab.".
Lemma wr_ascii : forall r, r < 0x80 -> ~ In r metachars -> written Atom (PChar r) [r].
Proof. intros r L N. apply wr_char; [apply utf8_1, L|exact N]. Qed.
Lemma pt_written : written Seq pt_pat pt_txt.
Proof.
  change pt_txt with ([94] ++ [97] ++ (([40] ++ ([98] ++ [46] ++ []) ++ [41]) ++ [43] ++ []) ++ [92; 46] ++ [36] ++ []). unfold pt_pat.
  apply wr_cons; [apply wr_once, wr_start|]. apply wr_cons; [apply wr_once, wr_ascii; [reflexivity|cbn; intuition discriminate]|].
  apply wr_cons; [apply wr_plus; [apply wr_group|left; reflexivity]|].
  - apply wr_cons; [apply wr_once, wr_ascii; [reflexivity|cbn; intuition discriminate]|]. apply wr_cons; [apply wr_once, wr_any|apply wr_nil].
  - apply wr_cons; [apply wr_once, wr_quoted; [reflexivity|unfold letter_or_digit; lia]|]. apply wr_cons; [apply wr_once, wr_end|apply wr_nil].
Qed.
Lemma pt_filter_written : written Seq pt_filter (text "^a?$").
Proof.
  change (text "^a?$") with ([94] ++ ([97] ++ [63] ++ []) ++ [36] ++ []). apply wr_cons; [apply wr_once, wr_start|].
  apply wr_cons; [apply wr_quest; [apply wr_ascii; [reflexivity|cbn; intuition discriminate]|left; reflexivity]|]. apply wr_cons; [apply wr_once, wr_end|apply wr_nil].
Qed.
(** Fuel for programs of at most [n] instructions. *)
Definition enough (n : nat) : nat := S (32 * 2 ^ n).
Definition size_of (sf : N -> N) (om : nat) (s : str) : option N :=
  match Parse sf om s with
  | Parsed g => p <- byte_program sf om g ;; Some (N.of_nat (length (p_inst p)))
  | _ => None
  end.
Lemma fits_checked : forall sf om n s k, size_of sf om s = Some k -> k <= N.of_nat n -> k < 2^32 - 1 -> fits sf om (enough n) s.
Proof.
  intros sf om n s k H L SZ. unfold size_of in H. destruct (Parse sf om s) as [g| |] eqn:EP; try discriminate. destruct (byte_program sf om g) as [p|] eqn:BP; [|discriminate].
  cbn [bind] in H. injection H as H. exists g, p. split; [exact EP|]. split; [exact BP|]. split; [rewrite H; exact SZ|]. unfold depth_ok, enough.
  assert (2 ^ length (p_inst p) <= 2 ^ n)%nat by (apply Nat.pow_le_mono_r; lia). lia.
Qed.
Ltac fits_now := eapply fits_checked; [vm_compute; reflexivity|vm_compute; discriminate|reflexivity].
Example C106_example : forall ic,
  folding ascii_fold 4 /\ search_text ascii_fold 4 (enough 90) ic pt_pat (q_query (pt_request pt_txt (text "^a?$") ic)) /\
  filter_text ascii_fold 4 (enough 90) (Some pt_filter) (q_files (pt_request pt_txt (text "^a?$") ic)) /\
  holds ascii_fold ic pt_pat (q_max (pt_request pt_txt (text "^a?$") ic)) (lt_server pt_file) [([97], pt_file)] /\
  pt_found ascii_fold 3000 pt_txt (text "^a?$") pt_file ic = Some ((1%nat, text "ab-.") :: if ic then [(3%nat, text "AB-b..")] else []).
Proof.
  intros ic. split; [exact ascii_folding|]. split; [|split; [|split]].
  - split; [exact pt_written|]. split; [intros _ r I L; cbn in I; repeat (destruct I as [<-|I]; [discriminate L|]); destruct I|]. split; [intros n ms []|]. split; [cbn; lia|]. split; [apply C106_lines_only; left; reflexivity|].
    destruct ic; fits_now.
  - split; [discriminate|]. split; [exact pt_filter_written|]. split; [intros n ms []|]. split; [cbn; lia|]. fits_now.
  - constructor.
    + apply lt_stocked; [repeat constructor|eexists; vm_compute; reflexivity].
    + constructor; [intros []|constructor].
    + constructor; [|constructor]. split; apply we_valid; repeat constructor.
    + constructor; [discriminate|constructor].
    + left. cbn. lia.
  - destruct ic; vm_compute; reflexivity.
Qed.
(** Repetitions that are lazy match the same lines; a filter has no lines; what is not written as
    above is refused (or left open). *)
Example C106_more : pt_found ascii_fold 3000 (text "a.*?b") [] pt_file false = Some [(1%nat, text "ab-."); (2%nat, text "xab-."); (4%nat, text "ab.")] /\
  pt_found ascii_fold 3000 (text "a") (text "^b") pt_file false = Some [] /\
  Parse ascii_fold 4 (text "a**") = Refused /\ Parse ascii_fold 4 (text "(a") = Refused /\ Parse ascii_fold 4 (text "a)") = Refused /\ Parse ascii_fold 4 (text "*a") = Refused /\
  Parse ascii_fold 4 (text "[b-a]") = Refused /\ Parse ascii_fold 4 (text "[a") = Refused /\ Parse ascii_fold 4 (text "[]") = Refused /\
  Parse ascii_fold 4 (text "[a-\d]") = Refused /\ Parse ascii_fold 4 (text "[[:abc:]]") = Refused /\ Parse ascii_fold 4 (text "\1") = Refused /\ Parse ascii_fold 4 (text "\xg1") = Refused /\
  Parse ascii_fold 4 (text "\x{110000}") = Refused /\ Parse ascii_fold 4 (text "\Qa.b\Ec") = Parsed (GLiteral false (text "a.bc")) /\
  Parse ascii_fold 4 (text "[]a]") = Parsed (GClass [93; 93; 97; 97]) /\ Parse ascii_fold 4 (text "[Aa]") = Parsed (GLiteral true [65]).
Proof. repeat split; vm_compute; reflexivity. Qed.
(** Counts: as they are written, what they match, what is refused, and braces that are no counts. *)
Example C106_counted : written Seq (PThen (PCount (PClass false [MKind KDigit false]) 2 (Some 10%nat)) PEmpty) (text "\d{2,10}?") /\
  pmatch ascii_fold false true (PCount (PChar 97) 2 None) [] (text "aaa") [] /\ ~ pmatch ascii_fold false true (PCount (PChar 97) 2 None) [] (text "a") [] /\
  pt_found ascii_fold 3000 (text "^.{3}$") [] pt_file false = Some [(4%nat, text "ab.")] /\
  Parse ascii_fold 4 (text "a{2,1}") = Refused /\ Parse ascii_fold 4 (text "a{1001}") = Refused /\ Parse ascii_fold 4 (text "(a{100}){100}") = Refused /\
  Parse ascii_fold 4 (text "{2}") = Refused /\ Parse ascii_fold 4 (text "a*{2}") = Refused /\ Parse ascii_fold 4 (text "a{2}{2}") = Refused /\
  Parse ascii_fold 4 (text "a{,2}") = Parsed (GLiteral false (text "a{,2}")) /\ Parse ascii_fold 4 (text "a{02}") = Parsed (GLiteral false (text "a{02}")) /\
  Parse ascii_fold 4 (text "a{0,2}?") = Parsed (GRepeat true 0 (Some 2%nat) (GLiteral false (text "a"))).
Proof.
  split.
  { change (text "\d{2,10}?") with (([92; 100] ++ ([123] ++ [50] ++ [44] ++ [49; 48] ++ [125]) ++ [63]) ++ []). apply wr_cons; [|apply wr_nil]. apply wr_count; [apply wr_kind; left; reflexivity|reflexivity| |right; left; reflexivity].
    apply (co_between 2 10); [| |lia|lia]; (split; [discriminate|split; [intros s' E; try discriminate E|]]).
    - exists [2]. split; [|reflexivity]. repeat constructor; lia.
    - exists [1; 0]. split; [|reflexivity]. repeat constructor; lia. }
  assert (C : forall pre post, pmatch ascii_fold false true (PChar 97) pre [97] post) by (intros pre post; apply pm_char with 97; [apply utf8_1; lia|reflexivity]).
  split.
  { apply pm_count with 3%nat; [lia|exact I|]. change (text "aaa") with ([97] ++ [97] ++ [97] ++ []). cbn [Nat.iter nat_rect]. repeat (apply pm_then; [apply C|]). apply pm_empty. }
  split.
  { intros M. inversion M as [| | | | | | | | | | | | | |q mi ma k pre w post LK _ MK|]; subst. destruct k as [|[|k]]; [lia|lia|].
    change (Nat.iter (S (S k)) (PThen (PChar 97)) PEmpty) with (PThen (PChar 97) (PThen (PChar 97) (Nat.iter k (PThen (PChar 97)) PEmpty))) in MK.
    inversion MK as [| | | | | | | | | | | | | | |p1 q1 pre1 u v post1 M1 M2 E1 E2 E3 E4]. inversion M2 as [| | | | | | | | | | | | | | |p2 q2 pre2 u2 v2 post2 M3 M4 E5 E6 E7 E8]. subst.
    pose proof (needs_some _ _ _ _ _ _ _ M1 eq_refl). pose proof (needs_some _ _ _ _ _ _ _ M3 eq_refl). apply (f_equal (@length N)) in E3. rewrite !app_length in E3. destruct u; [congruence|]. destruct u2; [congruence|]. cbn in E3. lia. }
  repeat split; vm_compute; reflexivity.
Qed.

(** [A-C-]\d+[^\w] among the lines a1.  B22  -3- and C44! *)
Definition pc_pat : pat := PThen (PClass false [MRange 65 67; MRange 45 45]) (PThen (PPlus (PClass false [MKind KDigit false])) (PThen (PClass true [MKind KWord false]) PEmpty)).
Definition pc_txt : str := text "[A-C-]\d+[^\w]".
Definition pc_file : str := text "a1." ++ [10] ++ text "B22" ++ [10] ++ text "-3-" ++ [10] ++ text "C44!".
Lemma pc_written : written Seq pc_pat pc_txt.
Proof.
  change pc_txt with (([91] ++ [] ++ (([65] ++ [45] ++ [67]) ++ [45]) ++ [93]) ++ ([92; 100] ++ [43] ++ []) ++ ([91] ++ [94] ++ [92; 119] ++ [93]) ++ []).
  apply wr_cons; [apply wr_once, (wr_class false), cl_minus, cm_range; [apply cc_char; [apply utf8_1; reflexivity|cbn; intuition discriminate]..|lia]|].
  apply wr_cons; [apply wr_plus; [apply wr_kind; cbn; tauto|left; reflexivity]|].
  apply wr_cons; [apply wr_once, (wr_class true), cl_last, (cm_kind 119); cbn; tauto|apply wr_nil].
Qed.
Lemma ascii_small : forall r r', r < 128 -> RegexSpec.same_letter ascii_fold r r' -> r' < 128.
Proof.
  intros r r' L (i & ->). induction i as [|i IH]; [exact L|]. change (Nat.iter (S i) ascii_fold r) with (ascii_fold (Nat.iter i ascii_fold r)). revert IH. generalize (Nat.iter i ascii_fold r). clear. intros r L.
  unfold ascii_fold. destruct (N.leb_spec 65 r), (N.leb_spec r 90), (N.leb_spec 97 r), (N.leb_spec r 122); cbn [andb]; lia.
Qed.
Lemma ascii_classes : forall ic neg ms, (forall m r, In m ms -> made_of m r -> r < 128) -> (forall lo hi, In (MRange lo hi) ms -> lo <= hi) -> fold_right N.add 0 (map width ms) <= 500 ->
  class_ok ascii_fold 4 ic neg ms.
Proof.
  intros ic neg ms S R W. split; [|split; [|intros _; split; [lia|exact W]]].
  - destruct ic.
    + intros m r r' I MO SA. left. pose proof (ascii_small r r' (S m r I MO) SA). lia.
    + intros lo hi I. specialize (R lo hi I). pose proof (S (MRange lo hi) lo I). pose proof (S (MRange lo hi) hi I). cbn [made_of] in *. unfold far. lia.
  - intros r r' L E _ _. unfold ascii_fold in E. destruct (N.leb_spec 65 r), (N.leb_spec r 90), (N.leb_spec 97 r), (N.leb_spec r 122); cbn [andb] in E; lia.
Qed.
Lemma pc_classes : forall ic, classes_ok ascii_fold 4 ic pc_pat.
Proof.
  intros ic neg ms I. apply ascii_classes.
  - intros m r Im MO. cbn in I. repeat (destruct I as [E|I]; [injection E as <- <-; cbn [In] in Im; repeat (destruct Im as [<-|Im]; [cbn [made_of of_kind] in MO; unfold word_byte in *; lia|]); destruct Im|]); destruct I.
  - intros lo hi Im. cbn in I. repeat (destruct I as [E|I]; [injection E as <- <-; cbn [In] in Im; repeat (destruct Im as [EM|Im]; [try discriminate EM; injection EM as <- <-; lia|]); destruct Im|]); destruct I.
  - cbn in I. repeat (destruct I as [E|I]; [injection E as <- <-; vm_compute; discriminate|]). destruct I.
Qed.
Example C106_classes : forall ic,
  search_text ascii_fold 4 (enough 200) ic pc_pat (q_query (pt_request pc_txt [] ic)) /\ holds ascii_fold ic pc_pat (q_max (pt_request pc_txt [] ic)) (lt_server pc_file) [([97], pc_file)] /\
  pt_found ascii_fold 3000 pc_txt [] pc_file ic = Some ((if ic then [(1%nat, text "a1.")] else []) ++ [(3%nat, text "-3-"); (4%nat, text "C44!")]).
Proof.
  intros ic. split; [|split].
  - split; [exact pc_written|]. split; [intros _ r []|]. split; [apply pc_classes|]. split; [cbn; lia|]. split; [apply C106_lines_only; left; reflexivity|]. destruct ic; fits_now.
  - constructor.
    + apply lt_stocked; [repeat constructor|eexists; vm_compute; reflexivity].
    + constructor; [intros []|constructor].
    + constructor; [|constructor]. split; apply we_valid; repeat constructor.
    + constructor; [discriminate|constructor].
    + left. cbn. lia.
  - destruct ic; vm_compute; reflexivity.
Qed.

(** \x61\x{0062}\Q.+\E[[:^alnum:]\101]\072 among the lines ab.+-:  ab.+A:  ab.+b: and aB.+a: *)
Definition pn_pat : pat := PThen (PChar 97) (PThen (PChar 98) (verbatim [46; 43] (PThen (PClass false [MKind KAlnum true; MRange 65 65]) (PThen (PChar 58) PEmpty)))).
Definition pn_txt : str := text "\x61\x{0062}\Q.+\E[[:^alnum:]\101]\072".
Definition pn_file : str := text "ab.+-:" ++ [10] ++ text "ab.+A:" ++ [10] ++ text "ab.+b:" ++ [10] ++ text "aB.+a:".
Lemma pn_written : written Seq pn_pat pn_txt.
Proof.
  change pn_txt with ((92 :: [120; 54; 49]) ++ (92 :: ([120; 123] ++ [48; 48; 54; 50] ++ [125])) ++ [92; 81] ++ ([46] ++ [43] ++ []) ++ [92; 69] ++
    ([91] ++ [] ++ (([91; 58] ++ [94] ++ text "alnum" ++ [58; 93]) ++ (92 :: [49; 48; 49])) ++ [93]) ++ (92 :: [48; 55; 50]) ++ []).
  assert (O : forall a b c x y z r, r = 64 * x + 8 * y + z -> octal_digit a x -> octal_digit b y -> octal_digit c z -> number r [a; b; c]) by (intros; subst; apply nu_octal; assumption).
  apply wr_cons; [apply wr_once, wr_number, (nu_hex 54 49 6 1); unfold hex_digit; lia|].
  apply wr_cons; [apply wr_once, wr_number, (nu_braces [48; 48; 54; 50] [0; 0; 6; 2]); [repeat constructor; unfold hex_digit; lia|discriminate|reflexivity|unfold scalar; lia]|].
  apply wr_verbatim; [apply sp_cons; [apply utf8_1; reflexivity|apply sp_cons; [apply utf8_1; reflexivity|constructor]]| |].
  - intros a b E. assert (I : In 92 ([46; 43] : str)) by (change ([46; 43] : str) with ([46] ++ [43] ++ [] : str); rewrite E; apply in_or_app; right; left; reflexivity). cbn in I. destruct I as [I|[I|[]]]; discriminate.
  - apply wr_cons; [apply wr_once, (wr_class false), cl_cons; [apply (cm_named _ KAlnum true); left; reflexivity|apply cl_last, cm_one, cc_number, (O _ _ _ 1 0 1); [reflexivity|unfold octal_digit; lia..]]|].
    apply wr_cons; [apply wr_once, wr_number, (O _ _ _ 0 7 2); [reflexivity|unfold octal_digit; lia..]|apply wr_nil].
Qed.
Lemma pn_classes : forall ic, classes_ok ascii_fold 4 ic pn_pat.
Proof.
  intros ic neg ms I. cbn in I. destruct I as [E|[]]. injection E as <- <-. apply ascii_classes.
  - intros m r [<-|[<-|[]]] MO; cbn [made_of of_kind] in MO; unfold letter_or_digit in *; lia.
  - intros lo hi [E|[E|[]]]; [discriminate|injection E as <- <-; lia].
  - vm_compute. discriminate.
Qed.
Example C106_numbers : forall ic,
  search_text ascii_fold 4 (enough 200) ic pn_pat (q_query (pt_request pn_txt [] ic)) /\
  pt_found ascii_fold 3000 pn_txt [] pn_file ic = Some ([(1%nat, text "ab.+-:"); (2%nat, text "ab.+A:")] ++ (if ic then [(4%nat, text "aB.+a:")] else [])).
Proof.
  intros ic. split.
  - split; [exact pn_written|]. split; [intros _ r I L; cbn in I; repeat (destruct I as [<-|I]; [discriminate L|]); destruct I|]. split; [apply pn_classes|]. split; [cbn; lia|]. split; [apply C106_lines_only; left; reflexivity|]. destruct ic; fits_now.
  - destruct ic; vm_compute; reflexivity.
Qed.

(** Refuted without [lines_only]: ^$ is found at the end of a file that ends in a newline, where
    there is no line (C17). *)
Definition blank : pat := PThen PStart (PThen PEnd PEmpty).
Theorem C106_blank_refuted : exists sf om fuel q s docs r f, folding sf om /\ written Seq blank (q_query q) /\ fits sf om fuel (GetRegexpPattern (q_query q) false) /\
  q_literal q = false /\ q_icase q = false /\ q_offset q = 0%Z /\ q_limit q = 0%Z /\ q_files q = [] /\ q_exclude q = [] /\ holds sf false blank (q_max q) s docs /\
  docs = [([97], [97; 10])] /\ (forall k line, ~ matched_line sf false blank [97; 10] k line) /\
  search_repo fuel (compile_pattern sf om go_grow fuel (fun _ => None)) QuoteMeta q s = Some (Some r) /\ rs_matches r = [f] /\ exists k line, reported (fm_hits f) k line.
Proof.
  destruct (search_repo (enough 6) (compile_pattern ascii_fold 4 go_grow (enough 6) (fun _ => None)) QuoteMeta (pt_request (text "^$") [] false) (lt_server [97; 10])) as [[r|]|] eqn:ER;
    [|vm_compute in ER; discriminate|vm_compute in ER; discriminate].
  destruct (rs_matches r) as [|f [|f' l]] eqn:EM; [vm_compute in ER; injection ER as <-; discriminate| |vm_compute in ER; injection ER as <-; discriminate].
  exists ascii_fold, 4%nat, (enough 6), (pt_request (text "^$") [] false), (lt_server [97; 10]), [([97], [97; 10])], r, f.
  split; [exact ascii_folding|]. split.
  { change (q_query (pt_request (text "^$") [] false)) with ([94] ++ [36] ++ []). apply wr_cons; [apply wr_once, wr_start|]. apply wr_cons; [apply wr_once, wr_end|apply wr_nil]. }
  split; [fits_now|]. do 6 (split; [reflexivity|]). split.
  { constructor.
    + apply lt_stocked; [repeat constructor|eexists; vm_compute; reflexivity].
    + constructor; [intros []|constructor].
    + constructor; [|constructor]. split; apply we_valid; repeat constructor.
    + constructor; [discriminate|constructor].
    + left. cbn. lia. }
  split; [reflexivity|]. split.
  { intros k line ((lines & FL & EN) & pre & w & post & E & NL & NW & M).
    assert (W : w = [] /\ (pre = [] \/ exists b, pre = b ++ [10]) /\ (post = [] \/ exists a, post = 10 :: a)).
    { inversion M as [| | | | | | | | | | | | | | |p1 q1 pre1 u v post1 M1 M2]; subst. inversion M1; subst. inversion M2 as [| | | | | | | | | | | | | | |p2 q2 pre2 u2 v2 post2 M3 M4]; subst. inversion M3; subst. inversion M4; subst.
      cbn [app] in *. split; [reflexivity|]. rewrite app_nil_r in *. tauto. }
    destruct W as (-> & PR & PO). cbn [app] in E.
    assert (LN : lines = [[97]]). { destruct (file_lines_total [97; 10]) as (l0 & FL0 & FU). rewrite (FU lines FL). symmetry. apply FU. exists [[97]; []]. split; [apply SplitProofs.splits_iff; reflexivity|]. left. reflexivity. }
    subst lines. destruct pre as [|x pre]; [cbn [app] in E; subst post; destruct PO as [PO|(a & PO)]; discriminate|].
    destruct PR as [PR|(b & PR)]; [discriminate|]. destruct b as [|y b]; cbn [app] in PR.
    - rewrite PR in E. discriminate E.
    - injection PR as -> ->. cbn [app] in E. injection E as <- E. destruct b as [|z b]; [|cbn [app] in E; injection E as <- E; destruct b; discriminate E].
      cbn in NL. subst k. discriminate EN. }
  split; [exact ER|]. split; [exact EM|]. vm_compute in ER. injection ER as <-. cbn in EM. injection EM as <-. eexists _, _, _. split; [left; reflexivity|]. split; reflexivity.
Qed.
Print Assumptions C106_blank_refuted.
