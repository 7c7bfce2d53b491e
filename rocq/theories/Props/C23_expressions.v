(** C23 for regular expressions. [rmatch] (Spec/RegexSpec.v) says what an expression
    matches; the query comes from the model of RegexpQuery and the byte program from the
    model of toByteProg; the rune program [P] is the output of syntax.Compile, of which
    only [faithful] (Spec/ExprSpec.v) is assumed. [C23_programs_exist] shows that such
    programs exist for every expression. *)
From Verif Require Import Spec.ParsedSpec Model.Base Model.Writer Model.IndexRun Model.Query Model.Reader Model.Syntax Model.Analyze
  Model.Matcher Model.Utf Model.Utf8 Model.Grep Model.Search Model.IndexDir Spec.RunSpec Spec.QuerySpec Spec.Utf8Spec
  Spec.RegexSpec Spec.MatchSpec Spec.RuneProgSpec Spec.ExprSpec Spec.GrepSpec Spec.SearchSpec Spec.TreeSpec
  Proofs.GrepTop Proofs.MatchTop Proofs.FillProofs Proofs.SearchTop Proofs.LookupProofs Proofs.IndexProofs Proofs.EndToEnd
  Proofs.AnalyzeTop Proofs.TreeSearch Proofs.UtfTop Proofs.ExprSearch Proofs.ExprTree Proofs.ExprLiteral Proofs.Thompson Props.C01_prefilter.
From Coq Require Import Sorted.
Local Open Scope N_scope.

(** Every reported line is a line of an indexed file that matches the expression (if it
    contains no encoded surrogate, C14), and every matching line of every indexed file is
    reported with its number. Missing: expressions with \A and those that match the
    empty line behind the last newline but not every line, like ^$ (C17), and those whose analysis shares storage (refuted below). *)
Theorem C23_expression_partial : forall cap mem files vs b grow sf om ex P q p fuel nctx raw auto rev re,
  (1 <= cap)%nat -> files_ok files -> build_index cap mem [] files = Some (vs, b) ->
  compiled grow sf om ex P q p -> no_text_start ex -> ends_well sf ex ->
  depth_ok fuel p -> used fuel p re ->
  exists docs ix, kept files vs docs /\ ix_open b = Some ix /\
    (raw_ok raw docs ->
      exists r, search fuel (unlimited nctx) raw auto rev ix q re None None = Some (Some r) /\
        (forall f, In f (rs_matches r) -> exists d, In d docs /\ fm_name f = fst d /\ fm_hits f <> [] /\ finds sf ex d (fm_hits f)) /\
        (forall d lines k line, In d docs -> file_lines (snd d) lines -> nth_error lines k = Some line ->
           expr_on_line sf ex (snd d) k ->
           exists f, In f (rs_matches r) /\ fm_name f = fst d /\ reported (fm_hits f) k line)).
Proof. exact expression_search. Qed.
Print Assumptions C23_expression_partial.

(** From a source directory to the results. *)
Theorem C23_expression_repository_partial : forall cap opt mk_ok cr_ok json_ok mem rname u es b raw excl grow sf om ex P q p fuel nctx rdr auto rev re,
  (1 <= cap)%nat -> good_tree (NDir u es) ->
  index_all_files cap opt mk_ok cr_ok json_ok mem rname (NDir u es) = Some (Some (b, raw, excl)) ->
  serves rdr raw ->
  compiled grow sf om ex P q p -> no_text_start ex -> ends_well sf ex ->
  depth_ok fuel p -> used fuel p re ->
  exists ix r, ix_open b = Some ix /\ search fuel (unlimited nctx) rdr auto rev ix q re None None = Some (Some r) /\
    (forall f, In f (rs_matches r) -> exists cs m pk evs,
       found opt rname (NDir u es) cs m (NFile pk (Some evs)) /\ joined cs (fm_name f) /\ ~ hidden opt m /\
       fm_hits f <> [] /\ finds sf ex (fm_name f, ev_content evs) (fm_hits f)) /\
    (forall cs m pk evs name lines k line, found opt rname (NDir u es) cs m (NFile pk (Some evs)) -> joined cs name ->
       ~ special opt m -> ev_ok evs -> ~ In name (map fst excl) ->
       file_lines (ev_content evs) lines -> nth_error lines k = Some line -> expr_on_line sf ex (ev_content evs) k ->
       exists f, In f (rs_matches r) /\ fm_name f = name /\ reported (fm_hits f) k line).
Proof. exact expression_tree. Qed.
Print Assumptions C23_expression_repository_partial.

(** A literal is found wherever its bytes occur, for every growth policy. *)
Theorem C23_literal_partial : forall cap mem files vs b grow sf om rs P h q p fuel nctx raw auto rev re,
  (1 <= cap)%nat -> files_ok files -> build_index cap mem [] files = Some (vs, b) ->
  ascii_case sf -> Forall scalar rs -> rs <> [] -> ~ In 10 rs ->
  wf_xprog sf om P -> faithful sf (RLiteral false rs) P -> toByteProg sf om P = Some p ->
  N.of_nat (length (p_inst p)) < 2^32 - 1 -> regexp_query grow sf om (RLiteral false rs) = (h, q) ->
  depth_ok fuel p -> used fuel p re ->
  exists docs ix, kept files vs docs /\ ix_open b = Some ix /\
    (raw_ok raw docs ->
      exists r, search fuel (unlimited nctx) raw auto rev ix q re None None = Some (Some r) /\
        (forall f k line, In f (rs_matches r) -> reported (fm_hits f) k line -> no_surrogates line ->
           exists text, In (fm_name f, text) docs /\
             exists pre post, text = pre ++ encode_runes rs ++ post /\ newlines pre = k) /\
        (forall name pre post, In (name, pre ++ encode_runes rs ++ post) docs ->
           exists f line, In f (rs_matches r) /\ fm_name f = name /\ reported (fm_hits f) (newlines pre) line)).
Proof. exact literal_search. Qed.
Print Assumptions C23_literal_partial.

(** Programs as assumed of syntax.Compile exist for all expressions (a Thompson
    construction), and toByteProg translates them. *)
Theorem C23_programs_exist : forall sf om ex, ascii_case sf -> runes_ok sf om ex ->
  exists P p, wf_xprog sf om P /\ faithful sf ex P /\ toByteProg sf om P = Some p.
Proof.
  exact (fun sf om ex AC R => match byte_prog_ok sf om (thompson ex) AC (thompson_wf sf om ex R) with
    | ex_intro _ p (conj T _) => ex_intro _ (thompson ex) (ex_intro _ p
        (conj (thompson_wf sf om ex R) (conj (thompson_faithful sf om ex R) T))) end).
Qed.
Print Assumptions C23_programs_exist.

Lemma ascii_fold_ok : ascii_case ascii_fold.
Proof.
  intros r _ _. unfold ascii_fold.
  destruct (N.leb_spec 65 r), (N.leb_spec r 90), (N.leb_spec 97 r), (N.leb_spec r 122); cbn [andb]; repeat split; intros; lia.
Qed.
Lemma bad_runes : runes_ok ascii_fold 4 bad_re.
Proof.
  assert (forall rs, forallb (fun r => r <? 0x80) rs = true -> Forall (fun r => wf_rune ascii_fold 4 (XRune true [r] false 0)) rs) as A.
  { intros rs F. apply Forall_forall. intros r I. rewrite forallb_forall in F. specialize (F r I). apply N.ltb_lt in F.
    split; [reflexivity|]. exists r. split; [unfold scalar; lia|auto]. }
  cbn [bad_re runes_ok negb]. repeat (split; [first [apply A; reflexivity|repeat (split; [apply A; reflexivity|]); exact I]|]). exact I.
Qed.
Definition bad_files : list (str * list read_ev) := [([97], [(foo ++ zed, ErrEOF)])].

(** The full claim is false because of C01's counterexample: the expression
    (foo|bar|cat|quux)zed matches the only line of the only file, the search returns
    nothing. *)
Theorem C23_shared_storage_refuted : exists files vs b docs ex P h q p,
  files_ok files /\ build_index 2 (fun _ => 0) [] files = Some (vs, b) /\ kept files vs docs /\
  ascii_case ascii_fold /\ wf_re ascii_fold 4 ex /\ wf_xprog ascii_fold 4 P /\ faithful ascii_fold ex P /\
  toByteProg ascii_fold 4 P = Some p /\ N.of_nat (length (p_inst p)) < 2^32 - 1 /\
  regexp_query go_grow ascii_fold 4 ex = (h, q) /\
  no_text_start ex /\ ends_well ascii_fold ex /\
  (exists d, In d docs /\ expr_on_line ascii_fold ex (snd d) 0) /\
  forall fuel nctx raw auto rev re, depth_ok fuel p -> used fuel p re -> raw_ok raw docs ->
    exists ix r, ix_open b = Some ix /\ search fuel (unlimited nctx) raw auto rev ix q re None None = Some (Some r) /\
      rs_matches r = [].
Proof.
  assert (FO : files_ok bad_files) by (repeat constructor).
  destruct (build_index 2 (fun _ => 0) [] bad_files) as [[vs b]|] eqn:EB; [|vm_compute in EB; discriminate].
  assert (K : kept bad_files vs [([97], foo ++ zed)]).
  { assert (vs = [None]) by (vm_compute in EB; injection EB as <- _; reflexivity). subst vs.
    destruct (names_roundtrip 2 (fun _ => 0) [] bad_files _ b (le_S _ _ (le_n 1)) FO (Forall_nil _) EB) as (docs & ix & K & _).
    unfold bad_files in K |- *. inversion K as [|n1 e1 f1 v1 d1 O1 A1 K1| |n1 e1 f1 v1 d1 O1 K1]; subst; [|exfalso; apply O1; cbn; exact I].
    inversion K1; subst. exact K. }
  destruct (byte_prog_ok ascii_fold 4 (thompson bad_re) ascii_fold_ok (thompson_wf _ _ _ bad_runes)) as (p & TB & WP & _).
  destruct (regexp_query go_grow ascii_fold 4 bad_re) as [h q] eqn:EQ.
  assert (SM : N.of_nat (length (p_inst p)) < 2^32 - 1).
  { assert (match toByteProg ascii_fold 4 (thompson bad_re) with Some p => N.of_nat (length (p_inst p)) <? 2^32 - 1 | None => false end = true) as X
      by (vm_compute; reflexivity).
    rewrite TB in X. apply N.ltb_lt, X. }
  exists bad_files, vs, b, [([97], foo ++ zed)], bad_re, (thompson bad_re), h, q, p.
  split; [exact FO|]. split; [exact EB|]. split; [exact K|]. split; [exact ascii_fold_ok|]. split; [cbn; tauto|].
  split; [apply thompson_wf, bad_runes|]. split; [apply thompson_faithful with (om := 4%nat), bad_runes|]. split; [exact TB|]. split; [exact SM|].
  split; [exact EQ|]. split; [cbn; tauto|].
  assert (RM : rmatch ascii_fold bad_re [] (foo ++ zed) []).
  { exists foo, zed. split; [reflexivity|]. split; [left; cbn [spells]; spell|].
    exists zed, []. split; [reflexivity|]. split; [|reflexivity]. cbn [spells]. spell. }
  split.
  { intros X. exfalso. revert X. intros (u & w & v & E & M). destruct u; [|discriminate]. destruct w; [|discriminate]. cbn [rmatch bad_re] in M.
    destruct M as (w1 & w2 & E1 & _ & w3 & w4 & E2 & M & _).
    destruct w1; [|discriminate]. cbn in E1. subst w2. symmetry in E2. apply app_eq_nil in E2. destruct E2 as (-> & ->).
    cbn [spells zed] in M. destruct M as (r & u & v' & E3 & U & _). symmetry in E3. apply app_eq_nil in E3. destruct E3 as (-> & _).
    inversion U. }
  split.
  { exists ([97], foo ++ zed). split; [left; reflexivity|]. exists [], (foo ++ zed), []. split; [reflexivity|]. split; [reflexivity|].
    split; [|exact RM]. cbn. intros X. repeat (destruct X as [X|X]; [discriminate X|]). exact X. }
  intros fuel nctx raw auto rev re D U RO.
  assert (WQ : wf_query q /\ bytes_query q /\ ~ sat (fun t => exists u v, (foo ++ zed) = u ++ t ++ v) q).
  { clear - EQ. vm_compute in EQ. injection EQ as _ <-.
    assert (forall l, forallb (fun t => Nat.eqb (length t) 3) l = true -> forall t : list N, In t l -> length t = 3%nat) as L3.
    { intros l H t It. rewrite forallb_forall in H. apply Nat.eqb_eq, H, It. }
    assert (forall l, forallb (forallb (fun c => c <? 256)) l = true -> forall t : list N, In t l -> Forall (fun c => c < 256) t) as LB.
    { intros l H t It. rewrite forallb_forall in H. specialize (H t It). rewrite forallb_forall in H. apply Forall_forall. intros c Ic. apply N.ltb_lt, H, Ic. }
    split; [|split].
    - cbn [wf_query fold_right]. repeat first
        [exact I|apply L3; reflexivity|left; discriminate|right; discriminate|split].
    - cbn [bytes_query fold_right]. repeat first [exact I|apply LB; reflexivity|split].
    - clear. intros S. cbn [sat fold_right] in S. destruct S as (_ & S & _).
      assert (forall a b c : N, (exists u v, foo ++ zed = u ++ [a; b; c] ++ v) -> In [a; b; c] [[102;111;111]; [111;111;122]; [111;122;101]; [122;101;100]]) as T.
      { intros a b0 c (u & v & X). unfold foo, zed in X. cbn [app] in X.
        destruct u as [|u1 [|u2 [|u3 [|u4 u]]]]; cbn in X; injection X; intros; subst; cbn; auto.
        match goal with H : _ = u ++ _ |- _ => apply (f_equal (@length N)) in H; rewrite app_length in H; cbn in H; lia end. }
      destruct S as [(t & [] & _)|[(S1 & _)|[(S1 & _)|[(S1 & _)|[]]]]];
        specialize (S1 _ (or_introl eq_refl)); apply T in S1; cbn in S1; intuition congruence. }
  destruct WQ as (WQ & BQ & NS).
  destruct (opened_files 2 (fun _ => 0) bad_files vs b fuel nctx p q raw auto rev re (le_S _ _ (le_n 1)) FO EB (WP SM) D U WQ BQ)
    as (docs & ix & sub & K' & OP & SU & S).
  rewrite <- (kept_fun _ _ _ K _ K') in *. destruct (S RO) as (r & ES & R & _). exists ix, r. split; [exact OP|]. split; [exact ES|].
  rewrite R. destruct sub as [|d sub]; [reflexivity|]. exfalso. destruct (proj1 (SU d) (or_introl eq_refl)) as ([<-|[]] & X). exact (NS X).
Qed.
Print Assumptions C23_shared_storage_refuted.

(** (?i)hey.+[0-9] meets all the hypotheses, and matches line 1 of "a\nHey-7\n". *)
Definition hey_re : regexp := RConcat [RLiteral true [72; 69; 89]; RPlus RAnyNotNL; RClass [48; 57]].
Lemma fold_up : forall r, 65 <= r <= 90 -> ascii_fold r = r + 32 /\ ascii_fold (r + 32) = r.
Proof.
  intros r R. unfold ascii_fold. destruct (N.leb_spec 65 r), (N.leb_spec r 90), (N.leb_spec 65 (r + 32)), (N.leb_spec (r + 32) 90),
    (N.leb_spec 97 (r + 32)), (N.leb_spec (r + 32) 122); cbn [andb]; lia.
Qed.
Lemma fold_pair : forall r, 65 <= r <= 90 -> forall n, Nat.iter n ascii_fold r = r \/ Nat.iter n ascii_fold r = r + 32.
Proof.
  intros r R. destruct (fold_up r R) as (A & B). induction n as [|n IH]; [left; reflexivity|].
  change (Nat.iter (S n) ascii_fold r) with (ascii_fold (Nat.iter n ascii_fold r)). destruct IH as [-> | ->]; auto.
Qed.
Lemma fold_rune : forall r o, 65 <= r <= 90 -> wf_rune ascii_fold 4 (XRune false [r] true o).
Proof.
  intros r o R. destruct (fold_up r R) as (A & B). exists r. split; [reflexivity|]. split; [|split].
  - exists 2%nat. split; [lia|]. change (ascii_fold (ascii_fold r) = r). congruence.
  - intros r' (n & ->). destruct (fold_pair r R n) as [-> | ->]; unfold scalar; lia.
  - intros [X|X]; lia.
Qed.
Example C23_expression_example : exists P q p, compiled go_grow ascii_fold 4 hey_re P q p /\ q_op q = QOr /\
  no_text_start hey_re /\ ends_well ascii_fold hey_re /\
  (exists fuel re, depth_ok fuel p /\ used fuel p re) /\
  expr_on_line ascii_fold hey_re ([97; 10] ++ [72; 101; 121; 45; 55] ++ [10]) 1.
Proof.
  assert (R : runes_ok ascii_fold 4 hey_re).
  { cbn [hey_re runes_ok negb]. split; [repeat (apply Forall_cons; [apply fold_rune; lia|]); apply Forall_nil|].
    split; [exact I|]. split; [|exact I]. right. split; [|intros ? ? X; discriminate]. repeat constructor; unfold scalar; lia. }
  destruct (byte_prog_ok ascii_fold 4 (thompson hey_re) ascii_fold_ok (thompson_wf _ _ _ R)) as (p & TB & WP & _).
  destruct (regexp_query go_grow ascii_fold 4 hey_re) as [h q] eqn:EQ.
  assert (SM : N.of_nat (length (p_inst p)) < 2^32 - 1).
  { assert (match toByteProg ascii_fold 4 (thompson hey_re) with Some p => N.of_nat (length (p_inst p)) <? 2^32 - 1 | None => false end = true) as X
      by (vm_compute; reflexivity).
    rewrite TB in X. apply N.ltb_lt, X. }
  exists (thompson hey_re), q, p. split; [|split; [|split; [|split; [|split]]]].
  - constructor.
    + exact ascii_fold_ok.
    + cbn. split; [repeat (apply Forall_cons; [exists 2%nat; split; [lia|reflexivity]|]); apply Forall_nil|repeat split; auto; left; reflexivity].
    + apply thompson_wf, R.
    + apply thompson_faithful with (om := 4%nat), R.
    + exact TB.
    + exact SM.
    + exists h. split; [exact EQ|]. clear - EQ. vm_compute in EQ. injection EQ as <- _. reflexivity.
  - clear - EQ. vm_compute in EQ. injection EQ as _ <-. reflexivity.
  - cbn. tauto.
  - intros X. exfalso. revert X. intros (u & w & v & E & M). destruct u; [|discriminate]. destruct w; [|discriminate]. cbn [rmatch hey_re] in M.
    destruct M as (w1 & w2 & E1 & M & _). destruct w1; [|discriminate].
    cbn [spells] in M. destruct M as (r & u & v' & E3 & U & _). symmetry in E3. apply app_eq_nil in E3. destruct E3 as (-> & _).
    inversion U.
  - exists (S (32 * 2 ^ length (p_inst p)))%nat.
    assert (D : depth_ok (S (32 * 2 ^ length (p_inst p)))%nat p) by (unfold depth_ok; lia).
    destruct (matcher_init (S (32 * 2 ^ length (p_inst p)))%nat p) as [m|] eqn:EM.
    + exists m. split; [exact D|]. apply used_init, EM.
    + exfalso. exact (init_total _ _ (WP SM) D EM).
  - exists [97; 10], [72; 101; 121; 45; 55], [10]. split; [reflexivity|]. split; [reflexivity|]. split.
    { cbn. intros X. repeat (destruct X as [X|X]; [discriminate X|]). exact X. }
    exists [72; 101; 121], [45; 55]. split; [reflexivity|]. split.
    { cbn [spells]. exists 72, [72], [101; 121]. split; [reflexivity|]. split; [apply utf8_1; reflexivity|]. split; [|exists 0%nat; reflexivity].
      exists 101, [101], [121]. split; [reflexivity|]. split; [apply utf8_1; reflexivity|]. split; [|exists 1%nat; reflexivity].
      exists 121, [121], []. split; [reflexivity|]. split; [apply utf8_1; reflexivity|]. split; [reflexivity|exists 1%nat; reflexivity]. }
    exists [45], [55]. split; [reflexivity|]. split.
    { exists 0%nat. exists [45], []. split; [reflexivity|]. split; [|reflexivity]. exists 45. split; [apply utf8_1; reflexivity|discriminate]. }
    exists [55], []. split; [reflexivity|]. split; [|reflexivity]. exists 55. split; [apply utf8_1; reflexivity|]. left. split; discriminate.
Qed.

(** Expressions that match every line, like x*, are covered, although they match the empty
    line at the end; ^$ is not. *)
Example C23_ends_well : (forall sf re, ends_well sf (RStar re)) /\
  forall sf, ~ ends_well sf (RConcat [RZero ZBeginLine; RZero ZEndLine]).
Proof.
  split.
  - intros sf re _ line _. exists line, [], []. split; [rewrite app_nil_r; reflexivity|]. exists 0%nat. reflexivity.
  - intros sf H. assert (A : in_line sf (RConcat [RZero ZBeginLine; RZero ZEndLine]) false true []).
    { exists [], [], []. split; [reflexivity|]. cbn [rmatch]. exists [], []. split; [reflexivity|]. split; [split; [reflexivity|]|].
      - right. exists []. reflexivity.
      - exists [], []. split; [reflexivity|]. split; [split; [reflexivity|left; reflexivity]|reflexivity]. }
    specialize (H A [120]). destruct H as (u & w & v & E & M); [intros [X|[]]; discriminate X|].
    cbn [rmatch] in M. destruct M as (a & b & -> & (-> & B1) & c & d & -> & (-> & B2) & ->). cbn [app] in *.
    destruct u as [|x u]; cbn [app] in *; [subst v; destruct B2 as [B2|(y & B2)]; discriminate B2|].
    injection E as <- E. destruct u; [|discriminate E]. destruct B1 as [B1|(y & B1)]; [discriminate B1|].
    destruct y as [|y0 [|y1 y]]; try discriminate B1. destruct y; discriminate B1.
Qed.
