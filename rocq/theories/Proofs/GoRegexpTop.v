(** regexp.Compile, its matcher and the search, for parsed expressions. *)
From Verif Require Import Model.Base Model.Writer Model.IndexRun Model.Query Model.Reader Model.Syntax Model.Analyze
  Model.Matcher Model.Utf Model.Utf8 Model.Grep Model.Search Model.GoRegexp Spec.RunSpec Spec.QuerySpec Spec.Utf8Spec
  Spec.RegexSpec Spec.MatchSpec Spec.RuneProgSpec Spec.ExprSpec Spec.ParsedSpec Spec.GrepSpec Spec.SearchSpec
  Proofs.MatchTop Proofs.UtfTop Proofs.AnalyzeTop Proofs.ExprSearch Proofs.Thompson Proofs.GoSimplifyProofs.
Local Open Scope N_scope.

Lemma sorted_even : forall rs, sorted_class rs -> Nat.even (length rs) = true.
Proof. induction 1 as [| |lo hi lo' hi' rs LE CL LT _ IH]; [reflexivity|reflexivity|exact IH]. Qed.
Lemma runes_wf : forall sf om re, runes_ok sf om re -> wf_re sf om re.
Proof.
  intros sf om. induction re using regexp_ind'; intros R; try exact R; try exact I; try (apply IHre, R).
  - destruct f; [|exact I]. cbn [runes_ok] in R. cbn [wf_re]. eapply Forall_impl; [|exact R]. cbn beta. intros r (r0 & E & C & _). congruence.
  - cbn [wf_re runes_ok wf_rune] in *. destruct R as [(r & _ & ->)|(SO & _)]; [right; reflexivity|left; apply sorted_even, SO].
  - cbn [runes_ok] in R. cbn [wf_re]. induction H as [|r l Hr _ IH]; [exact I|]. split; [apply Hr, R|apply IH, R].
  - cbn [runes_ok] in R. cbn [wf_re]. induction H as [|r l Hr _ IH]; [exact I|]. split; [apply Hr, R|apply IH, R].
Qed.

(** The program for the matcher. *)
Theorem byte_program_ok : forall sf om g, ascii_case sf -> parsed g -> runes_ok sf om (erase g) ->
  exists p, byte_program sf om g = Some p /\
    (N.of_nat (length (p_inst p)) < 2^32 - 1 -> wf_prog p) /\
    (forall bot eot line, ~ In 10 line -> in_line sf (erase g) bot eot line -> line_match p bot eot line) /\
    (forall bot eot line, ~ In 10 line -> no_surrogates line -> line_match p bot eot line -> in_line sf (erase g) bot eot line).
Proof.
  intros sf om g AC PA RO. destruct (compiled_program sf om g PA RO) as (P & E & W & F). unfold byte_program. rewrite E. cbn [bind].
  destruct (byte_prog_ok sf om P AC W) as (p & TB & W1 & L1). exists p. split; [exact TB|]. split; [exact W1|].
  destruct (byte_prog_utf8 sf om P AC W) as (p2 & E2 & L2). rewrite TB in E2. injection E2 as <-. split.
  - intros bot eot line NL M. apply L1; [exact NL|]. apply F in M; [|exact NL].
    eapply rune_match_mono; [|exact M]. intros r u w v _ X. left. exact X.
  - intros bot eot line NL NS M. apply F; [exact NL|]. apply L2; assumption.
Qed.
Lemma parsed_compiled : forall grow sf om g p q h, ascii_case sf -> parsed g -> runes_ok sf om (erase g) ->
  byte_program sf om g = Some p -> N.of_nat (length (p_inst p)) < 2^32 - 1 ->
  regexp_query grow sf om (erase g) = (h, q) -> st_shared h = false ->
  exists P, compiled grow sf om (erase g) P q p.
Proof.
  intros grow sf om g p q h AC PA RO BP SM EQ SH. destruct (compiled_program sf om g PA RO) as (P & E & W & F).
  exists P. unfold byte_program in BP. rewrite E in BP. cbn [bind] in BP.
  constructor; try assumption; [apply runes_wf, RO|]. exists h. auto.
Qed.

(** Lines are parts of the text. *)
Lemma lines_part : forall t lines line, splits t lines -> In line lines -> exists u v, t = u ++ line ++ v /\ ~ In 10 line.
Proof.
  intros t lines line (_ & F & init & last & -> & ->) I. rewrite Forall_forall in F. specialize (F _ I).
  apply in_app_or in I. destruct I as [I|[<-|[]]].
  - apply in_split in I. destruct I as (a & b & ->). exists (List.concat (map (fun l => l ++ [10]) a)), (([10] ++ List.concat (map (fun l => l ++ [10]) b)) ++ last).
    split; [|exact F]. rewrite map_app, concat_app. cbn [map List.concat]. rewrite <- !app_assoc. reflexivity.
  - exists (List.concat (map (fun l => l ++ [10]) init)), []. split; [rewrite app_nil_r; reflexivity|exact F].
Qed.
Lemma no_surrogates_part : forall u w v, no_surrogates (u ++ w ++ v) -> no_surrogates w.
Proof.
  intros u w v NS r a b c S E. apply (NS r (u ++ a) b (c ++ v) S). rewrite E, <- !app_assoc. reflexivity.
Qed.
Lemma first_hit_ext : forall P Q bt et t r, (forall lines line b e, splits t lines -> In line lines -> (P b e line <-> Q b e line)) ->
  first_hit P bt et t r -> first_hit Q bt et t r.
Proof.
  intros P Q bt et t r EQ H lines SP. specialize (H lines SP). destruct r as [e|].
  - destruct H as (pre & line & post & EL & LE & LH & NO). exists pre, line, post. split; [exact EL|]. split; [exact LE|]. split.
    + apply (EQ lines line); [exact SP|rewrite EL; apply in_or_app; right; left; reflexivity|exact LH].
    + intros pre1 l post1 EP LH'. apply (NO pre1 l post1 EP). apply (EQ lines l); [exact SP| |exact LH'].
      rewrite EL, EP. apply in_or_app. left. apply in_or_app. right. left. reflexivity.
  - intros pre l post EL LH. apply (H pre l post EL). apply (EQ lines l); [exact SP|rewrite EL; apply in_or_app; right; left; reflexivity|exact LH].
Qed.

(** The first line that the expression matches. *)
Theorem compiled_match : forall sf om fuel g p m text bt et, ascii_case sf -> parsed g -> runes_ok sf om (erase g) ->
  byte_program sf om g = Some p -> N.of_nat (length (p_inst p)) < 2^32 - 1 -> depth_ok fuel p -> used fuel p m -> no_surrogates text ->
  exists m' r, match_bytes fuel m text bt et = Some (m', r) /\ used fuel p m' /\ first_hit (in_line sf (erase g)) bt et text r.
Proof.
  intros sf om fuel g p m text bt et AC PA RO BP SM D U NS. destruct (byte_program_ok sf om g AC PA RO) as (p' & E & W & FW & BW).
  rewrite BP in E. injection E as <-. destruct (match_first_line fuel p m text bt et (W SM) D U) as (m' & r & EM & FH).
  exists m', r. split; [exact EM|]. split; [eapply used_match; eassumption|]. eapply first_hit_ext; [|exact FH].
  intros lines line b e SP I. destruct (lines_part _ _ _ SP I) as (u & v & ET & NL). split; [|apply FW, NL].
  apply BW; [exact NL|]. rewrite ET in NS. exact (no_surrogates_part _ _ _ NS).
Qed.
Theorem regexp_Compile_ok : forall sf om g, ascii_case sf -> parsed g -> runes_ok sf om (erase g) ->
  exists p, byte_program sf om g = Some p /\
    (N.of_nat (length (p_inst p)) < 2^32 - 1 -> forall fuel, depth_ok fuel p -> exists m, regexp_Compile sf om fuel g = Some m /\ used fuel p m).
Proof.
  intros sf om g AC PA RO. destruct (byte_program_ok sf om g AC PA RO) as (p & E & W & _). exists p. split; [exact E|]. intros SM fuel D.
  unfold regexp_Compile. rewrite E. cbn [bind]. destruct (matcher_init fuel p) as [m|] eqn:EM; [|exfalso; exact (init_total _ _ (W SM) D EM)].
  exists m. split; [reflexivity|apply used_init, EM].
Qed.
