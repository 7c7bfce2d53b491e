(** C73: what is compiled matches what the expression means. The expression is as
    syntax.Parse returns it ([parsed], [runes_ok]); Simplify and Compile of regexp/syntax,
    toByteProg and the matcher are models. [rmatch] (Spec/RegexSpec.v), on which [in_line] is
    built, knows nothing of programs. *)
From Verif Require Import Model.Base Model.Syntax Model.Matcher Model.Utf Model.GoRegexp Spec.Utf8Spec Spec.RegexSpec
  Spec.MatchSpec Spec.RuneProgSpec Spec.ExprSpec Spec.ParsedSpec Proofs.MatchTop Proofs.UtfTop Proofs.GoSimplifyProofs Proofs.GoRegexpTop
  Proofs.ExprSearch Model.Analyze Proofs.AnalyzeTop Props.C01_prefilter Props.C14_utf8_classes Props.C23_expressions.
Local Open Scope N_scope.

(** regexp.Compile does not fail, and a matcher is made. *)
Theorem C73_compiles : forall sf om g, ascii_case sf -> parsed g -> runes_ok sf om (erase g) ->
  exists p, byte_program sf om g = Some p /\
    (N.of_nat (length (p_inst p)) < 2^32 - 1 -> forall fuel, depth_ok fuel p -> exists m, regexp_Compile sf om fuel g = Some m /\ used fuel p m).
Proof. exact regexp_Compile_ok. Qed.
Print Assumptions C73_compiles.

(** Match, new or used before, answers with the end of the first line of the text a part of
    which the expression matches, and with none if there is no such line. Encoded surrogates
    (which are not UTF-8) and what [runes_ok] leaves out are the subject of C14; the last
    theorem shows an expression that it leaves out for a reason. *)
Theorem C73_first_line_partial : forall sf om fuel g p m text bt et, ascii_case sf -> parsed g -> runes_ok sf om (erase g) ->
  byte_program sf om g = Some p -> N.of_nat (length (p_inst p)) < 2^32 - 1 -> depth_ok fuel p -> used fuel p m -> no_surrogates text ->
  exists m' r, match_bytes fuel m text bt et = Some (m', r) /\ used fuel p m' /\ first_hit (in_line sf (erase g)) bt et text r.
Proof. exact compiled_match. Qed.
Print Assumptions C73_first_line_partial.

(** Line by line; a matching line is found whatever bytes it has. *)
Theorem C73_lines_partial : forall sf om g, ascii_case sf -> parsed g -> runes_ok sf om (erase g) ->
  exists p, byte_program sf om g = Some p /\
    (N.of_nat (length (p_inst p)) < 2^32 - 1 -> wf_prog p) /\
    (forall bot eot line, ~ In 10 line -> in_line sf (erase g) bot eot line -> line_match p bot eot line) /\
    (forall bot eot line, ~ In 10 line -> no_surrogates line -> line_match p bot eot line -> in_line sf (erase g) bot eot line).
Proof. exact byte_program_ok. Qed.
Print Assumptions C73_lines_partial.

(** The steps: Simplify keeps the meaning, and Compile of what it returns is as C23 assumes. *)
Theorem C73_simplify : forall sf g, parsed g -> forall pre w post, rmatch sf (erase (Simplify g)) pre w post <-> rmatch sf (erase g) pre w post.
Proof. exact (fun sf g => Simplify_same sf g). Qed.
Print Assumptions C73_simplify.
Theorem C73_rune_program : forall sf om g, parsed g -> runes_ok sf om (erase g) ->
  exists P, Compile sf (Simplify g) = Some P /\ wf_xprog sf om P /\ faithful sf (erase g) P.
Proof. exact compiled_program. Qed.
Print Assumptions C73_rune_program.

(** What syntax.Compile makes of some expressions: these are cases of its own test
    (prog_test.go): a??, (a+)(b+), a+|b+ and (?:|a)*. *)
Definition ga := GLiteral false [97].
Definition gb := GLiteral false [98].
Definition r1 (c o : N) : xinst := XRune true [c] false o.
Definition alt (a b : N) : xinst := XB (IAlt a b).
Definition nop (a : N) : xinst := XB (INop a).
Example C73_programs :
  Compile ascii_fold (GQuest true ga) = Some (mkX [XB IFail; r1 97 3; alt 3 1; XB IMatch] 2) /\
  Compile ascii_fold (GConcat [GCapture 1 (GPlus false ga); GCapture 2 (GPlus false gb)]) =
    Some (mkX [XB IFail; nop 2; r1 97 3; alt 2 4; nop 5; nop 6; r1 98 7; alt 6 8; nop 9; XB IMatch] 1) /\
  Compile ascii_fold (GAlternate [GPlus false ga; GPlus false gb]) =
    Some (mkX [XB IFail; r1 97 2; alt 1 6; r1 98 4; alt 3 6; alt 1 3; XB IMatch] 5) /\
  Compile ascii_fold (GStar false (GAlternate [GZero ZEmpty; ga])) =
    Some (mkX [XB IFail; nop 4; r1 97 4; alt 1 2; alt 3 6; alt 3 6; XB IMatch] 5).
Proof. repeat split; vm_compute; reflexivity. Qed.

(** (?i)k[0-9]{2,3}(e|x)*$ meets the hypotheses; on "ka\nxK12ex\n" the first match ends at 9,
    and "K1e" has none. *)
Definition C73_re : gre := GConcat [GLiteral true [75]; GRepeat false 2 (Some 3%nat) (GClass [48; 57]);
  GStar false (GCapture 1 (GAlternate [GLiteral true [69]; GLiteral true [88]])); GZero ZEndLine].
Example C73_example : ascii_case ascii_fold /\ parsed C73_re /\ runes_ok ascii_fold 4 (erase C73_re) /\
  exists p, byte_program ascii_fold 4 C73_re = Some p /\ N.of_nat (length (p_inst p)) < 2^32 - 1 /\
  match regexp_Compile ascii_fold 4 100 C73_re with
  | None => False
  | Some m => option_map snd (match_bytes 100 m [107; 97; 10; 120; 75; 49; 50; 101; 120; 10] true true) = Some (Some 9%nat) /\
              option_map snd (match_bytes 100 m [75; 49; 101] true true) = Some None
  end.
Proof.
  split; [exact ascii_fold_ok|]. split; [cbn; repeat split; try lia; discriminate|].
  assert (R : runes_ok ascii_fold 4 (erase C73_re)).
  { cbn [C73_re erase map runes_ok negb]. split; [constructor; [apply fold_rune; lia|constructor]|]. split.
    - right. split; [|intros ? ? X; discriminate]. constructor; unfold clear_range; lia.
    - split; [|split; [exact I|exact I]]. split; [constructor; [apply fold_rune; lia|constructor]|]. split; [|exact I].
      constructor; [apply fold_rune; lia|constructor]. }
  split; [exact R|]. destruct (byte_program ascii_fold 4 C73_re) as [p|] eqn:E; [|vm_compute in E; discriminate].
  exists p. split; [reflexivity|]. split; [vm_compute in E; injection E as <-; reflexivity|]. clear E. vm_compute. split; reflexivity.
Qed.

(** Without [runes_ok] it is false: of an alternation of the two cases of delta (which the parser turns into a class) the
    small letter is not found. *)
Theorem C73_two_variants_refuted : exists g p line, parsed g /\ byte_program some_fold 4 g = Some p /\
  utf8 0x3B4 line /\ in_line some_fold (erase g) true true line /\ ~ line_match p true true line.
Proof.
  exists (GClass [0x394; 0x394; 0x3B4; 0x3B4]). eexists. exists [0xCE; 0xB4]. split; [exact I|].
  split; [vm_compute; reflexivity|]. assert (utf8 0x3B4 [0xCE; 0xB4]) as U by (apply utf8_2 with 14 52; easy).
  split; [exact U|]. split.
  - exists [], [0xCE; 0xB4], []. split; [reflexivity|]. exists 0x3B4. split; [exact U|]. cbn [in_class]. lia.
  - apply (reach_no_match 10). vm_compute. repeat constructor.
Qed.
Print Assumptions C73_two_variants_refuted.
