(** C01: the trigram pre-filter is conservative. [rmatch] (Spec/RegexSpec.v) says which
    parts of a text an expression matches; [regexp_query] (Model/Analyze.v) models
    RegexpQuery with its slices and their storage, for every growth policy [grow] of the
    run-time and every case-folding function. *)
From Verif Require Import Model.Base Model.Query Model.Utf8 Model.Syntax Model.Analyze
  Spec.QuerySpec Spec.Utf8Spec Spec.RegexSpec Proofs.Utf8Proofs Proofs.AnalyzeTop.
Local Open Scope N_scope.

(** Holds for every run in which alternate (regexp.go:607-608) never appends to x.exact
    in place. Missing: the runs in which it does, see below. *)
Theorem C01_prefilter_partial : forall grow fold orbit_max re h q, wf_re fold orbit_max re ->
  regexp_query grow fold orbit_max re = (h, q) -> st_shared h = false ->
  forall pre w post, rmatch fold re pre w post -> sat (trigram_in (pre ++ w ++ post)) q.
Proof. exact prefilter. Qed.
Print Assumptions C01_prefilter_partial.

(** Unconditional for expressions without "|". *)
Theorem C01_no_alternation_partial : forall grow fold orbit_max re h q, wf_re fold orbit_max re -> no_alternation re ->
  regexp_query grow fold orbit_max re = (h, q) ->
  forall pre w post, rmatch fold re pre w post -> sat (trigram_in (pre ++ w ++ post)) q.
Proof.
  exact (fun grow fold om re h q W NA E => prefilter grow fold om re h q W E (no_alt_query grow fold om re h q NA E)).
Qed.
Print Assumptions C01_no_alternation_partial.

(** ASCII case folding, enough for the examples. *)
Definition ascii_fold (r : N) : N :=
  if (65 <=? r) && (r <=? 90) then r + 32 else if (97 <=? r) && (r <=? 122) then r - 32 else r.

(** (foo|bar|cat|quux)zed does not find "foozed": with the growth policy of the Go
    run-time the set {foo, bar, cat} has room for one more string, so the prefix set,
    the suffix set and the exact set end up in one array, and the suffixes "oo", "ar",
    "at" are lost. *)
Definition foo : list N := [102;111;111].
Definition bar : list N := [98;97;114].
Definition cat : list N := [99;97;116].
Definition quux : list N := [113;117;117;120].
Definition zed : list N := [122;101;100].
Definition bad_re : regexp :=
  RConcat [RCapture (RAlternate [RLiteral false foo; RLiteral false bar; RLiteral false cat; RLiteral false quux]);
           RLiteral false zed].

Ltac spell := repeat first
  [ reflexivity
  | eexists; eexists [_]; eexists; split; [reflexivity|]; split; [apply utf8_1; reflexivity|]; split; [|reflexivity] ].

Theorem C01_shared_storage_refuted : exists re text h q,
  wf_re ascii_fold 4 re /\ regexp_query go_grow ascii_fold 4 re = (h, q) /\
  rmatch ascii_fold re [] text [] /\ ~ sat (trigram_in text) q.
Proof.
  exists bad_re, (foo ++ zed). destruct (regexp_query go_grow ascii_fold 4 bad_re) as [h q] eqn:E.
  exists h, q. split; [cbn; tauto|]. split; [reflexivity|]. split.
  - exists foo, zed. split; [reflexivity|]. split.
    + left. cbn [spells]. spell.
    + exists zed, []. split; [reflexivity|]. split; [|reflexivity]. cbn [spells]. spell.
  - vm_compute in E. injection E as _ <-. intros S. cbn [sat fold_right] in S.
    destruct S as (_ & S & _).
    assert (forall a b c, trigram_in (foo ++ zed) [a; b; c] -> In [a; b; c] [[102;111;111]; [111;111;122]; [111;122;101]; [122;101;100]]) as T.
    { intros a b c (_ & u & v & X). unfold foo, zed in X. cbn [app] in X.
      destruct u as [|u1 [|u2 [|u3 [|u4 u]]]]; cbn in X; injection X; intros; subst; cbn; auto.
      match goal with H : _ = u ++ _ |- _ => apply (f_equal (@length N)) in H; rewrite app_length in H; cbn in H; lia end. }
    destruct S as [(t & [] & _)|[(S1 & _)|[(S1 & _)|[(S1 & _)|[]]]]];
      specialize (S1 _ (or_introl eq_refl)); apply T in S1; cbn in S1; intuition congruence.
Qed.
Print Assumptions C01_shared_storage_refuted.

(** A non-trivial instance of the positive theorems: (?i)hello.+[0-9]{2,3} is analysed
    without sharing, has a query that is not trivial, and matches a text. *)
Definition good_re : regexp :=
  RConcat [RLiteral true [104;101;108;108;111]; RPlus RAnyNotNL; RRepeat 2 (Some 3%nat) (RClass [48;57])].
Example C01_example : wf_re ascii_fold 4 good_re /\ no_alternation good_re /\
  q_op (snd (regexp_query go_grow ascii_fold 4 good_re)) = QAnd /\
  rmatch ascii_fold good_re [32] [104;69;108;108;79;45;49;50] [33].
Proof.
  assert (forall c, In c [104;101;108;108;111] -> cyclic ascii_fold 4 c) as CY.
  { intros c I. exists 2%nat. split; [lia|]. cbn in I. intuition; subst; reflexivity. }
  split; [cbn; repeat split; auto; try (apply Forall_forall; exact CY); left; reflexivity|].
  split; [cbn; tauto|]. split; [vm_compute; reflexivity|].
  exists [104;69;108;108;79], [45;49;50]. split; [reflexivity|]. split.
  - cbn [spells].
    exists 104, [104], [69;108;108;79]. split; [reflexivity|]. split; [apply utf8_1; reflexivity|]. split; [|exists 0%nat; reflexivity].
    exists 69, [69], [108;108;79]. split; [reflexivity|]. split; [apply utf8_1; reflexivity|]. split; [|exists 1%nat; reflexivity].
    exists 108, [108], [108;79]. split; [reflexivity|]. split; [apply utf8_1; reflexivity|]. split; [|exists 0%nat; reflexivity].
    exists 108, [108], [79]. split; [reflexivity|]. split; [apply utf8_1; reflexivity|]. split; [|exists 0%nat; reflexivity].
    exists 79, [79], []. split; [reflexivity|]. split; [apply utf8_1; reflexivity|]. split; [reflexivity|exists 1%nat; reflexivity].
  - exists [45], [49;50]. split; [reflexivity|]. split.
    + exists 0%nat. exists [45], []. split; [reflexivity|]. split; [|reflexivity]. exists 45. split; [apply utf8_1; reflexivity|discriminate].
    + exists [49;50], []. split; [reflexivity|]. split; [|reflexivity]. exists 2%nat. split; [|split; lia].
      exists [49], [50]. split; [reflexivity|]. split; [exists 49; split; [apply utf8_1; reflexivity|left; split; discriminate]|].
      exists [50], []. split; [reflexivity|]. split; [exists 50; split; [apply utf8_1; reflexivity|left; split; discriminate]|reflexivity].
Qed.
