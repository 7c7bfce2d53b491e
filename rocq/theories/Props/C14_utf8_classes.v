(** C14: rune classes are compiled to exactly their UTF-8 encodings. [rune_match]
    (Spec/RuneProgSpec.v) runs the program before compilation, a rune instruction
    consuming the encoding of one rune of its class. *)
From Coq Require Import Relations.
From Verif Require Import Model.Base Model.Utf8 Model.Matcher Model.Utf Spec.Utf8Spec Spec.RegexSpec Spec.MatchSpec
  Spec.RuneProgSpec Proofs.Utf8Proofs Proofs.UtfArith Proofs.UtfBuild Proofs.UtfClass Proofs.UtfProg Proofs.UtfTop.
Local Open Scope N_scope.

(** Every well-formed program is compiled, to a program that matches the same lines of
    valid UTF-8. [wf_xprog] leaves out ranges that begin or end close to the surrogates,
    two-rune classes of non-ASCII case variants, and case-insensitive runes above
    U+1044F; the refutations below show that these restrictions are needed. *)
Theorem C14_utf8_partial : forall simple_fold orbit_max p,
  ascii_case simple_fold -> wf_xprog simple_fold orbit_max p ->
  exists p', toByteProg simple_fold orbit_max p = Some p' /\
    forall bot eot line, ~ In 10 line -> valid_utf8 line ->
      (line_match p' bot eot line <-> rune_match simple_fold utf8 p bot eot line).
Proof.
  intros sf om p AC W. destruct (byte_prog_utf8 sf om p AC W) as (p' & E & H). exists p'. split; [exact E|].
  intros bot eot line NL V. apply H; [exact NL|]. apply valid_no_surrogates, V.
Qed.
Print Assumptions C14_utf8_partial.

(** On arbitrary bytes the only other strings accepted are the three-byte encodings of
    surrogates (for classes that span them), and the program is fit for the matcher. *)
Theorem C14_any_bytes_partial : forall simple_fold orbit_max p,
  ascii_case simple_fold -> wf_xprog simple_fold orbit_max p ->
  exists p', toByteProg simple_fold orbit_max p = Some p' /\
    (N.of_nat (length (p_inst p')) < 2^32 - 1 -> wf_prog p') /\
    forall bot eot line, ~ In 10 line ->
      (line_match p' bot eot line <-> rune_match simple_fold wtf8 p bot eot line).
Proof. exact byte_prog_ok. Qed.
Print Assumptions C14_any_bytes_partial.

(** Part of unicode.SimpleFold: the ASCII letters with their non-ASCII variants, Greek
    delta and one Osage letter. *)
Definition some_fold (r : N) : N :=
  if r =? 0x6B then 0x212A else if r =? 0x212A then 0x4B
  else if r =? 0x73 then 0x17F else if r =? 0x17F then 0x53
  else if (65 <=? r) && (r <=? 90) then r + 32
  else if (97 <=? r) && (r <=? 122) then r - 32
  else if r =? 0x394 then 0x3B4 else if r =? 0x3B4 then 0x394
  else if r =? 0x104B0 then 0x104D8 else if r =? 0x104D8 then 0x104B0
  else r.
Lemma some_fold_ascii : ascii_case some_fold.
Proof.
  intros r L. unfold some_fold.
  destruct (N.eqb_spec r 0x6B); [lia|]. destruct (N.eqb_spec r 0x212A); [lia|].
  destruct (N.eqb_spec r 0x73); [lia|]. destruct (N.eqb_spec r 0x17F); [lia|].
  destruct (N.leb_spec 65 r), (N.leb_spec r 90), (N.leb_spec 97 r), (N.leb_spec r 122); cbn [andb]; try lia;
  destruct (N.eqb_spec r 0x394); try lia; destruct (N.eqb_spec r 0x3B4); try lia;
  destruct (N.eqb_spec r 0x104B0); try lia; destruct (N.eqb_spec r 0x104D8); lia.
Qed.

(** A program of one class. *)
Definition class_prog (i : xinst) : xprog := mkX [i; XB IMatch] 0.

Lemma class_match : forall sf enc i o bot eot line, rune_out i = Some o ->
  rune_match sf enc (class_prog i) bot eot line ->
  exists u w v, line = u ++ w ++ v /\ accepts sf enc i w.
Proof.
  intros sf enc i o bot eot line Eo (k0 & pc & k & L & R & M). apply clos_rt_rt1n in R.
  cbn [class_prog x_start] in R. inversion R as [E|s t H R' E]; subst.
  - unfold xinstr in M. cbn in M. injection M as ->. discriminate.
  - inversion H as [? ? ? ? G|? ? ? ? G|? ? ? G|? ? ? ? G|? ? ? ? ? u w v G E A]; subst; unfold xinstr in G; cbn in G;
      injection G as ->; try discriminate. exists u, w, v. auto.
Qed.
Lemma match_class : forall sf (enc : N -> list N -> Prop) i bot eot u w v, rune_out i = Some 1 ->
  accepts sf enc i w -> rune_match sf enc (class_prog i) bot eot (u ++ w ++ v).
Proof.
  intros sf enc i bot eot u w v Eo A. exists (length u), 1, (length u + length w)%nat.
  rewrite app_length. split; [lia|]. split; [|reflexivity]. apply rt_step.
  eapply xstep_rune with (u := u) (w := w) (v := v); eauto. reflexivity.
Qed.

(** [^\x{e000}] matches U+E000, and does not match U+1FFF. *)
Theorem C14_surrogate_refuted :
  exists p p' bad good, toByteProg some_fold 4 p = Some p' /\
    utf8 0xE000 bad /\ line_match p' true true bad /\ ~ rune_match some_fold utf8 p true true bad /\
    utf8 0x1FFF good /\ ~ line_match p' true true good /\ rune_match some_fold utf8 p true true good.
Proof.
  set (i := XRune false [0; 0xDFFF; 0xE001; 0x10FFFF] false 1).
  destruct (toByteProg some_fold 4 (class_prog i)) as [p'|] eqn:E; [|vm_compute in E; discriminate].
  vm_compute in E. injection E as <-.
  exists (class_prog i). eexists. exists [0xEE; 0x80; 0x80], [0xE1; 0xBF; 0xBF].
  split; [vm_compute; reflexivity|].
  split; [apply utf8_3 with 14 0 0; try easy; right; split; discriminate|].
  split; [apply (reach_match 60); vm_compute; tauto|].
  split.
  - intros R. apply class_match with (o := 1) in R; [|reflexivity]. destruct R as (u & w & v & El & r & C & U).
    apply utf8_wtf8, wtf8_cases in U. cbn [in_class] in C.
    assert (F : Forall (fun c => In c [0xEE; 0x80]) w).
    { apply Forall_forall. intros c Hc. assert (I : In c [0xEE; 0x80; 0x80]) by (rewrite El; apply in_or_app; right; apply in_or_app; left; exact Hc).
      cbn in I |- *. tauto. }
    destruct U as [[F1 ->]|[(p & q & F1 & F2 & F3 & F4 & ->)|[(p & q & s & F1 & F2 & F3 & F4 & F5 & ->)|(t & p & q & s & F1 & F2 & F3 & F4 & F5 & F6 & ->)]]].
    + pose proof (Forall_inv F) as I. cbn [In] in I. lia.
    + pose proof (Forall_inv F) as I. cbn [In] in I. lia.
    + destruct u as [|b u]; cbn [app] in El; [|apply (f_equal (@length _)) in El; cbn [length app] in El; rewrite app_length in El; cbn [length app] in El; lia].
      assert (A : 238 = 0xE0 + p) by congruence. assert (B : 128 = 0x80 + q) by congruence. assert (D : 128 = 0x80 + s) by congruence. lia.
    + apply (f_equal (@length _)) in El. rewrite app_length in El. cbn [length app] in El. lia.
  - split; [apply utf8_3 with 1 63 63; try easy; left; reflexivity|]. split.
    + apply (reach_no_match 60). vm_compute. repeat constructor.
    + apply (match_class some_fold utf8 i true true [] [0xE1; 0xBF; 0xBF] []); [reflexivity|].
      exists 0x1FFF. split; [cbn [in_class]; lia|]. apply utf8_3 with 1 63 63; try easy. left; reflexivity.
Qed.
Print Assumptions C14_surrogate_refuted.

(** The class of Greek capital and small delta, as the parser leaves it in an alternation
    such as "Δ|δ|xyz", does not match the small letter. *)
Theorem C14_two_rune_class_refuted :
  exists p p' line, toByteProg some_fold 4 p = Some p' /\ utf8 0x3B4 line /\
    ~ line_match p' true true line /\ rune_match some_fold utf8 p true true line.
Proof.
  exists (class_prog (XRune false [0x394; 0x394; 0x3B4; 0x3B4] false 1)). eexists. exists [0xCE; 0xB4].
  split; [vm_compute; reflexivity|]. split; [apply utf8_2 with 14 52; easy|]. split.
  - apply (reach_no_match 10). vm_compute. repeat constructor.
  - apply (match_class _ _ _ true true [] [0xCE; 0xB4] []); [reflexivity|].
    exists 0x3B4. split; [cbn [in_class]; lia|]. apply utf8_2 with 14 52; easy.
Qed.
Print Assumptions C14_two_rune_class_refuted.

(** Case is not ignored above U+1044F: (?i) with an Osage letter. *)
Theorem C14_high_fold_refuted :
  exists p p' line, toByteProg some_fold 4 p = Some p' /\ utf8 0x104D8 line /\
    ~ line_match p' true true line /\ rune_match some_fold utf8 p true true line.
Proof.
  exists (class_prog (XRune false [0x104B0] true 1)). eexists. exists [0xF0; 0x90; 0x93; 0x98].
  split; [vm_compute; reflexivity|]. split; [apply utf8_4 with 0 16 19 24; easy|]. split.
  - apply (reach_no_match 20). vm_compute. repeat constructor.
  - apply (match_class _ _ _ true true [] [0xF0; 0x90; 0x93; 0x98] []); [reflexivity|].
    exists 0x104B0, 0x104D8. split; [reflexivity|]. split; [exists 1%nat; reflexivity|]. apply utf8_4 with 0 16 19 24; easy.
Qed.
Print Assumptions C14_high_fold_refuted.

(** The program of "(?i)k.*[^a-f]é" meets the hypotheses; "xK9 zé" matches, with the
    Kelvin sign too, "kaé" does not. *)
Definition C14_prog : xprog := mkX
  [XB IFail; XRune false [0x4B] true 2; XB (IAlt 3 4); XAnyNotNL 2;
   XRune false [0; 0x60; 0x67; 0x10FFFF] false 5; XRune true [0xE9] false 6; XB IMatch] 1.
Example C14_example :
  wf_xprog some_fold 4 C14_prog /\
  exists p', toByteProg some_fold 4 C14_prog = Some p' /\
    line_match p' true true [120; 75; 57; 32; 122; 0xC3; 0xA9] /\
    line_match p' true true [0xE2; 0x84; 0xAA; 57; 0xC3; 0xA9] /\
    ~ line_match p' true true [107; 97; 0xC3; 0xA9].
Proof.
  split.
  - split; [|split; [|reflexivity]].
    + cbn [C14_prog x_inst]. repeat (apply Forall_cons || apply Forall_nil); try exact I.
      * exists 0x4B. split; [reflexivity|]. split; [exists 3%nat; split; [lia|reflexivity]|]. split; [|lia].
        assert (O : forall r', same_letter some_fold 0x4B r' -> r' = 0x4B \/ r' = 0x6B \/ r' = 0x212A).
        { intros r' [k ->]. induction k as [|k IH]; [left; reflexivity|].
          change (Nat.iter (S k) some_fold 0x4B) with (some_fold (Nat.iter k some_fold 0x4B)).
          destruct IH as [->|[-> | ->]]; vm_compute; auto. }
        intros r' S. destruct (O r' S) as [->|[-> | ->]]; (split; [discriminate|left; reflexivity]).
      * right. split; [|intros r0 r2 E; exfalso; assert (0 = 96) by congruence; discriminate].
        apply sorted_cons; [discriminate|left; reflexivity|reflexivity|].
        apply sorted_one; [discriminate|discriminate|right; right; split; discriminate].
      * split; [reflexivity|]. exists 0xE9. split; [left; reflexivity|]. left. reflexivity.
    + cbn [C14_prog x_inst length xtargets targets]. repeat constructor.
  - eexists. split; [vm_compute; reflexivity|]. split; [|split].
    + apply (reach_match 80). vm_compute. tauto.
    + apply (reach_match 80). vm_compute. tauto.
    + apply (reach_no_match 200). vm_compute. repeat constructor.
Qed.
