(** Looking for a plain text. *)
From Verif Require Import Model.Base Spec.Utf8Spec Spec.RegexSpec Spec.ExprSpec Spec.GrepSpec Spec.RuneProgSpec.
Local Open Scope N_scope.

(** The line contains the text, whose runes are [rs], up to case if [ic]. *)
Definition contains_text (sf : N -> N) (ic : bool) (rs : list N) (line : str) : Prop :=
  exists a w b, line = a ++ w ++ b /\ spells sf ic rs w.

(** Line [k] (from 0) of the file is [line], and contains the text. *)
Definition line_with (sf : N -> N) (ic : bool) (rs : list N) (file : str) (k : nat) (line : str) : Prop :=
  exists lines, file_lines file lines /\ nth_error lines k = Some line /\ contains_text sf ic rs line.

(** What is known of unicode.SimpleFold: its orbits are cycles of at most [om] runes (in
    Unicode, 4); no rune outside U+0041..U+1E943 has variants; on ASCII it is as expected. *)
Record folding (sf : N -> N) (om : nat) : Prop := {
  fo_cycle : forall r, cyclic sf om r;
  fo_scalar : forall r, scalar r -> scalar (sf r);
  fo_low : forall r, r < 0x41 -> sf r = r;
  fo_high : forall r, 0x1e943 < r -> sf r = r;
  fo_ascii : ascii_case sf }.
