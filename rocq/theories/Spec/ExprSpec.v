(** Which lines of a text match a regular expression. *)
From Coq Require Import List NArith.
From Verif Require Import Model.Base Model.Syntax Model.Utf Spec.Utf8Spec Spec.RegexSpec Spec.RuneProgSpec.
Import ListNotations.
Local Open Scope N_scope.

Definition newlines (t : list N) : nat := count_occ N.eq_dec t 10.

(** A part of the text that lies within line [k] (from 0) matches the expression, the
    whole text being the context of the part (for ^, $, \b …). *)
Definition expr_on_line (simple_fold : N -> N) (re : regexp) (text : list N) (k : nat) : Prop :=
  exists pre w post, text = pre ++ w ++ post /\ newlines pre = k /\ ~ In 10 w /\
    rmatch simple_fold re pre w post.

(** The same for one line alone, which begins the text if [bot] and ends it if [eot];
    otherwise there is a newline. *)
Definition in_line (simple_fold : N -> N) (re : regexp) (bot eot : bool) (line : list N) : Prop :=
  exists u w v, line = u ++ w ++ v /\
    rmatch simple_fold re ((if bot then [] else [10]) ++ u) w (v ++ (if eot then [] else [10])).

(** The rune program matches the lines that the expression matches: what is expected of
    syntax.Compile (standard library). *)
Definition faithful (simple_fold : N -> N) (re : regexp) (P : xprog) : Prop :=
  forall bot eot line, ~ In 10 line ->
    (rune_match simple_fold utf8 P bot eot line <-> in_line simple_fold re bot eot line).

(** An expression that matches the empty line behind the last newline of a text, which is
    not a line of the file, matches every line in front of it. *)
Definition ends_well (simple_fold : N -> N) (re : regexp) : Prop :=
  in_line simple_fold re false true [] -> forall line, ~ In 10 line -> in_line simple_fold re false false line.
