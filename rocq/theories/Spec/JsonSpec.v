(** Text with the bytes that are not UTF-8 replaced by U+FFFD. *)
From Verif Require Import Model.Base Spec.Utf8Spec.
Local Open Scope N_scope.

Inductive replaced : str -> str -> Prop :=
| rep_nil : replaced [] []
| rep_char : forall r bs s s', utf8 r bs -> replaced s s' -> replaced (bs ++ s) (bs ++ s')
| rep_bad : forall b s s', (forall r bs x, utf8 r bs -> b :: s <> bs ++ x) -> replaced s s' ->
    replaced (b :: s) (0xEF :: 0xBF :: 0xBD :: s').
