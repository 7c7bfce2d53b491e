(** Texts written as they are read: [text "rng"] is the three bytes. *)
From Coq Require Strings.String Strings.Ascii.
From Verif Require Import Model.Base.
Declare Scope words_scope.
Delimit Scope words_scope with words.
String Notation String.string String.string_of_list_byte String.list_byte_of_string : words_scope.
Local Open Scope N_scope.

Fixpoint text (s : String.string) : str :=
  match s with
  | String.EmptyString => []
  | String.String a r => Ascii.N_of_ascii a :: text r
  end.
Arguments text s%words.

(** The same up to the case of ASCII letters. *)
Definition same_letter (a b : N) : Prop :=
  a = b \/ (65 <= a <= 90 /\ b = a + 32) \/ (65 <= b <= 90 /\ a = b + 32).
Definition any_case (s t : str) : Prop := Forall2 same_letter s t.
(** What counts as yes in a request. *)
Definition yes (v : str) : Prop := any_case v (text "true") \/ v = text "1" \/ any_case v (text "fosho").
