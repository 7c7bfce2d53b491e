(** Expressions as regexp/syntax.Parse returns them: nothing in them is there to match
    nothing, alternations have branches, counts are in order. *)
From Verif Require Import Model.Base Model.Syntax Model.Utf Model.GoRegexp Spec.RuneProgSpec.

Fixpoint parsed (g : gre) : Prop :=
  let fix all (l : list gre) : Prop := match l with [] => True | g :: l => parsed g /\ all l end in
  match g with
  | GNoMatch => False
  | GCapture _ r | GStar _ r | GPlus _ r | GQuest _ r => parsed r
  | GRepeat _ min max r => match max with Some max => (min <= max)%nat | None => True end /\ parsed r
  | GConcat l => all l
  | GAlternate l => l <> [] /\ all l
  | _ => True
  end.

(** The runes of literals and classes are as the parser leaves them ([wf_rune]). *)
Section Runes.
Variable sf : N -> N.
Variable om : nat.
Fixpoint runes_ok (re : regexp) : Prop :=
  let fix all (l : list regexp) : Prop := match l with [] => True | r :: l' => runes_ok r /\ all l' end in
  match re with
  | RLiteral fold rs => Forall (fun r => wf_rune sf om (XRune (negb fold) [r] fold 0)) rs
  | RClass rs => wf_rune sf om (XRune false rs false 0)
  | RCapture r | RStar r | RPlus r | RQuest r | RRepeat _ _ r => runes_ok r
  | RConcat l | RAlternate l => all l
  | _ => True
  end.
End Runes.
