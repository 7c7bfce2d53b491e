(** Parsed regular expressions: Go's regexp/syntax.Regexp as produced by syntax.Parse
    (standard library; the parser itself is not modelled). Only what
    codesearch/index/regexp.go:420-540 looks at is kept: the operator, Rune, Sub, Min,
    Max and the FoldCase flag. Greediness, capture names and the other flags do not
    influence which texts match. *)
From Verif Require Import Model.Base.
Local Open Scope N_scope.

(** Zero-width operators, in the order of syntax.Op. *)
Inductive zop := ZEmpty | ZBeginLine | ZEndLine | ZBeginText | ZEndText | ZWord | ZNoWord.

Inductive regexp :=
| RNoMatch
| RZero (z : zop)
| RLiteral (fold : bool) (rs : list N)
| RAnyNotNL
| RAny
| RClass (rs : list N)              (* lo, hi, lo, hi, … *)
| RCapture (r : regexp)
| RStar (r : regexp)
| RPlus (r : regexp)
| RQuest (r : regexp)
| RRepeat (min : nat) (max : option nat) (r : regexp)   (* [None]: no upper limit *)
| RConcat (rs : list regexp)
| RAlternate (rs : list regexp).

(** Induction that reaches into the lists. *)
Section Ind.
  Variable P : regexp -> Prop.
  Hypothesis Hno : P RNoMatch.
  Hypothesis Hz : forall z, P (RZero z).
  Hypothesis Hlit : forall f rs, P (RLiteral f rs).
  Hypothesis Hnl : P RAnyNotNL.
  Hypothesis Hany : P RAny.
  Hypothesis Hcl : forall rs, P (RClass rs).
  Hypothesis Hcap : forall r, P r -> P (RCapture r).
  Hypothesis Hstar : forall r, P r -> P (RStar r).
  Hypothesis Hplus : forall r, P r -> P (RPlus r).
  Hypothesis Hquest : forall r, P r -> P (RQuest r).
  Hypothesis Hrep : forall a b r, P r -> P (RRepeat a b r).
  Hypothesis Hcat : forall rs, Forall P rs -> P (RConcat rs).
  Hypothesis Halt : forall rs, Forall P rs -> P (RAlternate rs).
  Fixpoint regexp_ind' (r : regexp) : P r :=
    let fix all (l : list regexp) : Forall P l :=
      match l with
      | [] => Forall_nil _
      | x :: t => Forall_cons _ (regexp_ind' x) (all t)
      end in
    match r with
    | RNoMatch => Hno | RZero z => Hz z | RLiteral f rs => Hlit f rs
    | RAnyNotNL => Hnl | RAny => Hany | RClass rs => Hcl rs
    | RCapture r => Hcap r (regexp_ind' r) | RStar r => Hstar r (regexp_ind' r)
    | RPlus r => Hplus r (regexp_ind' r) | RQuest r => Hquest r (regexp_ind' r)
    | RRepeat a b r => Hrep a b r (regexp_ind' r)
    | RConcat rs => Hcat rs (all rs) | RAlternate rs => Halt rs (all rs)
    end.
End Ind.
