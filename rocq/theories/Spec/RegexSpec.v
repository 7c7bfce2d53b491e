(** What it means for a regular expression to match a part of a text: [rmatch] is
    defined by recursion on the expression, for the part [w] of the text
    [pre ++ w ++ post]. Independent of any analysis or compilation. *)
From Verif Require Import Model.Base Model.Syntax Spec.Utf8Spec.
Local Open Scope N_scope.

Definition word_byte (c : N) : Prop :=
  (65 <= c /\ c <= 90) \/ (97 <= c /\ c <= 122) \/ (48 <= c /\ c <= 57) \/ c = 95.
Definition ends_word (pre : str) : Prop := exists p c, pre = p ++ [c] /\ word_byte c.
Definition starts_word (post : str) : Prop := exists c p, post = c :: p /\ word_byte c.

Definition assertion (z : zop) (pre post : str) : Prop :=
  match z with
  | ZEmpty => True
  | ZBeginLine => pre = [] \/ exists p, pre = p ++ [10]
  | ZEndLine => post = [] \/ exists p, post = 10 :: p
  | ZBeginText => pre = []
  | ZEndText => post = []
  | ZWord => ~ (ends_word pre <-> starts_word post)
  | ZNoWord => ends_word pre <-> starts_word post
  end.

Section Match.
(** The case-folding function: runes that are related by iterating it are equal up to case. *)
Variable simple_fold : N -> N.

Definition same_letter (r r' : N) : Prop := exists k, r' = Nat.iter k simple_fold r.

(** [w] is the UTF-8 spelling of the runes. *)
Fixpoint spells (fold : bool) (rs : list N) (w : str) : Prop :=
  match rs with
  | [] => w = []
  | r :: rs' => exists r' u v, w = u ++ v /\ utf8 r' u /\ spells fold rs' v /\
                 (if fold then same_letter r r' else r' = r)
  end.

Fixpoint in_class (rs : list N) (r : N) : Prop :=
  match rs with
  | lo :: hi :: rs' => (lo <= r /\ r <= hi) \/ in_class rs' r
  | [x] => r = x
  | [] => False
  end.

(** [k] consecutive parts. *)
Fixpoint times (P : str -> str -> str -> Prop) (k : nat) (pre w post : str) : Prop :=
  match k with
  | O => w = []
  | S k' => exists u v, w = u ++ v /\ P pre u (v ++ post) /\ times P k' (pre ++ u) v post
  end.

Fixpoint rmatch (re : regexp) (pre w post : str) {struct re} : Prop :=
  let fix cat (l : list regexp) (pre w post : str) {struct l} : Prop :=
    match l with
    | [] => w = []
    | r :: l' => exists u v, w = u ++ v /\ rmatch r pre u (v ++ post) /\ cat l' (pre ++ u) v post
    end in
  let fix alt (l : list regexp) : Prop :=
    match l with
    | [] => False
    | r :: l' => rmatch r pre w post \/ alt l'
    end in
  match re with
  | RNoMatch => False
  | RZero z => w = [] /\ assertion z pre post
  | RLiteral fold rs => spells fold rs w
  | RAnyNotNL => exists r, utf8 r w /\ r <> 10
  | RAny => exists r, utf8 r w
  | RClass rs => exists r, utf8 r w /\ in_class rs r
  | RCapture r => rmatch r pre w post
  | RStar r => exists k, times (rmatch r) k pre w post
  | RPlus r => exists k, times (rmatch r) (S k) pre w post
  | RQuest r => w = [] \/ rmatch r pre w post
  | RRepeat min max r => exists k, times (rmatch r) k pre w post /\ (min <= k)%nat /\
      match max with Some m => (k <= m)%nat | None => True end
  | RConcat l => cat l pre w post
  | RAlternate l => alt l
  end.

(** Expressions as the parser produces them: a class is a list of pairs (or one rune).
    Of the case-folding function it is assumed that from each rune of a case-insensitive
    literal its iteration comes back to that rune within [orbit_max] steps (Unicode: 4). *)
Definition wf_class (rs : list N) : Prop := Nat.even (length rs) = true \/ length rs = 1%nat.
Variable orbit_max : nat.
Definition cyclic (r : N) : Prop := exists k, (1 <= k <= orbit_max)%nat /\ Nat.iter k simple_fold r = r.
Fixpoint wf_re (re : regexp) : Prop :=
  let fix all (l : list regexp) : Prop := match l with [] => True | r :: l' => wf_re r /\ all l' end in
  match re with
  | RLiteral true rs => Forall cyclic rs
  | RClass rs => wf_class rs
  | RCapture r | RStar r | RPlus r | RQuest r | RRepeat _ _ r => wf_re r
  | RConcat l | RAlternate l => all l
  | _ => True
  end.
End Match.

(** The trigrams of a text: its substrings of three bytes. *)
Definition trigram_in (text t : str) : Prop := length t = 3%nat /\ exists u v, text = u ++ t ++ v.

(** No alternation with two or more branches ("|" in the pattern). *)
Fixpoint no_alternation (re : regexp) : Prop :=
  let fix all (l : list regexp) : Prop := match l with [] => True | r :: l' => no_alternation r /\ all l' end in
  match re with
  | RCapture r | RStar r | RPlus r | RQuest r | RRepeat _ _ r => no_alternation r
  | RConcat l => all l
  | RAlternate l => (length l <= 1)%nat /\ all l
  | _ => True
  end.
