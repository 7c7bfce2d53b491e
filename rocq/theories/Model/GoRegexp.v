(** codesearch/regexp/regexp.go:34-59 calls Simplify and syntax.Compile of regexp/syntax; this
    is a model of the two as of Go 1.21 (simplify.go, compile.go). An expression is as parsed,
    with the flags that matter to them: FoldCase of a literal, NonGreedy, the number of a
    capture. That an unchanged expression is not copied is left out, as nothing is ever written
    to one; a class is a list of pairs. Instructions are those of Model/Utf.v; the index of a capture is not kept in its
    instruction, and neither are the unused fields of Match and Fail. uint32 does not wrap
    (Parse refuses expressions that could make a program so large). *)
From Verif Require Import Model.Base Model.Syntax Model.Matcher Model.Utf.
Local Open Scope N_scope.

Inductive gre :=
| GNoMatch
| GZero (z : zop)
| GLiteral (fold : bool) (rs : list N)
| GAnyNotNL
| GAny
| GClass (rs : list N)
| GCapture (cap : nat) (r : gre)
| GStar (ng : bool) (r : gre)
| GPlus (ng : bool) (r : gre)
| GQuest (ng : bool) (r : gre)
| GRepeat (ng : bool) (min : nat) (max : option nat) (r : gre)
| GConcat (rs : list gre)
| GAlternate (rs : list gre).

(** What Model/Syntax.v keeps of it. *)
Fixpoint erase (g : gre) : regexp :=
  match g with
  | GNoMatch => RNoMatch
  | GZero z => RZero z
  | GLiteral fold rs => RLiteral fold rs
  | GAnyNotNL => RAnyNotNL
  | GAny => RAny
  | GClass rs => RClass rs
  | GCapture _ r => RCapture (erase r)
  | GStar _ r => RStar (erase r)
  | GPlus _ r => RPlus (erase r)
  | GQuest _ r => RQuest (erase r)
  | GRepeat _ a b r => RRepeat a b (erase r)
  | GConcat l => RConcat (map erase l)
  | GAlternate l => RAlternate (map erase l)
  end.

(** simplify.go: simplify1 for OpStar, OpPlus, OpQuest *)
Inductive rop := OStar | OPlus | OQuest.
Definition repeated (op : rop) (ng : bool) (sub : gre) : gre :=
  match op with OStar => GStar ng sub | OPlus => GPlus ng sub | OQuest => GQuest ng sub end.
Definition simplify1 (op : rop) (ng : bool) (sub : gre) : gre :=
  match sub with
  | GZero ZEmpty => sub
  | GStar ng' _ => match op with OStar => if Bool.eqb ng ng' then sub else repeated op ng sub | _ => repeated op ng sub end
  | GPlus ng' _ => match op with OPlus => if Bool.eqb ng ng' then sub else repeated op ng sub | _ => repeated op ng sub end
  | GQuest ng' _ => match op with OQuest => if Bool.eqb ng ng' then sub else repeated op ng sub | _ => repeated op ng sub end
  | _ => repeated op ng sub
  end.
(** The loop that nests the suffix: (x(x(x)?)?)? *)
Fixpoint suffix_loop (n : nat) (ng : bool) (sub suffix : gre) : gre :=
  match n with
  | O => suffix
  | S n => suffix_loop n ng sub (simplify1 OQuest ng (GConcat [sub; suffix]))
  end.
(** simplify.go: Simplify *)
Fixpoint Simplify (g : gre) : gre :=
  match g with
  | GCapture n r => GCapture n (Simplify r)
  | GConcat l => GConcat (map Simplify l)
  | GAlternate l => GAlternate (map Simplify l)
  | GStar ng r => simplify1 OStar ng (Simplify r)
  | GPlus ng r => simplify1 OPlus ng (Simplify r)
  | GQuest ng r => simplify1 OQuest ng (Simplify r)
  | GRepeat ng min max r =>
      match max with
      | None =>
          match min with
          | 0%nat => simplify1 OStar ng (Simplify r)
          | 1%nat => simplify1 OPlus ng (Simplify r)
          | _ => GConcat (repeat (Simplify r) (min - 1) ++ [simplify1 OPlus ng (Simplify r)])
          end
      | Some max =>
          if Nat.eqb min 0 && Nat.eqb max 0 then GZero ZEmpty
          else if Nat.eqb min 1 && Nat.eqb max 1 then Simplify r
          else if Nat.ltb min max then
            let suffix := suffix_loop (max - min - 1) ng (Simplify r) (simplify1 OQuest ng (Simplify r)) in
            if Nat.eqb min 0 then suffix else GConcat (repeat (Simplify r) min ++ [suffix])
          else if Nat.ltb 0 min then GConcat (repeat (Simplify r) min)
          else GNoMatch
      end
  | _ => g
  end.

(** compile.go. A patch list is a list of fields threaded through these fields: the number 2 i
    stands for Out of instruction i, 2 i + 1 for its Arg, 0 for the end. *)
Definition get_field (x : xinst) (arg : bool) : N :=
  match x with
  | XB (IAlt o a) => if arg then a else o
  | XB (INop o) | XB (IEmpty _ o) | XRune _ _ _ o | XAny o | XAnyNotNL o => o
  | _ => 0
  end.
Definition set_field (x : xinst) (arg : bool) (v : N) : xinst :=
  match x with
  | XB (IAlt o a) => if arg then XB (IAlt o v) else XB (IAlt v a)
  | XB (INop _) => XB (INop v)
  | XB (IEmpty e _) => XB (IEmpty e v)
  | XRune one rs fold _ => XRune one rs fold v
  | XAny _ => XAny v
  | XAnyNotNL _ => XAnyNotNL v
  | _ => x
  end.
Definition get_hole (p : list xinst) (h : N) : N :=
  match nth_error p (N.to_nat (h / 2)) with Some x => get_field x (N.odd h) | None => 0 end.
Fixpoint change (p : list xinst) (n : nat) (f : xinst -> xinst) : list xinst :=
  match p, n with
  | [], _ => []
  | x :: p, O => f x :: p
  | x :: p, S n => x :: change p n f
  end.
Definition set_hole (p : list xinst) (h v : N) : list xinst :=
  change p (N.to_nat (h / 2)) (fun x => set_field x (N.odd h) v).

(** patchList.patch; [None]: not finished within [fuel]. *)
Fixpoint patch_loop (fuel : nat) (p : list xinst) (head val : N) : option (list xinst) :=
  if head =? 0 then Some p
  else match fuel with
       | O => None
       | S fuel => patch_loop fuel (set_hole p head val) (get_hole p head) val
       end.
Record frag := mkFrag { f_i : N; f_head : N; f_tail : N; f_nullable : bool }.
Definition no_frag : frag := mkFrag 0 0 0 false.
Definition patch (p : list xinst) (f : frag) (val : N) : option (list xinst) :=
  patch_loop (S (2 * length p)) p (f_head f) val.
(** patchList.append *)
Definition append_lists (p : list xinst) (h1 t1 h2 t2 : N) : list xinst * (N * N) :=
  if h1 =? 0 then (p, (h2, t2))
  else if h2 =? 0 then (p, (h1, t1))
  else (set_hole p t1 h2, (h1, t2)).

Section Compile.
(** unicode.SimpleFold *)
Variable simple_fold : N -> N.

(** compiler.inst, with the hole of its Out *)
Definition emit (p : list xinst) (x : xinst) (nullable : bool) : list xinst * frag :=
  let i := N.of_nat (length p) in (p ++ [x], mkFrag i (2 * i) (2 * i) nullable).
Definition c_nop (p : list xinst) := emit p (XB (INop 0)) true.
Definition c_cap (p : list xinst) := emit p (XB (INop 0)) true.
Definition c_empty (p : list xinst) (op : N) := emit p (XB (IEmpty op 0)) true.
Definition rune_inst (r : list N) (fold : bool) : xinst :=
  let fold := fold && match r with [c] => negb (simple_fold c =? c) | _ => false end in
  if negb fold && match r with [_] => true | [a; b] => a =? b | _ => false end then XRune true r fold 0
  else if match r with [a; b] => (a =? 0) && (b =? MaxRune) | _ => false end then XAny 0
  else if match r with [a; b; c; d] => (a =? 0) && (b =? 9) && (c =? 11) && (d =? MaxRune) | _ => false end then XAnyNotNL 0
  else XRune false r fold 0.
Definition c_rune (p : list xinst) (r : list N) (fold : bool) := emit p (rune_inst r fold) false.

Definition c_cat (p : list xinst) (f1 f2 : frag) : option (list xinst * frag) :=
  if (f_i f1 =? 0) || (f_i f2 =? 0) then Some (p, no_frag)
  else
    p <- patch p f1 (f_i f2) ;;
    Some (p, mkFrag (f_i f1) (f_head f2) (f_tail f2) (f_nullable f1 && f_nullable f2)).
Definition c_alt (p : list xinst) (f1 f2 : frag) : list xinst * frag :=
  if f_i f1 =? 0 then (p, f2)
  else if f_i f2 =? 0 then (p, f1)
  else
    let i := N.of_nat (length p) in
    let p := p ++ [XB (IAlt (f_i f1) (f_i f2))] in
    let '(p, (h, t)) := append_lists p (f_head f1) (f_tail f1) (f_head f2) (f_tail f2) in
    (p, mkFrag i h t (f_nullable f1 || f_nullable f2)).
(** The instruction of quest and loop, and its hole. *)
Definition branch (ng : bool) (to : N) : xinst := if ng then XB (IAlt 0 to) else XB (IAlt to 0).
Definition branch_hole (ng : bool) (i : N) : N := if ng then 2 * i else 2 * i + 1.
Definition c_quest (p : list xinst) (f1 : frag) (ng : bool) : list xinst * frag :=
  let i := N.of_nat (length p) in
  let p := p ++ [branch ng (f_i f1)] in
  let h := branch_hole ng i in
  let '(p, (h, t)) := append_lists p h h (f_head f1) (f_tail f1) in
  (p, mkFrag i h t true).
Definition c_loop (p : list xinst) (f1 : frag) (ng : bool) : option (list xinst * frag) :=
  let i := N.of_nat (length p) in
  p <- patch (p ++ [branch ng (f_i f1)]) f1 i ;;
  Some (p, mkFrag i (branch_hole ng i) (branch_hole ng i) true).
Definition c_plus (p : list xinst) (f1 : frag) (ng : bool) : option (list xinst * frag) :=
  '(p, f) <- c_loop p f1 ng ;;
  Some (p, mkFrag (f_i f1) (f_head f) (f_tail f) (f_nullable f1)).
Definition c_star (p : list xinst) (f1 : frag) (ng : bool) : option (list xinst * frag) :=
  if f_nullable f1 then '(p, f) <- c_plus p f1 ng ;; Some (c_quest p f ng)
  else c_loop p f1 ng.

Definition op_bits (z : zop) : N :=
  match z with
  | ZEmpty => 0 | ZBeginLine => EmptyBeginLine | ZEndLine => EmptyEndLine | ZBeginText => EmptyBeginText
  | ZEndText => EmptyEndText | ZWord => EmptyWordBoundary | ZNoWord => EmptyNoWordBoundary
  end.

(** The loops of OpLiteral, OpConcat and OpAlternate after the first part. *)
Fixpoint literal_loop (rs : list N) (fold : bool) (p : list xinst) (f : frag) : option (list xinst * frag) :=
  match rs with
  | [] => Some (p, f)
  | r :: rs =>
      let '(p, f1) := c_rune p [r] fold in
      '(p, f) <- c_cat p f f1 ;;
      literal_loop rs fold p f
  end.

(** compiler.compile; [None]: the panic at its end. *)
Fixpoint compile (g : gre) (p : list xinst) : option (list xinst * frag) :=
  let fix concat_loop (l : list gre) (p : list xinst) (f : frag) : option (list xinst * frag) :=
    match l with
    | [] => Some (p, f)
    | g :: l =>
        '(p, f1) <- compile g p ;;
        '(p, f) <- c_cat p f f1 ;;
        concat_loop l p f
    end in
  let fix alternate_loop (l : list gre) (p : list xinst) (f : frag) : option (list xinst * frag) :=
    match l with
    | [] => Some (p, f)
    | g :: l =>
        '(p, f1) <- compile g p ;;
        let '(p, f) := c_alt p f f1 in
        alternate_loop l p f
    end in
  match g with
  | GNoMatch => Some (p, no_frag)
  | GZero ZEmpty => Some (c_nop p)
  | GZero z => Some (c_empty p (op_bits z))
  | GLiteral fold [] => Some (c_nop p)
  | GLiteral fold (r :: rs) => let '(p, f) := c_rune p [r] fold in literal_loop rs fold p f
  | GClass rs => Some (c_rune p rs false)
  | GAnyNotNL => Some (c_rune p [0; 9; 11; MaxRune] false)
  | GAny => Some (c_rune p [0; MaxRune] false)
  | GCapture _ r =>
      let '(p, bra) := c_cap p in
      '(p, sub) <- compile r p ;;
      let '(p, ket) := c_cap p in
      '(p, f) <- c_cat p bra sub ;;
      c_cat p f ket
  | GStar ng r => '(p, f) <- compile r p ;; c_star p f ng
  | GPlus ng r => '(p, f) <- compile r p ;; c_plus p f ng
  | GQuest ng r => '(p, f) <- compile r p ;; Some (c_quest p f ng)
  | GConcat [] => Some (c_nop p)
  | GConcat (g :: l) => '(p, f) <- compile g p ;; concat_loop l p f
  | GAlternate l => alternate_loop l p no_frag
  | GRepeat _ _ _ _ => None
  end.

(** Compile *)
Definition Compile (g : gre) : option xprog :=
  '(p, f) <- compile g [XB IFail] ;;
  let m := N.of_nat (length p) in
  p <- patch (p ++ [XB IMatch]) f m ;;
  Some (mkX p (f_i f)).
End Compile.

(** codesearch/regexp/regexp.go:34-59: Compile after Parse. [None]: an error or a panic. *)
Definition byte_program (simple_fold : N -> N) (orbit_max : nat) (g : gre) : option prog :=
  P <- Compile simple_fold (Simplify g) ;;
  toByteProg simple_fold orbit_max P.
Definition regexp_Compile (simple_fold : N -> N) (orbit_max fuel : nat) (g : gre) : option matcher :=
  p <- byte_program simple_fold orbit_max g ;;
  matcher_init fuel p.
