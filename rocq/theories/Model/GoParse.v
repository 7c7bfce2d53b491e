(** codesearch/regexp/regexp.go:33-54 and 64-68: regexp/syntax.Parse and regexp.QuoteMeta of the
    standard library (Go 1.21: parse.go, regexp.go) without alternatives, named groups
    and \p: those end in [Beyond], of which nothing is said. *)
From Verif Require Import Model.Base Model.GoStr Model.Utf8 Model.Syntax Model.Query Model.Analyze Model.Matcher Model.GoRegexp.
From Verif Require Model.Utf.
Local Open Scope N_scope.

(** regexp.go: special *)
Definition special (b : N) : bool :=
  existsb (N.eqb b) [92; 46; 43; 42; 63; 40; 41; 124; 91; 93; 123; 125; 94; 36].
(** regexp.go: QuoteMeta *)
Fixpoint QuoteMeta (s : str) : str :=
  match s with
  | [] => []
  | b :: s => if special b then 92 :: b :: QuoteMeta s else b :: QuoteMeta s
  end.

Inductive outcome (A : Type) := Parsed (a : A) | Refused | Beyond.
Arguments Parsed {A}. Arguments Refused {A}. Arguments Beyond {A}.
Definition andthen {A B} (x : outcome A) (f : A -> outcome B) : outcome B :=
  match x with Parsed a => f a | Refused => Refused | Beyond => Beyond end.

(** parse.go: the flags that a pattern can change *)
Record flags := mkFlags { fl_fold : bool; fl_oneline : bool; fl_dotnl : bool; fl_nongreedy : bool }.
(** syntax.Perl *)
Definition perl : flags := mkFlags false true false false.

(** parse.go: opLeftParen is the only pseudo-operation on the stack. *)
Inductive item := Node (re : gre) | LeftParen (fl : flags) (cap : nat).
(** parse.go: the fields of parser that are used; the top of the stack comes first. Of the
    nodes that are recycled only the number is kept. Heights and sizes are not remembered. *)
Record parser := mkParser { pa_flags : flags; pa_stack : list item; pa_runes : N; pa_caps : nat; pa_num : N; pa_free : N }.

Section Parse.
(** unicode.SimpleFold, and a bound on the size of its orbits. *)
Variable simple_fold : N -> N.
Variable orbit_max : nat.

(** parse.go: maxRunes, minFold, maxFold *)
Definition max_runes : N := 2^25.
Definition min_fold : N := 0x41.
Definition max_fold : N := 0x1e943.

(** parse.go: minFoldRune *)
Fixpoint min_orbit (fuel : nat) (m r0 r : N) : N :=
  match fuel with
  | O => m
  | S n => if r =? r0 then m else min_orbit n (N.min m r) r0 (simple_fold r)
  end.
Definition minFoldRune (r : N) : N :=
  if (r <? min_fold) || (max_fold <? r) then r else min_orbit orbit_max r r (simple_fold r).

(** parse.go: newRegexp, reuse *)
Definition new_node (p : parser) : parser :=
  if 0 <? pa_free p then mkParser (pa_flags p) (pa_stack p) (pa_runes p) (pa_caps p) (pa_num p) (pa_free p - 1)
  else mkParser (pa_flags p) (pa_stack p) (pa_runes p) (pa_caps p) (pa_num p + 1) 0.
Definition reuse (p : parser) (n : N) : parser := mkParser (pa_flags p) (pa_stack p) (pa_runes p) (pa_caps p) (pa_num p) (pa_free p + n).
Definition with_stack (p : parser) (st : list item) : parser := mkParser (pa_flags p) st (pa_runes p) (pa_caps p) (pa_num p) (pa_free p).
Definition with_flags (p : parser) (fl : flags) : parser := mkParser fl (pa_stack p) (pa_runes p) (pa_caps p) (pa_num p) (pa_free p).

(** parse.go: maybeConcat(-1, 0) *)
Definition maybe_concat (p : parser) : parser :=
  match pa_stack p with
  | Node (GLiteral f1 r1) :: Node (GLiteral f2 r2) :: rest =>
      if Bool.eqb f1 f2 then reuse (with_stack p (Node (GLiteral f2 (r2 ++ r1)) :: rest)) 1 else p
  | _ => p
  end.

(** parse.go: maxHeight, calcHeight, maxSize. The height is looked at from 1000 nodes on; an
    expression has no more height than nodes. What is done for the size from [max_size] nodes on
    is left out. *)
Definition max_height : nat := 1000.
Definition max_size : N := 3355443.
Fixpoint height (g : gre) : nat :=
  let fix all (l : list gre) : nat := match l with [] => 0%nat | g :: l => Nat.max (height g) (all l) end in
  S match g with
    | GCapture _ r | GStar _ r | GPlus _ r | GQuest _ r | GRepeat _ _ _ r => height r
    | GConcat l | GAlternate l => all l
    | _ => 0%nat
    end.
Definition item_height (i : item) : nat := match i with Node g => height g | LeftParen _ _ => 1%nat end.
(** parse.go: checkLimits *)
Definition check_limits (p : parser) (i : item) : outcome parser :=
  if max_runes <? pa_runes p then Refused
  else if max_size <=? pa_num p then Beyond
  else if Nat.ltb max_height (item_height i) then Refused else Parsed p.
(** parse.go: push, for what is not a class of one character *)
Definition runes_in (i : item) : N := match i with Node (GLiteral _ rs) | Node (GClass rs) => N.of_nat (length rs) | _ => 0 end.
Definition push (p : parser) (i : item) : outcome parser :=
  let p := mkParser (pa_flags p) (pa_stack p) (pa_runes p + runes_in i) (pa_caps p) (pa_num p) (pa_free p) in
  let p := maybe_concat p in
  check_limits (with_stack p (i :: pa_stack p)) i.
(** parse.go: literal *)
Definition literal (p : parser) (r : N) : outcome parser :=
  let fold := fl_fold (pa_flags p) in
  push (new_node p) (Node (GLiteral fold [if fold then minFoldRune r else r])).
(** parse.go: op, of an operator without arguments *)
Definition op (p : parser) (g : gre) : outcome parser := push (new_node p) (Node g).

(** parse.go: push and maybeConcat, of a class that is one character; [n]: the runes that are
    counted. With two characters before it the node of the last one is used again. *)
Definition push_char (p : parser) (fold : bool) (r : N) (n : N) : outcome parser :=
  let p := mkParser (pa_flags p) (pa_stack p) (pa_runes p + n) (pa_caps p) (pa_num p) (pa_free p) in
  let i := Node (GLiteral fold [r]) in
  match pa_stack p with
  | Node (GLiteral f1 r1) :: Node (GLiteral f2 r2) :: rest =>
      if Bool.eqb f1 f2 then Parsed (with_stack p (i :: Node (GLiteral f2 (r2 ++ r1)) :: rest))
      else check_limits (with_stack p (i :: pa_stack p)) i
  | _ => check_limits (with_stack p (i :: pa_stack p)) i
  end.
(** parse.go: push, of a class. Classes are lists of ranges here. *)
Definition runes_of (l : list (N * N)) : list N := flat_map (fun lh => [fst lh; snd lh]) l.
Definition swapped (a b : N) : bool := (simple_fold a =? b) && (simple_fold b =? a).
Definition push_class (p : parser) (l : list (N * N)) : outcome parser :=
  match l with
  | [(a, b)] =>
      if a =? b then push_char p false a 2
      else if (a + 1 =? b) && swapped a b then push_char p true a 2
      else push p (Node (GClass (runes_of l)))
  | [(a, b); (c, d)] =>
      if (a =? b) && (c =? d) && swapped a c then push_char p true a 4 else push p (Node (GClass (runes_of l)))
  | _ => push p (Node (GClass (runes_of l)))
  end.

(** parse.go: appendFoldedRange (the bounds are not those of copy.go). The class is a list of
    ranges, the last one first. *)
Definition folded_range (r : list (N * N)) (lo hi : N) : list (N * N) :=
  if (lo <=? min_fold) && (max_fold <=? hi) then Utf.appendRange r lo hi
  else if (hi <? min_fold) || (max_fold <? lo) then Utf.appendRange r lo hi
  else
    let '(r, lo) := if lo <? min_fold then (Utf.appendRange r lo (min_fold - 1), min_fold) else (r, lo) in
    let '(r, hi) := if max_fold <? hi then (Utf.appendRange r (max_fold + 1) hi, max_fold) else (r, hi) in
    fold_left (Utf.append_folds simple_fold orbit_max) (Utf.runes_between lo hi) r.
Definition add_range (fold : bool) (r : list (N * N)) (lo hi : N) : list (N * N) :=
  if fold then folded_range r lo hi else Utf.appendRange r lo hi.
(** parse.go: appendClass, appendFoldedClass *)
Definition add_class (fold : bool) (r x : list (N * N)) : list (N * N) := fold_left (fun r lh => add_range fold r (fst lh) (snd lh)) x r.
(** parse.go: cleanClass; any sorting by the lower bounds, then the upper ones the other way
    round, has the same result. The first range comes first. *)
Definition before (a b : N * N) : bool := (fst a <? fst b) || ((fst a =? fst b) && (snd b <=? snd a)).
Fixpoint insert (a : N * N) (l : list (N * N)) : list (N * N) :=
  match l with [] => [a] | b :: l' => if before a b then a :: l else b :: insert a l' end.
Definition sort (l : list (N * N)) : list (N * N) := fold_right insert [] l.
Fixpoint merge_ranges (a : N * N) (l : list (N * N)) : list (N * N) :=
  match l with
  | [] => [a]
  | (lo, hi) :: l => if lo <=? snd a + 1 then merge_ranges (fst a, if snd a <? hi then hi else snd a) l else a :: merge_ranges (lo, hi) l
  end.
Definition cleanClass (r : list (N * N)) : list (N * N) := match sort (rev r) with [] => [] | a :: l => merge_ranges a l end.
(** parse.go: negateClass, and what appendNegatedClass appends *)
Definition max_rune : N := 0x10FFFF.
Fixpoint gaps (next : N) (l : list (N * N)) : list (N * N) :=
  match l with
  | [] => if next <=? max_rune then [(next, max_rune)] else []
  | (lo, hi) :: l => if next <? lo then (next, lo - 1) :: gaps (hi + 1) l else gaps (hi + 1) l
  end.
(** perl_groups.go; parse.go: parsePerlClassEscape, appendGroup *)
Definition perl_group (c : N) : option (list (N * N) * bool) :=
  let d := [(0x30, 0x39)] in let s := [(0x9, 0xa); (0xc, 0xd); (0x20, 0x20)] in let w := [(0x30, 0x39); (0x41, 0x5a); (0x5f, 0x5f); (0x61, 0x7a)] in
  if c =? 100 then Some (d, false) else if c =? 68 then Some (d, true) else if c =? 115 then Some (s, false) else if c =? 83 then Some (s, true)
  else if c =? 119 then Some (w, false) else if c =? 87 then Some (w, true) else None.
(** perl_groups.go: the posix groups that are not negated; parse.go: parseNamedClass. The result: there
    is no named class; there is one that is not known; the group and what comes after it. *)
Definition posix_groups : list (str * list (N * N)) :=
  [(* alnum *) ([97; 108; 110; 117; 109], [(0x30, 0x39); (0x41, 0x5a); (0x61, 0x7a)]);
   (* alpha *) ([97; 108; 112; 104; 97], [(0x41, 0x5a); (0x61, 0x7a)]);
   (* ascii *) ([97; 115; 99; 105; 105], [(0x0, 0x7f)]);
   (* blank *) ([98; 108; 97; 110; 107], [(0x9, 0x9); (0x20, 0x20)]);
   (* cntrl *) ([99; 110; 116; 114; 108], [(0x0, 0x1f); (0x7f, 0x7f)]);
   (* digit *) ([100; 105; 103; 105; 116], [(0x30, 0x39)]);
   (* graph *) ([103; 114; 97; 112; 104], [(0x21, 0x7e)]);
   (* lower *) ([108; 111; 119; 101; 114], [(0x61, 0x7a)]);
   (* print *) ([112; 114; 105; 110; 116], [(0x20, 0x7e)]);
   (* punct *) ([112; 117; 110; 99; 116], [(0x21, 0x2f); (0x3a, 0x40); (0x5b, 0x60); (0x7b, 0x7e)]);
   (* space *) ([115; 112; 97; 99; 101], [(0x9, 0xd); (0x20, 0x20)]);
   (* upper *) ([117; 112; 112; 101; 114], [(0x41, 0x5a)]);
   (* word *) ([119; 111; 114; 100], [(0x30, 0x39); (0x41, 0x5a); (0x5f, 0x5f); (0x61, 0x7a)]);
   (* xdigit *) ([120; 100; 105; 103; 105; 116], [(0x30, 0x39); (0x41, 0x46); (0x61, 0x66)])].
Fixpoint cut_name (s : str) : option (str * str) :=
  match s with
  | [] => None
  | c :: s' => if GoStr.has_prefix s [58; 93] then Some ([], skipn 2 s) else match cut_name s' with Some (a, b) => Some (c :: a, b) | None => None end
  end.
Definition posix_group (name : str) : option (list (N * N) * bool) :=
  let neg := GoStr.has_prefix name [94] in
  let name := if neg then skipn 1 name else name in
  match find (fun g => str_eqb (fst g) name) posix_groups with Some g => Some (snd g, neg) | None => None end.
Definition parseNamedClass (t : str) : option (option (list (N * N) * bool * str)) :=
  if GoStr.has_prefix t [91; 58] then
    match cut_name (skipn 2 t) with
    | None => None
    | Some (name, rest) => match posix_group name with Some g => Some (Some (g, rest)) | None => Some None end
    end
  else None.
Definition add_group (fold : bool) (r : list (N * N)) (g : list (N * N) * bool) : list (N * N) :=
  let '(x, neg) := g in
  if fold then
    let tmp := cleanClass (add_class true [] x) in
    if neg : bool then add_class false r (gaps 0 tmp) else add_class false r tmp
  else if neg : bool then add_class false r (gaps 0 x) else add_class false r x.

(** parse.go: repeat, with the node that it makes; [again]: there was one just before. *)
Definition repeat_with (p : parser) (make : bool -> gre -> gre) (after : str) (again : bool) : outcome (parser * str) :=
  let '(ng, after) := match after with
                      | c :: r => if c =? 63 then (negb (fl_nongreedy (pa_flags p)), r) else (fl_nongreedy (pa_flags p), after)
                      | [] => (fl_nongreedy (pa_flags p), after)
                      end in
  if again then Refused
  else match pa_stack p with
       | Node sub :: rest =>
           let re := make ng sub in
           andthen (check_limits (with_stack (new_node p) (Node re :: rest)) (Node re)) (fun p => Parsed (p, after))
       | _ => Refused
       end.
(** parse.go: repeat, for * + ? *)
Definition repeat_op (p : parser) (op : rop) (after : str) (again : bool) : outcome (parser * str) := repeat_with p (repeated op) after again.
(** parse.go: repeatIsValid *)
Fixpoint repeat_valid (g : gre) (n : nat) : bool :=
  let fix all (l : list gre) (n : nat) : bool := match l with [] => true | g :: l => repeat_valid g n && all l n end in
  match g with
  | GRepeat _ min max r =>
      match max with
      | Some O => true
      | _ => let m := match max with Some m => m | None => min end in
             if Nat.ltb n m then false else repeat_valid r (match m with O => n | _ => Nat.div n m end)
      end
  | GCapture _ r | GStar _ r | GPlus _ r | GQuest _ r => repeat_valid r n
  | GConcat l | GAlternate l => all l n
  | _ => true
  end.
(** parse.go: repeat, for a count *)
Definition repeat_count (p : parser) (min : nat) (max : option nat) (after : str) (again : bool) : outcome (parser * str) :=
  andthen (repeat_with p (fun ng sub => GRepeat ng min max sub) after again) (fun '(p, t) =>
  if (Nat.leb 2 min || match max with Some m => Nat.leb 2 m | None => false end) &&
     negb match pa_stack p with Node re :: _ => repeat_valid re 1000 | _ => true end
  then Refused else Parsed (p, t)).
(** parse.go: parseInt. Go gives up at 10^8 and the number is refused as too large, as it is here. *)
Definition digit (c : N) : bool := (48 <=? c) && (c <=? 57).
Fixpoint digits (t : str) (n : N) : N * str :=
  match t with c :: t' => if digit c then digits t' (n * 10 + (c - 48)) else (n, t) | [] => (n, []) end.
Definition parseInt (t : str) : option (N * str) :=
  match t with
  | c :: t' => if digit c then if (c =? 48) && match t' with d :: _ => digit d | [] => false end then None else Some (digits t 0) else None
  | [] => None
  end.
(** parse.go: parseRepeat, after the brace *)
Definition parseRepeat (t : str) : option (N * option N * str) :=
  match parseInt t with
  | Some (min, c :: t) =>
      if c =? 44 then
        match t with
        | d :: t' =>
            if d =? 125 then Some (min, None, t')
            else match parseInt t with
                 | Some (max, e :: t'') => if e =? 125 then Some (min, Some max, t'') else None
                 | _ => None
                 end
        | [] => None
        end
      else if c =? 125 then Some (min, Some min, t) else None
  | _ => None
  end.
(** parse.go: calcSize; at least that of the operand, also for {0} and {0,0}. *)
Fixpoint counted (g : gre) : bool :=
  match g with
  | GRepeat _ _ _ _ => true
  | GCapture _ r | GStar _ r | GPlus _ r | GQuest _ r => counted r
  | GConcat l | GAlternate l => existsb counted l
  | _ => false
  end.
Fixpoint size (g : gre) : N :=
  let fix all (l : list gre) : N := match l with [] => 0 | g :: l => size g + all l end in
  match g with
  | GLiteral _ rs => N.max 1 (N.of_nat (length rs))
  | GCapture _ r | GStar _ r => 2 + size r
  | GPlus _ r | GQuest _ r => 1 + size r
  | GRepeat _ min None r => match min with O => 2 + size r | _ => 1 + N.of_nat min * size r end
  | GRepeat _ min (Some max) r => N.max 1 (N.of_nat max) * size r + (N.of_nat max - N.of_nat min)
  | GConcat l => N.max 1 (all l)
  | GAlternate l => N.max 1 (all l + N.of_nat (length l))
  | _ => 1
  end.

(** parse.go: the operands above the last pseudo-operator *)
Fixpoint operands (st : list item) : list gre * list item :=
  match st with
  | Node g :: st => let '(l, rest) := operands st in (g :: l, rest)
  | _ => ([], st)
  end.
(** parse.go: collapse, of concatenations in a concatenation *)
Definition splice (l : list gre) : list gre := flat_map (fun g => match g with GConcat l => l | _ => [g] end) l.
Definition concats (l : list gre) : N := N.of_nat (length (filter (fun g => match g with GConcat _ => true | _ => false end) l)).
(** parse.go: concat *)
Definition concat (p : parser) : outcome parser :=
  let p := maybe_concat p in
  let '(subs, rest) := operands (pa_stack p) in
  let p := with_stack p rest in
  match subs with
  | [] => push (new_node p) (Node (GZero ZEmpty))
  | [re] => push p (Node re)
  | _ => push (reuse (new_node p) (concats subs)) (Node (GConcat (splice (rev subs))))
  end.
(** parse.go: alternate of one *)
Definition alternate (p : parser) : outcome parser :=
  match operands (pa_stack p) with
  | ([re], rest) => push (with_stack p rest) (Node re)
  | _ => Beyond
  end.
(** parse.go: parseRightParen *)
Definition parseRightParen (p : parser) : outcome parser :=
  andthen (concat p) (fun p =>
  andthen (alternate p) (fun p =>
  match pa_stack p with
  | Node re1 :: LeftParen fl cap :: rest =>
      push (with_flags (with_stack p rest) fl) (Node (match cap with O => re1 | _ => GCapture cap re1 end))
  | _ => Refused
  end)).

(** parse.go: nextRune *)
Definition nextRune (t : str) : outcome (N * str) :=
  let '(c, size) := decode_rune t in
  if (c =? rune_error) && Nat.eqb size 1 then Refused else Parsed (c, skipn size t).

(** parse.go: parsePerlFlags after the opening; [neg]: a minus was seen. The result says
    whether a group is opened. *)
Fixpoint flag_loop (fuel : nat) (t : str) (fl : flags) (neg saw : bool) : outcome (flags * bool * str) :=
  match fuel with
  | O => Refused
  | S fuel =>
      match t with
      | [] => Refused
      | _ =>
          andthen (nextRune t) (fun '(c, t) =>
          if c =? 105 then flag_loop fuel t (mkFlags (negb neg) (fl_oneline fl) (fl_dotnl fl) (fl_nongreedy fl)) neg true
          else if c =? 109 then flag_loop fuel t (mkFlags (fl_fold fl) neg (fl_dotnl fl) (fl_nongreedy fl)) neg true
          else if c =? 115 then flag_loop fuel t (mkFlags (fl_fold fl) (fl_oneline fl) (negb neg) (fl_nongreedy fl)) neg true
          else if c =? 85 then flag_loop fuel t (mkFlags (fl_fold fl) (fl_oneline fl) (fl_dotnl fl) (negb neg)) neg true
          else if c =? 45 then if neg then Refused else flag_loop fuel t fl true false
          else if c =? 58 then if neg && negb saw then Refused else Parsed (fl, true, t)
          else if c =? 41 then if neg && negb saw then Refused else Parsed (fl, false, t)
          else Refused)
      end
  end.
Definition parsePerlFlags (p : parser) (t : str) : outcome (parser * str) :=
  if GoStr.has_prefix t [80; 60] || GoStr.has_prefix t [60] then Beyond   (* named group *)
  else andthen (flag_loop (S (length t)) t (pa_flags p) false false) (fun '(fl, group, t) =>
       if group : bool then andthen (push (new_node p) (LeftParen (pa_flags p) 0)) (fun p => Parsed (with_flags p fl, t))
       else Parsed (with_flags p fl, t)).

(** parse.go: unhex *)
Definition hex_val (c : N) : option N :=
  if (48 <=? c) && (c <=? 57) then Some (c - 48) else if (97 <=? c) && (c <=? 102) then Some (c - 97 + 10)
  else if (65 <=? c) && (c <=? 70) then Some (c - 65 + 10) else None.
(** parse.go: parseEscape after the backslash; the digits between braces, and up to [n] octal
    digits. *)
Definition alnum (c : N) : bool :=
  ((48 <=? c) && (c <=? 57)) || ((65 <=? c) && (c <=? 90)) || ((97 <=? c) && (c <=? 122)).
Definition control (c : N) : option N :=
  if c =? 97 then Some 7 else if c =? 102 then Some 12 else if c =? 110 then Some 10 else if c =? 114 then Some 13
  else if c =? 116 then Some 9 else if c =? 118 then Some 11 else None.
Fixpoint hex_digits (fuel : nat) (t : str) (r : N) (some : bool) : outcome (N * str) :=
  match fuel with
  | O => Refused
  | S fuel =>
      match t with
      | [] => Refused
      | _ => andthen (nextRune t) (fun '(c, t) =>
               if c =? 125 then if some then Parsed (r, t) else Refused
               else match hex_val c with
                    | None => Refused
                    | Some v => if max_rune <? r * 16 + v then Refused else hex_digits fuel t (r * 16 + v) true
                    end)
      end
  end.
Definition octal (t : str) : bool := match t with c :: _ => (48 <=? c) && (c <=? 55) | [] => false end.
Fixpoint octal_digits (n : nat) (t : str) (r : N) : N * str :=
  match n, t with
  | S n, c :: t' => if octal t then octal_digits n t' (r * 8 + c - 48) else (r, t)
  | _, _ => (r, t)
  end.
Definition parseEscape (t : str) : outcome (N * str) :=
  match t with
  | [] => Refused
  | _ => andthen (nextRune t) (fun '(c, t) =>
           match control c with
           | Some c => Parsed (c, t)
           | None =>
               if (c =? 48) || ((49 <=? c) && (c <=? 55) && octal t) then Parsed (octal_digits 2 t (c - 48))
               else if c =? 120 then
                 match t with
                 | [] => Refused
                 | _ => andthen (nextRune t) (fun '(c, t) =>
                          if c =? 123 then hex_digits (S (length t)) t 0 false
                          else andthen (nextRune t) (fun '(d, t) =>
                               match hex_val c, hex_val d with Some x, Some y => Parsed (x * 16 + y, t) | _, _ => Refused end))
                 end
               else if alnum c then Refused else if c <? 0x80 then Parsed (c, t) else Refused
           end)
  end.
(** parse.go: the escapes for \A \b \B \z *)
Definition position (c : N) : option zop :=
  if c =? 65 then Some ZBeginText else if c =? 98 then Some ZWord else if c =? 66 then Some ZNoWord
  else if c =? 122 then Some ZEndText else None.

(** parse.go: \p and \P are left out. *)
Definition left_out (c : N) : bool := existsb (N.eqb c) [112; 80].
(** parse.go: \Q; strings.Cut, and the characters one after the other *)
Fixpoint cut_verbatim (s : str) : str * str :=
  match s with
  | [] => ([], [])
  | c :: s' => if GoStr.has_prefix s [92; 69] then ([], skipn 2 s) else let '(a, b) := cut_verbatim s' in (c :: a, b)
  end.
Fixpoint literals (fuel : nat) (s : str) (p : parser) : outcome parser :=
  match fuel, s with
  | S fuel, _ :: _ => andthen (nextRune s) (fun '(c, s) => andthen (literal p c) (literals fuel s))
  | _, _ => Parsed p
  end.
(** parse.go: parsePerlClassEscape, whether there is one *)
Definition perl_escape (t : str) : option (list (N * N) * bool) :=
  match t with c :: e :: _ => if c =? 92 then perl_group e else None | _ => None end.
(** parse.go: parseUnicodeClass, whether there is one *)
Definition unicode_escape (t : str) : bool := match t with b :: c :: _ => (b =? 92) && ((c =? 112) || (c =? 80)) | _ => false end.
(** parse.go: parseClassChar *)
Definition parseClassChar (t : str) : outcome (N * str) :=
  match t with
  | [] => Refused
  | c :: t' => if c =? 92 then parseEscape t' else nextRune t
  end.
(** parse.go: the loop of parseClass *)
Fixpoint class_loop (fuel : nat) (fold : bool) (t : str) (first : bool) (r : list (N * N)) : outcome (list (N * N) * str) :=
  match fuel with
  | O => Beyond
  | S fuel =>
      if GoStr.has_prefix t [93] && negb first then Parsed (r, skipn 1 t)
      else match parseNamedClass t with
           | Some None => Refused
           | Some (Some (g, t)) => class_loop fuel fold t false (add_group fold r g)
           | None =>
      if unicode_escape t then Beyond
      else match perl_escape t with
           | Some g => class_loop fuel fold (skipn 2 t) false (add_group fold r g)
           | None =>
               andthen (parseClassChar t) (fun '(lo, t) =>
               if GoStr.has_prefix t [45] && Nat.leb 2 (length t) && negb (GoStr.has_prefix (skipn 1 t) [93])
               then andthen (parseClassChar (skipn 1 t)) (fun '(hi, t) => if hi <? lo then Refused else class_loop fuel fold t false (add_range fold r lo hi))
               else class_loop fuel fold t false (add_range fold r lo lo))
           end
           end
  end.
(** parse.go: parseClass after the bracket. Newlines are as other characters (ClassNL, of syntax.Perl). *)
Definition parseClass (p : parser) (t : str) : outcome (parser * str) :=
  let neg := GoStr.has_prefix t [94] in
  let t := if neg then skipn 1 t else t in
  andthen (class_loop (S (length t)) (fl_fold (pa_flags p)) t true []) (fun '(r, t) =>
  let l := cleanClass r in
  andthen (push_class (new_node p) (if neg then gaps 0 l else l)) (fun p => Parsed (p, t))).

(** parse.go: the loop of parse; [again]: the last thing was a repetition. *)
Fixpoint parse_loop (fuel : nat) (t : str) (again : bool) (p : parser) : outcome parser :=
  match fuel with
  | O => Beyond
  | S fuel =>
      match t with
      | [] => Parsed p
      | c :: t' =>
          if c =? 40 then
            if GoStr.has_prefix t' [63] then andthen (parsePerlFlags p (skipn 1 t')) (fun '(p, t) => parse_loop fuel t false p)
            else andthen (push (mkParser (pa_flags p) (pa_stack p) (pa_runes p) (S (pa_caps p)) (pa_num (new_node p)) (pa_free (new_node p)))
                            (LeftParen (pa_flags p) (S (pa_caps p)))) (parse_loop fuel t' false)
          else if c =? 41 then andthen (parseRightParen p) (parse_loop fuel t' false)
          else if c =? 94 then andthen (op p (GZero (if fl_oneline (pa_flags p) then ZBeginText else ZBeginLine))) (parse_loop fuel t' false)
          else if c =? 36 then andthen (op p (GZero (if fl_oneline (pa_flags p) then ZEndText else ZEndLine))) (parse_loop fuel t' false)
          else if c =? 46 then andthen (op p (if fl_dotnl (pa_flags p) then GAny else GAnyNotNL)) (parse_loop fuel t' false)
          else if c =? 42 then andthen (repeat_op p OStar t' again) (fun '(p, t) => parse_loop fuel t true p)
          else if c =? 43 then andthen (repeat_op p OPlus t' again) (fun '(p, t) => parse_loop fuel t true p)
          else if c =? 63 then andthen (repeat_op p OQuest t' again) (fun '(p, t) => parse_loop fuel t true p)
          else if c =? 91 then andthen (parseClass p t') (fun '(p, t) => parse_loop fuel t false p)
          else if c =? 123 then
            match parseRepeat t' with
            | None => andthen (literal p 123) (parse_loop fuel t' false)
            | Some (min, max, after) =>
                if (1000 <? min) || match max with Some m => (1000 <? m) || (m <? min) | None => false end then Refused
                else andthen (repeat_count p (N.to_nat min) (option_map N.to_nat max) after again) (fun '(p, t) => parse_loop fuel t true p)
            end
          else if c =? 124 then Beyond
          else if c =? 92 then
            if match t' with c :: _ => left_out c | [] => false end then Beyond
            else if GoStr.has_prefix t' [81] then
              let '(lit, t) := cut_verbatim (skipn 1 t') in andthen (literals (length lit) lit p) (parse_loop fuel t false)
            else match match t' with c :: _ => position c | [] => None end with
            | Some z => andthen (op p (GZero z)) (parse_loop fuel (skipn 1 t') false)
            | None =>
                match perl_escape t with
                | Some g => andthen (push_class (new_node p) (rev (add_group (fl_fold (pa_flags p)) [] g))) (parse_loop fuel (skipn 1 t') false)
                | None => andthen (parseEscape t') (fun '(c, t) => andthen (literal (reuse (new_node p) 1) c) (parse_loop fuel t false))
                end
            end
          else andthen (nextRune t) (fun '(c, t) => andthen (literal p c) (parse_loop fuel t false))
      end
  end.
(** parse.go: parse. Go checks the sizes (checkSize) of the nodes on the stack as they grow; they are
    no larger than the last one. What is larger than [max_size] is left out. *)
Definition parser0 : parser := mkParser perl [] 0 0 0 0.
Definition Parse (s : str) : outcome gre :=
  andthen (parse_loop (S (length s)) s false parser0) (fun p =>
  andthen (concat p) (fun p =>
  andthen (alternate p) (fun p => match pa_stack p with
                                    | [Node re] => if counted re && (max_size <? size re) then Beyond else Parsed re
                                    | _ => Refused
                                    end))).

(** regexp.go:33-54 with index.RegexpQuery of the result; [beyond]: what becomes of the
    patterns that are left out. *)
Definition compile_pattern (grow : nat -> nat -> nat) (fuel : nat) (beyond : str -> option (query * matcher)) (s : str) : option (query * matcher) :=
  match Parse s with
  | Refused => None
  | Beyond => beyond s
  | Parsed g => m <- regexp_Compile simple_fold orbit_max fuel g ;; Some (snd (regexp_query grow simple_fold orbit_max (erase g)), m)
  end.
End Parse.
