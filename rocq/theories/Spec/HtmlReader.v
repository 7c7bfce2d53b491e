(** A reader of the HTML and XML that pages use, after the HTML standard (sections 13.2.5.1-53)
    and the rules of well-formedness of XML. It stops ([None]) at whatever a page had better not
    contain: references that it does not know, comments, attributes without quotes, NUL, and in
    XML also < in an attribute. Texts of spaces alone are left out. In HTML the element title
    holds text, and script holds text in which & means nothing. *)
From Verif Require Import Model.Base Model.GoStr Spec.Names.
Local Open Scope N_scope.

Inductive token :=
| Declared (s : str)                            (* <!...> and <?...> *)
| Start (name : str) (attrs : list (str * str))
| End (name : str)
| Text (s : str)
| Title (s : str)
| Script (s : str).

Definition space (c : N) : bool := (c =? 9) || (c =? 10) || (c =? 13) || (c =? 32).
Definition digit (c : N) : bool := (48 <=? c) && (c <=? 57).
Definition letter (c : N) : bool := ((65 <=? c) && (c <=? 90)) || ((97 <=? c) && (c <=? 122)).
Definition begins (p s : str) : bool := has_prefix (map (fun c => if (65 <=? c) && (c <=? 90) then c + 32 else c) s) p.

(** The character of a reference; ASCII only. *)
Fixpoint number (acc : N) (s : str) : option N :=
  match s with [] => Some acc | c :: r => if digit c then number (acc * 10 + (c - 48)) r else None end.
Definition character (name : str) : option N :=
  if str_eqb name (text "amp") then Some 38
  else if str_eqb name (text "lt") then Some 60
  else if str_eqb name (text "gt") then Some 62
  else if str_eqb name (text "quot") then Some 34
  else match name with
       | 35 :: d :: r => match number 0 (d :: r) with Some n => if (0 <? n) && (n <? 128) then Some n else None | None => None end
       | _ => None
       end.

(** Names and texts being read are backwards. *)
Inductive place :=
| InText (acc : str) | InTitle (acc : str) | InScript (acc : str)
| Opened | InDeclared (acc : str) | InEnd (acc : str) | InName (acc : str)
| BeforeAttr (n : str) (l : list (str * str)) | InAttr (n : str) (l : list (str * str)) (acc : str)
| BeforeValue (n : str) (l : list (str * str)) (k : str) | InValue (n : str) (l : list (str * str)) (k acc : str)
| AfterValue (n : str) (l : list (str * str)) | Closing (n : str) (l : list (str * str))
| InRef (acc : str) (back : place).
Definition add (p : place) (c : N) : option place :=
  match p with
  | InText acc => Some (InText (c :: acc))
  | InTitle acc => Some (InTitle (c :: acc))
  | InValue n l k acc => Some (InValue n l k (c :: acc))
  | _ => None
  end.
Definition opened (html : bool) (n : str) (l : list (str * str)) : option (place * list token) :=
  Some (if html && str_eqb n (text "title") then InTitle []
        else if html && str_eqb n (text "script") then InScript []
        else InText [], [Start n l]).
(** One character [c]; [r] follows. *)
Definition next (html : bool) (p : place) (c : N) (r : str) : option (place * list token) :=
  if c =? 0 then None else
  match p with
  | InText acc =>
      if c =? 60 then Some (Opened, if forallb space acc then [] else [Text (rev acc)])
      else if c =? 38 then Some (InRef [] p, []) else Some (InText (c :: acc), [])
  | InTitle acc =>
      if (c =? 60) && begins (text "/title") r then Some (Opened, [Title (rev acc)])
      else if c =? 38 then Some (InRef [] p, []) else Some (InTitle (c :: acc), [])
  | InScript acc =>
      if (c =? 60) && begins (text "/script") r then Some (Opened, [Script (rev acc)])
      else if (c =? 60) && begins (text "!--") r then None else Some (InScript (c :: acc), [])
  | Opened =>
      if c =? 47 then Some (InEnd [], [])
      else if ((c =? 33) || (c =? 63)) && negb (begins (text "--") r) then Some (InDeclared [c], [])
      else if letter c then Some (InName [c], []) else None
  | InDeclared acc => if c =? 62 then Some (InText [], [Declared (rev acc)]) else Some (InDeclared (c :: acc), [])
  | InEnd acc => if c =? 62 then Some (InText [], [End (rev acc)]) else if letter c || digit c then Some (InEnd (c :: acc), []) else None
  | InName acc =>
      if c =? 62 then opened html (rev acc) []
      else if space c then Some (BeforeAttr (rev acc) [], [])
      else if c =? 47 then Some (Closing (rev acc) [], [])
      else if letter c || digit c then Some (InName (c :: acc), []) else None
  | BeforeAttr n l =>
      if c =? 62 then opened html n l
      else if space c then Some (BeforeAttr n l, [])
      else if c =? 47 then Some (Closing n l, [])
      else if letter c then Some (InAttr n l [c], []) else None
  | InAttr n l acc =>
      if c =? 61 then Some (BeforeValue n l (rev acc), [])
      else if letter c || (c =? 45) then Some (InAttr n l (c :: acc), []) else None
  | BeforeValue n l k => if c =? 34 then Some (InValue n l k [], []) else None
  | InValue n l k acc =>
      if c =? 34 then Some (AfterValue n (l ++ [(k, rev acc)]), [])
      else if c =? 38 then Some (InRef [] p, [])
      else if negb html && (c =? 60) then None else Some (InValue n l k (c :: acc), [])
  | AfterValue n l =>
      if c =? 62 then opened html n l
      else if space c then Some (BeforeAttr n l, [])
      else if c =? 47 then Some (Closing n l, []) else None
  | Closing n l => if c =? 62 then opened html n l else None
  | InRef acc back =>
      if c =? 59 then
        match character (rev acc) with
        | Some x => match add back x with Some p => Some (p, []) | None => None end
        | None => None
        end
      else if letter c || digit c || (c =? 35) then Some (InRef (c :: acc) back, []) else None
  end.
Fixpoint read (html : bool) (p : place) (done : list token) (s : str) : option (list token) :=
  match s with
  | [] => match p with InText acc => if forallb space acc then Some done else Some (done ++ [Text (rev acc)]) | _ => None end
  | c :: r => match next html p c r with Some (p', l) => read html p' (done ++ l) r | None => None end
  end.
Definition read_html (s : str) : option (list token) := read true (InText []) [] s.
Definition read_xml (s : str) : option (list token) := read false (InText []) [] s.
