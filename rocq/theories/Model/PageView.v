(** ui/assets/js/hound.js: how the page shows a file (614-727). A match is as in
    Model/Grep.v; its texts are strings of UTF-16 code units, numbers are exact. A line object
    is a number, a content and a mark; as nobody else holds it, setting its mark replaces it.
    [None]: a TypeError, or, in [content_loop], not finished. *)
From Verif Require Import Model.Base Model.Grep.
Local Open Scope Z_scope.

Definition line_obj : Type := (Z * str * bool)%type.
Definition Number (l : line_obj) : Z := fst (fst l).
Definition Match (l : line_obj) : bool := snd l.

(** hound.js:614-640: MatchToLines *)
Fixpoint number_from (n : Z) (lines : list str) : list line_obj :=
  match lines with [] => [] | l :: rest => (n, l, false) :: number_from (n + 1) rest end.
Definition MatchToLines (m : hit) : list line_obj :=
  let base := Z.of_nat (h_no m) in
  let nBefore := Z.of_nat (length (h_before m)) in
  number_from (base - nBefore) (h_before m) ++ [(base, h_line m, true)] ++ number_from (base + 1) (h_after m).

(** current[i].Match = true *)
Definition set_match (current : list line_obj) (i : Z) : option (list line_obj) :=
  if i <? 0 then None
  else match nth_error current (Z.to_nat i) with
       | Some (n, c, _) => list_set current (Z.to_nat i) (n, c, true)
       | None => None
       end.
(** hound.js:663-674: block.forEach *)
Fixpoint merge_lines (max : Z) (block current : list line_obj) : option (list line_obj) :=
  match block with
  | [] => Some current
  | line :: rest =>
      if max <? Number line then merge_lines max rest (current ++ [line])
      else if Match line then
        current <- set_match current (Z.of_nat (length current) - 1 - (max - Number line)) ;;
        merge_lines max rest current
      else merge_lines max rest current
  end.
(** hound.js:652-688: CoalesceMatches *)
Fixpoint coalesce_from (blocks res : list (list line_obj)) (current : option (list line_obj)) : option (list (list line_obj)) :=
  match blocks with
  | [] => Some (match current with Some c => res ++ [c] | None => res end)
  | block :: rest =>
      max <- match current with
             | Some c => match rev c with l :: _ => Some (Number l) | [] => None end
             | None => Some (-1)
             end ;;
      first <- hd_error block ;;
      if Number first <=? max then
        c <- match current with Some c => Some c | None => None end ;;
        c <- merge_lines max block c ;;
        coalesce_from rest res (Some c)
      else coalesce_from rest (match current with Some c => res ++ [c] | None => res end) (Some block)
  end.
Definition CoalesceMatches (ms : list hit) : option (list (list line_obj)) :=
  coalesce_from (map MatchToLines ms) [] None.

(** hound.js:693-698: EscapeHtml; innerHTML of an element that holds the text, by the HTML
    standard (13.3, escaping a string). *)
Local Open Scope N_scope.
Fixpoint EscapeHtml (s : str) : str :=
  match s with
  | [] => []
  | c :: r =>
      (if c =? 38 then [38; 97; 109; 112; 59]
       else if c =? 0xA0 then [38; 110; 98; 115; 112; 59]
       else if c =? 60 then [38; 108; 116; 59]
       else if c =? 62 then [38; 103; 116; 59]
       else [c]) ++ EscapeHtml r
  end.

(** hound.js:703-727: ContentFor. [exec s]: where the first match of the expression in [s]
    begins and ends (RegExp.prototype.exec with lastIndex 0). *)
Definition em : str := [60; 101; 109; 62].
Definition end_em : str := [60; 47; 101; 109; 62].
Fixpoint content_loop (fuel : nat) (exec : str -> option (nat * nat)) (content : str) : option str :=
  match fuel with
  | O => None
  | S fuel =>
      match exec content with
      | None => Some (EscapeHtml content)
      | Some (i, j) =>
          rest <- content_loop fuel exec (skipn j content) ;;
          Some (EscapeHtml (firstn i content) ++ (em ++ EscapeHtml (firstn (j - i) (skipn i content)) ++ end_em) ++ rest)
      end
  end.
Definition ContentFor (fuel : nat) (exec : str -> option (nat * nat)) (line : line_obj) : option str :=
  if negb (Match line) then Some (EscapeHtml (snd (fst line)))
  else content_loop fuel exec (snd (fst line)).

(** common.js:1-3: EscapeRegExp. [\s] by ECMA-262 (WhiteSpace and LineTerminator). *)
Definition js_space (c : N) : bool :=
  (9 <=? c) && (c <=? 13) || (c =? 32) || (c =? 0xA0) || (c =? 0x1680) || (0x2000 <=? c) && (c <=? 0x200A) ||
  (c =? 0x2028) || (c =? 0x2029) || (c =? 0x202F) || (c =? 0x205F) || (c =? 0x3000) || (c =? 0xFEFF).
Definition escaped_class (c : N) : bool :=
  existsb (N.eqb c) [45; 91; 93; 123; 125; 40; 41; 42; 43; 33; 60; 61; 58; 63; 46; 47; 92; 94; 36; 124; 35; 44] || js_space c.
Definition EscapeRegExp (s : str) : str := flat_map (fun c => if escaped_class c then [92; c] else [c]) s.
