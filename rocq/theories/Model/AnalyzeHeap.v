(** codesearch/index/regexp.go:333-728 again, with queries in memory: as Model/Analyze.v,
    but the match field of a regexpInfo is a pointer into the memory of Model/QueryHeap.v.
    The arrays behind exact, prefix and suffix stay in the store of Model/Analyze.v:
    the array of a Trigram slice only ever comes from andTrigrams (regexp.go:270-276)
    or from [common] (regexp.go:119), never from one of those sets.
    [None] is not having finished within the bound on the depth of recursion. *)
From Verif Require Import Model.Base Model.Query Model.Utf8 Model.Syntax Model.Analyze Model.QueryHeap.
Local Open Scope nat_scope.

(** regexp.go:341-357 *)
Record hinfo := mkHInfo {
  hi_can_empty : bool;
  hi_exact : option slice;
  hi_prefix : option slice;
  hi_suffix : option slice;
  hi_match : nat }.

Section Run.
Variable grow : nat -> nat -> nat.
Variable simple_fold : N -> N.
Variable orbit_max : nat.
Variable fuel : nat.

Definition state : Type := store * heap * hinfo.

(** regexp.go:382-418 *)
Definition any_of_h (empty : bool) (st : store) (h : heap) : state :=
  let '(st, p) := literal st [[]] in
  let '(st, s) := literal st [[]] in
  (st, h, mkHInfo empty None p s p_all).
Definition no_match_h (st : store) (h : heap) : state :=
  (st, h, mkHInfo false None None None p_none).
Definition empty_string_h (st : store) (h : heap) : state :=
  let '(st, e) := literal st [[]] in
  (st, h, mkHInfo true e None None p_all).

(** regexp.go:626-630 *)
Definition add_exact_h (st : store) (h : heap) (i : hinfo) : option (heap * hinfo) :=
  match hi_exact i with
  | None => Some (h, i)
  | Some _ =>
      '(h, m) <- and_trigrams_h grow fuel h (hi_match i) (elems st (hi_exact i)) ;;
      Some (h, mkHInfo (hi_can_empty i) (hi_exact i) (hi_prefix i) (hi_suffix i) m)
  end.

(** regexp.go:666-711 *)
Definition simplify_set_h (st : store) (h : heap) (i : hinfo) (isSuffix : bool) : option state :=
  let '(st, t) := s_clean st (if isSuffix then hi_suffix i else hi_prefix i) isSuffix in
  '(h, m) <- and_trigrams_h grow fuel h (hi_match i) (elems st t) ;;
  let '(st, t) := round st t isSuffix 3 in
  let '(st, t) := if Nat.ltb max_set (length (elems st t)) then round st t isSuffix 2 else (st, t) in
  let '(st, t) := if Nat.ltb max_set (length (elems st t)) then round st t isSuffix 1 else (st, t) in
  let '(st, t) := rewrite st t (drop_longer isSuffix None (elems st t)) in
  Some (st, h, if isSuffix then mkHInfo (hi_can_empty i) (hi_exact i) (hi_prefix i) t m
               else mkHInfo (hi_can_empty i) (hi_exact i) t (hi_suffix i) m).

(** regexp.go:633-659 *)
Definition simplify_h (st : store) (h : heap) (i : hinfo) (force : bool) : option state :=
  let '(st, e) := s_clean st (hi_exact i) false in
  let i := mkHInfo (hi_can_empty i) e (hi_prefix i) (hi_suffix i) (hi_match i) in
  let l := elems st e in
  '(st, h, i) <-
    (if Nat.ltb max_exact (length l) || (Nat.leb 3 (min_len l) && force) || Nat.leb 4 (min_len l) then
       '(h, i) <- add_exact_h st h i ;;
       let '(st, p) := s_add_all grow st (hi_prefix i) (map head2 l) in
       let '(st, s) := s_add_all grow st (hi_suffix i) (map tail2 l) in
       Some (st, h, mkHInfo (hi_can_empty i) None p s (hi_match i))
     else Some (st, h, i)) ;;
  if have (hi_exact i) then Some (st, h, i)
  else
    '(st, h, i) <- simplify_set_h st h i false ;;
    simplify_set_h st h i true.

(** regexp.go:558-597 *)
Definition concat_h (st : store) (h : heap) (x y : hinfo) : option state :=
  '(h, m) <- and_or_h grow fuel h (hi_match x) (hi_match y) QAnd ;;
  let '(st, xy) :=
    if have (hi_exact x) && have (hi_exact y) then
      let '(st, e) := s_cross grow st (hi_exact x) (hi_exact y) false in
      (st, mkHInfo false e None None m)
    else
      let '(st, p) :=
        if have (hi_exact x) then s_cross grow st (hi_exact x) (hi_prefix y) false
        else if hi_can_empty x then s_union grow st (hi_prefix x) (hi_prefix y) false
        else (st, hi_prefix x) in
      let '(st, s) :=
        if have (hi_exact y) then s_cross grow st (hi_suffix x) (hi_exact y) true
        else if hi_can_empty y then s_union grow st (hi_suffix y) (hi_suffix x) true
        else (st, hi_suffix y) in
      (st, mkHInfo false None p s m) in
  '(st, h, xy) <-
    (if negb (have (hi_exact x)) && negb (have (hi_exact y))
        && Nat.leb (length (elems st (hi_suffix x))) max_set && Nat.leb (length (elems st (hi_prefix y))) max_set
        && Nat.leb 3 (min_len (elems st (hi_suffix x)) + min_len (elems st (hi_prefix y)))
     then
       let '(st, c) := s_cross grow st (hi_suffix x) (hi_prefix y) false in
       '(h, m) <- and_trigrams_h grow fuel h (hi_match xy) (elems st c) ;;
       Some (st, h, mkHInfo (hi_can_empty xy) (hi_exact xy) (hi_prefix xy) (hi_suffix xy) m)
     else Some (st, h, xy)) ;;
  simplify_h st h xy false.

(** regexp.go:600-623 *)
Definition alternate_h (st : store) (h : heap) (x y : hinfo) : option state :=
  let e := hi_can_empty x || hi_can_empty y in
  '(st, h, xy) <-
    (if have (hi_exact x) && have (hi_exact y) then
       let '(st, s) := s_union grow st (hi_exact x) (hi_exact y) false in
       '(h, m) <- and_or_h grow fuel h (hi_match x) (hi_match y) QOr ;;
       Some (st, h, mkHInfo e s None None m)
     else if have (hi_exact x) then
       let b1 := fits st (hi_exact x) (elems st (hi_prefix y)) in
       let '(st, p) := s_union grow st (hi_exact x) (hi_prefix y) false in
       let b2 := fits st (hi_exact x) (elems st (hi_suffix y)) in
       let '(st, s) := s_union grow st (hi_exact x) (hi_suffix y) true in
       let st := mkStore (st_arr st) (st_shared st || b1 || b2) in
       '(h, x) <- add_exact_h st h x ;;
       '(h, m) <- and_or_h grow fuel h (hi_match x) (hi_match y) QOr ;;
       Some (st, h, mkHInfo e None p s m)
     else if have (hi_exact y) then
       let '(st, p) := s_union grow st (hi_prefix x) (hi_exact y) false in
       let '(st, c) := s_copy grow st (hi_exact y) in
       let '(st, s) := s_union grow st (hi_suffix x) c true in
       '(h, y) <- add_exact_h st h y ;;
       '(h, m) <- and_or_h grow fuel h (hi_match x) (hi_match y) QOr ;;
       Some (st, h, mkHInfo e None p s m)
     else
       let '(st, p) := s_union grow st (hi_prefix x) (hi_prefix y) false in
       let '(st, s) := s_union grow st (hi_suffix x) (hi_suffix y) true in
       '(h, m) <- and_or_h grow fuel h (hi_match x) (hi_match y) QOr ;;
       Some (st, h, mkHInfo e None p s m)) ;;
  simplify_h st h xy false.

(** regexp.go:504-538 *)
Definition char_class_h (st : store) (h : heap) (rs : list N) : option state :=
  match rs with
  | [] => Some (no_match_h st h)
  | [r] =>
      let '(st, e) := literal st [encode_rune r] in
      simplify_h st h (mkHInfo false e None None p_all) false
  | _ =>
      if Z.ltb 100 (class_size rs) then Some (any_of_h false st h)
      else
        let '(st, e) := literal st [] in
        let '(st, e) := s_add_all grow st e (map encode_rune (class_runes rs)) in
        simplify_h st h (mkHInfo false e None None p_all) false
  end.

(** regexp.go:436-453 *)
Definition folded_rune_h (st : store) (h : heap) (r : N) : option state :=
  char_class_h st h (r :: r :: flat_map (fun x => [x; x]) (orbit simple_fold orbit_max r r)).

(** regexp.go:461-469 *)
Fixpoint folded_runes_h (rs : list N) (acc : state) : option state :=
  match rs with
  | [] => Some acc
  | r :: rs' =>
      let '(st, h, x) := acc in
      '(st, h, i) <- folded_rune_h st h r ;;
      acc <- concat_h st h x i ;;
      folded_runes_h rs' acc
  end.

(** regexp.go:434-470 *)
Definition folded_literal_h (st : store) (h : heap) (rs : list N) : option state :=
  match rs with
  | [] => Some (empty_string_h st h)
  | [r] => folded_rune_h st h r
  | _ => folded_runes_h rs (empty_string_h st h)
  end.

(** regexp.go:420-540 *)
Fixpoint analyze_h (re : regexp) (st : store) (h : heap) {struct re} : option state :=
  (* regexp.go:543-555 *)
  let fix fold (f : store -> heap -> hinfo -> hinfo -> option state) (acc : option hinfo)
               (l : list regexp) (st : store) (h : heap) {struct l} : option (store * heap * option hinfo) :=
    match l with
    | [] => Some (st, h, acc)
    | r :: l' =>
        '(st, h, i) <- analyze_h r st h ;;
        match acc with
        | None => fold f (Some i) l' st h
        | Some x => '(st, h, xy) <- f st h x i ;; fold f (Some xy) l' st h
        end
    end in
  let plus (r : regexp) :=
    '(st, h, i) <- analyze_h r st h ;;
    if have (hi_exact i) then
      let '(st, s) := s_copy grow st (hi_exact i) in
      simplify_h st h (mkHInfo (hi_can_empty i) None (hi_exact i) s (hi_match i)) false
    else simplify_h st h i false in
  match re with
  | RNoMatch => Some (no_match_h st h)
  | RZero _ => Some (empty_string_h st h)
  | RLiteral true rs => folded_literal_h st h rs
  | RLiteral false rs =>
      let '(st, e) := literal st [encode_runes rs] in
      simplify_h st h (mkHInfo false e None None p_all) false
  | RAnyNotNL | RAny => Some (any_of_h false st h)
  | RCapture r => analyze_h r st h
  | RConcat rs =>
      '(st, h, i) <- fold concat_h None rs st h ;;
      match i with Some i => Some (st, h, i) | None => Some (empty_string_h st h) end
  | RAlternate rs =>
      '(st, h, i) <- fold alternate_h None rs st h ;;
      match i with Some i => Some (st, h, i) | None => Some (no_match_h st h) end
  | RQuest r =>
      '(st, h, i) <- analyze_h r st h ;;
      let '(st, h, e) := empty_string_h st h in
      alternate_h st h i e
  | RStar _ => Some (any_of_h true st h)
  | RRepeat min _ r => if Nat.eqb min 0 then Some (any_of_h true st h) else plus r
  | RPlus r => plus r
  | RClass rs => char_class_h st h rs
  end.

(** regexp.go:333-338, in a process whose memory is [h]: the result is a pointer. *)
Definition regexp_query_h (re : regexp) (h : heap) : option (heap * nat) :=
  '(st, h, i) <- analyze_h re (mkStore [] false) h ;;
  '(st, h, i) <- simplify_h st h i true ;;
  '(h, i) <- add_exact_h st h i ;;
  Some (h, hi_match i).

End Run.
