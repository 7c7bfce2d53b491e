(** codesearch/index/regexp.go:333-728: the trigram query of a regular expression.

    String sets are Go slices whose storage is reused ("union … reusing s's storage",
    regexp.go:829), so the model has an explicit store of arrays. A slice is an array
    number and a length; its capacity is the size of the array. Every slice in this
    code starts at index 0 of its array (only [t[:w]] is ever formed). The strings
    themselves are immutable values. Query nodes are values, see Model/Query.v. *)
From Verif Require Import Model.Base Model.Query Model.Utf8 Model.Syntax.
Local Open Scope nat_scope.

(** [st_shared] is a ghost flag: set when alternate (regexp.go:607-608) appends to
    x.exact within its capacity while x.exact is still in use. Nothing reads it. *)
Record store := mkStore { st_arr : list (list str); st_shared : bool }.
Record slice := mkSlice { sl_arr : nat; sl_len : nat }.

Definition arr (h : store) (a : nat) : list str := nth a (st_arr h) [].

Fixpoint upd (l : list (list str)) (a : nat) (v : list str) : list (list str) :=
  match l, a with
  | [], _ => []
  | _ :: t, O => v :: t
  | x :: t, S a' => x :: upd t a' v
  end.
Definition set_arr (h : store) (a : nat) (v : list str) : store :=
  mkStore (upd (st_arr h) a v) (st_shared h).

(** The elements of a slice; [None] is the nil slice. *)
Definition elems (h : store) (s : option slice) : list str :=
  match s with
  | None => []
  | Some s => firstn (sl_len s) (arr h (sl_arr s))
  end.

(** A new array of [n] elements starting with [l]; the rest is zero (""). *)
Definition alloc (h : store) (n : nat) (l : list str) : store * option slice :=
  (mkStore (st_arr h ++ [l ++ repeat [] (n - length l)]) (st_shared h),
   Some (mkSlice (length (st_arr h)) (length l))).
(** A composite literal []string{…}. *)
Definition literal (h : store) (l : list str) : store * option slice := alloc h (length l) l.

Section Run.
(** The run-time's choice of a new capacity when an array of capacity [cap] must grow to
    hold [need] elements. *)
Variable grow : nat -> nat -> nat.
(** unicode.SimpleFold, and a bound on the size of its orbits. *)
Variable simple_fold : N -> N.
Variable orbit_max : nat.

(** append(s, l...) *)
Definition fits (h : store) (s : option slice) (l : list str) : bool :=
  match s with
  | None => false
  | Some s => Nat.leb (sl_len s + length l) (length (arr h (sl_arr s)))
  end.
Definition append (h : store) (s : option slice) (l : list str) : store * option slice :=
  match s with
  | None => match l with [] => (h, None) | _ => alloc h (grow 0 (length l)) l end
  | Some sl =>
      let a := arr h (sl_arr sl) in
      if fits h s l then
        (set_arr h (sl_arr sl) (firstn (sl_len sl) a ++ l ++ skipn (sl_len sl + length l) a),
         Some (mkSlice (sl_arr sl) (sl_len sl + length l)))
      else alloc h (grow (length a) (sl_len sl + length l)) (elems h s ++ l)
  end.

(** The loops that compact a set in place (regexp.go:786-793, 676-688, 702-708) read
    element i before anything is written there: afterwards the array starts with the
    elements kept, [d], followed by what the loop started from. *)
Definition rewrite (h : store) (s : option slice) (d : list str) : store * option slice :=
  match s with
  | None => (h, None)
  | Some sl =>
      (set_arr h (sl_arr sl) (d ++ skipn (length d) (arr h (sl_arr sl))),
       Some (mkSlice (sl_arr sl) (length d)))
  end.

(** regexp.go:780-795 *)
Definition s_clean (h : store) (s : option slice) (isSuffix : bool) : store * option slice :=
  let '(h, s) := rewrite h s (sort_strs (less_of isSuffix) (elems h s)) in
  rewrite h s (dedup None (elems h s)).

(** regexp.go:831-835 *)
Definition s_union (h : store) (s t : option slice) (isSuffix : bool) : store * option slice :=
  let '(h, s) := append h s (elems h t) in
  s_clean h s isSuffix.

(** regexp.go:775-777, repeatedly *)
Definition s_add_all (h : store) (s : option slice) (l : list str) : store * option slice :=
  fold_left (fun hs x => append (fst hs) (snd hs) [x]) l (h, s).

(** regexp.go:838-847 *)
Definition cross_list (s t : list str) : list str :=
  flat_map (fun ss => map (fun tt => ss ++ tt) t) s.
Definition s_cross (h : store) (s t : option slice) (isSuffix : bool) : store * option slice :=
  let l := cross_list (elems h s) (elems h t) in
  let '(h, p) := literal h [] in
  let '(h, p) := s_add_all h p l in
  s_clean h p isSuffix.

(** regexp.go:855-857 *)
Definition s_copy (h : store) (s : option slice) : store * option slice :=
  let '(h', p) := literal h [] in
  append h' p (elems h s).

(** regexp.go:341-357 *)
Record info := mkInfo {
  i_can_empty : bool;
  i_exact : option slice;
  i_prefix : option slice;
  i_suffix : option slice;
  i_match : query }.

Definition have (s : option slice) : bool := match s with Some _ => true | None => false end.

Definition max_exact : nat := 7.   (* regexp.go:368 *)
Definition max_set : nat := 20.    (* regexp.go:377 *)

(** regexp.go:382-418 *)
Definition any_of (empty : bool) (h : store) : store * info :=
  let '(h, p) := literal h [[]] in
  let '(h, s) := literal h [[]] in
  (h, mkInfo empty None p s all_query).
Definition any_match := any_of true.
Definition any_char := any_of false.
Definition no_match (h : store) : store * info := (h, mkInfo false None None None none_query).
Definition empty_string (h : store) : store * info :=
  let '(h, e) := literal h [[]] in
  (h, mkInfo true e None None all_query).

(** regexp.go:626-630 *)
Definition add_exact (h : store) (i : info) : info :=
  match i_exact i with
  | None => i
  | Some _ => mkInfo (i_can_empty i) (i_exact i) (i_prefix i) (i_suffix i)
                (and_trigrams (i_match i) (elems h (i_exact i)))
  end.

(** regexp.go:678-684 *)
Definition trunc (n : nat) (isSuffix : bool) (x : str) : str :=
  if Nat.leb n (length x)
  then (if isSuffix then skipn (length x - n + 1) x else firstn (n - 1) x)
  else x.

(** regexp.go:674-691, one round of the loop *)
Definition round (h : store) (t : option slice) (isSuffix : bool) (n : nat) : store * option slice :=
  let '(h, t) := rewrite h t (dedup None (map (trunc n isSuffix) (elems h t))) in
  s_clean h t isSuffix.

(** strings.HasPrefix / strings.HasSuffix (x, p) *)
Fixpoint has_prefix (x p : str) : bool :=
  match p, x with
  | [], _ => true
  | c :: p', d :: x' => N.eqb c d && has_prefix x' p'
  | _ :: _, [] => false
  end.
Definition has_affix (isSuffix : bool) (x p : str) : bool :=
  if isSuffix then has_prefix (rev x) (rev p) else has_prefix x p.

(** regexp.go:697-709 *)
Fixpoint drop_longer (isSuffix : bool) (last : option str) (l : list str) : list str :=
  match l with
  | [] => []
  | x :: r =>
      match last with
      | Some y => if has_affix isSuffix x y then drop_longer isSuffix last r
                  else x :: drop_longer isSuffix (Some x) r
      | None => x :: drop_longer isSuffix (Some x) r
      end
  end.

(** regexp.go:666-711, for the prefix ([isSuffix = false]) or the suffix set. After the
    round with n = 1 every string is empty, so the loop ends at the latest there. *)
Definition simplify_set (h : store) (i : info) (isSuffix : bool) : store * info :=
  let '(h, t) := s_clean h (if isSuffix then i_suffix i else i_prefix i) isSuffix in
  let m := and_trigrams (i_match i) (elems h t) in
  let '(h, t) := round h t isSuffix 3 in
  let '(h, t) := if Nat.ltb max_set (length (elems h t)) then round h t isSuffix 2 else (h, t) in
  let '(h, t) := if Nat.ltb max_set (length (elems h t)) then round h t isSuffix 1 else (h, t) in
  let '(h, t) := rewrite h t (drop_longer isSuffix None (elems h t)) in
  (h, if isSuffix then mkInfo (i_can_empty i) (i_exact i) (i_prefix i) t m
      else mkInfo (i_can_empty i) (i_exact i) t (i_suffix i) m).

(** regexp.go:643-652 *)
Definition head2 (x : str) : str := if Nat.ltb (length x) 3 then x else firstn 2 x.
Definition tail2 (x : str) : str := if Nat.ltb (length x) 3 then x else skipn (length x - 2) x.

(** regexp.go:633-659. The two sets are filled in turn, one string each; they are
    distinct slices, which the order of the appends does not affect. *)
Definition simplify (h : store) (i : info) (force : bool) : store * info :=
  let '(h, e) := s_clean h (i_exact i) false in
  let i := mkInfo (i_can_empty i) e (i_prefix i) (i_suffix i) (i_match i) in
  let l := elems h e in
  let '(h, i) :=
    if Nat.ltb max_exact (length l) || (Nat.leb 3 (min_len l) && force) || Nat.leb 4 (min_len l) then
      let i := add_exact h i in
      let '(h, p) := s_add_all h (i_prefix i) (map head2 l) in
      let '(h, s) := s_add_all h (i_suffix i) (map tail2 l) in
      (h, mkInfo (i_can_empty i) None p s (i_match i))
    else (h, i) in
  if have (i_exact i) then (h, i)
  else
    let '(h, i) := simplify_set h i false in
    simplify_set h i true.

(** regexp.go:558-597 *)
Definition concat (h : store) (x y : info) : store * info :=
  let m := and_or (i_match x) (i_match y) QAnd in
  let '(h, xy) :=
    if have (i_exact x) && have (i_exact y) then
      let '(h, e) := s_cross h (i_exact x) (i_exact y) false in
      (h, mkInfo false e None None m)
    else
      let '(h, p) :=
        if have (i_exact x) then s_cross h (i_exact x) (i_prefix y) false
        else if i_can_empty x then s_union h (i_prefix x) (i_prefix y) false
        else (h, i_prefix x) in
      let '(h, s) :=
        if have (i_exact y) then s_cross h (i_suffix x) (i_exact y) true
        else if i_can_empty y then s_union h (i_suffix y) (i_suffix x) true
        else (h, i_suffix y) in
      (h, mkInfo false None p s m) in
  let '(h, xy) :=
    if negb (have (i_exact x)) && negb (have (i_exact y))
       && Nat.leb (length (elems h (i_suffix x))) max_set && Nat.leb (length (elems h (i_prefix y))) max_set
       && Nat.leb 3 (min_len (elems h (i_suffix x)) + min_len (elems h (i_prefix y)))
    then
      let '(h, c) := s_cross h (i_suffix x) (i_prefix y) false in
      (h, mkInfo (i_can_empty xy) (i_exact xy) (i_prefix xy) (i_suffix xy)
            (and_trigrams (i_match xy) (elems h c)))
    else (h, xy) in
  simplify h xy false.

(** regexp.go:600-623 *)
Definition alternate (h : store) (x y : info) : store * info :=
  let e := i_can_empty x || i_can_empty y in
  let '(h, xy) :=
    if have (i_exact x) && have (i_exact y) then
      let '(h, s) := s_union h (i_exact x) (i_exact y) false in
      (h, mkInfo e s None None (and_or (i_match x) (i_match y) QOr))
    else if have (i_exact x) then
      let b1 := fits h (i_exact x) (elems h (i_prefix y)) in
      let '(h, p) := s_union h (i_exact x) (i_prefix y) false in
      let b2 := fits h (i_exact x) (elems h (i_suffix y)) in
      let '(h, s) := s_union h (i_exact x) (i_suffix y) true in
      let h := mkStore (st_arr h) (st_shared h || b1 || b2) in
      let x := add_exact h x in
      (h, mkInfo e None p s (and_or (i_match x) (i_match y) QOr))
    else if have (i_exact y) then
      let '(h, p) := s_union h (i_prefix x) (i_exact y) false in
      let '(h, c) := s_copy h (i_exact y) in
      let '(h, s) := s_union h (i_suffix x) c true in
      let y := add_exact h y in
      (h, mkInfo e None p s (and_or (i_match x) (i_match y) QOr))
    else
      let '(h, p) := s_union h (i_prefix x) (i_prefix y) false in
      let '(h, s) := s_union h (i_suffix x) (i_suffix y) true in
      (h, mkInfo e None p s (and_or (i_match x) (i_match y) QOr)) in
  simplify h xy false.

(** regexp.go:447-450: SimpleFold(r0), SimpleFold(SimpleFold(r0)), … until back at r0. *)
Fixpoint orbit (fuel : nat) (r0 r : N) : list N :=
  match fuel with
  | O => []
  | S f => let r1 := simple_fold r in if N.eqb r1 r0 then [] else r1 :: orbit f r0 r1
  end.

(** regexp.go:519-535; int(hi - lo) is a signed difference. *)
Fixpoint class_size (rs : list N) : Z :=
  match rs with
  | lo :: hi :: r => (Z.of_N hi - Z.of_N lo + class_size r)%Z
  | _ => 0%Z
  end.
Definition range_runes (lo hi : N) : list N :=
  map (fun k => (lo + N.of_nat k)%N) (seq 0 (N.to_nat (hi + 1 - lo)%N)).
Fixpoint class_runes (rs : list N) : list N :=
  match rs with
  | lo :: hi :: r => range_runes lo hi ++ class_runes r
  | _ => []
  end.

(** regexp.go:504-536 and 538. An odd number of runes above one, which the parser never
    produces, would be an index out of range; the last one is ignored here. *)
Definition char_class (h : store) (rs : list N) : store * info :=
  match rs with
  | [] => no_match h
  | [r] =>
      let '(h, e) := literal h [encode_rune r] in
      simplify h (mkInfo false e None None all_query) false
  | _ =>
      if Z.ltb 100 (class_size rs) then any_char h
      else
        let '(h, e) := literal h [] in
        let '(h, e) := s_add_all h e (map encode_rune (class_runes rs)) in
        simplify h (mkInfo false e None None all_query) false
  end.

(** regexp.go:436-453 *)
Definition folded_rune (h : store) (r : N) : store * info :=
  char_class h (r :: r :: flat_map (fun x => [x; x]) (orbit orbit_max r r)).

(** regexp.go:434-470 *)
Definition folded_literal (h : store) (rs : list N) : store * info :=
  match rs with
  | [] => empty_string h
  | [r] => folded_rune h r
  | _ =>
      fold_left (fun hi r =>
        let '(h, i) := folded_rune (fst hi) r in
        concat h (snd hi) i) rs (empty_string h)
  end.

(** regexp.go:420-540 *)
Fixpoint analyze (re : regexp) (h : store) {struct re} : store * info :=
  (* regexp.go:543-555 *)
  let fix fold (f : store -> info -> info -> store * info) (acc : option info)
               (l : list regexp) (h : store) {struct l} : store * option info :=
    match l with
    | [] => (h, acc)
    | r :: l' =>
        let '(h, i) := analyze r h in
        match acc with
        | None => fold f (Some i) l' h
        | Some x => let '(h, xy) := f h x i in fold f (Some xy) l' h
        end
    end in
  let plus (r : regexp) :=
    let '(h, i) := analyze r h in
    if have (i_exact i) then
      let '(h, s) := s_copy h (i_exact i) in
      simplify h (mkInfo (i_can_empty i) None (i_exact i) s (i_match i)) false
    else simplify h i false in
  match re with
  | RNoMatch => no_match h
  | RZero _ => empty_string h
  | RLiteral true rs => folded_literal h rs
  | RLiteral false rs =>
      let '(h, e) := literal h [encode_runes rs] in
      simplify h (mkInfo false e None None all_query) false
  | RAnyNotNL | RAny => any_char h
  | RCapture r => analyze r h
  | RConcat rs =>
      match fold concat None rs h with
      | (h, Some i) => (h, i)
      | (h, None) => empty_string h
      end
  | RAlternate rs =>
      match fold alternate None rs h with
      | (h, Some i) => (h, i)
      | (h, None) => no_match h
      end
  | RQuest r =>
      let '(h, i) := analyze r h in
      let '(h, e) := empty_string h in
      alternate h i e
  | RStar _ => any_match h
  | RRepeat min _ r => if Nat.eqb min 0 then any_match h else plus r
  | RPlus r => plus r
  | RClass rs => char_class h rs
  end.

(** regexp.go:333-338 *)
Definition regexp_query (re : regexp) : store * query :=
  let '(h, i) := analyze re (mkStore [] false) in
  let '(h, i) := simplify h i true in
  (h, i_match (add_exact h i)).

End Run.

(** The growth policy of the Go run-time for small slices of strings (16 bytes each,
    up to 256 bytes, where every multiple of 16 is a size class): double, or what is
    needed if that is more. *)
Definition go_grow (cap need : nat) : nat := if Nat.ltb (2 * cap) need then need else 2 * cap.
