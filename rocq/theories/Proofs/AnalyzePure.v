(** The analysis on string sets as values (lists), i.e. without shared storage. Used
    only to structure the proofs about Model/Analyze.v. *)
From Verif Require Import Model.Base Model.Query Model.Utf8 Model.Syntax Model.Analyze Proofs.StoreProofs.
Local Open Scope nat_scope.

Record pinfo := mkP {
  p_can : bool; p_exact : option (list str); p_prefix : list str; p_suffix : list str; p_match : query }.

Definition phave (e : option (list str)) : bool := match e with Some _ => true | None => false end.
Definition pel (e : option (list str)) : list str := match e with Some l => l | None => [] end.

Definition p_add_exact (i : pinfo) : query :=
  match p_exact i with None => p_match i | Some l => and_trigrams (p_match i) l end.

Definition p_reduce (b : bool) (l : list str) : list str :=
  let l := p_round b 3 l in
  let l := if Nat.ltb max_set (length l) then p_round b 2 l else l in
  let l := if Nat.ltb max_set (length l) then p_round b 1 l else l in
  drop_longer b None l.

Definition p_simplify_set (i : pinfo) (b : bool) : pinfo :=
  let t := clean_list b (if b then p_suffix i else p_prefix i) in
  let m := and_trigrams (p_match i) t in
  if b then mkP (p_can i) (p_exact i) (p_prefix i) (p_reduce b t) m
  else mkP (p_can i) (p_exact i) (p_reduce b t) (p_suffix i) m.

Definition p_sets (i : pinfo) : pinfo := p_simplify_set (p_simplify_set i false) true.

Definition big (l : list str) (force : bool) : bool :=
  Nat.ltb max_exact (length l) || (Nat.leb 3 (min_len l) && force) || Nat.leb 4 (min_len l).

Definition p_simplify (i : pinfo) (force : bool) : pinfo :=
  match p_exact i with
  | None => p_sets i
  | Some e =>
      let l := clean_list false e in
      if big l force then
        p_sets (mkP (p_can i) None (p_prefix i ++ map head2 l) (p_suffix i ++ map tail2 l) (and_trigrams (p_match i) l))
      else mkP (p_can i) (Some l) (p_prefix i) (p_suffix i) (p_match i)
  end.

Definition p_cross (b : bool) (s t : list str) : list str := clean_list b (cross_list s t).

Definition p_concat_sets (x y : pinfo) (m : query) : pinfo :=
  mkP false None
    (match p_exact x with
     | Some e => p_cross false e (p_prefix y)
     | None => if p_can x then union_list false (p_prefix x) (p_prefix y) else p_prefix x
     end)
    (match p_exact y with
     | Some e => p_cross true (p_suffix x) e
     | None => if p_can y then union_list true (p_suffix y) (p_suffix x) else p_suffix y
     end) m.

Definition p_concat (x y : pinfo) : pinfo :=
  let m := and_or (p_match x) (p_match y) QAnd in
  match p_exact x, p_exact y with
  | Some e, Some f => p_simplify (mkP false (Some (p_cross false e f)) [] [] m) false
  | None, None =>
      let xy := p_concat_sets x y m in
      p_simplify
        (if Nat.leb (length (p_suffix x)) max_set && Nat.leb (length (p_prefix y)) max_set
            && Nat.leb 3 (min_len (p_suffix x) + min_len (p_prefix y))
         then mkP false None (p_prefix xy) (p_suffix xy) (and_trigrams m (p_cross false (p_suffix x) (p_prefix y)))
         else xy) false
  | _, _ => p_simplify (p_concat_sets x y m) false
  end.

Definition p_alternate (x y : pinfo) : pinfo :=
  let e := p_can x || p_can y in
  let m := fun a b => and_or a b QOr in
  p_simplify
    match p_exact x, p_exact y with
    | Some a, Some b => mkP e (Some (union_list false a b)) [] [] (m (p_match x) (p_match y))
    | Some a, None => mkP e None (union_list false a (p_prefix y)) (union_list true a (p_suffix y)) (m (p_add_exact x) (p_match y))
    | None, Some b => mkP e None (union_list false (p_prefix x) b) (union_list true (p_suffix x) b) (m (p_match x) (p_add_exact y))
    | None, None => mkP e None (union_list false (p_prefix x) (p_prefix y)) (union_list true (p_suffix x) (p_suffix y)) (m (p_match x) (p_match y))
    end false.

Definition p_any (empty : bool) : pinfo := mkP empty None [[]] [[]] all_query.
Definition p_none : pinfo := mkP false None [] [] none_query.
Definition p_empty : pinfo := mkP true (Some [[]]) [] [] all_query.

Section Run.
Variable simple_fold : N -> N.
Variable orbit_max : nat.

Definition p_class (rs : list N) : pinfo :=
  match rs with
  | [] => p_none
  | [r] => p_simplify (mkP false (Some [encode_rune r]) [] [] all_query) false
  | _ => if Z.ltb 100 (class_size rs) then p_any false
         else p_simplify (mkP false (Some (map encode_rune (class_runes rs))) [] [] all_query) false
  end.
Definition p_folded_rune (r : N) : pinfo :=
  p_class (r :: r :: flat_map (fun x => [x; x]) (orbit simple_fold orbit_max r r)).
Definition p_folded (rs : list N) : pinfo :=
  match rs with
  | [] => p_empty
  | [r] => p_folded_rune r
  | _ => fold_left (fun i r => p_concat i (p_folded_rune r)) rs p_empty
  end.

Definition p_plus (i : pinfo) : pinfo :=
  match p_exact i with
  | Some e => p_simplify (mkP (p_can i) None e e (p_match i)) false
  | None => p_simplify i false
  end.

Definition p_fold (f : pinfo -> pinfo -> pinfo) (acc : option pinfo) (l : list pinfo) : option pinfo :=
  fold_left (fun acc i => match acc with None => Some i | Some x => Some (f x i) end) l acc.

Fixpoint p_analyze (re : regexp) : pinfo :=
  match re with
  | RNoMatch => p_none
  | RZero _ => p_empty
  | RLiteral true rs => p_folded rs
  | RLiteral false rs => p_simplify (mkP false (Some [encode_runes rs]) [] [] all_query) false
  | RAnyNotNL | RAny => p_any false
  | RCapture r => p_analyze r
  | RConcat rs => match p_fold p_concat None (map p_analyze rs) with Some i => i | None => p_empty end
  | RAlternate rs => match p_fold p_alternate None (map p_analyze rs) with Some i => i | None => p_none end
  | RQuest r => p_alternate (p_analyze r) p_empty
  | RStar _ => p_any true
  | RRepeat min _ r => if Nat.eqb min 0 then p_any true else p_plus (p_analyze r)
  | RPlus r => p_plus (p_analyze r)
  | RClass rs => p_class rs
  end.

Definition p_query (re : regexp) : query := p_add_exact (p_simplify (p_analyze re) true).
End Run.
