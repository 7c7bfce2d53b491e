(** codesearch/index/regexp.go:22-281: trigram queries.
    Query nodes are pointers to mutable structs in Go; andOr reuses the storage of its
    arguments. The model uses immutable trees: every query handed to andOr is owned by
    the caller and dead afterwards (regexp.go:562, 592, 619, 628, 671, 277-279), and
    the shared allQuery/noneQuery are returned before any mutation because one side
    then implies the other. Model/QueryHeap.v has the structs themselves, and C61 shows
    that the two agree. *)
From Verif Require Import Model.Base.
Local Open Scope N_scope.

(** regexp.go:28-35 *)
Inductive qop := QAll | QNone | QAnd | QOr.
(** regexp.go:22-26 *)
Inductive query := Query (op : qop) (tri : list str) (sub : list query).

Definition q_op (q : query) : qop := let 'Query o _ _ := q in o.
Definition q_tri (q : query) : list str := let 'Query _ t _ := q in t.
Definition q_sub (q : query) : list query := let 'Query _ _ s := q in s.

Definition qop_eqb (a b : qop) : bool :=
  match a, b with
  | QAll, QAll | QNone, QNone | QAnd, QAnd | QOr, QOr => true
  | _, _ => false
  end.

(** regexp.go:37-38 *)
Definition all_query : query := Query QAll [] [].
Definition none_query : query := Query QNone [] [].

(** sort.Sort with the given Less on strings. The orders used are total, so the sorted
    arrangement is unique and any sorting algorithm gives the same result. *)
Fixpoint insert_str (less : str -> str -> bool) (x : str) (l : list str) : list str :=
  match l with
  | [] => [x]
  | y :: r => if less y x then y :: insert_str less x r else x :: l
  end.
Fixpoint sort_strs (less : str -> str -> bool) (l : list str) : list str :=
  match l with
  | [] => []
  | x :: r => insert_str less x (sort_strs less r)
  end.

(** regexp.go:748-772: byPrefix is string order; bySuffix compares from the end, i.e.
    is string order of the reversed strings. *)
Definition less_of (isSuffix : bool) : str -> str -> bool :=
  if isSuffix then (fun s t => str_ltb (rev s) (rev t)) else str_ltb.

(** regexp.go:787-794: keep an element if it differs from the last one kept
    ([last] is [None] while w == 0). *)
Fixpoint dedup (last : option str) (l : list str) : list str :=
  match l with
  | [] => []
  | x :: r =>
      match last with
      | Some y => if str_eqb y x then dedup last r else x :: dedup (Some x) r
      | None => x :: dedup (Some x) r
      end
  end.

(** regexp.go:780-795, as a function of the contents. *)
Definition clean_list (isSuffix : bool) (l : list str) : list str :=
  dedup None (sort_strs (less_of isSuffix) l).

(** regexp.go:831-835, as a function of the contents. *)
Definition union_list (isSuffix : bool) (s t : list str) : list str :=
  clean_list isSuffix (s ++ t).

(** regexp.go:861-872 *)
Fixpoint skip_below (t : list str) (ss : str) : list str :=
  match t with
  | [] => []
  | x :: r => if str_ltb x ss then skip_below r ss else t
  end.
Fixpoint is_subset_of (s t : list str) : bool :=
  match s with
  | [] => true
  | ss :: s' =>
      match skip_below t ss with
      | x :: r => if str_eqb x ss then is_subset_of s' (x :: r) else false
      | [] => false
      end
  end.

(** regexp.go:198-224 *)
Fixpoint trigrams_imply (t : list str) (q : query) : bool :=
  match q with
  | Query QOr tri sub =>
      existsb (trigrams_imply t) sub || existsb (fun ti => is_subset_of [ti] tri) t
  | Query QAnd tri sub =>
      forallb (trigrams_imply t) sub && is_subset_of tri t
  | Query _ _ _ => false
  end.

Definition is_op (q : query) (o : qop) : bool := qop_eqb (q_op q) o.
Definition q_atom (q : query) : bool :=
  Nat.eqb (length (q_tri q)) 1 && Nat.eqb (length (q_sub q)) 0.

(** regexp.go:174-196 *)
Definition implies (q r : query) : bool :=
  if is_op q QNone || is_op r QAll then true
  else if is_op q QAll || is_op r QNone then false
  else if is_op q QAnd || (is_op q QOr && q_atom q) then trigrams_imply (q_tri q) r
  else is_op q QOr && is_op r QOr
       && negb (Nat.eqb (length (q_tri q)) 0) && Nat.eqb (length (q_sub q)) 0
       && is_subset_of (q_tri q) (q_tri r).

(** regexp.go:117-145: (common, rest of q's trigrams, rest of r's trigrams). The
    writes to q.Trigram[wi] never overtake the reads. *)
Fixpoint factor (fuel : nat) (qt rt : list str) : list str * list str * list str :=
  match fuel with
  | O => ([], qt, rt)
  | S f =>
      match qt, rt with
      | x :: qt', y :: rt' =>
          if str_ltb x y then
            let '(c, a, b) := factor f qt' rt in (c, x :: a, b)
          else if str_ltb y x then
            let '(c, a, b) := factor f qt rt' in (c, a, y :: b)
          else
            let '(c, a, b) := factor f qt' rt' in (x :: c, a, b)
      | _, _ => ([], qt, rt)
      end
  end.
Definition factor_common (qt rt : list str) := factor (length qt + length rt) qt rt.

(** regexp.go:61-66 *)
Definition unwrap (q : query) : query :=
  match q with
  | Query _ [] [s] => s
  | _ => q
  end.

(** QAnd + QOr - op (regexp.go:163) *)
Definition other_op (op : qop) : qop := match op with QAnd => QOr | _ => QAnd end.

(** regexp.go:52-170. [None] is exhausted fuel; see [and_or]. *)
Fixpoint and_or_f (fuel : nat) (q r : query) (op : qop) : option query :=
  match fuel with
  | O => None
  | S fuel' =>
      let q := unwrap q in
      let r := unwrap r in
      if implies q r then Some (if qop_eqb op QAnd then q else r)
      else if implies r q then Some (if qop_eqb op QAnd then r else q)
      else
        let qa := q_atom q in
        let ra := q_atom r in
        if is_op q op && (is_op r op || ra) then
          Some (Query (q_op q) (union_list false (q_tri q) (q_tri r)) (q_sub q ++ q_sub r))
        else if is_op r op && qa then
          Some (Query (q_op r) (union_list false (q_tri r) (q_tri q)) (q_sub r))
        else if qa && ra then
          Some (Query op (q_tri q ++ q_tri r) (q_sub q))
        else if is_op q op then
          Some (Query (q_op q) (q_tri q) (q_sub q ++ [r]))
        else if is_op r op then
          Some (Query (q_op r) (q_tri r) (q_sub r ++ [q]))
        else
          let '(common, qt, rt) := factor_common (q_tri q) (q_tri r) in
          let q' := Query (q_op q) qt (q_sub q) in
          let r' := Query (q_op r) rt (q_sub r) in
          match common with
          | [] => Some (Query op [] [q'; r'])
          | _ =>
              s <- and_or_f fuel' q' r' op ;;
              and_or_f fuel' (Query (other_op op) common []) s (other_op op)
          end
  end.

(** Number of trigrams in a query: each recursive call has fewer in total. *)
Fixpoint q_size (q : query) : nat :=
  let 'Query _ t s := q in
  (length t + fold_right (fun x n => q_size x + n)%nat 0%nat s)%nat.

(** The fuel is sufficient (Proofs: and_or_total), so the default is never used. *)
Definition and_or (q r : query) (op : qop) : query :=
  match and_or_f (S (q_size q + q_size r)) q r op with
  | Some x => x
  | None => all_query
  end.

(** regexp.go:803-814 *)
Definition min_len (l : list str) : nat :=
  match l with
  | [] => 0%nat
  | x :: r => fold_left (fun m s => if Nat.ltb (length s) m then length s else m) l (length x)
  end.

(** regexp.go:272-274: all substrings tt[i:i+3]. *)
Fixpoint trigrams_of (s : str) : list str :=
  match s with
  | a :: ((b :: c :: _) as r) => [a; b; c] :: trigrams_of r
  | _ => []
  end.

(** regexp.go:260-281 *)
Definition and_trigrams (q : query) (t : list str) : query :=
  if Nat.ltb (min_len t) 3 then q
  else
    let or := fold_left (fun or tt =>
                and_or or (Query QAnd (clean_list false (trigrams_of tt)) []) QOr)
                t none_query in
    and_or q or QAnd.
