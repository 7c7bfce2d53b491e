(** codesearch/index/regexp.go:22-281: trigram queries as the mutable, shared structs
    they are. Model/Query.v has the same functions on immutable trees; here a query is
    a pointer, andOr writes to the nodes and to the arrays of its arguments, and the
    results share storage with the arguments.

    Every object (a Query struct, the array behind a Trigram slice, the array behind a
    Sub slice) has a number; [next] is the first unused one. A slice is an array and a
    length, its capacity is the size of the array; all slices in this code start at
    index 0. A nil slice is an array of capacity 0 of its own, which no operation can
    tell from nil: nothing here compares a slice with nil, and append to it allocates. *)
From Verif Require Import Model.Base Model.Query.
Local Open Scope nat_scope.

Record hslice := mkHS { s_arr : nat; s_len : nat }.
(** regexp.go:22-26 *)
Record qnode := mkNode { n_op : qop; n_tri : hslice; n_sub : hslice }.
Record heap := mkHeap {
  node : nat -> qnode;
  sarr : nat -> list str;
  parr : nat -> list nat;
  next : nat }.

Definition fupd {A} (f : nat -> A) (k : nat) (v : A) : nat -> A :=
  fun x => if Nat.eqb x k then v else f x.

(** regexp.go:37-38 *)
Definition p_all : nat := 1.
Definition p_none : nat := 2.
Definition no_slice : hslice := mkHS 0 0.
Definition heap0 : heap :=
  mkHeap (fun p => mkNode (if Nat.eqb p p_all then QAll else QNone) no_slice no_slice)
         (fun _ => []) (fun _ => []) 3.

Definition set_node (h : heap) (p : nat) (n : qnode) : heap :=
  mkHeap (fupd (node h) p n) (sarr h) (parr h) (next h).
Definition set_sarr (h : heap) (a : nat) (l : list str) : heap :=
  mkHeap (node h) (fupd (sarr h) a l) (parr h) (next h).
Definition set_parr (h : heap) (a : nat) (l : list nat) : heap :=
  mkHeap (node h) (sarr h) (fupd (parr h) a l) (next h).
Definition bump (h : heap) : heap := mkHeap (node h) (sarr h) (parr h) (S (next h)).

(** q.Op = op, q.Trigram = t, q.Sub = s *)
Definition set_op (h : heap) (p : nat) (o : qop) : heap :=
  set_node h p (mkNode o (n_tri (node h p)) (n_sub (node h p))).
Definition set_tri (h : heap) (p : nat) (t : hslice) : heap :=
  set_node h p (mkNode (n_op (node h p)) t (n_sub (node h p))).
Definition set_sub (h : heap) (p : nat) (s : hslice) : heap :=
  set_node h p (mkNode (n_op (node h p)) (n_tri (node h p)) s).

Definition elems_s (h : heap) (s : hslice) : list str := firstn (s_len s) (sarr h (s_arr s)).
Definition elems_p (h : heap) (s : hslice) : list nat := firstn (s_len s) (parr h (s_arr s)).

(** A new array of [n] elements starting with [l]; the rest is zero. *)
Definition alloc_s (h : heap) (n : nat) (l : list str) : heap * hslice :=
  (bump (set_sarr h (next h) (l ++ repeat [] (n - length l))), mkHS (next h) (length l)).
Definition alloc_p (h : heap) (n : nat) (l : list nat) : heap * hslice :=
  (bump (set_parr h (next h) (l ++ repeat 0 (n - length l))), mkHS (next h) (length l)).
(** &Query{…} *)
Definition alloc_n (h : heap) (n : qnode) : heap * nat :=
  (bump (set_node h (next h) n), next h).

Section Run.
(** The run-time's choice of a new capacity. *)
Variable grow : nat -> nat -> nat.

(** append(s, l...) *)
Definition append_s (h : heap) (s : hslice) (l : list str) : heap * hslice :=
  match l with
  | [] => (h, s)
  | _ =>
      let a := sarr h (s_arr s) in
      let n := s_len s + length l in
      if Nat.leb n (length a) then
        (set_sarr h (s_arr s) (firstn (s_len s) a ++ l ++ skipn n a), mkHS (s_arr s) n)
      else alloc_s h (grow (length a) n) (elems_s h s ++ l)
  end.
Definition append_p (h : heap) (s : hslice) (l : list nat) : heap * hslice :=
  match l with
  | [] => (h, s)
  | _ =>
      let a := parr h (s_arr s) in
      let n := s_len s + length l in
      if Nat.leb n (length a) then
        (set_parr h (s_arr s) (firstn (s_len s) a ++ l ++ skipn n a), mkHS (s_arr s) n)
      else alloc_p h (grow (length a) n) (elems_p h s ++ l)
  end.

(** What a compaction in place leaves behind, see [rewrite] in Model/Analyze.v. *)
Definition rewrite_s (h : heap) (s : hslice) (d : list str) : heap * hslice :=
  (set_sarr h (s_arr s) (d ++ skipn (length d) (sarr h (s_arr s))), mkHS (s_arr s) (length d)).

(** regexp.go:780-795 *)
Definition clean_s (h : heap) (s : hslice) : heap * hslice :=
  let '(h, s) := rewrite_s h s (sort_strs (less_of false) (elems_s h s)) in
  rewrite_s h s (dedup None (elems_s h s)).

(** regexp.go:831-835 *)
Definition union_s (h : heap) (s t : hslice) : heap * hslice :=
  let '(h, s) := append_s h s (elems_s h t) in
  clean_s h s.

(** regexp.go:61-66 *)
Definition unwrap_h (h : heap) (p : nat) : nat :=
  if Nat.eqb (s_len (n_tri (node h p))) 0 && Nat.eqb (s_len (n_sub (node h p))) 1
  then nth 0 (elems_p h (n_sub (node h p))) 0 else p.

(** Loops that stop at the first true (or false) answer. *)
Fixpoint any_h (f : nat -> option bool) (l : list nat) : option bool :=
  match l with
  | [] => Some false
  | p :: r => b <- f p ;; if b then Some true else any_h f r
  end.
Fixpoint all_h (f : nat -> option bool) (l : list nat) : option bool :=
  match l with
  | [] => Some true
  | p :: r => b <- f p ;; if b then all_h f r else Some false
  end.

(** regexp.go:198-224. The recursion follows pointers, so it has a bound; [None] is
    not having finished within it. *)
Fixpoint trigrams_imply_h (fuel : nat) (h : heap) (t : list str) (p : nat) : option bool :=
  match fuel with
  | O => None
  | S f =>
      let tri := elems_s h (n_tri (node h p)) in
      let sub := elems_p h (n_sub (node h p)) in
      match n_op (node h p) with
      | QOr =>
          b <- any_h (trigrams_imply_h f h t) sub ;;
          Some (b || existsb (fun ti => is_subset_of [ti] tri) t)
      | QAnd =>
          b <- all_h (trigrams_imply_h f h t) sub ;;
          Some (b && is_subset_of tri t)
      | _ => Some false
      end
  end.

Definition is_op_h (h : heap) (p : nat) (o : qop) : bool := qop_eqb (n_op (node h p)) o.
Definition atom_h (h : heap) (p : nat) : bool :=
  Nat.eqb (s_len (n_tri (node h p))) 1 && Nat.eqb (s_len (n_sub (node h p))) 0.

(** regexp.go:174-196 *)
Definition implies_h (fuel : nat) (h : heap) (q r : nat) : option bool :=
  if is_op_h h q QNone || is_op_h h r QAll then Some true
  else if is_op_h h q QAll || is_op_h h r QNone then Some false
  else if is_op_h h q QAnd || (is_op_h h q QOr && atom_h h q)
  then trigrams_imply_h fuel h (elems_s h (n_tri (node h q))) r
  else Some (is_op_h h q QOr && is_op_h h r QOr
             && negb (Nat.eqb (s_len (n_tri (node h q))) 0) && Nat.eqb (s_len (n_sub (node h q))) 0
             && is_subset_of (elems_s h (n_tri (node h q))) (elems_s h (n_tri (node h r)))).

(** a[k] = v; the loops below only write where they have read or before it. *)
Definition put (h : heap) (a k : nat) (v : str) : heap :=
  set_sarr h a (firstn k (sarr h a) ++ v :: skipn (S k) (sarr h a)).
Definition get (h : heap) (a i : nat) : str := nth i (sarr h a) [].

(** regexp.go:120-136: the loop over q.Trigram ([a], of length [ql]) and r.Trigram
    ([b], [rl]); the result is i, wi, j, wj and common. *)
Fixpoint factor_h (fuel : nat) (h : heap) (a ql b rl i wi j wj : nat) (c : hslice)
  : heap * (nat * nat) * (nat * nat) * hslice :=
  match fuel with
  | O => (h, (i, wi), (j, wj), c)
  | S f =>
      if Nat.ltb i ql && Nat.ltb j rl then
        let qt := get h a i in
        let rt := get h b j in
        if str_ltb qt rt then factor_h f (put h a wi qt) a ql b rl (S i) (S wi) j wj c
        else if str_ltb rt qt then factor_h f (put h b wj rt) a ql b rl i wi (S j) (S wj) c
        else
          let '(h, c) := append_s h c [qt] in
          factor_h f h a ql b rl (S i) wi (S j) wj c
      else (h, (i, wi), (j, wj), c)
  end.

(** regexp.go:137-140 and 141-144: the [n] remaining elements move down. *)
Fixpoint move_h (n : nat) (h : heap) (a i wi : nat) : heap * nat :=
  match n with
  | O => (h, wi)
  | S n' => move_h n' (put h a wi (get h a i)) a (S i) (S wi)
  end.

(** regexp.go:117-146 *)
Definition factor_common_h (h : heap) (q r : nat) : heap * hslice :=
  let '(h, c) := alloc_s h 0 [] in
  let a := s_arr (n_tri (node h q)) in
  let ql := s_len (n_tri (node h q)) in
  let b := s_arr (n_tri (node h r)) in
  let rl := s_len (n_tri (node h r)) in
  let '(h, (i, wi), (j, wj), c) := factor_h (ql + rl) h a ql b rl 0 0 0 0 c in
  let '(h, wi) := move_h (ql - i) h a i wi in
  let '(h, wj) := move_h (rl - j) h b j wj in
  let h := set_tri h q (mkHS a wi) in
  let h := set_tri h r (mkHS b wj) in
  (h, c).

(** A nil slice. *)
Definition nil_s (h : heap) : heap * hslice := alloc_s h 0 [].
Definition nil_p (h : heap) : heap * hslice := alloc_p h 0 [].

(** regexp.go:52-170 *)
Fixpoint and_or_h (fuel : nat) (h : heap) (q r : nat) (op : qop) : option (heap * nat) :=
  match fuel with
  | O => None
  | S f =>
      let q := unwrap_h h q in
      let r := unwrap_h h r in
      b <- implies_h f h q r ;;
      if b then Some (h, if qop_eqb op QAnd then q else r)
      else
        b <- implies_h f h r q ;;
        if b then Some (h, if qop_eqb op QAnd then r else q)
        else
          let qa := atom_h h q in
          let ra := atom_h h r in
          if is_op_h h q op && (is_op_h h r op || ra) then
            let '(h, t) := union_s h (n_tri (node h q)) (n_tri (node h r)) in
            let h := set_tri h q t in
            let '(h, s) := append_p h (n_sub (node h q)) (elems_p h (n_sub (node h r))) in
            Some (set_sub h q s, q)
          else if is_op_h h r op && qa then
            let '(h, t) := union_s h (n_tri (node h r)) (n_tri (node h q)) in
            Some (set_tri h r t, r)
          else if qa && ra then
            let h := set_op h q op in
            let '(h, t) := append_s h (n_tri (node h q)) (elems_s h (n_tri (node h r))) in
            Some (set_tri h q t, q)
          else if is_op_h h q op then
            let '(h, s) := append_p h (n_sub (node h q)) [r] in
            Some (set_sub h q s, q)
          else if is_op_h h r op then
            let '(h, s) := append_p h (n_sub (node h r)) [q] in
            Some (set_sub h r s, r)
          else
            let '(h, c) := factor_common_h h q r in
            if Nat.ltb 0 (s_len c) then
              '(h, s) <- and_or_h f h q r op ;;
              let '(h, ns) := nil_p h in
              let '(h, t) := alloc_n h (mkNode (other_op op) c ns) in
              and_or_h f h t s (other_op op)
            else
              let '(h, nt) := nil_s h in
              let '(h, s) := alloc_p h 2 [q; r] in
              let '(h, o) := alloc_n h (mkNode op nt s) in
              Some (h, o)
  end.

(** regexp.go:271-275: the set of trigrams of one string, as a new set. *)
Definition trig_h (h : heap) (w : str) : heap * hslice :=
  let '(h, s) := fold_left (fun hs x => append_s (fst hs) (snd hs) [x]) (trigrams_of w) (nil_s h) in
  clean_s h s.

(** regexp.go:269-278 *)
Fixpoint or_trigrams_h (fuel : nat) (h : heap) (or : nat) (t : list str) : option (heap * nat) :=
  match t with
  | [] => Some (h, or)
  | w :: r =>
      let '(h, s) := trig_h h w in
      let '(h, ns) := nil_p h in
      let '(h, n) := alloc_n h (mkNode QAnd s ns) in
      '(h, or) <- and_or_h fuel h or n QOr ;;
      or_trigrams_h fuel h or r
  end.

(** regexp.go:260-281 *)
Definition and_trigrams_h (fuel : nat) (h : heap) (q : nat) (t : list str) : option (heap * nat) :=
  if Nat.ltb (min_len t) 3 then Some (h, q)
  else
    '(h, or) <- or_trigrams_h fuel h p_none t ;;
    and_or_h fuel h q or QAnd.

End Run.
