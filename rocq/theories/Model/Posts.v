(** Posting entries, radix sort and k-way merge heap
    (codesearch/index/write.go). *)
From Verif Require Import Model.Base.
Local Open Scope N_scope.

(** write.go:76-88. An entry is a uint64; [trigram<<32|fileid] with fileid < 2^32. *)
Definition pe_trigram (p : N) : N := u32 (p / 2^32).
Definition pe_fileid (p : N) : N := u32 p.
Definition make_pe (t id : N) : N := t * 2^32 + id.

(** One counting pass of write.go:653-670 / 673-690, for the digit function [r]
    (already masked) and [k] buckets. *)
Section Pass.
  Variable k : nat.
  Variable r : N -> nat.

  (** write.go:656-659: count the digits. *)
  Fixpoint count_digits (sortN : list nat) (post : list N) : option (list nat) :=
    match post with
    | [] => Some sortN
    | p :: rest =>
        c <- nth_error sortN (r p) ;;
        sortN' <- list_set sortN (r p) (S c) ;;
        count_digits sortN' rest
    end.

  (** write.go:660-664: running totals. *)
  Fixpoint running (tot : nat) (sortN : list nat) : list nat :=
    match sortN with
    | [] => []
    | c :: rest => tot :: running (tot + c) rest
    end.

  (** write.go:665-670: distribute. *)
  Fixpoint distribute (sortN : list nat) (tmp : list N) (post : list N) : option (list N) :=
    match post with
    | [] => Some tmp
    | p :: rest =>
        o <- nth_error sortN (r p) ;;
        sortN' <- list_set sortN (r p) (S o) ;;
        tmp' <- list_set tmp o p ;;
        distribute sortN' tmp' rest
    end.

  Definition radix_pass (post tmp : list N) : option (list N) :=
    cnt <- count_digits (repeat 0%nat k) post ;;
    distribute (running 0 cnt) tmp post.
End Pass.

(** 1 << sortK with sortK = 12 (write.go:638, 647). *)
Definition radix : nat := N.to_nat 4096.

(** write.go:646-691. First pass writes into the zeroed scratch slice, second pass
    writes from scratch back into the argument's storage. *)
Definition sort_post (post : list N) : option (list N) :=
  tmp <- radix_pass radix (fun p => N.to_nat ((p / 2^32) mod 4096))
           post (repeat 0 (length post)) ;;
  radix_pass radix (fun p => N.to_nat ((p / 2^44) mod 4096)) tmp post.

(** write.go:366-369: (next entry, remaining entries). *)
Notation chunk := (N * list N)%type.
Notation heap := (list (N * list N)%type).

Definition swap {A} (l : list A) (i j : nat) : option (list A) :=
  a <- nth_error l i ;; b <- nth_error l j ;;
  l1 <- list_set l i b ;; list_set l1 j a.

(** write.go:459-476. [fuel] bounds the number of iterations; [None] is a panic or
    exhausted fuel (shown impossible for fuel = length + 1). *)
Fixpoint sift_down (fuel : nat) (ch : heap) (i : nat) : option heap :=
  match fuel with
  | O => None
  | S fuel' =>
      let j1 := (2 * i + 1)%nat in
      if Nat.leb (length ch) j1 then Some ch
      else
        let j2 := S j1 in
        c1 <- nth_error ch j1 ;;
        j <- (if Nat.ltb j2 (length ch) then
                c2 <- nth_error ch j2 ;;
                Some (if fst c2 <=? fst c1 then j2 else j1)
              else Some j1) ;;
        ci <- nth_error ch i ;;
        cj <- nth_error ch j ;;
        if fst ci <? fst cj then Some ch
        else ch' <- swap ch i j ;; sift_down fuel' ch' j
  end.

(** write.go:478-488. *)
Fixpoint sift_up (fuel : nat) (ch : heap) (j : nat) : option heap :=
  match fuel with
  | O => None
  | S fuel' =>
      let i := Nat.div (j - 1) 2 in
      if Nat.eqb i j then Some ch
      else
        ci <- nth_error ch i ;;
        cj <- nth_error ch j ;;
        if fst ci <? fst cj then Some ch
        else ch' <- swap ch i j ;; sift_up fuel' ch' i
  end.

(** write.go:451-457. *)
Definition push (h : heap) (c : chunk) : option heap :=
  let n := length h in
  let h' := h ++ [c] in
  if Nat.leb 2 (length h') then sift_up (S (length h')) h' n else Some h'.

(** write.go:408-414 (add) and 385-387 (addMem). *)
Definition heap_add (h : heap) (m : list N) : option heap :=
  match m with
  | [] => Some h
  | e :: rest => push h (e, rest)
  end.

(** write.go:440-449. *)
Definition pop (h : heap) : option heap :=
  match h with
  | [] => None
  | _ =>
      let n := (length h - 1)%nat in
      last <- nth_error h n ;;
      h1 <- list_set h 0 last ;;
      let h2 := firstn n h1 in
      if Nat.ltb 1 n then sift_down (S (length h2)) h2 0 else Some h2
  end.

(** 1<<24 - 1 *)
Definition max_trigram : N := 2^24 - 1.

(** write.go:423-438. *)
Definition heap_next (h : heap) : option (N * heap) :=
  match h with
  | [] => Some (make_pe max_trigram 0, [])
  | (e, m) :: _ =>
      match m with
      | [] => h' <- pop h ;; Some (e, h')
      | e' :: m' =>
          h1 <- list_set h 0 (e', m') ;;
          h' <- sift_down (S (length h1)) h1 0 ;;
          Some (e, h')
      end
  end.
