(** TestMatch, /repo/codesearch/regexp/regexp_test.go:151-165, run on the model: for every row of the table
    the expression compiles and the lines reported are those the row names.

    A test of the model, not a proof about it: the table is finite. *)
From Verif Require Import Model.Base Model.Syntax Model.GoRegexp Model.Matcher Conform.Folding Conform.Matches.
Local Open Scope nat_scope.

Definition nls (b : bytes) : nat := length (filter (N.eqb 10) b).

(** bytes.LastIndex(b, nl) + 1 *)
Fixpoint after_last_nl (b : bytes) : nat :=
  match b with
  | [] => 0
  | c :: r => match after_last_nl r with 0 => if N.eqb c 10 then 1 else 0 | S n => S (S n) end
  end.

(** The test's own function grep, lines 167-192. *)
Fixpoint test_grep (fuel : nat) (m : matcher) (b : bytes) (lineno : nat) : option (list nat) :=
  match fuel with
  | 0 => None
  | S f =>
      '(m, r) <- match_bytes 5000 m b true true ;;
      match r with
      | None => Some []
      | Some i =>
          let start := after_last_nl (firstn i b) in
          let end_ := Nat.min (S i) (length b) in
          let lineno := lineno + nls (firstn start b) in
          let next := if (Nat.ltb start end_ && N.eqb (nth (end_ - 1) b 0%N) 10)%bool then S lineno else lineno in
          let b := skipn end_ b in
          if Nat.eqb (length b) 0 then Some [lineno]
          else ls <- test_grep f m b next ;; Some (lineno :: ls)
      end
  end.

Definition found (r : gre * bytes * list nat) : option (list nat) :=
  let '(g, b, _) := r in m <- regexp_Compile orbits 4 5000 g ;; test_grep (S (length b)) m b 1.

Example TestMatch : map found match_tests = map (fun r => Some (snd r)) match_tests.
Proof. vm_compute. reflexivity. Qed.
