(** The tests of /repo/index/grep_test.go (TestFillFrom, TestFirstNLines, TestLastNLines, TestGrep, TestContext) and TestGrep of
    /repo/codesearch/regexp/regexp_test.go:207-225 on the model. The expressions are those of the tests as
    regexp/syntax.Parse gives them (tools/goregex.py); without (?m), ^ and $ stand for the ends of the text.

    Tests of the model, not proofs about it. *)
From Verif Require Import Model.Base Model.Syntax Model.GoRegexp Model.Matcher Model.Grep Model.GrepChunk Spec.Names Conform.Folding.
Local Open Scope N_scope.

Definition nl : bytes := [10].
Definition subjA : bytes := text "first" ++ nl ++ text "second" ++ nl ++ text "third" ++ nl ++ text "fourth" ++ nl ++ text "fifth" ++ nl ++ text "sixth".
Definition subjB : bytes := nl.
Definition subjC : bytes := nl ++ nl ++ nl ++ nl ++ text "foo" ++ nl ++ text "bar" ++ nl ++ nl ++ text "baz".
Definition sixLines : list bytes := [text "first"; text "second"; text "third"; text "fourth"; text "fifth"; text "sixth"].

(** grep_test.go:55-66 *)
Definition gen : bytes := map (fun i => N.of_nat i mod 256) (seq 0 1024).
Example TestFillFrom : exists buf, fill_from 20 (RChunk gen false REof) (Some [0; 0]) = Some (FillOk buf gen).
Proof. eexists. vm_compute. reflexivity. Qed.

(** grep_test.go:68-102 *)
Example TestFirstNLines :
  first_n_lines subjA 1 = [text "first"] /\ first_n_lines subjA 2 = [text "first"; text "second"] /\
  first_n_lines subjA 6 = sixLines /\ first_n_lines subjB 1 = [[]] /\ first_n_lines subjB 2 = [[]] /\
  first_n_lines subjC 5 = [[]; []; []; []; text "foo"].
Proof. vm_compute. repeat split; reflexivity. Qed.

(** grep_test.go:104-138 *)
Example TestLastNLines :
  last_n_lines subjA 1 = [text "sixth"] /\ last_n_lines subjA 2 = [text "fifth"; text "sixth"] /\
  last_n_lines subjA 6 = sixLines /\ last_n_lines subjB 1 = [[]] /\ last_n_lines subjB 2 = [[]] /\
  last_n_lines subjC 5 = [[]; text "foo"; text "bar"; []; text "baz"].
Proof. vm_compute. repeat split; reflexivity. Qed.

Definition grepped (g : gre) (ctx : nat) (buf : bytes) : option (list hit) :=
  m <- regexp_Compile orbits 4 5000 g ;;
  '(_, a) <- grep2 (fun m b => match_bytes 5000 m b true true) (fun a h => (a ++ [h], true)) ctx m [] buf ;;
  Some a.
Definition line_and_number (r : option (list hit)) : option (list (bytes * nat)) :=
  hs <- r ;; Some (map (fun h => (h_line h, h_no h)) hs).
Definition around (r : option (list hit)) : option (list (list bytes * list bytes)) :=
  hs <- r ;; Some (map (fun h => (h_before h, h_after h)) hs).

(** grep_test.go:195-226 *)
Example TestGrep :
  line_and_number (grepped (GLiteral false (text "s")) 0 subjA) = Some [(text "first", 1%nat); (text "second", 2%nat); (text "sixth", 6%nat)] /\
  line_and_number (grepped (GZero ZBeginText) 0 subjB) = Some [([], 1%nat)] /\
  line_and_number (grepped (GZero ZBeginText) 0 subjC) =
    Some [([], 1%nat); ([], 2%nat); ([], 3%nat); ([], 4%nat); (text "foo", 5%nat); (text "bar", 6%nat); ([], 7%nat); (text "baz", 8%nat)] /\
  line_and_number (grepped (GConcat [GLiteral false (text "th"); GZero ZEndText]) 0 subjA) = Some [(text "sixth", 6%nat)].
Proof. vm_compute. repeat split; reflexivity. Qed.

(** grep_test.go:201-204, commented out there: "rsc's regexp has bugs". The expression ^$ on an empty line:
    the test would expect the line, and does not get it. *)
Example TestGrep_left_out :
  line_and_number (grepped (GConcat [GZero ZBeginText; GZero ZEndText]) 0 subjB) <> Some [([], 1%nat)].
Proof. vm_compute. discriminate. Qed.

(** grep_test.go:273-295 *)
Example TestContext :
  around (grepped (GLiteral false (text "third")) 2 subjA) = Some [([text "first"; text "second"], [text "fourth"; text "fifth"])] /\
  around (grepped (GLiteral false (text "third")) 3 subjA) = Some [([text "first"; text "second"], [text "fourth"; text "fifth"; text "sixth"])] /\
  around (grepped (GLiteral false (text "first")) 2 subjA) = Some [([], [text "second"; text "third"])].
Proof. vm_compute. repeat split; reflexivity. Qed.

(** regexp_test.go:194-225; the expressions are compiled with (?m). *)
Definition no_flags : grep_flags := mkFlags false false false false.
Definition reader_out (g : gre) (s : bytes) : option (bytes * bytes) :=
  m <- regexp_Compile orbits 4 5000 g ;;
  '(_, o) <- grep_reader (fun _ => []) [] no_flags (text "input") (fun m b bt et => match_bytes 5000 m b bt et) 1000 1000 m
     (mkOut [] [] false 0) (RChunk s false REof) ;;
  Some (g_stdout o, g_stderr o).
Example TestGrepReader :
  reader_out (GPlus false (GLiteral false (text "a"))) (text "abc" ++ nl ++ text "def" ++ nl ++ text "ghalloo" ++ nl) =
    Some (text "input:abc" ++ nl ++ text "input:ghalloo" ++ nl, []) /\
  reader_out (GConcat [GLiteral false (text "x"); GStar false GAnyNotNL; GLiteral false (text "y")])
    (text "xay" ++ nl ++ text "xa" ++ nl ++ text "y" ++ nl) = Some (text "input:xay" ++ nl, []).
Proof. vm_compute. split; reflexivity. Qed.
