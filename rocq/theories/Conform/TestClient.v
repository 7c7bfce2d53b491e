(** The tests of /repo/client/coalesce_test.go, /repo/ansi/ansi_test.go and /repo/api/api_test.go on the model.

    Tests of the model, not proofs about it. *)
From Verif Require Import Model.Base Model.Grep Model.Client Model.Api Spec.Names.
Local Open Scope N_scope.

Definition m (line : str) (no : nat) (before after : list str) : hit := mkHit line no before after.
Definition letters (s : str) : list str := map (fun c => [c]) s.
Definition marks (n : list nat) : list bool := map (fun x => Nat.eqb x 1) n.
Definition b (lines : list str) (ms : list nat) (start : Z) : block := mkBlock lines (marks ms) start.

(** coalesce_test.go:77-110 *)
Example TestNonOverlap :
  coalesceMatches [m (text "c") 40 (letters (text "ab")) (letters (text "de")); m (text "n") 50 (letters (text "lm")) (letters (text "op"))] =
  Some [b (letters (text "abcde")) [0; 0; 1; 0; 0]%nat 38; b (letters (text "lmnop")) [0; 0; 1; 0; 0]%nat 48].
Proof. vm_compute. reflexivity. Qed.
(** coalesce_test.go:111-140 *)
Example TestNonOverlapWithNoContext :
  coalesceMatches [m (text "a") 40 [] []; m (text "b") 50 [] []] = Some [b (letters (text "a")) [1]%nat 40; b (letters (text "b")) [1]%nat 50].
Proof. vm_compute. reflexivity. Qed.
(** coalesce_test.go:142-169 *)
Example TestOverlappingInBefore :
  coalesceMatches [m (text "c") 40 (letters (text "ab")) (letters (text "de")); m (text "g") 44 (letters (text "ef")) (letters (text "hi"))] =
  Some [b (letters (text "abcdefghi")) [0; 0; 1; 0; 0; 0; 1; 0; 0]%nat 38].
Proof. vm_compute. reflexivity. Qed.
(** coalesce_test.go:170-197 *)
Example TestOverlappingInAfter :
  coalesceMatches [m (text "c") 40 (letters (text "ab")) (letters (text "de")); m (text "d") 41 (letters (text "bc")) (letters (text "ef"))] =
  Some [b (letters (text "abcdef")) [0; 0; 1; 1; 0; 0]%nat 38].
Proof. vm_compute. reflexivity. Qed.
(** coalesce_test.go:199-226 *)
Example TestOverlapOnMatch :
  coalesceMatches [m (text "c") 40 (letters (text "ab")) (letters (text "de")); m (text "e") 42 (letters (text "cd")) (letters (text "fg"))] =
  Some [b (letters (text "abcdefg")) [0; 0; 1; 0; 1; 0; 0]%nat 38].
Proof. vm_compute. reflexivity. Qed.
(** coalesce_test.go:228-264; the lines of the file are given by letters here, nothing in them is looked at. *)
Example TestMatchesToEnd :
  coalesceMatches [m (text "r") 3 (letters (text "pq")) (letters (text "s")); m (text "s") 4 (letters (text "qr")) []] =
  Some [b (letters (text "pqrs")) [0; 0; 1; 1]%nat 1].
Proof. vm_compute. reflexivity. Qed.

(** ansi_test.go:36-82; ~ stands for the escape character, as in the test. *)
Definition real (s : str) : str := map (fun c => if c =? 126 then 27 else c) s.
Definition Red : N := 1.
Definition Green : N := 2.
Definition Magenta : N := 5.
Definition Cyan : N := 6.
Definition all4 : N := N.lor (N.lor Bold Blink) (N.lor Underline Invert).
Definition bbui : N := N.lor (N.lor Bold Blink) (N.lor Underline Intense).
Example TestEnabled :
  FgBg true (text "x") Black Normal Colorless Normal = real (text "~[30mx~[0m") /\
  FgBg true (text "x") Red Normal Colorless Normal = real (text "~[31mx~[0m") /\
  FgBg true (text "x") Red Intense Colorless Normal = real (text "~[91mx~[0m") /\
  FgBg true (text "x") Green all4 Colorless Normal = real (text "~[1;5;4;7;32mx~[0m") /\
  FgBg true (text "x") Green (N.lor all4 Intense) Colorless Normal = real (text "~[1;5;4;7;92mx~[0m") /\
  FgBg true (text "x") Green bbui Magenta Normal = real (text "~[1;5;4;92;45mx~[0m") /\
  FgBg true (text "x") Yellow bbui Cyan Intense = real (text "~[1;5;4;93;106mx~[0m").
Proof. vm_compute. repeat split; reflexivity. Qed.
Example TestDisabled :
  FgBg false (text "x") Black Normal Colorless Normal = text "x" /\
  FgBg false (text "foo") Red Normal Colorless Normal = text "foo" /\
  FgBg false (text "butter") Red Intense Colorless Normal = text "butter" /\
  FgBg false (text "x") Yellow bbui Cyan Intense = text "x".
Proof. vm_compute. repeat split; reflexivity. Qed.

(** api_test.go:7-36 *)
Definition both (v : str) (min max def : N) : N * Z := (parseAsUintValue v min max def, parseAsIntValue v (Z.of_N min) (Z.of_N max) (Z.of_N def)).
Example TestParseAsIntAndUint :
  both (text "not a parsable integer") 101 1000 5000 = (5000, 5000%Z) /\
  both (text "100") 101 1000 5000 = (101, 101%Z) /\
  both (text "1001") 101 1000 5000 = (1000, 1000%Z) /\
  both (text "100") 0 100 5000 = (100, 100%Z).
Proof. vm_compute. repeat split; reflexivity. Qed.
