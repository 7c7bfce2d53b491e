(** TestQuery, /repo/codesearch/index/regexp_test.go:85-96, run on the model: for every row of the table
    RegexpQuery gives the query the row names.

    A test of the model, not a proof about it: the table is finite. *)
From Verif Require Import Model.Base Model.Query Model.Syntax Model.Analyze Model.GoRegexp Model.QueryString Conform.Folding Conform.Queries.

Definition query_of (g : gre) : str := query_string (snd (regexp_query go_grow orbits 4 (erase g))).

Example TestQuery : map (fun r => query_of (fst r)) query_tests = map snd query_tests.
Proof. vm_compute. reflexivity. Qed.
