(** /repo/codesearch/index/regexp.go:283-332: how a query is written out. Only the tests ask for it
    (Conform/TestQuery.v).

    Simplification: strconv.Quote (line 296, 319) puts quotation marks around the trigram and escapes nothing,
    which is what it does for printable ASCII without quotation marks and backslashes. *)
From Verif Require Import Model.Base Model.Query.
Local Open Scope N_scope.

Definition quoted (t : str) : str := [34] ++ t ++ [34].

Fixpoint join (sep : str) (l : list str) : str :=
  match l with
  | [] => []
  | [x] => x
  | x :: r => x ++ sep ++ join sep r
  end.

Fixpoint query_string (q : query) : str :=
  let 'Query op tri sub := q in
  match op with
  | QNone => [45]
  | QAll => [43]
  | _ =>
      match sub, tri with
      | [], [t] => quoted t
      | _, _ =>
          let '(s, sjoin, end_, tjoin) :=
            match op with
            | QAnd => ([], [32], [], [32])
            | _ => ([40], [41; 124; 40], [41], [124])
            end in
          s ++ join tjoin (map quoted tri)
            ++ match sub, tri with
               | [], _ => []
               | _, [] => join sjoin (map query_string sub)
               | _, _ => sjoin ++ join sjoin (map query_string sub)
               end ++ end_
      end
  end.
