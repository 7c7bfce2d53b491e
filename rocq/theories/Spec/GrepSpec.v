(** What a line-oriented search of a text should report. *)
From Coq Require Import List NArith Sorted.
From Verif Require Import Spec.MatchSpec.
Import ListNotations.
Local Open Scope N_scope.

(** The lines of a file: the pieces between newlines, except that nothing follows a final
    newline. *)
Definition file_lines (text : list N) (lines : list (list N)) : Prop :=
  exists pieces, splits text pieces /\
    (pieces = lines ++ [[]] \/ (pieces = lines /\ last pieces [] <> [])).

(** Line [k] (from 0) of [text] matches: [P starts_text ends_text line]. *)
Definition line_matches (P : bool -> bool -> list N -> Prop) (text : list N) (k : nat) : Prop :=
  exists pieces line, splits text pieces /\ nth_error pieces k = Some line /\
    P (Nat.eqb k 0) (Nat.eqb (S k) (length pieces)) line.

(** The last [n] elements. *)
Definition lastn {A} (n : nat) (l : list A) : list A := skipn (length l - n) l.

(** Exact statement of which pieces are reported, given the (1-based) numbers reported:
    a piece is tried as if it started the text when it is first or follows a reported
    one; the empty piece after a final newline is tried too, unless the preceding line
    was reported (or there is none). *)
Definition fresh (nos : list nat) (k : nat) : bool := (Nat.eqb k 0 || existsb (Nat.eqb k) nos)%bool.
Definition piece_reported (P : bool -> bool -> list N -> Prop) (nos : list nat)
  (pieces : list (list N)) (k : nat) (line : list N) : Prop :=
  nth_error pieces k = Some line /\
  P (fresh nos k) (Nat.eqb (S k) (length pieces)) line /\
  ~ (S k = length pieces /\ line = [] /\ fresh nos k = true).
