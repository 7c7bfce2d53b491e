(** unicode.SimpleFold for the characters in the expressions and texts of the tests: the ASCII letters with
    the Kelvin sign and the long s, and alpha. *)
From Verif Require Import Model.Base.
Local Open Scope N_scope.

Definition orbits (r : N) : N :=
  if r =? 75 then 107 else if r =? 107 then 8490 else if r =? 8490 then 75
  else if r =? 83 then 115 else if r =? 115 then 383 else if r =? 383 then 83
  else if r =? 913 then 945 else if r =? 945 then 913
  else if (65 <=? r) && (r <=? 90) then r + 32
  else if (97 <=? r) && (r <=? 122) then r - 32
  else r.
