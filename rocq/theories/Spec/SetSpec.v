(** Specification of an insertion-ordered set under a history of operations. *)
From Verif Require Import Model.Base.
Local Open Scope N_scope.

Inductive set_op := OpAdd (x : N) | OpReset.

(** [ordered_set h l]: after the operation history [h] (oldest first) the set has
    exactly the elements of [l], listed by first insertion since the last reset. *)
Inductive ordered_set : list set_op -> list N -> Prop :=
| os_nil : ordered_set [] []
| os_reset : forall h l, ordered_set h l -> ordered_set (h ++ [OpReset]) []
| os_dup : forall h l x, ordered_set h l -> In x l -> ordered_set (h ++ [OpAdd x]) l
| os_new : forall h l x, ordered_set h l -> ~ In x l ->
    ordered_set (h ++ [OpAdd x]) (l ++ [x]).
