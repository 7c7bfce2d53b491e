(** Texts that are no patterns. *)
From Verif Require Import Model.Base Spec.PatternSpec.
Local Open Scope N_scope.

(** The beginning of a text: patterns, with a group opened between one and the next. *)
Inductive begun : list pat -> str -> Prop :=
| be_first : forall p s, written Seq p s -> begun [p] s
| be_group : forall ps p s t, begun ps s -> written Seq p t -> begun (p :: ps) (s ++ [40] ++ t)
| be_plain : forall ps p s t, begun ps s -> written Seq p t -> begun (p :: ps) (s ++ [40; 63; 58] ++ t).

(** Counts beyond 1000, or with the larger number first. *)
Inductive bad_count : str -> Prop :=
| bc_exact : forall n s, decimal n s -> 1000 < n -> bad_count ([123] ++ s ++ [125])
| bc_least : forall n s, decimal n s -> 1000 < n -> bad_count ([123] ++ s ++ [44; 125])
| bc_between : forall n m s t, decimal n s -> decimal m t -> 1000 < n \/ 1000 < m \/ m < n -> bad_count ([123] ++ s ++ [44] ++ t ++ [125]).

(** A fault after the beginning; what comes then ([rest]) does not matter. *)
Inductive faulty : list pat -> str -> Prop :=
| fa_close : forall p s rest, begun [p] s -> faulty [p] (s ++ [41] ++ rest)
| fa_unclosed : forall p q ps s, begun (p :: q :: ps) s -> faulty (p :: q :: ps) s
| fa_nothing : forall x rest, In x [42; 43; 63] -> faulty [] (x :: rest)
| fa_nothing_in : forall ps s x rest, begun ps s -> In x [42; 43] -> faulty ps (s ++ [40; x] ++ rest)
| fa_twice : forall ps s p a x y rest, begun ps s -> written Atom p a -> In x [42; 43; 63] -> In y [42; 43] -> faulty (p :: ps) (s ++ a ++ [x; y] ++ rest)
| fa_count : forall ps s p a b rest, begun ps s -> written Atom p a -> bad_count b -> faulty (p :: ps) (s ++ a ++ b ++ rest)
| fa_backslash : forall ps s, begun ps s -> faulty ps (s ++ [92]).
