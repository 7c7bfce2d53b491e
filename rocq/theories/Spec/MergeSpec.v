(** What merging two indexes should give. *)
From Coq Require Import Sorted.
From Verif Require Import Model.Base Spec.RunSpec.
Local Open Scope N_scope.

(** Lexicographic order. *)
Inductive lex : str -> str -> Prop :=
| lex_nil : forall c s, lex [] (c :: s)
| lex_head : forall x y a b, x < y -> lex (x :: a) (y :: b)
| lex_tail : forall x a b, lex a b -> lex (x :: a) (x :: b).

Definition prefix (p x : str) : Prop := exists s, x = p ++ s.
Definition covered (ps : list str) (x : str) : Prop := exists p, In p ps /\ prefix p x.

(** [c]: the elements of [a] and of [b], each in their order. *)
Inductive shuffle {A} : list A -> list A -> list A -> Prop :=
| sh_nil : shuffle [] [] []
| sh_left : forall x a b c, shuffle a b c -> shuffle (x :: a) b (x :: c)
| sh_right : forall x a b c, shuffle a b c -> shuffle a (x :: b) (x :: c).

(** [l'] is what is left of [l] without the elements that satisfy [P]. *)
Inductive without {A} (P : A -> Prop) : list A -> list A -> Prop :=
| wo_nil : without P [] []
| wo_drop : forall x l l', P x -> without P l l' -> without P (x :: l) l'
| wo_keep : forall x l l', ~ P x -> without P l l' -> without P (x :: l) (x :: l').

(** Names below [p] come first, then those under [p], then the others. *)
Definition in_step (p : str) (names : list str) : Prop :=
  forall l1 x l2 y l3, names = l1 ++ x :: l2 ++ y :: l3 ->
    (lex y p -> lex x p) /\ (prefix p y -> lex x p \/ prefix p x).

(** Not after, in that order. *)
Definition sle (p q : str) : Prop := ~ lex q p.
Definition le_doc (x y : doc) : Prop := ~ lex (fst y) (fst x).

(** Paths whose last byte has a successor that is one byte. *)
Definition plain_end (p : str) : Prop := exists q c, p = q ++ [c] /\ c < 127.

(** The merged paths: every path that is not under another. *)
Definition paths_merged (ps1 ps2 ps3 : list str) : Prop :=
  StronglySorted lex ps3 /\
  forall x, In x ps3 <-> (In x ps1 \/ In x ps2) /\ forall y, In y ps1 \/ In y ps2 -> prefix y x -> y = x.

(** What is merged: the names of each index keep step with the paths of the second. *)
Definition mergeable (docs1 : list doc) (ps2 : list str) (docs2 : list doc) : Prop :=
  StronglySorted sle ps2 /\ Forall plain_end ps2 /\
  (forall d, In d docs2 -> covered ps2 (fst d)) /\
  forall p, In p ps2 -> in_step p (map fst docs1) /\ in_step p (map fst docs2).

Definition docs_merged (docs1 : list doc) (ps2 : list str) (docs2 docs3 : list doc) : Prop :=
  (exists left, without (fun d => covered ps2 (fst d)) docs1 left /\ shuffle left docs2 docs3) /\
  (StronglySorted le_doc docs1 -> StronglySorted le_doc docs2 -> StronglySorted le_doc docs3).
