(** Directories and revisions. *)
From Verif Require Import Model.Base.
Local Open Scope N_scope.

(** The same files with the same contents. *)
Definition same_files (t t' : list (str * option bytes)) : Prop := forall name c, In (name, c) t <-> In (name, c) t'.
(** A directory that can be read: no name twice or with a newline, every file readable. *)
Definition readable (t : list (str * option bytes)) : Prop :=
  NoDup (map fst t) /\ forall name c, In (name, c) t -> ~ In 10 name /\ c <> None.
(** No collisions among these inputs. *)
Definition collision_free (h : bytes -> bytes) (inputs : list bytes) : Prop :=
  forall x y, In x inputs -> In y inputs -> h x = h y -> x = y.
