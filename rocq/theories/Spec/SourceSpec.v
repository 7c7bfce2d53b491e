(** The source of a repository: which names its driver leaves out, and which directory it is. Of
    the model only the types of drivers, trees and file systems are used. *)
From Verif Require Import Model.Base Model.Vcs Model.LocalVcs Model.Drivers Model.IndexDir Model.Source Spec.Names.
Local Open Scope N_scope.

(** The directory a version control system keeps its own data in, or a file the user ignores. *)
Inductive left_out : workdir -> str -> Prop :=
| lo_git g : left_out (Command (Git g)) (text ".git")
| lo_hg : left_out (Command Hg) (text ".hg")
| lo_svn g : left_out (Command (Svn g)) (text ".svn")
| lo_bzr : left_out (Command Bzr) (text ".bzr")
| lo_local l n : In n (IgnoredFiles l) -> left_out (Local l) n.

(** A name that is not considered: left out, or beginning with a dot if these are excluded. *)
Definition unseen (wd : workdir) (exdot : bool) (n : str) : Prop :=
  left_out wd n \/ (exdot = true /\ exists r, n = 46 :: r).

(** The entry at a path of directories that can be listed. *)
Inductive leads : node -> list str -> node -> Prop :=
| leads_here : forall nd, leads nd [] nd
| leads_sub : forall es n x cs y, In (n, x) es -> leads x cs y -> leads (NDir false es) (n :: cs) y.

(** [called p n]: [n] is the last name of the absolute path [p]. *)
Definition called (p n : str) : Prop :=
  exists d s, p = 47 :: d ++ n ++ s /\ (d = [] \/ exists d', d = d' ++ [47]) /\ n <> [] /\ ~ In 47 n /\ Forall (eq 47) s.

(** The directory kept at [dir], which is a directory itself or a link to the absolute path of
    one, and its name. *)
Inductive source (at_path : str -> option object) (dir : str) : str -> node -> Prop :=
| src_own n u es : called dir n -> at_path dir = Some (Node (NDir u es)) -> source at_path dir n (NDir u es)
| src_link p n u es : (exists d, dir = 47 :: d) -> at_path dir = Some (Link p) -> called p n ->
    at_path p = Some (Node (NDir u es)) -> source at_path dir n (NDir u es).
