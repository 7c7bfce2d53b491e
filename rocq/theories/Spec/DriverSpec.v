(** The settings of the drivers of version control systems (docs/config-options.md and the
    structures in vcs/). *)
From Verif Require Import Model.Base Model.Json Model.Config Model.Vcs Model.LocalVcs Model.Drivers
  Spec.Names Spec.JsonGrammar Spec.FileSpec.
Local Open Scope N_scope.

(** The members of the settings of a repository, and of the global settings of a VCS. *)
Definition own_settings (r : repo) (l : list (str * jv)) : Prop :=
  (r_vcsconf r = None /\ l = []) \/ exists b, r_vcsconf r = Some b /\ json_text (VObj l) b.
Definition global_settings (c : config) (vcs : str) (l : list (str * jv)) : Prop :=
  (get (c_vcs c) vcs = None /\ l = []) \/ exists b, get (c_vcs c) vcs = Some (Some b) /\ json_text (VObj l) b.

(** The option is given under its very name, with a value of its type. *)
Definition exactly {A} (is : jv -> A -> Prop) (name : str) (l : list (str * jv)) : Prop :=
  Forall (fun p => any_case (fst p) name -> fst p = name /\ exists a, is (snd p) a) l.
Definition options_ok (vcs : str) (l : list (str * jv)) : Prop :=
  (vcs = text "git" -> exactly is_switch (text "detect-ref") l /\ exactly is_text (text "ref") l) /\
  (vcs = text "svn" \/ vcs = text "subversion" -> exactly is_text (text "username") l /\ exactly is_text (text "password") l) /\
  (vcs = text "local" -> exactly is_switch (text "watch-changes") l /\ exactly is_texts (text "ignored-files") l).

(** The driver for a VCS and settings: of what is said several times, the last. *)
Definition last_said {A} (is : jv -> A -> Prop) (name : str) (zero : A) (l : list (str * jv)) (x : A) : Prop :=
  scalar (fun v => v) is name zero l x.
Definition driver_for (vcs : str) (l : list (str * jv)) (w : workdir) : Prop :=
  (vcs = text "git" /\ exists g, w = Command (Git g) /\
     last_said is_switch (text "detect-ref") false l (DetectRef g) /\ last_said is_text (text "ref") [] l (Ref g)) \/
  ((vcs = text "hg" \/ vcs = text "mercurial") /\ w = Command Hg) \/
  ((vcs = text "svn" \/ vcs = text "subversion") /\ exists g, w = Command (Svn g) /\
     last_said is_text (text "username") [] l (Username g) /\ last_said is_text (text "password") [] l (Password g)) \/
  (vcs = text "bzr" /\ w = Command Bzr) \/
  (vcs = text "local" /\ exists g, w = Local g /\
     last_said is_switch (text "watch-changes") false l (WatchChanges g) /\ last_said is_texts (text "ignored-files") [] l (IgnoredFiles g)).
Definition known_vcs (vcs : str) : Prop :=
  In vcs [text "git"; text "hg"; text "mercurial"; text "svn"; text "subversion"; text "bzr"; text "local"].
