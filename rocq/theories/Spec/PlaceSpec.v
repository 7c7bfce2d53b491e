(** Where the commands of an update run, and what they are. *)
From Verif Require Import Model.Base Model.Vcs Spec.Names.
Local Open Scope N_scope.

(** [dir] is the entry [t] of the directory [p]: [p] is empty or ends with a slash, [t]
    has none. *)
Definition entry_of (dir p t : str) : Prop :=
  dir = p ++ t /\ ~ In 47 t /\ (p = [] \/ exists q, p = q ++ [47]).

(** Making a working copy named [t] in the current directory. *)
Definition clone_cmd (d : driver) (url t : str) : list str :=
  match d with
  | Git _ => [text "git"; text "clone"; text "--depth"; text "1"; url; t]
  | Hg => [text "hg"; text "clone"; url; t]
  | Svn s => [text "svn"; text "checkout"; text "--ignore-externals"; text "--username"; Username s;
              text "--password"; Password s; url; t]
  | Bzr => [text "bzr"; text "branch"; url; t]
  end.
(** Bringing it up to date; for git, see C50. *)
Definition pull_cmd (d : driver) : list (list str) :=
  match d with
  | Git _ => []
  | Hg => [[text "hg"; text "pull"; text "-u"]]
  | Svn s => [[text "svn"; text "update"; text "--ignore-externals"; text "--username"; Username s; text "--password"; Password s]]
  | Bzr => [[text "bzr"; text "pull"]]
  end.
(** Asking for the revision. *)
Definition revision_cmd (d : driver) : list str :=
  match d with
  | Git _ => [text "git"; text "rev-parse"; text "HEAD"]
  | Hg => [text "hg"; text "log"; text "-r"; text "."; text "--template"; text "{node}"]
  | Svn _ => [text "svnversion"]
  | Bzr => [text "bzr"; text "revno"]
  end.
