(** From the working copy of a repository to the tree that is indexed: the options
    (searcher.go:401, 423-427), SpecialFiles of each driver (vcs/git.go:149-153, hg.go:77-81,
    svn.go:98-102, bzr.go:75-79, local.go:101-103), and the resolution of a link before
    the walk (index.go:382-389), with os.Stat, os.Readlink, os.Lstat and the base name that
    os.FileInfo gives. What lies at an absolute path is the function [at_path] (links in the
    middle of a path are followed by it); at most 40 links are followed at the end of a path.
    A directory is a tree as in Model/IndexDir.v. [cwd] is the working directory of the process,
    an absolute path. *)
From Verif Require Import Model.Base Model.GoStr Model.Vcs Model.LocalVcs Model.Drivers Model.IndexDir.
Local Open Scope N_scope.

(** git.go:149-153, hg.go:77-81, svn.go:98-102, bzr.go:75-79, local.go:101-103 *)
Definition SpecialFiles (wd : workdir) : list str :=
  match wd with
  | Command (Git _) => [[46; 103; 105; 116]]   (* .git *)
  | Command Hg => [[46; 104; 103]]             (* .hg *)
  | Command (Svn _) => [[46; 115; 118; 110]]   (* .svn *)
  | Command Bzr => [[46; 98; 122; 114]]        (* .bzr *)
  | Local l => LocalVcs.SpecialFiles l
  end.

(** searcher.go:423-427 *)
Definition build_options (wd : workdir) (ExcludeDotFiles : bool) : iopts :=
  mkIOpts ExcludeDotFiles (SpecialFiles wd).

(** What Lstat sees. *)
Inductive object := Link (target : str) | Node (nd : node).

(** os.basename: slashes at the end are dropped, then everything up to the last slash. *)
Fixpoint drop_slashes (s : str) : str :=   (* of the reversed name *)
  match s with
  | [] => []
  | c :: r => match r with [] => s | _ => if c =? 47 then drop_slashes r else s end
  end.
Fixpoint until_slash (s : str) : str :=
  match s with
  | [] => []
  | c :: r => if c =? 47 then [] else c :: until_slash r
  end.
Definition base_name (name : str) : str :=
  match drop_slashes (List.rev name) with
  | [] => []
  | c :: r => List.rev (c :: until_slash r)
  end.

(** The directory a link lies in, with its slash. *)
Fixpoint from_slash (s : str) : str :=
  match s with
  | [] => []
  | c :: r => if c =? 47 then s else from_slash r
  end.
Definition dir_of (p : str) : str := List.rev (from_slash (List.rev p)).

Section FileSystem.
  Variable at_path : str -> option object.
  Variable cwd : str.

  (** A path as the kernel takes it, relative to [base] (which ends in a slash). *)
  Definition absolute (base p : str) : str := match p with 47 :: _ => p | _ => base ++ p end.
  Definition Lstat (p : str) : option object := at_path (absolute (cwd ++ [47]) p).
  Fixpoint follow (fuel : nat) (p : str) : option node :=
    match at_path p with
    | None => None
    | Some (Node nd) => Some nd
    | Some (Link t) => match fuel with O => None | S f => follow f (absolute (dir_of p) t) end
    end.
  Definition Stat (p : str) : option node := follow 40 (absolute (cwd ++ [47]) p).

  (** index.go:382-387; fi.Mode()|os.ModeSymlink is never zero. *)
  Definition resolved (src : str) : str :=
    match Stat src with
    | None => src
    | Some _ => match Lstat src with Some (Link s) => s | _ => src end
    end.

  (** index.go:389: filepath.Walk looks at its root with Lstat; without information the callback
      is called all the same. *)
  Definition root_of (src : str) : node :=
    match Lstat src with
    | None => NGone
    | Some (Link _) => NIrregular
    | Some (Node nd) => nd
    end.

  (** index.go:369-464 for the working copy [src] of a repository. *)
  Definition index_source (cap : nat) (opt : iopts) (mk_ok cr_ok : str -> bool) (json_ok : bool) (mem : N -> N) (src : str) :=
    let src := resolved src in
    index_all_files cap opt mk_ok cr_ok json_ok mem (base_name src) (root_of src).

  (** vcs.go:67-72 *)
  Definition exists_ (p : str) : bool := match Stat p with Some _ => true | None => false end.
End FileSystem.

(** os.Symlink(src, dir): EEXIST if anything is there already. *)
Definition Symlink (at_path : str -> option object) (cwd src dir : str) : option (str -> option object) :=
  match Lstat at_path cwd dir with
  | Some _ => None
  | None => Some (fun p => if str_eqb p (absolute (cwd ++ [47]) dir) then Some (Link src) else at_path p)
  end.

(** vcs.go:76-81 with local.go:64-99 (the link at [dir] is resolved as in index.go, 72-77): the
    revision and the file system afterwards; [None]: an error. [files]: what HashDir finds
    below a path. *)
Definition local_start (sha1 : bytes -> bytes) (files : str -> option LocalVcs.tree) (at_path : str -> option object) (cwd : str) (l : local) (dir url : str)
  : option (str * (str -> option object)) :=
  if exists_ at_path cwd dir then
    rev <- LocalVcs.Pull sha1 l (fun d => files (resolved at_path cwd d)) dir ;; Some (rev, at_path)
  else if negb (has_prefix url file_scheme) then None
  else
    fs <- Symlink at_path cwd (trim_prefix url file_scheme) dir ;;
    rev <- LocalVcs.Pull sha1 l (fun d => files (resolved fs cwd d)) dir ;; Some (rev, fs).
