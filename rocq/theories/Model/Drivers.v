(** Which driver a repository gets and with which settings: vcs/vcs.go:9-12, 40-63, vcs/git.go:19-27,
    36-49, vcs/svn.go:13-32, vcs/hg.go:12-20, vcs/bzr.go:12-18, vcs/local.go:16-35. Registering is
    done when the program starts, so the table of drivers is fixed. Names of settings are
    compared without regard to the case of ASCII letters (encoding/json also takes U+017F for an
    s and U+212A for a k, which is left out). In a list, null is the empty text; of two lists the
    later counts (Go keeps the text of the earlier list where the later one has null). *)
From Verif Require Import Model.Base Model.GoStr Model.Json Model.Config Model.ConfigCodec Model.Wire Model.Vcs Model.LocalVcs.
Local Open Scope N_scope.

Definition k_detect_ref : str := [100; 101; 116; 101; 99; 116; 45; 114; 101; 102].  (* detect-ref *)
Definition k_ref : str := [114; 101; 102].  (* ref *)
Definition k_username : str := [117; 115; 101; 114; 110; 97; 109; 101].  (* username *)
Definition k_password : str := [112; 97; 115; 115; 119; 111; 114; 100].  (* password *)
Definition k_watch_changes : str := [119; 97; 116; 99; 104; 45; 99; 104; 97; 110; 103; 101; 115].  (* watch-changes *)
Definition k_ignored_files : str := [105; 103; 110; 111; 114; 101; 100; 45; 102; 105; 108; 101; 115].  (* ignored-files *)

(** json.Unmarshal into a struct that has its zero values; nothing is done for nil. *)
Definition unmarshal_struct {R} (set : str -> jv -> R -> option R) (zero : R) (conf : option bytes) : option R :=
  match conf with
  | None => Some zero
  | Some b =>
      v <- whole b ;;
      match v with
      | VNull => Some zero
      | VObj l => dec_fields set l zero
      | _ => None
      end
  end.

(** git.go:23-27, 36-49; refDetetector is not exported, so it is not a setting. *)
Definition set_git (k : str) (v : jv) (g : git) : option git :=
  if same_name k k_detect_ref then b <- dec_bool v (DetectRef g) ;; Some (mkGit b (Ref g))
  else if same_name k k_ref then s <- dec_str v (Ref g) ;; Some (mkGit (DetectRef g) s)
  else Some g.
Definition newGit (conf : option bytes) : option git := unmarshal_struct set_git (mkGit false []) conf.

(** svn.go:17-32 *)
Definition set_svn (k : str) (v : jv) (g : svn) : option svn :=
  if same_name k k_username then s <- dec_str v (Username g) ;; Some (mkSvn s (Password g))
  else if same_name k k_password then s <- dec_str v (Password g) ;; Some (mkSvn (Username g) s)
  else Some g.
Definition newSvn (conf : option bytes) : option svn := unmarshal_struct set_svn (mkSvn [] []) conf.

(** local.go:20-35 *)
Definition set_local (k : str) (v : jv) (g : local) : option local :=
  if same_name k k_watch_changes then b <- dec_bool v (WatchChanges g) ;; Some (mkLocal b (IgnoredFiles g))
  else if same_name k k_ignored_files then
    l <- dec_slice (fun v => dec_str v []) v ;; Some (mkLocal (WatchChanges g) l)
  else Some g.
Definition newLocal (conf : option bytes) : option local := unmarshal_struct set_local (mkLocal false []) conf.

Inductive workdir := Command (d : driver) | Local (l : local).
Definition k_git : str := [103; 105; 116].  (* git *)
Definition k_hg : str := [104; 103].  (* hg *)
Definition k_mercurial : str := [109; 101; 114; 99; 117; 114; 105; 97; 108].  (* mercurial *)
Definition k_svn : str := [115; 118; 110].  (* svn *)
Definition k_subversion : str := [115; 117; 98; 118; 101; 114; 115; 105; 111; 110].  (* subversion *)
Definition k_bzr : str := [98; 122; 114].  (* bzr *)
Definition k_local : str := [108; 111; 99; 97; 108].  (* local *)

(** vcs.go:40-48 from the init functions: the names in the table. *)
Definition drivers : list (str * (option bytes -> option workdir)) :=
  let git c := g <- newGit c ;; Some (Command (Git g)) in
  let svn c := g <- newSvn c ;; Some (Command (Svn g)) in
  let local c := g <- newLocal c ;; Some (Local g) in
  let hg c := Some (Command Hg) in
  let bzr c := Some (Command Bzr) in
  [(k_git, git); (k_hg, hg); (k_mercurial, hg); (k_svn, svn); (k_subversion, svn); (k_bzr, bzr); (k_local, local)].

(** vcs.go:51-63; [None]: an error. *)
Definition New (name : str) (conf : option bytes) : option workdir :=
  f <- get drivers name ;; f conf.
