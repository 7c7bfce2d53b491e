(** vcs/git.go, hg.go, svn.go, bzr.go, vcs.go: the drivers as sequences of commands. The
    outside world is an oracle that, from everything run so far, the directory and the
    command, decides the output and the exit status (it may do anything, so pipes that fail
    and commands that do not start are exit statuses too). Standard output and combined
    output are one output here. Logging is left out. *)
From Coq Require Import Strings.String Strings.Ascii.
From Verif Require Import Model.Base Model.GoStr.
Local Open Scope N_scope.

Fixpoint lit (s : String.string) : str :=
  match s with String.EmptyString => [] | String.String a r => Ascii.N_of_ascii a :: lit r end.
Local Notation "^ s" := (lit s%string) (at level 1, s at level 0, only parsing).

Record run_of := mkRun { run_dir : str; run_args : list str; run_ok : bool }.
Definition history := list run_of.
Record world := mkWorld {
  w_exec : history -> str -> list str -> str * bool;   (* output, success *)
  w_exists : history -> str -> bool }.                 (* os.Stat *)

(** A computation: the history so far to the history after, with a result or an error. *)
Definition act (A : Type) := history -> history * A.
Definition result := option str.    (* None: an error *)
Definition exec (w : world) (dir : str) (args : list str) : act (str * bool) :=
  fun h => let r := w_exec w h dir args in (h ++ [mkRun dir args (snd r)], r).
Definition ret {A} (a : A) : act A := fun h => (h, a).
Definition andthen {A B} (x : act A) (f : A -> act B) : act B := fun h => let (h', a) := x h in f a h'.
Notation "x <~ a ;; b" := (andthen a (fun x => b)) (at level 61, a at next level, right associativity).

(** The three HeadRev functions (git.go:51-74, hg.go:22-48, svn.go:34-55, bzr.go:22-44):
    the output, trimmed, and the error of Wait. *)
Definition head_rev (w : world) (args : list str) (dir : str) : act result :=
  r <~ exec w dir args ;; ret (if snd r then Some (trim_space (fst r)) else None).

(** *** git.go *)
Record git := mkGit { DetectRef : bool; Ref : str }.
Definition defaultRef : str := Eval vm_compute in ^"master".
Definition autoGeneratedAttribute : str := Eval vm_compute in ^"linguist-generated".
Definition head_branch : str := Eval vm_compute in ^"HEAD branch: ".

(** git.go:76-89: failures are logged, not returned. *)
Definition git_run (w : world) (dir : str) (args : list str) : act (option str) :=
  r <~ exec w dir args ;; ret (Some (fst r)).

(** git.go:17, 205: headBranchRegexp.FindStringSubmatch: the first place where the words
    are followed by at least one character that is not a newline, up to the end of line. *)
Fixpoint until_nl (s : str) : str :=
  match s with [] => [] | c :: r => if c =? 10 then [] else c :: until_nl r end.
Fixpoint find_branch (s : str) : option str :=
  let here := if has_prefix s head_branch then until_nl (skipn (length head_branch) s) else [] in
  match here with
  | _ :: _ => Some here
  | [] => match s with [] => None | _ :: r => find_branch r end
  end.

(** git.go:200-229 *)
Definition detectRef (w : world) (dir : str) : act str :=
  r <~ git_run w dir [^"git"; ^"remote"; ^"show"; ^"origin"] ;;
  ret (match r with
       | None => []
       | Some output => match find_branch output with Some b => b | None => [] end
       end).

(** git.go:116-129 *)
Definition targetRef (w : world) (g : git) (dir : str) : act str :=
  t <~ (match Ref g with
        | [] => if DetectRef g then detectRef w dir else ret []
        | r => ret r
        end) ;;
  ret (match t with [] => defaultRef | _ => t end).

Definition git_HeadRev (w : world) := head_rev w [^"git"; ^"rev-parse"; ^"HEAD"].

Definition fetch_args (t : str) : list str :=
  [^"git"; ^"fetch"; ^"--prune"; ^"--no-tags"; ^"--depth"; ^"1"; ^"origin";
   ^"+" ++ t ++ ^":remotes/origin/" ++ t].
Definition reset_args (t : str) : list str :=
  [^"git"; ^"reset"; ^"--hard"; ^"origin/" ++ t].

(** git.go:91-114 *)
Definition git_Pull (w : world) (g : git) (dir : str) : act result :=
  t <~ targetRef w g dir ;;
  f <~ git_run w dir (fetch_args t) ;;
  match f with
  | None => ret None
  | Some _ =>
      r <~ git_run w dir (reset_args t) ;;
      match r with
      | None => ret None
      | Some _ => git_HeadRev w dir
      end
  end.

(** filepath.Split: directory part up to and including the last "/", and the rest. *)
Definition path_split (dir : str) : str * str :=
  match last_index_byte dir 47 with
  | Some i => (firstn (i + 1) dir, skipn (i + 1) dir)
  | None => ([], dir)
  end.

(** git.go:131-147 *)
Definition git_Clone (w : world) (g : git) (dir url : str) : act result :=
  let (par, rep) := path_split dir in
  r <~ exec w par [^"git"; ^"clone"; ^"--depth"; ^"1"; url; rep] ;;
  if snd r then git_Pull w g dir else ret None.

(** git.go:184: bytes.Split(out, 0). git.go:186-190: i = 2, 5, 8, ... *)
Fixpoint triples (tokens : list str) : list str :=
  match tokens with
  | path :: attr :: info :: rest =>
      if str_eqb info (^"true") && str_eqb attr autoGeneratedAttribute
      then path :: triples rest else triples rest
  | _ => []
  end.

(** git.go:155-198. git ls-files is started first and feeds check-attr; whether it failed
    (git.go:192) makes no difference to the result. *)
Definition git_AutoGeneratedFiles (w : world) (dir : str) : act (list str) :=
  ls <~ exec w dir [^"git"; ^"ls-files"; ^"-z"] ;;
  r <~ exec w dir [^"git"; ^"check-attr"; ^"--stdin"; ^"-z"; autoGeneratedAttribute] ;;
  ret (if snd r then triples (split (fst r) 0) else []).

(** *** hg.go:50-75 *)
Definition hg_HeadRev (w : world) := head_rev w [^"hg"; ^"log"; ^"-r"; ^"."; ^"--template"; ^"{node}"].
Definition hg_Pull (w : world) (dir : str) : act result :=
  r <~ exec w dir [^"hg"; ^"pull"; ^"-u"] ;; if snd r then hg_HeadRev w dir else ret None.
Definition hg_Clone (w : world) (dir url : str) : act result :=
  let (par, rep) := path_split dir in
  r <~ exec w par [^"hg"; ^"clone"; url; rep] ;; if snd r then hg_HeadRev w dir else ret None.

(** *** svn.go:57-96 *)
Record svn := mkSvn { Username : str; Password : str }.
Definition svn_HeadRev (w : world) := head_rev w [^"svnversion"].
Definition svn_Pull (w : world) (g : svn) (dir : str) : act result :=
  r <~ exec w dir [^"svn"; ^"update"; ^"--ignore-externals"; ^"--username"; Username g; ^"--password"; Password g] ;;
  if snd r then svn_HeadRev w dir else ret None.
Definition svn_Clone (w : world) (g : svn) (dir url : str) : act result :=
  let (par, rep) := path_split dir in
  r <~ exec w par [^"svn"; ^"checkout"; ^"--ignore-externals"; ^"--username"; Username g; ^"--password"; Password g; url; rep] ;;
  if snd r then svn_HeadRev w dir else ret None.

(** *** bzr.go:46-73 *)
Definition bzr_HeadRev (w : world) := head_rev w [^"bzr"; ^"revno"].
Definition bzr_Pull (w : world) (dir : str) : act result :=
  r <~ exec w dir [^"bzr"; ^"pull"] ;; if snd r then bzr_HeadRev w dir else ret None.
Definition bzr_Clone (w : world) (dir url : str) : act result :=
  let (par, rep) := path_split dir in
  r <~ exec w par [^"bzr"; ^"branch"; url; rep] ;; if snd r then bzr_HeadRev w dir else ret None.

(** *** vcs.go *)
Inductive driver := Git (g : git) | Hg | Svn (g : svn) | Bzr.
Definition Pull (w : world) (d : driver) : str -> act result :=
  match d with Git g => git_Pull w g | Hg => hg_Pull w | Svn g => svn_Pull w g | Bzr => bzr_Pull w end.
Definition Clone (w : world) (d : driver) : str -> str -> act result :=
  match d with Git g => git_Clone w g | Hg => hg_Clone w | Svn g => svn_Clone w g | Bzr => bzr_Clone w end.

(** vcs.go:76-81 *)
Definition PullOrClone (w : world) (d : driver) (dir url : str) : act result :=
  fun h => if w_exists w h dir then Pull w d dir h else Clone w d dir url h.

(** vcs.go:32, 78; hg.go:83 etc. *)
Definition AutoGeneratedFiles (w : world) (d : driver) (dir : str) : act (list str) :=
  match d with Git _ => git_AutoGeneratedFiles w dir | _ => ret [] end.

(** searcher.go:416-421 *)
Definition auto_files (w : world) (d : driver) (dir : str) (configured : list str) : act (list str) :=
  match configured with
  | _ :: _ => ret configured
  | [] => AutoGeneratedFiles w d dir
  end.
