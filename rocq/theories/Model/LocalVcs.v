(** vcs/local.go, and dirhash.HashDir of golang.org/x/mod, which it calls. A directory is
    the list of its files in the order of filepath.Walk, names relative to it; [None]: the
    file cannot be opened or read (a dangling link, a link to a directory, permissions).
    SHA-1 is the parameter [sha1]. Directories, links and their resolution are given by
    [fs]: the files below a path after following a link at the path itself. *)
From Verif Require Import Model.Base Model.GoStr Model.Config.
Local Open Scope N_scope.

(** sort.Strings *)
Fixpoint insert_str (x : str) (l : list str) : list str :=
  match l with
  | [] => [x]
  | y :: r => if str_ltb y x then y :: insert_str x r else x :: l
  end.
Definition sort_strings (l : list str) : list str := fold_right insert_str [] l.

(** fmt %x, hex.EncodeToString *)
Definition hex_digit (x : N) : byte := if x <? 10 then 48 + x else 87 + x.
Definition hex (s : bytes) : str := flat_map (fun b => [hex_digit (b / 16); hex_digit (b mod 16)]) s.

Section Local.
  Variable sha1 : bytes -> bytes.

  (** local.go:45-60: the text given to the outer hash; [None]: an error. *)
  Fixpoint hash_lines (files : list str) (open : str -> option bytes) : option str :=
    match files with
    | [] => Some []
    | file :: rest =>
        if existsb (N.eqb 10) file then None
        else match open file with
             | None => None
             | Some content =>
                 match hash_lines rest open with
                 | None => None
                 | Some t => Some (hex (sha1 content) ++ [32; 32] ++ file ++ [10] ++ t)
                 end
             end
    end.
  (** local.go:41-62 *)
  Definition myHash (files : list str) (open : str -> option bytes) : option str :=
    match hash_lines (sort_strings files) open with
    | None => None
    | Some t => Some (hex (sha1 t))
    end.

  (** dirhash.HashDir with an empty prefix; [None]: not a directory. *)
  Definition tree := list (str * option bytes).
  Definition open_in (t : tree) (name : str) : option bytes := match get t name with Some (Some c) => Some c | _ => None end.
  Definition hash_dir (t : option tree) : option str :=
    match t with
    | None => None
    | Some t => myHash (map fst t) (open_in t)
    end.

  Record local := mkLocal { WatchChanges : bool; IgnoredFiles : list str }.

  (** strings.LastIndex *)
  Fixpoint last_index (s sub : str) : option nat :=
    match s with
    | [] => match sub with [] => Some O | _ => None end
    | _ :: r =>
        match last_index r sub with
        | Some i => Some (S i)
        | None => if has_prefix s sub then Some O else None
        end
    end.
  Definition vcs_dash : str := [118; 99; 115; 45].

  (** local.go:64-84 *)
  Definition HeadRev (g : local) (fs : str -> option tree) (dir : str) : option str :=
    if negb (WatchChanges g) then
      match last_index dir vcs_dash with
      | None => None
      | Some idx => Some (skipn (idx + 4) dir)
      end
    else hash_dir (fs dir).

  (** local.go:86-88 *)
  Definition Pull := HeadRev.

  (** local.go:90-99: the link that is made, and the result. [link]: os.Symlink succeeds;
      [fs]: the file system afterwards. *)
  Definition file_scheme : str := [102; 105; 108; 101; 58; 47; 47].
  Definition Clone (g : local) (link : bool) (fs : str -> option tree) (dir url : str) : option str * option str :=
    let src := trim_prefix url file_scheme in
    if negb (has_prefix url file_scheme) then (None, None)
    else if negb link then (None, None)
    else (Some src, Pull g fs dir).

  (** local.go:101-107 *)
  Definition SpecialFiles (g : local) : list str := IgnoredFiles g.
  Definition AutoGeneratedFiles : list str := [].
End Local.
