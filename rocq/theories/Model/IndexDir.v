(** index/index.go: isTextFile (259-283), addFileToIndex (310-333), addDirToIndex
    (335-348) and indexAllFiles (369-464), with filepath.Walk of the standard library.

    The source directory is a tree of file system nodes. A regular file is opened twice,
    by isTextFile and by addFileToIndex; both openings are independent inputs, so the
    file may change in between or become unreadable. Files are named by their path
    components below the source directory; filepath.Rel is the joined components
    ("." for the directory itself), it cannot fail for paths produced by Walk.
    The resolution of a symbolic link given as source directory (383-387) happens
    before: the tree is the one at the resolved path. Failures in the destination
    directory are inputs ([mk_ok], [cr_ok]); writing the raw copies succeeds once they
    are created (gzip and close errors are ignored by the code), and the copies are
    represented by their uncompressed contents. *)
From Verif Require Import Model.Base Model.Sparse Model.Writer Model.Utf8 Model.Grep Model.Search.
Local Open Scope N_scope.

Inductive node :=
| NFile (peek : option reader) (body : option (list read_ev))  (* [None]: open fails *)
| NIrregular                                   (* mode & ModeType != 0, not a directory *)
| NGone                                        (* Lstat fails *)
| NDir (unreadable : bool) (entries : list (str * node)).  (* names as readDirNames orders them *)

(** index.go:36-40 *)
Record iopts := mkIOpts { io_dot : bool; io_special : list str }.

(** index.go:26-30 and the reasons returned by Add *)
Inductive reason := DotFile | InvalidMode | NotText | Rejected (why : skip_reason).

(** filepath.Rel(src, path) *)
Fixpoint join_path (cs : list str) : str :=
  match cs with
  | [] => []
  | [c] => c
  | c :: r => c ++ [47] ++ join_path r
  end.
Definition rel_of (cs : list str) : str := match cs with [] => [46] | _ => join_path cs end.

(** index.go:259-283; [None] is an error. *)
Definition is_text_file (r : option reader) : option bool :=
  match r with
  | None => None
  | Some r =>
      let '(buf, e, _) := read_full r file_peek_size in
      match e with
      | FOther => None
      | _ => Some (if Nat.ltb (length buf) file_peek_size then utf8_valid buf else valid_partial buf)
      end
  end.

(** What io.TeeReader (index.go:332) has copied when Add returns: the bytes of the Reads
    Add performed (write.go:137-154; it stops reading when it rejects the file). *)
Fixpoint tee_reads (st : scan) (evs : list read_ev) : bytes :=
  match evs with
  | [] => []
  | ([], _) :: _ => []
  | (b, _) :: rest =>
      match scan_bytes st b with
      | Some (Running st') => b ++ tee_reads st' rest
      | _ => b
      end
  end.

(** The variables captured by the callback: the index writer, the raw directory, and
    the list of excluded files. *)
Record wst := mkW { ws_ix : iw; ws_raw : list (str * bytes); ws_excl : list (str * reason) }.

(** Result of the callback and of walk: nil, SkipDir, or another error. *)
Inductive wres := WNil (st : wst) | WSkipDir (st : wst) | WErr.

Section Walk.
  Variable cap : nat.
  Variable opt : iopts.
  Variable mk_ok cr_ok : str -> bool.

  Definition exclude (st : wst) (rel : str) (why : reason) : wst :=
    mkW (ws_ix st) (ws_raw st) (ws_excl st ++ [(rel, why)]).

  (** index.go:310-333 and 437-443 *)
  Definition add_file (st : wst) (rel : str) (body : option (list read_ev)) : option wres :=
    match body with
    | None => Some WErr
    | Some evs =>
        if cr_ok rel then
          '(why, ix') <- iw_add cap (ws_ix st) rel evs ;;
          let st' := mkW ix' (ws_raw st ++ [(rel, tee_reads (scan0 (w_set (ws_ix st))) evs)]) (ws_excl st) in
          Some (WNil (match why with None => st' | Some y => exclude st' rel (Rejected y) end))
        else Some WErr
    end.

  (** The callback, index.go:389-446. Its err argument is ignored. *)
  Definition visit (name : str) (path : list str) (nd : node) (st : wst) : option wres :=
    let rel := rel_of path in
    let is_dir := match nd with NDir _ _ => true | _ => false end in
    match nd with
    | NGone => None   (* info is nil: info.Name() panics *)
    | _ =>
        if contains_string (io_special opt) name then
          Some (if is_dir then WSkipDir st else WNil st)
        else
          dot <- (if io_dot opt then
                    match name with [] => None | c :: _ => Some (c =? 46) end   (* name[0] *)
                  else Some false) ;;
          if dot : bool then
            Some (if is_dir then WSkipDir st else WNil (exclude st rel DotFile))
          else
            match nd with
            | NDir _ _ =>
                (* addDirToIndex *)
                Some (match path with
                      | [] => WNil st
                      | _ => if mk_ok rel then WNil st else WErr
                      end)
            | NIrregular => Some (WNil (exclude st rel InvalidMode))
            | NFile peek body =>
                match is_text_file peek with
                | None => Some WErr
                | Some false => Some (WNil (exclude st rel NotText))
                | Some true => add_file st rel body
                end
            | NGone => None
            end
    end.

  (** path/filepath.walk: the directory itself, then its entries in order. *)
  Fixpoint walk (name : str) (path : list str) (nd : node) (st : wst) {struct nd} : option wres :=
    match nd with
    | NDir unreadable es =>
        r <- visit name path nd st ;;
        match r with
        | WNil st1 =>
            if unreadable then Some (WNil st1)
            else
              (fix entries (es : list (str * node)) (st : wst) : option wres :=
                 match es with
                 | [] => Some (WNil st)
                 | (n, x) :: rest =>
                     r <- walk n (path ++ [n]) x st ;;
                     match r with
                     | WNil st' => entries rest st'
                     | WSkipDir st' =>
                         match x with NDir _ _ => entries rest st' | _ => Some r end
                     | WErr => Some WErr
                     end
                 end) es st1
        | _ => Some r
        end
    | _ => visit name path nd st
    end.

  (** index.go:369-464 with filepath.Walk: the trigram index, the raw directory and the
      contents of excluded_files.json. [root_name] is the base name of the source
      directory, [json_ok] whether excluded_files.json can be written. [None]: the
      process terminated, [Some None]: an error. *)
  Definition index_all_files (json_ok : bool) (mem : N -> N) (root_name : str) (root : node)
    : option (option (bytes * list (str * bytes) * list (str * reason))) :=
    r <- walk root_name [] root (mkW (iw_create mem) [] []) ;;
    match r with
    | WErr => Some None
    | WNil st | WSkipDir st =>
        if json_ok then
          b <- iw_flush (ws_ix st) ;;
          Some (Some (b, ws_raw st, ws_excl st))
        else Some None
    end.
End Walk.
