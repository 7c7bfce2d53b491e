(** ui/assets/js/common.js: links to the files (5-70), and who calls it (hound.js:278-285,
    750-757, 785; excluded_files.js:6). Strings are lists of UTF-16 code units without line
    terminators. *)
From Verif Require Import Model.Base Model.GoFmt.
From Coq Require Import String Ascii.
Local Open Scope N_scope.

Fixpoint js (s : string) : str :=
  match s with EmptyString => [] | String c r => N_of_ascii c :: js r end.

(** Does [s] begin with [p]? What follows. *)
Fixpoint after_prefix (p s : str) : option str :=
  match p, s with
  | [], _ => Some s
  | a :: p, b :: s => if a =? b then after_prefix p s else None
  | _, [] => None
  end.
(** The first occurrence: what is before and after it. *)
Fixpoint find_first (needle s : str) : option (str * str) :=
  match after_prefix needle s with
  | Some rest => Some ([], rest)
  | None => match s with
            | [] => None
            | c :: r => '(a, b) <- find_first needle r ;; Some (c :: a, b)
            end
  end.
(** ECMA-262 GetSubstitution without captures: $$, $&, $` and $' *)
Fixpoint substitution (matched before after rep : str) : str :=
  match rep with
  | [] => []
  | c :: r =>
      match r with
      | d :: r' =>
          if negb (c =? 36) then c :: substitution matched before after r
          else if d =? 36 then 36 :: substitution matched before after r'
          else if d =? 38 then matched ++ substitution matched before after r'
          else if d =? 96 then before ++ substitution matched before after r'
          else if d =? 39 then after ++ substitution matched before after r'
          else c :: substitution matched before after r
      | [] => [c]
      end
  end.
(** String.prototype.replace with a string to look for *)
Definition replace (s needle rep : str) : str :=
  match find_first needle s with
  | None => s
  | Some (before, after) => before ++ substitution needle before after rep ++ after
  end.

(** common.js:5-10; [None] is undefined. Values in the order in which they were set. *)
Definition to_string (v : option str) : str := match v with Some s => s | None => js "undefined" end.
Fixpoint ExpandVars (template : str) (values : list (str * option str)) : str :=
  match values with
  | [] => template
  | (name, v) :: rest => ExpandVars (replace template (123 :: name ++ [125]) (to_string v)) rest
  end.

(** s.replace(/ending$/, '') *)
Fixpoint without_end (ending s : str) : str :=
  if str_eqb s ending then [] else match s with [] => [] | c :: r => c :: without_end ending r end.
Fixpoint ends_with (ending s : str) : bool :=
  str_eqb s ending || match s with [] => false | _ :: r => ends_with ending r end.
(** The text before and after the last [c]. *)
Fixpoint last_split (c : N) (s : str) : option (str * str) :=
  match s with
  | [] => None
  | x :: r => match last_split c r with
              | Some (a, b) => Some (x :: a, b)
              | None => if x =? c then Some ([], r) else None
              end
  end.
Fixpoint digits (s : str) : str * str :=
  match s with
  | c :: r => if (48 <=? c) && (c <=? 57) then let '(d, t) := digits r in (c :: d, t) else ([], s)
  | [] => ([], [])
  end.
(** Groups 4 to 7 at the front: a colon or slash, anything, a slash, anything; 5 and 7 are
    what matters. *)
Definition ssh_path (s : str) : option (str * str) :=
  match s with
  | c :: r => if (c =? 58) || (c =? 47) then last_split 47 r else None
  | [] => None
  end.
(** Group 3, an optional port, before them; fewer digits lead nowhere, as a digit would
    follow. Groups 3, 5, 7. *)
Definition ssh_port (s : str) : option (str * str * str) :=
  let without := option_map (fun '(p, r) => ([], p, r)) (ssh_path s) in
  match s with
  | c :: r =>
      if c =? 58 then
        match digits r with
        | ([], _) => without
        | (d, t) => match ssh_path t with Some (p, q) => Some (58 :: d, p, q) | None => without end
        end
      else without
  | [] => without
  end.
(** Group 2, the shortest anything, before them. Groups 2, 3, 5, 7. *)
Fixpoint ssh_host (s : str) : option (str * str * str * str) :=
  match ssh_port s with
  | Some (port, p, r) => Some ([], port, p, r)
  | None => match s with
            | [] => None
            | c :: s' => option_map (fun '(h, port, p, r) => (c :: h, port, p, r)) (ssh_host s')
            end
  end.
(** common.js:42: the first place with git@ or hg@ *)
Fixpoint ssh_parts (s : str) : option (str * str * str * str) :=
  let here := match after_prefix (js "git@") s with
              | Some r => ssh_host r
              | None => match after_prefix (js "hg@") s with Some r => ssh_host r | None => None end
              end in
  match here with
  | Some m => Some m
  | None => match s with [] => None | _ :: r => ssh_parts r end
  end.

(** The part of the configuration of a repository that is used. *)
Record link_conf := mkLink { l_url : str; l_base : str; l_anchor : str }.
Record url_parts := mkParts {
  p_url : str; p_hostname : str; p_port : str; p_project : str; p_repo : str; p_path : str; p_rev : option str; p_anchor : str }.
(** common.js:12-62. [line] is undefined or null, or a number. *)
Definition UrlParts (repo : link_conf) (path : str) (line : option N) (rev : option str) : url_parts :=
  let url := without_end (js ".git") (l_url repo) in
  let filename := match last_split 47 path with Some (_, b) => b | None => path end in
  let anchor := match line with
                | Some n => if n =? 0 then [] else ExpandVars (l_anchor repo) [(js "line", Some (fmt_d (Z.of_N n))); (js "filename", Some filename)]
                | None => []
                end in
  let '(url, path, anchor) :=
    if ends_with (js ".wiki") url then (replace url (js ".wiki") (js "/wiki"), without_end (js ".md") path, [])
    else (url, path, anchor) in
  match ssh_parts url with
  | Some (host, port, project, name) =>
      let hostname := js "//" ++ host in
      mkParts (hostname ++ port ++ 47 :: project ++ 47 :: name) hostname port project name path rev anchor
  | None => mkParts url [] [] [] [] path rev anchor
  end.
(** common.js:64-70 *)
Definition UrlToRepo (repo : link_conf) (path : str) (line : option N) (rev : option str) : str :=
  let p := UrlParts repo path line rev in
  ExpandVars (l_base repo)
    [(js "url", Some (p_url p)); (js "hostname", Some (p_hostname p)); (js "port", Some (p_port p)); (js "project", Some (p_project p));
     (js "repo", Some (p_repo p)); (js "path", Some (p_path p)); (js "rev", p_rev p); (js "anchor", Some (p_anchor p))].
(** hound.js:282-284 *)
Definition UrlToRoot (repo : link_conf) : str := p_url (UrlParts repo [] None None).
(** excluded_files.js:6: the third argument is a property that is not set, the fourth is left out *)
Definition excluded_link (repo : link_conf) (path : str) : str := UrlToRepo repo path None None.
(** config.go:17-18 *)
Definition default_base : str := js "{url}/blob/{rev}/{path}{anchor}".
Definition default_anchor : str := js "#L{line}".
