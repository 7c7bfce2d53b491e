(** ui/assets/js/excluded_files.js: the page of excluded files. Requests are answered in any
    order; an answer is a list of files (an empty one, api.go:235-241 when the file cannot be
    read, is not modelled), the keys of the repositories differ. Text is UTF-16. *)
From Verif Require Import Model.Base Model.PageLinks.

(** What is listed: name and reason. *)
Definition listing := list (str * str).
(** excluded_files.js:93-97, the state; [ex_repos] in the order of Object.keys; requests for
    excluded files under way, by name; whether the one for the repositories is. *)
Record exstate := mkEx { ex_repos : list (str * link_conf); ex_repo : option link_conf; ex_files : listing;
  ex_searching : bool; ex_pending : list str; ex_loading : bool }.
(** 79-98: the request for the repositories is made as the page comes up. *)
Definition ex_start : exstate := mkEx [] None [] false [] true.
Fixpoint conf_of (l : list (str * link_conf)) (name : str) : option link_conf :=
  match l with [] => None | (k, c) :: r => if str_eqb k name then Some c else conf_of r name end.

(** The repositories arrive (84-86), a button is pressed (100-109), an answer arrives
    (110-112) or fails (113-116). *)
Inductive exevent := Loaded (repos : list (str * link_conf)) | Pressed (name : str) | Arrived (name : str) (files : listing) | Failed (name : str).
Inductive ex_step (s : exstate) : exevent -> exstate -> Prop :=
| ex_loaded : forall repos, ex_loading s = true ->
    ex_step s (Loaded repos) (mkEx repos (ex_repo s) (ex_files s) (ex_searching s) (ex_pending s) false)
| ex_pressed : forall name, In name (map fst (ex_repos s)) ->
    ex_step s (Pressed name) (mkEx (ex_repos s) (conf_of (ex_repos s) name) (ex_files s) true (ex_pending s ++ [name]) (ex_loading s))
| ex_arrived : forall a name b files, ex_pending s = a ++ name :: b ->
    ex_step s (Arrived name files) (mkEx (ex_repos s) (ex_repo s) files false (a ++ b) (ex_loading s))
| ex_failed : forall a name b, ex_pending s = a ++ name :: b ->
    ex_step s (Failed name) (mkEx (ex_repos s) (ex_repo s) (ex_files s) (ex_searching s) (a ++ b) (ex_loading s)).

(** 18-42, 4-16: the rows: link, name, reason; nothing while searching. [None] for a row: with
    no repository UrlToRepo throws. *)
Definition row (repo : option link_conf) (f : str * str) : option (str * str * str) :=
  match repo with Some r => Some (excluded_link r (fst f), fst f, snd f) | None => None end.
Fixpoint rows (repo : option link_conf) (fs : listing) : option (list (str * str * str)) :=
  match fs with
  | [] => Some []
  | f :: fs => x <- row repo f ;; xs <- rows repo fs ;; Some (x :: xs)
  end.
Definition table (s : exstate) : option (option (list (str * str * str))) :=
  if ex_searching s then Some None else option_map Some (rows (ex_repo s) (ex_files s)).
(** 44-76: which buttons are shown as selected: the name is compared with the repository's
    configuration, an object, by ===, which is never true of a string and an object. *)
Inductive jsval := JsString (s : str) | JsObject (c : link_conf) | JsNull.
Definition strict_eq (a b : jsval) : bool :=
  match a, b with JsString x, JsString y => str_eqb x y | JsNull, JsNull => true | _, _ => false end.
Definition button_selected (s : exstate) (name : str) : bool :=
  strict_eq (match ex_repo s with Some c => JsObject c | None => JsNull end) (JsString name).
