(** ui/assets/js/hound.js: the repositories that are selected (81-93, 392-410). An object
    is asked for a name with [truthy]: it answers for its own names and those of
    Object.prototype. *)
From Coq Require Import String Ascii.
From Verif Require Import Model.Base Model.PageState.
Local Open Scope N_scope.

Fixpoint name_of (s : string) : str :=
  match s with EmptyString => [] | String c r => N_of_ascii c :: name_of r end.
(** Object.prototype (ECMA-262) *)
Definition inherited : list str := map name_of
  ["constructor"; "__defineGetter__"; "__defineSetter__"; "hasOwnProperty"; "__lookupGetter__"; "__lookupSetter__";
   "isPrototypeOf"; "propertyIsEnumerable"; "toString"; "valueOf"; "__proto__"; "toLocaleString"]%string.
Definition truthy (own : list str) (k : str) : bool := existsb (str_eqb k) (own ++ inherited).

(** hound.js:81-89: ValidRepos; the values of this.repos are objects *)
Fixpoint valid_loop (all seen repos : list str) : list str :=
  match repos with
  | [] => []
  | r :: rest =>
      let valid := truthy all r && negb (truthy seen r) in
      let l := valid_loop all (r :: seen) rest in
      if valid then r :: l else l
  end.
Definition ValidRepos (all repos : list str) : list str := valid_loop all [] repos.
(** hound.js:91-93 *)
Definition RepoCount (all : list str) : nat := List.length all.

(** repos.join(",") *)
Fixpoint join (l : list str) : str :=
  match l with [] => [] | [x] => x | x :: r => x ++ 44 :: join r end.
(** hound.js:392-404: the repositories in getParams *)
Definition selected_repos (all sel : list str) : str :=
  let repos := ValidRepos all sel in
  join (if Nat.eqb (List.length repos) (RepoCount all) then [] else repos).
