(** What a link to a file should say. *)
From Verif Require Import Model.Base Spec.Names.
Local Open Scope N_scope.

(** A pattern is text and names in braces. *)
Inductive piece := Plain (s : str) | Var (name : str).
Definition braces (name : str) : str := 123 :: name ++ [125].
Definition template (ps : list piece) : str :=
  List.concat (map (fun p => match p with Plain s => s | Var n => braces n end) ps).
Definition filled (value : str -> option str) (ps : list piece) : str :=
  List.concat (map (fun p => match p with Plain s => s | Var n => match value n with Some v => v | None => braces n end end) ps).
Definition names (ps : list piece) : list str :=
  flat_map (fun p => match p with Plain _ => [] | Var n => [n] end) ps.
Definition proper (ps : list piece) : Prop :=
  NoDup (names ps) /\ Forall (fun p => match p with Plain s => ~ In 123 s | Var n => ~ In 123 n /\ ~ In 125 n end) ps.
(** Safe to put in. *)
Definition fillable (s : str) : Prop := ~ In 36 s /\ ~ In 123 s.

Fixpoint value_of (l : list (str * str)) (n : str) : option str :=
  match l with
  | [] => None
  | (m, v) :: l => if list_eq_dec N.eq_dec n m then Some v else value_of l n
  end.

(** Where a repository lives. *)
Record place := mkPlace { pl_host : str; pl_port : str; pl_owner : str; pl_name : str }.
Definition digit (c : N) : Prop := 48 <= c <= 57.
(** Addresses with a login: git@host:owner/name, ssh://git@host/owner/name,
    ssh://git@host:port/owner/name, and the same for hg. *)
Inductive login_url : str -> place -> Prop :=
| login : forall pre who host port sep owner name, who = text "git" \/ who = text "hg" ->
    ~ In 64 pre -> ~ In 58 host -> ~ In 47 host -> ~ In 47 name ->
    (port = [] /\ sep = 58 /\ (forall c r, owner = c :: r -> ~ digit c)) \/
    (port = [] /\ sep = 47) \/
    (sep = 47 /\ exists d, port = 58 :: d /\ d <> [] /\ Forall digit d) ->
    login_url (pre ++ who ++ 64 :: host ++ port ++ sep :: owner ++ 47 :: name) (mkPlace host port owner name).
Definition no_login (u : str) : Prop := forall a b, u <> a ++ text "git@" ++ b /\ u <> a ++ text "hg@" ++ b.

(** The address on the web, and its parts as far as known. *)
Inductive site : str -> list (str * str) -> Prop :=
| site_plain : forall u, no_login u ->
    site u [(text "url", u); (text "hostname", []); (text "port", []); (text "project", []); (text "repo", [])]
| site_login : forall u host port owner name, login_url u (mkPlace host port owner name) ->
    site u [(text "url", text "//" ++ host ++ port ++ 47 :: owner ++ 47 :: name); (text "hostname", text "//" ++ host);
            (text "port", port); (text "project", owner); (text "repo", name)].

Definition ends (e s : str) : Prop := exists a, s = a ++ e.
(** A repository: its address may have .git after it. *)
Inductive home : str -> list (str * str) -> Prop :=
| home_git : forall u vs, site u vs -> ~ ends (text ".wiki") u -> home (u ++ text ".git") vs
| home_bare : forall u vs, site u vs -> ~ ends (text ".wiki") u -> ~ ends (text ".git") u -> home u vs.
(** A wiki: owner/name.wiki.git is shown at owner/name/wiki. *)
Inductive wiki : str -> list (str * str) -> Prop :=
| wiki_git : forall u vs, site (u ++ text "/wiki") vs -> (forall a b, u ++ text ".wiki" = a ++ text ".wiki" ++ b -> a = u) -> wiki (u ++ text ".wiki.git") vs
| wiki_bare : forall u vs, site (u ++ text "/wiki") vs -> (forall a b, u ++ text ".wiki" = a ++ text ".wiki" ++ b -> a = u) -> wiki (u ++ text ".wiki") vs.
(** The name of a file in a directory. *)
Definition file_name (path f : str) : Prop := ~ In 47 f /\ (path = f \/ exists d, path = d ++ 47 :: f).
