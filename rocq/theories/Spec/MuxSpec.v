(** C71: what a request is answered with, by its path. *)
From Verif Require Import Model.Base Model.Mux Spec.Names.
Local Open Scope N_scope.

(** A path as the names between its slashes. *)
Definition path_of (cs : list str) : str := concat (map (fun c => text "/" ++ c) cs).
Definition no_slash (c : str) : Prop := ~ In 47 c.
(** The path with a slash in front, where there is none, has the names [cs]. *)
Definition names_of (p : str) (cs : list str) : Prop :=
  Forall no_slash cs /\ (p = path_of cs \/ (~ (exists x, p = text "/" ++ x)) /\ text "/" ++ p = path_of cs).
(** Where the names lead from the root. *)
Inductive leads : list str -> list str -> Prop :=
| l_root : leads [] []
| l_stay : forall cs ms c, leads cs ms -> c = text "" \/ c = text "." -> leads (cs ++ [c]) ms
| l_up : forall cs ms m, leads cs (ms ++ [m]) -> leads (cs ++ [text ".."]) ms
| l_top : forall cs, leads cs [] -> leads (cs ++ [text ".."]) []
| l_down : forall cs ms c, leads cs ms -> c <> text "" -> c <> text "." -> c <> text ".." -> leads (cs ++ [c]) (ms ++ [c]).
(** The proper form of a path: the names it leads to, and a slash at its end if it had one. *)
Definition proper (p q : str) : Prop := exists cs ms, names_of p cs /\ leads cs ms /\
  match ms with
  | [] => q = text "/"
  | _ => q = path_of (ms ++ (if list_eq_dec N.eq_dec (last cs []) [] then [text ""] else []))
  end.

Definition api_paths : list (str * endpoint) :=
  [(text "/api/v1/repos", Repos); (text "/api/v1/search", Search); (text "/api/v1/excludes", Excludes);
   (text "/api/v1/update", Update); (text "/api/v1/github-webhook", Webhook)].
Definition pages : list (str * page) :=
  [(text "/", Index); (text "/open_search.xml", OpenSearch); (text "/excluded_files.html", ExcludedFiles)].
Definition special (p : str) : Prop := In p (map fst api_paths) \/ In p (map fst pages).
(** What there is at a path. *)
Inductive found_at (files : tree_files) (p : str) : answer -> Prop :=
| f_api : forall e, In (p, e) api_paths -> found_at files p (Endpoint e)
| f_page : forall g, In (p, g) pages -> found_at files p (Template g)
| f_file : forall n x, p = text "/" ++ n -> ~ special p -> In (n, Some x) files -> found_at files p (File x)
| f_none : ~ special p -> (forall n x, p = text "/" ++ n -> ~ In (n, Some x) files) -> found_at files p NotFound.

Inductive routed (health : str) (ready : bool) (files : tree_files) (r : request) : answer -> Prop :=
| r_health : q_path r = health -> routed health ready files r Health
| r_wait : q_path r <> health -> ready = false -> routed health ready files r NotReady
| r_star : q_path r <> health -> ready = true -> q_star r = true -> routed health ready files r BadRequest
| r_moved : forall p, q_path r <> health -> ready = true -> q_star r = false -> q_connect r = false ->
    proper (q_path r) p -> p <> q_path r -> routed health ready files r (MovedTo p (q_query r))
| r_there : forall a, q_path r <> health -> ready = true -> q_star r = false ->
    q_connect r = true \/ proper (q_path r) (q_path r) -> found_at files (q_path r) a -> routed health ready files r a.

(** ** Any patterns *)
Definition ends_slash (q : str) : Prop := exists x, q = x ++ text "/".
(** The handler for a path: that of the pattern equal to it, or else of the longest pattern with a
    slash at its end that it begins with. *)
Inductive chosen {H : Type} (rs : list (str * H)) (p : str) : H -> Prop :=
| c_exact : forall h, In (p, h) rs -> chosen rs p h
| c_under : forall q h y, ~ In p (map fst rs) -> In (q, h) rs -> ends_slash q -> p = q ++ y ->
    (forall q' y', In q' (map fst rs) -> ends_slash q' -> p = q' ++ y' -> (length q' <= length q)%nat) -> chosen rs p h.
(** There is a pattern only for the path with a slash at its end. *)
Definition needs_slash {H : Type} (rs : list (str * H)) (p : str) : Prop :=
  p <> [] /\ ~ ends_slash p /\ ~ In p (map fst rs) /\ In (p ++ text "/") (map fst rs).
Definition wants (r : request) (p : str) : Prop := (q_connect r = true /\ p = q_path r) \/ (q_connect r = false /\ proper (q_path r) p).
Inductive dispatched {H : Type} (rs : list (str * H)) (r : request) : outcome H -> Prop :=
| d_star : q_star r = true -> dispatched rs r Bad
| d_slash : forall p, q_star r = false -> wants r p -> needs_slash rs p -> dispatched rs r (Moved (p ++ text "/") (q_query r))
| d_moved : forall p, q_star r = false -> wants r p -> ~ needs_slash rs p -> p <> q_path r -> dispatched rs r (Moved p (q_query r))
| d_there : forall h, q_star r = false -> wants r (q_path r) -> ~ needs_slash rs (q_path r) -> chosen rs (q_path r) h -> dispatched rs r (Handled h)
| d_none : q_star r = false -> wants r (q_path r) -> ~ needs_slash rs (q_path r) -> (forall h, ~ chosen rs (q_path r) h) -> dispatched rs r Missing.
