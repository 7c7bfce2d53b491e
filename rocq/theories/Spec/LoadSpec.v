(** What the page should show of the answers of the server. *)
From Verif Require Import Model.Base Model.Search Model.PageState Spec.ApiSpec Spec.SearchSpec Spec.Names.
Local Open Scope nat_scope.

Definition prefix {A} (a b : list A) : Prop := exists c, b = a ++ c.
(** Requests that differ in which part of the results is asked for only. *)
Definition same_search (p p' : params) : Prop := forall k, k <> text "rng" -> k <> text "repos" -> k <> text "stats" ->
  get_param p k = get_param p' k.

(** The results on the page: there is no error, and these are the objects. *)
Definition displays (s : pstate) (rs : list result) : Prop :=
  v_error s = None /\ exists ids, v_results s = Some ids /\ Forall2 (fun id x => nth_error (pg_objs s) id = Some x) ids rs.
(** The button for more results of a repository is on the page. *)
Definition button (s : pstate) (r : str) : Prop :=
  exists rs x, displays s rs /\ In x rs /\ r_repo x = r /\ (Z.of_nat (length (r_matches x)) < r_files x)%Z.

Section Server.
(** The repositories, and the files of a repository that have matches, all of them in order. *)
Variable known : str -> Prop.
Variable files : params -> str -> list file_match.

(** The request selects the repository. *)
Definition wants (p : params) (r : str) : Prop :=
  known r /\ exists v w, (get_param p (text "repos") = Some v \/ get_param p (text "repos") = None /\ v = []) /\
    trimmed v w /\ (w = text "*" \/ element w r).
(** A server that answers a request with the asked part of the results. The requests of the
    page have no limit on the number of lines. *)
Definition honest (serve : params -> reply) : Prop :=
  (forall p p' r, same_search p p' -> files p r = files p' r) /\
  forall p, get_param p (text "limit") = None -> match serve p with
  | Results rs stats =>
      (forall v, get_param p (text "stats") = Some v -> yes v -> stats = true) /\ NoDup (map fst rs) /\
      forall v b e, get_param p (text "rng") = Some v -> page v b e ->
      (forall r a, In (r, a) rs -> wants p r /\ rs_matches a = window b e (files p r) /\ rs_matches a <> [] /\
                                  rs_found a = Z.of_nat (length (files p r))) /\
      (forall r, wants p r -> window b e (files p r) <> [] -> In r (map fst rs))
  | Error m => m <> []
  | Broke => True
  end.

(** The user asked for the repository: all if none is given. *)
Definition asked (p : params) (r : str) : Prop :=
  known r /\ (get_param p (text "repos") = None \/ get_param p (text "repos") = Some [] \/
    exists v w, get_param p (text "repos") = Some v /\ trimmed v w /\ (w = text "*" \/ element w r)).
(** Of every repository asked for that has matches, the first files. *)
Definition right (p : params) (rs : list result) : Prop :=
  NoDup (map r_repo rs) /\ (forall r, In r (map r_repo rs) <-> asked p r /\ files p r <> []) /\
  Forall (fun x => prefix (r_matches x) (files p (r_repo x)) /\ r_matches x <> [] /\
                   r_files x = Z.of_nat (length (files p (r_repo x)))) rs.

(** One thing at a time: a new search when nothing is under way; more of a repository when no
    search is, nor more of the same. Searches come from the form, and have a query. *)
Definition polite (serve : params -> reply) (s : pstate) (e : page_event) : Prop :=
  match e with
  | Search p => pg_pending s = [] /\ get_param p (text "rng") = None /\ get_param p (text "stats") = None /\ get_param p (text "q") <> Some [] /\
                get_param p (text "limit") = None
  | LoadMore r => button s r /\ (forall a, In a (pg_pending s) -> exists o r' q, a = PMore o r' q /\ r' <> r)
  | Arrive a rep => rep = serve (req_of a) \/ rep = Broke
  end.
(** The states of the page with the search asked for last. *)
Inductive visit (locale : str -> str -> Z) (serve : params -> reply) : pstate -> option params -> Prop :=
  | vi_start : visit locale serve page0 None
  | vi_step s last e s' : visit locale serve s last -> polite serve s e -> page_step locale s e s' ->
      visit locale serve s' (match e with Search p => Some p | _ => last end).
End Server.

(** What a user who makes no new search can come to. *)
Inductive goes (serve : params -> reply) (locale : str -> str -> Z) (s : pstate) : pstate -> Prop :=
  | go_here : goes serve locale s s
  | go_on s1 e s2 : goes serve locale s s1 -> polite serve s1 e -> (forall p, e <> Search p) -> page_step locale s1 e s2 -> goes serve locale s s2.
