(** ui/assets/js/hound.js: which files and repositories of the results are open (727-896,
    913-923, 947-990), with react 0.12: components in a list are kept by their place when
    something is rendered again (the elements have no key; a ref is none), state that is set
    while an event is handled counts after all its handlers. Only .file.closed hides something
    (css/hound.css:290); the class of a repository changes its chevron. Model/PageState.v has the
    results. Left out: results whose expression cannot be made (Model/PageSay.v). *)
From Verif Require Import Model.Base Model.Search Model.PageState.
Local Open Scope nat_scope.

(** The state of FileContentView is [open]; that of RepoView, with its files. *)
Record repo_view := mkView { rv_open : bool; rv_files : list bool }.
Definition tree : Type := list repo_view.

(** 728-730: getInitialState; FilesView.render (812-824): the files of before stay *)
Fixpoint files_view (old : list bool) (matches : list file_match) : list bool :=
  match matches with
  | [] => []
  | m :: ms => match old with [] => negb (fm_auto m) :: files_view [] ms | o :: os => o :: files_view os ms end
  end.
(** 844-846, 947-961 *)
Fixpoint repos_view (old : tree) (results : list result) : tree :=
  match results with
  | [] => []
  | x :: xs => match old with
               | [] => mkView true (files_view [] (r_matches x)) :: repos_view [] xs
               | o :: os => mkView (rv_open o) (files_view (rv_files o) (r_matches x)) :: repos_view os xs
               end
  end.
(** 927-953: with an error, or no results, there are no repositories *)
Fixpoint objects (objs : list result) (ids : list nat) : list result :=
  match ids with [] => [] | i :: r => match nth_error objs i with Some x => x :: objects objs r | None => objects objs r end end.
Definition shown (s : pstate) : list result :=
  match v_error s with
  | Some _ => []
  | None => match v_results s with Some ids => objects (pg_objs s) ids | None => [] end
  end.
Definition render (s : pstate) (t : tree) : tree := repos_view t (shown s).

(** setState of the repository at a place, of a file of it *)
Inductive update := SetRepo (r : nat) (b : bool) | SetFile (r i : nat) (b : bool).
Fixpoint change {A} (f : A -> A) (l : list A) (i : nat) : list A :=
  match l, i with [], _ => [] | x :: r, 0 => f x :: r | x :: r, S i => x :: change f r i end.
Definition apply (u : update) (t : tree) : tree :=
  match u with
  | SetRepo r b => change (fun v => mkView b (rv_files v)) t r
  | SetFile r i b => change (fun v => mkView (rv_open v) (change (fun _ => b) (rv_files v) i)) t r
  end.
Definition apply_all (us : list update) (t : tree) : tree := fold_left (fun t u => apply u t) us t.

(** 731-739: toggleContent, openContent, closeContent *)
Definition toggleContent (t : tree) (r i : nat) : list update :=
  match nth_error t r with
  | Some v => match nth_error (rv_files v) i with Some b => [SetFile r i (negb b)] | None => [] end
  | None => []
  end.
(** 850-861: openOrCloseRepo *)
Definition openOrCloseRepo (t : tree) (r : nat) (to_open : bool) : list update :=
  match nth_error t r with
  | Some v => map (fun i => SetFile r i to_open) (seq 0 (length (rv_files v))) ++ [SetRepo r to_open]
  | None => []
  end.
(** 847-849, 862-867 *)
Definition toggleRepo (t : tree) (r : nat) : list update :=
  match nth_error t r with
  | Some v => if rv_open v then openOrCloseRepo t r false else openOrCloseRepo t r true
  | None => []
  end.
(** 913-929 *)
Definition openOrCloseAll (t : tree) (to_open : bool) : list update :=
  flat_map (fun r => openOrCloseRepo t r to_open) (seq 0 (length t)).

(** What is clicked on: the title of a file (782), the link in it (783-789; the event goes on to
    the title), the title of a repository (871), its chevron (876-882; the same), the buttons
    (966-973). *)
Inductive click := FileTitle (r i : nat) | FileLink (r i : nat) | RepoTitle (r : nat) | Chevron (r : nat) | ExpandAll | CollapseAll.
Definition clicked (t : tree) (c : click) : tree :=
  apply_all
    match c with
    | FileTitle r i | FileLink r i => toggleContent t r i
    | RepoTitle r => toggleRepo t r
    | Chevron r => toggleRepo t r ++ toggleRepo t r
    | ExpandAll => openOrCloseAll t true
    | CollapseAll => openOrCloseAll t false
    end t.

(** The page with its components: after a step of the page it is rendered. *)
Inductive doing := Page (e : page_event) | Click (c : click).
Inductive open_step (locale : str -> str -> Z) : pstate * tree -> doing -> pstate * tree -> Prop :=
  | os_page s t e s' : page_step locale s e s' -> open_step locale (s, t) (Page e) (s', render s' t)
  | os_click s t c : open_step locale (s, t) (Click c) (s, clicked t c).
Inductive opened (locale : str -> str -> Z) : pstate * tree -> Prop :=
  | op_start : opened locale (page0, [])
  | op_step w d w' : opened locale w -> open_step locale w d w' -> opened locale w'.
