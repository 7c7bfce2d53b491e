(** What the page should show of a search with an expression and filters on names. *)
From Coq Require Import Sorted.
From Verif Require Import Model.Base Model.Syntax Model.Search Model.PageState Model.PageView Spec.MatchSpec Spec.GrepSpec Spec.ExprSpec Spec.RegexSpec Spec.PresentSpec Spec.ViewSpec Spec.ApiSpec Spec.LoadSpec Spec.WholeSpec Spec.Names.
Local Open Scope N_scope.

(** A parameter of a search: empty if it is not there; on if its value says yes. *)
Definition given (p : params) (k : str) (v : str) : Prop := get_param p k = Some v \/ get_param p k = None /\ v = [].
Definition on (p : params) (k : str) : Prop := exists v, get_param p k = Some v /\ yes v.

(** A file is looked for: its name matches [fe], if there is such a filter, and not [xe]; one of
    its lines matches [ex]. *)
Definition looked_for (sf : N -> N) (ex : regexp) (fe xe : option regexp) (d : str * str) : Prop :=
  wanted sf ex fe d /\ match xe with None => True | Some xe => forall k, ~ expr_on_line sf xe (fst d) k end.

(** The blocks of rows that show a file: every row is a line of the file with its number, none is
    there twice, they are in order; those marked are the ones that match. *)
Definition shows_matches (sf : N -> N) (ex : regexp) (file : str) (blocks : list (list row)) : Prop :=
  Forall consecutive blocks /\ StronglySorted (fun r r' => row_no r < row_no r')%Z (List.concat blocks) /\
  (forall k t mk, In (k, t, mk) (List.concat blocks) -> (0 < k)%Z /\ exists pieces, splits file pieces /\ nth_error pieces (Z.to_nat k - 1) = Some t) /\
  (forall k line, In (Z.of_nat (S k), line, true) (List.concat blocks) <->
     exists lines, file_lines file lines /\ nth_error lines k = Some line /\ expr_on_line sf ex file k).
Definition listed_as (sf : N -> N) (ex : regexp) (d : str * str) (f : file_match) : Prop :=
  fm_name f = fst d /\ exists blocks, CoalesceMatches (fm_hits f) = Some blocks /\ shows_matches sf ex (snd d) blocks.

(** The repositories on the page: those asked for with a file that is looked for; of each the
    first such files, in the order of the index, at least one, and how many there are. *)
Definition page_lists (look : str * str -> Prop) (entry : str * str -> file_match -> Prop) (docs : str -> list (str * str)) (known : str -> Prop) (p : params) (res : list result) : Prop :=
  NoDup (map r_repo res) /\
  (forall r, In r (map r_repo res) <-> asked known p r /\ exists d, In d (docs r) /\ look d) /\
  Forall (fun x => exists w sel rest, (forall d, In d (docs (r_repo x)) -> (w d = true <-> look d)) /\
    filter w (docs (r_repo x)) = sel ++ rest /\ sel <> [] /\ r_files x = Z.of_nat (length (sel ++ rest)) /\
    Forall2 entry sel (r_matches x)) res.
