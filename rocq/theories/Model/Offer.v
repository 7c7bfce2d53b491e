(** The repositories shown to clients: cmds/houndd/main.go:34-58 makeSearchers removes those
    that failed from the configuration, ui/ui.go:87, 218 shows the configuration on the
    page, and api.go:178-185 the searchers. A Go map is an association list; its order is
    that of [range]. *)
From Verif Require Import Model.Base Model.GoFmt Model.JsonText Model.Config.
Local Open Scope N_scope.

(** delete(m, k) *)
Definition delete {A} (m : list (str * A)) (k : str) : list (str * A) :=
  filter (fun p => negb (str_eqb k (fst p))) m.

(** main.go:46-52. [errs]: the keys of the error map of searcher.MakeAll, in the order of
    [range]. *)
Definition keep_good (repos : list (str * option repo)) (errs : list str) : list (str * option repo) :=
  fold_left delete errs repos.

(** config.go:222-229 with the literals of encoding/json (Model/JsonText.v). *)
Definition page_repos (short : bool) (repos : list (str * option repo)) : str :=
  repos_json (json_literal short) fmt_d repos.

(** api.go:179-182: [idx] are the searchers with their Repo (searcher.go:452). *)
Definition list_repos (idx : list (str * repo)) : list (str * option repo) :=
  fold_left (fun res p => put res (fst p) (Some (snd p))) idx [].
(** api.go:184, 29-46: Encode ends with a newline. *)
Definition api_repos (short : bool) (idx : list (str * repo)) : str :=
  repos_json (json_literal short) fmt_d (list_repos idx) ++ [10].
