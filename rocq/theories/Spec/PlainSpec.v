(** A plain text that is looked for on the page, and what should be shown of it. *)
From Coq Require Import Sorted.
From Verif Require Import Model.Base Model.Search Model.PageState Model.PageView Spec.Utf8Spec Spec.MatchSpec Spec.GrepSpec Spec.PresentSpec Spec.ViewSpec Spec.LiteralSpec Spec.ApiSpec Spec.LoadSpec Spec.Names.
Local Open Scope N_scope.

(** The parameters of a search for the text with the runes [rs], up to case if [ic]: Use string
    literally is on, there are no filters on names. *)
Definition plain_search (p : params) (ic : bool) (rs : list N) : Prop :=
  (exists chars, Forall2 utf8 rs chars /\ get_param p (text "q") = Some (List.concat chars)) /\
  (exists v, get_param p (text "literal") = Some v /\ yes v) /\
  (ic = true <-> exists v, get_param p (text "i") = Some v /\ yes v) /\
  (get_param p (text "files") = None \/ get_param p (text "files") = Some []) /\
  (get_param p (text "excludeFiles") = None \/ get_param p (text "excludeFiles") = Some []).

(** The blocks of rows that show a file: every row is a line of the file with its number, none is
    there twice, they are in order; those marked are the ones with the text. *)
Definition shows_text (sf : N -> N) (ic : bool) (rs : list N) (file : str) (blocks : list (list row)) : Prop :=
  Forall consecutive blocks /\ StronglySorted (fun r r' => row_no r < row_no r')%Z (List.concat blocks) /\
  (forall k t mk, In (k, t, mk) (List.concat blocks) -> (0 < k)%Z /\ exists pieces, splits file pieces /\ nth_error pieces (Z.to_nat k - 1) = Some t) /\
  (forall k line, In (Z.of_nat (S k), line, true) (List.concat blocks) <-> line_with sf ic rs file k line).
(** The entry of a file on the page: its name, and its blocks. *)
Definition entry_of (sf : N -> N) (ic : bool) (rs : list N) (d : str * str) (f : file_match) : Prop :=
  fm_name f = fst d /\ exists blocks, CoalesceMatches (fm_hits f) = Some blocks /\ shows_text sf ic rs (snd d) blocks.

(** The repositories on the page: those asked for that have a file with the text; of each the
    first such files, in the order of the index, at least one, and how many there are. *)
Definition page_shows (sf : N -> N) (docs : str -> list (str * str)) (known : str -> Prop) (p : params) (ic : bool) (rs : list N) (res : list result) : Prop :=
  NoDup (map r_repo res) /\
  (forall r, In r (map r_repo res) <-> asked known p r /\ exists d k line, In d (docs r) /\ line_with sf ic rs (snd d) k line) /\
  Forall (fun x => exists w sel rest, (forall d, In d (docs (r_repo x)) -> (w d = true <-> exists k line, line_with sf ic rs (snd d) k line)) /\
    filter w (docs (r_repo x)) = sel ++ rest /\ sel <> [] /\ r_files x = Z.of_nat (length (sel ++ rest)) /\
    Forall2 (entry_of sf ic rs) sel (r_matches x)) res.

(** Less than [n] lines of the files have the text. *)
Definition few_lines (sf : N -> N) (ic : bool) (rs : list N) (docs : list (str * str)) (n : Z) : Prop := forall l : list (str * nat), NoDup l ->
  (forall name k, In (name, k) l -> exists text line, In (name, text) docs /\ line_with sf ic rs text k line) -> (Z.of_nat (length l) < n)%Z.

(** A visit all of whose searches are as given. *)
Inductive visit_of (ok : params -> bool) (locale : str -> str -> Z) (serve : params -> reply) : pstate -> option params -> Prop :=
  | vo_start : visit_of ok locale serve page0 None
  | vo_step s last e s' : visit_of ok locale serve s last -> polite serve s e -> (forall p, e = Search p -> ok p = true) -> page_step locale s e s' ->
      visit_of ok locale serve s' (match e with Search p => Some p | _ => last end).
