(** What is written at the sources of several repositories, and what the page should show of it. *)
From Verif Require Import Model.Base Model.Grep Model.Search Model.IndexDir Model.PageState Model.PageView Spec.RunSpec Spec.IndexSpec Spec.GrepSpec Spec.LiteralSpec Spec.TreeSpec Spec.LoadSpec Spec.PlainSpec.
Local Open Scope N_scope.

(** A repository as the indexer found it: the options, its name, the working copy, and the files
    that were left out. *)
Record source := mkSource { so_opt : iopts; so_name : str; so_tree : node; so_left : list (str * reason) }.
(** A file of the working copy that may be shown. *)
Definition file_in (w : source) (name content : str) : Prop := exists cs m pk evs,
  found (so_opt w) (so_name w) (so_tree w) cs m (NFile pk (Some evs)) /\ joined cs name /\ ~ hidden (so_opt w) m /\ content = ev_content evs.
(** One that has to be found: it could be read and was not left out. *)
Definition held_in (w : source) (name content : str) : Prop := exists cs m pk evs,
  found (so_opt w) (so_name w) (so_tree w) cs m (NFile pk (Some evs)) /\ joined cs name /\ ~ special (so_opt w) m /\ ev_ok evs /\
  ~ In name (map fst (so_left w)) /\ content = ev_content evs.
(** It does not have 2^63 files; less than [n] of its lines have the text. *)
Definition countable (w : source) : Prop := forall l : list str, NoDup l -> (forall name, In name l -> exists c, file_in w name c) -> (Z.of_nat (length l) < 2 ^ 63)%Z.
Definition few_lines_in (sf : N -> N) (ic : bool) (rs : list N) (w : source) (n : Z) : Prop := forall l : list (str * nat), NoDup l ->
  (forall name k, In (name, k) l -> exists c line, file_in w name c /\ line_with sf ic rs c k line) -> (Z.of_nat (length l) < n)%Z.

(** The entry of a file with this content. *)
Definition shows_file (sf : N -> N) (ic : bool) (rs : list N) (content : str) (f : file_match) : Prop :=
  exists blocks, CoalesceMatches (fm_hits f) = Some blocks /\ shows_text sf ic rs content blocks.
(** Only repositories asked for are on the page, once each, and of each at least one file; every
    entry is that of a file of the working copy with the text, no file has two; every repository
    with the text in a file to be found is there. *)
Definition page_of_sources (sf : N -> N) (src : str -> source) (known : str -> Prop) (p : params) (ic : bool) (rs : list N) (res : list result) : Prop :=
  NoDup (map r_repo res) /\
  (forall x, In x res -> asked known p (r_repo x) /\ r_matches x <> [] /\ NoDup (map fm_name (r_matches x)) /\
     forall f, In f (r_matches x) -> exists c, file_in (src (r_repo x)) (fm_name f) c /\ (exists k line, line_with sf ic rs c k line) /\ shows_file sf ic rs c f) /\
  (forall r name c k line, asked known p r -> held_in (src r) name c -> line_with sf ic rs c k line -> In r (map r_repo res)).
(** Every file to be found that has the text is on the page. *)
Definition all_of_sources (sf : N -> N) (src : str -> source) (known : str -> Prop) (p : params) (ic : bool) (rs : list N) (res : list result) : Prop :=
  forall r name c k line, asked known p r -> held_in (src r) name c -> line_with sf ic rs c k line ->
  exists x f, In x res /\ r_repo x = r /\ In f (r_matches x) /\ fm_name f = name /\ shows_file sf ic rs c f.
