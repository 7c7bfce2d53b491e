(** What hound should print of the sources of several repositories for a text. *)
From Verif Require Import Model.Base Spec.GrepSpec Spec.LiteralSpec Spec.PresentSpec Spec.WholeSpec Spec.WrittenSpec.
Local Open Scope N_scope.

(** A file with the text. *)
Definition with_text (sf : N -> N) (ic : bool) (rs : list N) (content : str) : Prop := exists k line, line_with sf ic rs content k line.
(** Its name, and its lines at most [ctx] lines away from one with the text; the latter are marked. *)
Definition file_printed (ctx : nat) (sf : N -> N) (ic : bool) (rs : list N) (f : str * str) (s : str) : Prop :=
  exists lines gs ts, file_lines (snd f) lines /\ rows_shown ctx lines (fun k => exists line, line_with sf ic rs (snd f) k line) (List.concat gs) /\
    Forall2 (group_text (Z.of_nat ctx)) gs ts /\ s = fst f ++ [10] ++ List.concat ts ++ [10].
(** The name of the repository, and its files with the text, each once: none but those of the
    working copy, and all that have to be found. *)
Definition repo_printed ctx sf ic rs (src : str -> source) (names : str -> str) (r s : str) : Prop :=
  exists fs ts, fs <> [] /\ NoDup (map fst fs) /\
    (forall name c, In (name, c) fs -> file_in (src r) name c /\ with_text sf ic rs c) /\
    (forall name c, held_in (src r) name c -> with_text sf ic rs c -> In (name, c) fs) /\
    Forall2 (file_printed ctx sf ic rs) fs ts /\ s = names r ++ [10] ++ List.concat ts.
(** No repository that is not selected, each once, and every one with the text in a file that has to be found. *)
Definition sources_printed ctx sf ic rs (src : str -> source) (names : str -> str) (selected : str -> Prop) (s : str) : Prop :=
  exists rl ts, NoDup rl /\ (forall r, In r rl -> selected r) /\
    (forall r name c, selected r -> held_in (src r) name c -> with_text sf ic rs c -> In r rl) /\
    Forall2 (repo_printed ctx sf ic rs src names) rl ts /\ s = List.concat ts.
