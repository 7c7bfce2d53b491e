(** What the command line client should print for an expression, in terms of the files. *)
From Verif Require Import Model.Base Model.Syntax Spec.RegexSpec Spec.ExprSpec Spec.MatchSpec Spec.GrepSpec Spec.ApiSpec Spec.PresentSpec.
From Coq Require Import Sorted.
Local Open Scope nat_scope.

(** Rows for a file with the given lines, of which those with [M] match: the lines at most
    [ctx] lines away from a match, each once, in order; a match is marked. If the first
    line is empty it is shown only as a match. *)
Definition rows_shown (ctx : nat) (lines : list str) (M : nat -> Prop) (rs : list row) : Prop :=
  StronglySorted (fun r r' => row_no r < row_no r')%Z rs /\
  forall no t mk, In (no, t, mk) rs <->
    exists k, no = Z.of_nat (S k) /\ nth_error lines k = Some t /\ (mk = true <-> M k) /\
      (exists k', k' < length lines /\ M k' /\ k' <= k + ctx /\ k <= k' + ctx) /\
      (k = 0 -> t = [] -> M 0).

(** A file is its name and its text. *)
Definition file_shown (ctx : nat) (sf : N -> N) (ex : regexp) (d : str * str) (s : str) : Prop :=
  exists lines gs ts, file_lines (snd d) lines /\ rows_shown ctx lines (expr_on_line sf ex (snd d)) (concat gs) /\
    Forall2 (group_text (Z.of_nat ctx)) gs ts /\ s = fst d ++ [10%N] ++ concat ts ++ [10%N].

(** Files are looked for by expression [ex] in their lines and [fe], if there is one, in
    their names. *)
Definition wanted (sf : N -> N) (ex : regexp) (fe : option regexp) (d : str * str) : Prop :=
  match fe with None => True | Some fe => exists k, expr_on_line sf fe (fst d) k end /\
  exists lines k, file_lines (snd d) lines /\ k < length lines /\ expr_on_line sf ex (snd d) k.

(** Repository: its name for display, then the wanted ones of its files, in their order. *)
Definition repo_shown ctx sf ex fe (docs : str -> list (str * str)) (names : str -> str) (r s : str) : Prop :=
  exists w ts, (forall d, In d (docs r) -> (w d = true <-> wanted sf ex fe d)) /\
    Forall2 (file_shown ctx sf ex) (filter w (docs r)) ts /\ s = names r ++ [10%N] ++ concat ts.

(** Every selected repository with a wanted file, once. *)
Definition output_shown ctx sf ex fe docs names (selected : str -> Prop) (s : str) : Prop :=
  exists rl ts, NoDup rl /\ (forall r, In r rl <-> selected r /\ exists d, In d (docs r) /\ wanted sf ex fe d) /\
    Forall2 (repo_shown ctx sf ex fe docs names) rl ts /\ s = concat ts.
