(** What a line-oriented search of an input should pass on. *)
From Coq Require Import List NArith Sorted.
From Verif Require Import Spec.MatchSpec Spec.GrepSpec.
Import ListNotations.

(** A text as lines with their newlines; only the last may have none, and none is empty. *)
Definition raw_lines (text : list N) (ls : list (list N)) : Prop :=
  concat ls = text /\ ~ In [] ls /\
  forall a l b, ls = a ++ l :: b -> exists w, ~ In 10%N w /\ (l = w ++ [10%N] \/ (b = [] /\ l = w)).

(** The matching lines with their numbers from 1, in order. *)
Definition numbered_matches (P : bool -> bool -> list N -> Prop) (text : list N) (out : list (list N * nat)) : Prop :=
  StronglySorted lt (map snd out) /\
  forall ls, raw_lines text ls ->
    forall l n, In (l, n) out <-> exists k, n = S k /\ nth_error ls k = Some l /\ line_matches P text k.

(** Every line fits into [cap] bytes with a newline. *)
Definition short_lines (cap : nat) (text : list N) : Prop :=
  forall pieces, splits text pieces -> Forall (fun l => length l < cap) pieces.

(** What the command line tool prints for the matching lines [out] of an input: -l the
    name, -c the number of lines, -n the lines with numbers, -h without the name. *)
Definition printed (dec : nat -> list N) (name : list N) (l c n h : bool) (out : list (list N * nat)) : list N :=
  let pre := if h then [] else name ++ [58%N] in
  match out with
  | [] => []
  | _ =>
      if l then name ++ [10%N]
      else if c then name ++ [58%N; 32%N] ++ dec (length out) ++ [10%N]
      else if n then concat (map (fun x => pre ++ dec (snd x) ++ [58%N] ++ fst x) out)
      else concat (map (fun x => pre ++ fst x) out)
  end.
