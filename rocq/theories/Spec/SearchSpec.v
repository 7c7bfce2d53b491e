(** What a search of a list of documents should return. *)
From Verif Require Import Model.Base Model.Matcher Model.Grep Model.Search Spec.MatchSpec Spec.GrepSpec.
Local Open Scope nat_scope.

(** Entries [off] to [off+lim] of a list; a limit of zero or less is no limit. *)
Definition window {A} (off lim : Z) (l : list A) : list A :=
  if (0 <? lim)%Z then firstn (Z.to_nat lim) (skipn (Z.to_nat off) l) else skipn (Z.to_nat off) l.

(** The matches of a result as one list. *)
Definition flat (fs : list file_match) : list (str * hit) :=
  concat (map (fun f => map (fun h => (fm_name f, h)) (fm_hits f)) fs).

Definition has_hits (f : file_match) : bool := match fm_hits f with [] => false | _ => true end.

(** Some line of the name matches. *)
Definition name_hit (p : prog) (name : str) : Prop := exists k, line_matches (line_match p) name k.
