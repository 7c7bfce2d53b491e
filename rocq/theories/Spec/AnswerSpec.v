(** The JSON of an answer, by the names of its members. *)
From Verif Require Import Model.Base Model.Json Model.Grep Model.Search Spec.Names Spec.ApiSpec Spec.JsonSpec Spec.OfferSpec.
Local Open Scope N_scope.

(** A list of Go that is nil when it is empty. *)
Definition slice_read {A} (rd : A -> jv -> Prop) (l : list A) (v : jv) : Prop :=
  (l = [] /\ v = VNull) \/ (l <> [] /\ list_read rd l v).
Definition match_read (h : hit) (v : jv) : Prop :=
  exists a b c d, v = VObj [(text "Line", a); (text "LineNumber", b); (text "Before", c); (text "After", d)] /\
    text_read (h_line h) a /\ int_read (Z.of_nat (h_no h)) b /\ list_read text_read (h_before h) c /\ list_read text_read (h_after h) d.
Definition file_read (f : file_match) (v : jv) : Prop :=
  exists a b c, v = VObj [(text "Filename", a); (text "Matches", b); (text "AutoGenerated", c)] /\
    text_read (fm_name f) a /\ slice_read match_read (fm_hits f) b /\ bool_read (fm_auto f) c.
Definition response_read (r : response) (v : jv) : Prop :=
  exists a b c, v = VObj [(text "Matches", a); (text "FilesWithMatch", b); (text "Revision", c)] /\
    slice_read file_read (rs_matches r) a /\ int_read (rs_found r) b /\ text_read (rs_rev r) c.
Definition results_read (l : list (str * response)) (v : jv) : Prop :=
  exists m, v = VObj m /\ Forall2 (fun p q => fst q = fst p /\ response_read (snd p) (snd q)) l m.
Definition stats_read (st : Z * Z) (v : jv) : Prop :=
  exists a b, v = VObj [(text "FilesOpened", a); (text "Duration", b)] /\ int_read (fst st) a /\ int_read (snd st) b.
Definition answer_read (results : list (str * response)) (stats : option (Z * Z)) (v : jv) : Prop :=
  match stats with
  | None => exists a, v = VObj [(text "Results", a)] /\ results_read results a
  | Some st => exists a b, v = VObj [(text "Results", a); (text "Stats", b)] /\ results_read results a /\ stats_read st b
  end.
Definition error_read (err : str) (v : jv) : Prop := exists a, v = VObj [(text "Error", a)] /\ text_read err a.
