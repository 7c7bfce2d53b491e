(** Results with the bytes that are not UTF-8 replaced (Spec/JsonSpec.v) and otherwise the
    same. *)
From Verif Require Import Model.Base Model.Grep Model.Search Spec.ApiSpec Spec.Utf8Spec Spec.JsonSpec.
Local Open Scope N_scope.

Record hit_arrived (h h' : hit) : Prop := {
  ha_line : replaced (h_line h) (h_line h');
  ha_no : h_no h' = h_no h;
  ha_before : Forall2 replaced (h_before h) (h_before h');
  ha_after : Forall2 replaced (h_after h) (h_after h')
}.
Record file_arrived (f f' : file_match) : Prop := {
  fa_name : replaced (fm_name f) (fm_name f');
  fa_hits : Forall2 hit_arrived (fm_hits f) (fm_hits f');
  fa_auto : fm_auto f' = fm_auto f
}.
(** The number of files opened is not sent. *)
Record response_arrived (r r' : response) : Prop := {
  ra_matches : Forall2 file_arrived (rs_matches r) (rs_matches r');
  ra_found : rs_found r' = rs_found r;
  ra_opened : rs_opened r' = 0%Z;
  ra_rev : replaced (rs_rev r) (rs_rev r')
}.

(** The texts consist of bytes, the numbers are ints. *)
Definition hit_sent (h : hit) : Prop :=
  Forall is_byte (h_line h) /\ (Z.of_nat (h_no h) < 2 ^ 63)%Z /\
  Forall (Forall is_byte) (h_before h) /\ Forall (Forall is_byte) (h_after h).
Definition file_sent (f : file_match) : Prop := Forall is_byte (fm_name f) /\ Forall hit_sent (fm_hits f).
Definition response_sent (r : response) : Prop :=
  Forall file_sent (rs_matches r) /\ (- 2 ^ 63 <= rs_found r < 2 ^ 63)%Z /\ Forall is_byte (rs_rev r).

(** All texts are UTF-8. *)
Definition hit_valid (h : hit) : Prop :=
  valid_utf8 (h_line h) /\ Forall valid_utf8 (h_before h) /\ Forall valid_utf8 (h_after h).
Definition file_valid (f : file_match) : Prop := valid_utf8 (fm_name f) /\ Forall hit_valid (fm_hits f).
Definition response_valid (r : response) : Prop := Forall file_valid (rs_matches r) /\ valid_utf8 (rs_rev r).

(** A repository with its results; the statistics. *)
Definition result_sent (p : str * response) : Prop := Forall is_byte (fst p) /\ valid_utf8 (fst p) /\ response_sent (snd p).
Definition result_arrived (p p' : str * response) : Prop := fst p' = fst p /\ response_arrived (snd p) (snd p').
Definition stats_sent (stats : option (Z * Z)) : Prop :=
  match stats with None => True | Some (o, d) => int64_range o /\ int64_range d end.
