(** What is typed into the search bar. *)
From Verif Require Import Model.Base Model.PageState Model.PageAddress Spec.Utf8Spec Spec.AddressSpec Spec.FormSpec.

(** [s] in UTF-16 has the characters [rs]. *)
Definition characters (s : list N) (rs : list N) : Prop := exists us, Forall2 utf16 rs us /\ List.concat us = s.
(** The characters typed, without white space around them. *)
Definition typed (s : list N) (rs : list N) : Prop := exists t, within s t /\ characters t rs.
(** A form for a plain text: the box for it is checked, and there is nothing in the two fields
    for names of files. *)
Definition plain_form (f : search_form) (rs : list N) : Prop :=
  typed (sf_q f) rs /\ sf_literal f = true /\ Forall white (sf_files f) /\ Forall white (sf_exclude f) /\ well_formed (sf_repos f).
