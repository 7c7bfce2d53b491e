(** An index made from a working copy, and what a search for a text should return for it. *)
From Verif Require Import Model.Base Model.Grep Model.Writer Model.Reader Model.IndexDir Model.Search Model.Whole Spec.RunSpec Spec.IndexSpec Spec.Utf8Spec Spec.GrepSpec
  Spec.MatchSpec Spec.LiteralSpec Spec.TreeSpec Proofs.FillProofs Proofs.GrepTop Proofs.DirTop.
Local Open Scope N_scope.

(** The index [s] was built and opened from the working copy [nd] at revision [rev]; the files of
    [excl] were left out. The raw copies are read back as they were written. *)
Definition made_from (opt : iopts) (rname : str) (nd : node) (rev : str) (excl : list (str * reason)) (s : served) : Prop :=
  exists cap mk_ok cr_ok mem b raw, (1 <= cap)%nat /\
    index_all_files cap opt mk_ok cr_ok true mem rname nd = Some (Some (b, raw, excl)) /\ ix_open b = Some (sv_ix s) /\
    (forall name c, In (name, c) raw -> exists r, sv_raw s name = Some r /\ rd_ok r = true /\ rd_content r = c) /\ sv_rev s = rev.

(** Names and texts of files are UTF-8. *)
Definition utf8_tree (opt : iopts) (rname : str) (nd : node) : Prop :=
  forall cs m pk evs name, found opt rname nd cs m (NFile pk (Some evs)) -> joined cs name -> valid_utf8 name /\ valid_utf8 (ev_content evs).

(** Every line reported is in a file of the working copy and has the text; every line with the
    text is reported, if its file could be read and was not left out. *)
Definition finds_text (opt : iopts) (rname : str) (nd : node) (left_out : list (str * reason)) (sf : N -> N) (ic : bool) (rs : list N) (res : response) : Prop :=
  NoDup (map fm_name (rs_matches res)) /\
  (forall f k line, In f (rs_matches res) -> reported (fm_hits f) k line ->
     exists cs m pk evs, found opt rname nd cs m (NFile pk (Some evs)) /\ joined cs (fm_name f) /\ ~ hidden opt m /\ line_with sf ic rs (ev_content evs) k line) /\
  (forall cs m pk evs name k line, found opt rname nd cs m (NFile pk (Some evs)) -> joined cs name -> ~ special opt m -> ev_ok evs ->
     ~ In name (map fst left_out) -> line_with sf ic rs (ev_content evs) k line ->
     exists f, In f (rs_matches res) /\ fm_name f = name /\ reported (fm_hits f) k line).
(** The files left out were left out for a reason (C24). *)
Definition left_out_well (opt : iopts) (rname : str) (nd : node) (left_out : list (str * reason)) : Prop :=
  forall name why, In (name, why) left_out -> exists cs m x, found opt rname nd cs m x /\ joined cs name /\ ~ special opt m /\ justified opt m x why.
