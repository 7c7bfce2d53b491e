(** C20: offset and limit select a window of the unlimited result. [searchable]
    (Proofs/SearchTop.v): valid compiled expressions, and a lookup that returns files
    whose raw copies can be read. *)
From Verif Require Import Model.Base Model.Query Model.Reader Model.Matcher Model.Grep Model.Search
  Spec.SearchSpec Proofs.SearchProofs Proofs.SearchTop Proofs.SearchExample.
Local Open Scope Z_scope.

Theorem C20_pagination : forall fuel o p fp xp auto rev ix raw q re fre xre docs, o_max o <= 0 ->
  searchable fuel p fp xp ix raw q re fre xre docs ->
  exists r r0, search fuel o raw auto rev ix q re fre xre = Some (Some r) /\
    search fuel (unlimited (o_nctx o)) raw auto rev ix q re fre xre = Some (Some r0) /\
    rs_matches r = window (o_offset o) (o_limit o) (rs_matches r0) /\
    rs_found r = Z.of_nat (length (rs_matches r0)) /\ rs_found r0 = rs_found r.
Proof. exact pagination. Qed.
Print Assumptions C20_pagination.

Example C20_example :
  searchable 1100 ex_prog None None ex_ix ex_raw ex_query ex_re None None ex_docs /\
  ex_names (unlimited 0) None None = Some ([([97%N], [1; 3]%nat); ([99%N], [1%nat])], 2) /\
  ex_names (mkOpts 0 1 0 0) None None = Some ([([99%N], [1%nat])], 2) /\
  ex_names (mkOpts 0 0 1 0) None None = Some ([([97%N], [1; 3]%nat)], 2) /\
  ex_names (mkOpts 0 2 1 0) None None = Some ([], 2).
Proof. split; [apply ex_searchable; exact I|]. vm_compute. repeat split; reflexivity. Qed.
