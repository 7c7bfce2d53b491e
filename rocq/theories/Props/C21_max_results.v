(** C21: at most MaxResults matches, and they are a prefix of those found without it. *)
From Verif Require Import Model.Base Model.Query Model.Reader Model.Matcher Model.Grep Model.Search
  Spec.SearchSpec Proofs.SearchProofs Proofs.SearchTop Proofs.SearchExample.
Local Open Scope Z_scope.

Theorem C21_max_results : forall fuel o p fp xp auto rev ix raw q re fre xre docs, 0 < o_max o ->
  searchable fuel p fp xp ix raw q re fre xre docs ->
  exists r r0, search fuel o raw auto rev ix q re fre xre = Some (Some r) /\
    search fuel (mkOpts (o_nctx o) (o_offset o) (o_limit o) 0) raw auto rev ix q re fre xre = Some (Some r0) /\
    flat (rs_matches r) = firstn (Z.to_nat (o_max o)) (flat (rs_matches r0)) /\
    Z.of_nat (length (flat (rs_matches r))) <= o_max o /\
    Forall (fun f => has_hits f = true) (rs_matches r) /\
    map fm_name (rs_matches r) = firstn (length (rs_matches r)) (map fm_name (rs_matches r0)).
Proof. exact max_results. Qed.
Print Assumptions C21_max_results.

(** The cut falls inside file a, at its end, and nowhere. *)
Example C21_example :
  searchable 1100 ex_prog None None ex_ix ex_raw ex_query ex_re None None ex_docs /\
  ex_names (mkOpts 0 0 0 1) None None = Some ([([97%N], [1%nat])], 1) /\
  ex_names (mkOpts 0 0 0 2) None None = Some ([([97%N], [1; 3]%nat)], 1) /\
  ex_names (mkOpts 0 0 0 3) None None = Some ([([97%N], [1; 3]%nat); ([99%N], [1%nat])], 2).
Proof. split; [apply ex_searchable; exact I|]. vm_compute. repeat split; reflexivity. Qed.
