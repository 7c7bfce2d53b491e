(** C37: request parameters are clamped. [def] is the result limit of the configuration;
    the server does not clamp it ([_refuted]), so the bounds on the limit are for
    configurations within them. *)
From Verif Require Import Model.Base Model.GoStr Model.Config Model.Reader Model.Matcher Model.Query Model.Search
  Model.Api Spec.ApiSpec Spec.Names Proofs.SearchProofs Proofs.SearchTop Proofs.SearchExample Proofs.ApiProofs.
Local Open Scope Z_scope.

Theorem C37_parameters_partial : forall form idx def, let q := read_search form idx def in
  ((q_ctx q <= 20)%N /\
   (forall v, decimal (form (text "ctx")) v -> (v < 2 ^ 54)%N -> q_ctx q = N.min v 20) /\
   ((forall v, decimal (form (text "ctx")) v -> (2 ^ 54 <= v)%N) -> q_ctx q = 2%N)) /\
  ((forall z, signed (form (text "limit")) z -> int64_range z -> q_max q = Z.max (-1) (Z.min z 100000)) /\
   ((forall z, signed (form (text "limit")) z -> ~ int64_range z) -> q_max q = def) /\
   (-1 <= def <= 100000 -> -1 <= q_max q <= 100000)) /\
  page (form (text "rng")) (q_offset q) (q_limit q).
Proof. exact read_parameters. Qed.
Print Assumptions C37_parameters_partial.

(** Which parameter is which. *)
Theorem C37_fields : forall form idx def, let q := read_search form idx def in
  q_query q = form (text "q") /\ q_files q = form (text "files") /\ q_exclude q = form (text "excludeFiles") /\
  (q_icase q = true <-> yes (form (text "i"))) /\ (q_literal q = true <-> yes (form (text "literal"))) /\
  (q_stats q = true <-> yes (form (text "stats"))) /\
  (forall w name, trimmed (form (text "repos")) w ->
     (In name (q_repos q) <-> In name (map fst idx) /\ (w = [42%N] \/ element w name))).
Proof. exact read_fields. Qed.
Print Assumptions C37_fields.

(** Whatever the parameters, a search that can be carried out succeeds. *)
Theorem C37_search_partial : forall form idx def fuel p fp xp auto rev ix raw q re fre xre docs,
  searchable fuel p fp xp ix raw q re fre xre docs ->
  exists r, search fuel (request_opts (read_search form idx def)) raw auto rev ix q re fre xre = Some (Some r).
Proof. exact request_succeeds. Qed.
Print Assumptions C37_search_partial.

(** A configured limit beyond the maximum is used as it is. *)
Theorem C37_configured_limit_refuted : exists def, 100000 < def /\
  forall form idx, form (text "limit") = [] -> q_max (read_search form idx def) = def.
Proof.
  exists 200000. split; [lia|]. intros form idx H. unfold read_search. change (text "limit") with f_limit in H. rewrite H.
  destruct (parseRangeValue (form f_rng)). reflexivity.
Qed.
Print Assumptions C37_configured_limit_refuted.

(** rng=1:18446744073709551615, ctx=99, limit=-7 *)
Definition ex_form (f : str) : str :=
  if str_eqb f (text "rng") then [49; 58; 49; 56; 52; 52; 54; 55; 52; 52; 48; 55; 51; 55; 48; 57; 53; 53; 49; 54; 49; 53]%N
  else if str_eqb f (text "ctx") then [57; 57]%N
  else if str_eqb f (text "limit") then [45; 55]%N
  else [].
Example C37_example : let q := read_search ex_form [] 5000 in
  q_offset q = 1 /\ q_limit q = -1 /\ q_ctx q = 20%N /\ q_max q = -1 /\
  searchable 1100 ex_prog None None ex_ix ex_raw ex_query ex_re None None ex_docs.
Proof. split; [|split; [|split; [|split]]]; try (vm_compute; reflexivity). apply ex_searchable; exact I. Qed.
