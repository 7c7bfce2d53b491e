(** C45: display names of repositories. They can be computed for every URL except those
    whose only "/" is the first character ([/name]), where the slice uri[:ax-1] panics. *)
From Verif Require Import Model.Base Model.GoStr Model.Config Model.Client Proofs.GoStrProofs Proofs.NameProofs.
Local Open Scope nat_scope.

Theorem C45_url_partial : forall uri, ~ (exists rest, uri = 47%N :: rest /\ ~ In 47%N rest) ->
  exists name, repoNameFromUrl uri = Some name.
Proof. exact url_name. Qed.
Print Assumptions C45_url_partial.

Theorem C45_name_partial : forall repos name,
  (forall r, get repos name = Some (Some r) -> r_display r = [] ->
     ~ (exists rest, r_url r = 47%N :: rest /\ ~ In 47%N rest)) ->
  name <> [] -> exists n, repoNameFor repos name = Some n /\ n <> [].
Proof. exact repo_name. Qed.
Print Assumptions C45_name_partial.

(** What the name is: the last two components, without ".git". *)
Theorem C45_last_two_partial : forall host owner name,
  owner <> [] -> ~ In 47%N owner -> ~ In 47%N name -> has_suffix name dot_git = false ->
  repoNameFromUrl (host ++ 47%N :: owner ++ 47%N :: name) = Some (owner ++ 47%N :: name) /\
  repoNameFromUrl (host ++ 47%N :: owner ++ 47%N :: name ++ dot_git) = Some (owner ++ 47%N :: name).
Proof. exact last_two. Qed.
Print Assumptions C45_last_two_partial.

Theorem C45_root_refuted : exists uri, repoNameFromUrl uri = None.
Proof. exists [47; 97]%N. reflexivity. Qed.
Print Assumptions C45_root_refuted.

(** For every such URL, not just one. *)
Theorem C45_exactly : forall uri, repoNameFromUrl uri = None <->
  exists rest, uri = 47%N :: rest /\ ~ In 47%N rest.
Proof. exact url_name_none. Qed.
Print Assumptions C45_exactly.

(** "http://h/o/n.git" gives "o/n". *)
Example C45_example : repoNameFromUrl [104;47;47;104;47;111;47;110;46;103;105;116]%N = Some [111;47;110]%N.
Proof. reflexivity. Qed.
