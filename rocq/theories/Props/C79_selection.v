(** C79: the repositories selected on the page are the ones searched. *)
From Verif Require Import Model.Base Model.Config Model.Api Model.PageState Model.PageSelect Spec.ApiSpec Spec.Names
  Proofs.GoStrProofs Proofs.SelectProofs.
From Coq Require Import Lia.
Local Open Scope N_scope.

(** ValidRepos keeps the known ones, each once. *)
Theorem C79_valid_partial : forall all repos, Forall (fun r => ~ In r inherited) repos ->
  NoDup (ValidRepos all repos) /\ forall r, In r (ValidRepos all repos) <-> In r repos /\ In r all.
Proof.
  intros all repos F. destruct (valid_in all repos [] F) as (A & B). split; [exact A|]. intros r. rewrite (B r). cbn [In]. tauto.
Qed.
Print Assumptions C79_valid_partial.

(** From the form to the server: those selected are searched, all if none is selected. A
    [fine] name is not empty, not a star, has no comma and no white space around it. *)
Theorem C79_searched_partial : forall idx sel p, NoDup (map fst idx) -> Forall fine (map fst idx) -> Forall (fun r => ~ In r inherited) (map fst idx) ->
  incl sel (map fst idx) -> get_param p (text "repos") = Some (selected_repos (map fst idx) sel) ->
  exists v, get_param (search_params p) (text "repos") = Some v /\
  forall r, In r (parseAsRepoList v idx) <-> In r (map fst idx) /\ (In r sel \/ sel = []).
Proof. exact select_searched. Qed.
Print Assumptions C79_searched_partial.

Definition r0 : repo := mkRepo [] [] 0 [] None None false None None None.
Definition sent_for (idx : list (str * repo)) (sel : list str) : option str :=
  get_param (search_params [(text "q", text "a"); (text "repos", selected_repos (map fst idx) sel)]) (text "repos").
(** A repository with the name of something every object has cannot be selected: everything
    is searched. *)
Theorem C79_prototype_refuted : exists idx v, map fst idx = [text "constructor"; text "b"] /\
  sent_for idx [text "constructor"] = Some v /\ In (text "b") (parseAsRepoList v idx).
Proof.
  exists [(text "constructor", r0); (text "b", r0)]. eexists. split; [reflexivity|]. split; [vm_compute; reflexivity|]. vm_compute. right. left. reflexivity.
Qed.
Print Assumptions C79_prototype_refuted.

(** A name with a comma: another repository is searched; one with a space before it: none. *)
Theorem C79_comma_refuted : exists idx v, map fst idx = [text "a,b"; text "b"; text "c"] /\
  sent_for idx [text "a,b"] = Some v /\ parseAsRepoList v idx = [text "b"].
Proof.
  exists [(text "a,b", r0); (text "b", r0); (text "c", r0)]. eexists. split; [reflexivity|]. split; vm_compute; reflexivity.
Qed.
Print Assumptions C79_comma_refuted.
Theorem C79_space_refuted : exists idx v, map fst idx = [text " a"; text "b"] /\
  sent_for idx [text " a"] = Some v /\ parseAsRepoList v idx = [].
Proof. exists [(text " a", r0); (text "b", r0)]. eexists. split; [reflexivity|]. split; vm_compute; reflexivity. Qed.
Print Assumptions C79_space_refuted.

(** Two of three; all of them; none. *)
Example C79_example : let idx := [(text "x/a", r0); (text "b c", r0); (text "d", r0)] in
  Forall fine (map fst idx) /\ Forall (fun r => ~ In r inherited) (map fst idx) /\ NoDup (map fst idx) /\
  sent_for idx [text "b c"; text "d"; text "b c"] = Some (text "b c,d") /\ parseAsRepoList (text "b c,d") idx = [text "b c"; text "d"] /\
  sent_for idx [text "d"; text "b c"; text "x/a"] = Some (text "*") /\ sent_for idx [] = Some (text "*").
Proof.
  cbv zeta. split; [|split; [|split]].
  - assert (T : forall s, GoStr.trim_space s = s -> trimmed s s) by (intros s E; rewrite <- E at 2; apply trim_space_ok).
    repeat (constructor; [split; [discriminate|]; split; [discriminate|]; split; [apply T; vm_compute; reflexivity|intros X; vm_compute in X; intuition discriminate]|]). constructor.
  - repeat (constructor; [intros X; vm_compute in X; intuition discriminate|]). constructor.
  - repeat (constructor; [intros X; vm_compute in X; intuition discriminate|]). constructor.
  - vm_compute. repeat split; reflexivity.
Qed.
