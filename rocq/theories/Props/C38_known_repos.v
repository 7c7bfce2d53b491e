(** C38: the repository list of a request selects exactly the known repositories it names.
    The order of [idx] is arbitrary, as is that of a Go map. The handler for excluded files,
    which takes a single repository, does fail for an unknown one ([_refuted]). *)
From Verif Require Import Model.Base Model.GoStr Model.Config Model.Api Spec.ApiSpec Spec.Names Proofs.GoStrProofs Proofs.ApiProofs.
Local Open Scope Z_scope.

(** [w]: the list without surrounding white space; it exists and is unique. *)
Theorem C38_list_partial : forall v idx, exists w, trimmed v w /\ (forall w', trimmed v w' -> w' = w) /\
  forall name, In name (parseAsRepoList v idx) <-> In name (map fst idx) /\ (w = [42%N] \/ element w name).
Proof.
  intros v idx. exists (trim_space v). split; [apply trim_space_ok|].
  split; [intros w' T; exact (trimmed_unique _ _ _ T (trim_space_ok v))|].
  intros name. apply repo_list. apply trim_space_ok.
Qed.
Print Assumptions C38_list_partial.

(** The searches that are started: no nil searcher is used, and they are for those
    repositories. *)
Theorem C38_search_partial : forall form idx def,
  exists l, start_searches idx (q_repos (read_search form idx def)) = Some l /\
    Forall (fun e => get idx (fst e) = Some (snd e)) l /\
    forall w name, trimmed (form (text "repos")) w ->
      (In name (map fst l) <-> In name (map fst idx) /\ (w = [42%N] \/ element w name)).
Proof. exact searches_started. Qed.
Print Assumptions C38_search_partial.

(** The handler for excluded files takes the repository named by [repo], or fails. *)
Theorem C38_excludes_partial : forall form idx, let name := form (text "repo") in
  (In name (map fst idx) -> excludes_handler form idx = Some name) /\
  (~ In name (map fst idx) -> excludes_handler form idx = None).
Proof. exact excludes_named. Qed.
Print Assumptions C38_excludes_partial.

Theorem C38_excludes_refuted : exists form idx, idx <> [] /\ excludes_handler form idx = None.
Proof.
  exists (fun _ => text "b"), [(text "a", mkRepo [] [] 0 [] None None false None None None)]. split; [discriminate|reflexivity].
Qed.
Print Assumptions C38_excludes_refuted.

(** " a,x,b" of a, b, c; and " * ". *)
Definition ex_r : repo := mkRepo [] [] 0 [] None None false None None None.
Definition ex_idx : list (str * repo) := [([97%N], ex_r); ([98%N], ex_r); ([99%N], ex_r)].
Example C38_example :
  parseAsRepoList [32; 97; 44; 120; 44; 98]%N ex_idx = [[97%N]; [98%N]] /\
  parseAsRepoList [32; 42; 32]%N ex_idx = [[97%N]; [98%N]; [99%N]] /\
  parseAsRepoList [0xC2; 0xA0; 99; 0xE3; 0x80; 0x80]%N ex_idx = [[99%N]].
Proof. vm_compute. auto. Qed.
