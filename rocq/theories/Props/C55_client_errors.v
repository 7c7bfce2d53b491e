(** C55: failures reach the user of the command line client. The client waits for both of
    its requests, in every schedule, and returns an error if one of them fails or the
    search is answered with another status than 200 ([_partial]). But the server answers a
    search that failed with status 200, and the client takes this for a search without
    matches ([_refuted]). *)
From Verif Require Import Model.Base Model.GoStr Model.Config Model.Api Model.Present Model.ClientRun Spec.Names Proofs.ClientRunProofs.
Local Open Scope Z_scope.

(** Every run takes four steps, is not stuck before, and leaves no goroutine behind. *)
Theorem C55_runs : forall (M E P : Type) (a : reply M E) (l : listing_reply E P) none n s, cruns a l none n s ->
  (n <= 4)%nat /\
  ((n < 4)%nat -> (forall r, c_main s <> Returned r) /\ exists s', cstep a l s s') /\
  (n = 4%nat -> g_search s = Over /\ g_list s = Over /\ exists r, c_main s = Returned r /\
    (forall res rep, r = inl (res, rep) <-> Search a empty_response = inl res /\ LoadRepos l = inl rep) /\
    (forall e, r = inr e -> Search a empty_response = inr e \/ LoadRepos l = inr e)).
Proof.
  intros M E P a l none n s R. destruct (client_runs a l none n s R) as (A & B & C).
  split; [exact A|]. split; [exact C|]. intros ->. destruct (B eq_refl) as (D & F & _).
  split; [exact D|]. split; [exact F|]. exact (client_result M E P a l none s R).
Qed.
Print Assumptions C55_runs.

(** A result is only returned for a search answered with status 200 and an object, and for
    a list of repositories that could be read; results of the server arrive as they are. *)
Theorem C55_reported_partial : forall (M E P : Type) (a : reply M E) (l : listing_reply E P) none s res rep,
  cruns a l none 4 s -> c_main s = Returned (inl (res, rep)) ->
  (exists fields, a = Reply 200 (Object fields)) /\ (exists status, l = Listing status (Some rep)) /\
  (forall stats results n, a = search_answer stats (inl (results, n)) ->
     res_results res = Some results /\ res_stats res = if stats then Some n else None).
Proof.
  intros M E P a l none s res rep R C. destruct (client_result M E P a l none s R) as (r & X & Y & _).
  assert (r = inl (res, rep)) by congruence. subst r. destruct (proj1 (Y res rep) eq_refl) as [S L].
  split; [exact (search_reported _ _ _ _ S)|]. split.
  - destruct l as [e|st [p|]]; cbn [LoadRepos] in L; try discriminate. exists st. congruence.
  - intros stats results n ->. rewrite answer_decoded in S. injection S as <-. split; reflexivity.
Qed.
Print Assumptions C55_reported_partial.

(** The names in the answers, as docs and pages use them. *)
Theorem C55_members : forall (M E : Type),
  (forall stats results n, exists fields, search_answer (M:=M) (E:=E) stats (inl (results, n)) = Reply 200 (Object fields) /\
     forall k v, In (k, v) fields <-> (k = text "Results" /\ v = FResults results) \/ (stats = true /\ k = text "Stats" /\ v = FStats n)) /\
  (forall stats err, search_answer (M:=M) (E:=E) stats (inr err) = Reply 200 (Object [(text "Error", FText err)])).
Proof.
  intros M E. split; [|reflexivity]. intros stats results n. eexists. split; [reflexivity|]. intros k v.
  destruct stats; cbn [In]; split.
  - intros [X|[X|[]]]; injection X as <- <-; auto.
  - intros [[-> ->]|[_ [-> ->]]]; auto.
  - intros [X|[]]; injection X as <- <-; auto.
  - intros [[-> ->]|[X _]]; [auto|discriminate].
Qed.
Print Assumptions C55_members.

(** Whatever error the search ends with: the client returns an empty result and prints
    nothing, as it does for a search without matches. *)
Theorem C55_failed_search : forall (M E P : Type) (arrivals : list (str * (answer M + E))) err stats status (rep none : P),
  searchAll arrivals = inr err ->
  exists s, cruns (search_answer stats (searchAll arrivals)) (Listing status (Some rep)) none 4 s /\
    c_main s = Returned (inl (empty_response, rep)) /\
    forall en find fails ctx repos, Present en find fails ctx repos [] = ([], Done).
Proof.
  intros M E P arrivals err stats status rep none H. rewrite H. eexists. split; [|split; [|reflexivity]].
  - eapply cr_step; [eapply cr_step; [eapply cr_step; [eapply cr_step; [apply cr_start|]|]|]|].
    + apply st_search. reflexivity.
    + apply st_list. reflexivity.
    + apply st_recv_s.
    + apply st_recv_r.
  - reflexivity.
Qed.
Print Assumptions C55_failed_search.

Theorem C55_failed_search_refuted : exists (arrivals : list (str * (answer nat + nat))) s,
  (exists err, searchAll arrivals = inr err) /\
  cruns (search_answer true (searchAll arrivals)) (Listing 200 (Some 1%nat)) 0%nat 4 s /\
  c_main s = Returned (inl (empty_response, 1%nat)).
Proof.
  destruct (C55_failed_search nat nat nat [([97%N], inl (mkAns (Some 7%nat) 3)); ([98%N], inr 5%nat)] 5%nat true 200 1%nat 0%nat eq_refl)
    as (s & A & B & _).
  exists [([97%N], inl (mkAns (Some 7%nat) 3)); ([98%N], inr 5%nat)], s. split; [exists 5%nat; reflexivity|]. split; assumption.
Qed.
Print Assumptions C55_failed_search_refuted.

(** One of two repositories fails: everything is lost, no error is shown. *)
Example C55_example :
  searchAll [([97%N], inl (mkAns (Some 7%nat) 3)); ([98%N], inr 5%nat)] = inr 5%nat /\
  Search (search_answer true (searchAll [([97%N], inl (mkAns (Some 7%nat) 3)); ([98%N], inr 5%nat)])) empty_response =
    inl empty_response /\
  Search (search_answer true (searchAll [([97%N], inl (B:=nat) (mkAns (Some 7%nat) 3))])) empty_response =
    inl (mkResp (Some [([97%N], mkAns (Some 7%nat) 3)]) (Some 3)) /\
  Search (M:=nat) (E:=nat) (Reply 503 Garbage) empty_response = inr (CStatus 503).
Proof. repeat split. Qed.
