(** C64: the repositories offered to clients are those that can be searched, as they are
    configured. [idx]: the searchers, [errs]: the repositories that failed (C29). *)
From Coq Require Import Permutation.
From Verif Require Import Model.Base Model.Json Model.Config Model.Offer
  Spec.Names Spec.Utf8Spec Spec.OfferSpec Proofs.OfferProofs Proofs.MarkupProofs.
Local Open Scope N_scope.

(** The page and /api/v1/repos say the same, whatever the order of the maps. *)
Theorem C64_same : forall short repos idx errs, NoDup (map fst repos) -> searchers_of repos idx errs ->
  api_repos short idx = page_repos short (keep_good repos errs) ++ [10].
Proof. exact same_text. Qed.
Print Assumptions C64_same.

(** It is JSON for an object with one member for each searcher: what is configured for that
    repository. Names come from JSON, so they are UTF-8. *)
Theorem C64_repos : forall short idx, NoDup (map fst idx) ->
  Forall (fun p : str * repo => valid_utf8 (fst p) /\ Forall is_byte (fst p) /\ repo_bytes (snd p)) idx ->
  exists l, decode_json (api_repos short idx) = Some (VObj l, [10]) /\
    Permutation (map fst l) (map fst idx) /\
    forall name v, In (name, v) l -> exists r, In (name, r) idx /\ repo_read r v.
Proof. intros short idx. exact (repos_read short idx [10]). Qed.
Print Assumptions C64_repos.

(** No configured text can end the script element it is put into, or begin another. *)
Theorem C64_no_markup : forall short repos,
  Forall (fun p : str * option repo => Forall is_byte (fst p) /\ forall r, snd p = Some r -> repo_bytes r) repos ->
  Forall plain (page_repos short repos).
Proof. exact page_plain. Qed.
Print Assumptions C64_no_markup.

(** Three repositories, one of which failed. *)
Definition ex_a : repo := mkRepo (text "https://h/<a>") [] 30000 (text "git") (Some (text "secret")) (Some (mkUP (text "b") (text "c"))) true (Some false) None (Some [text "x.go"]).
Definition ex_b : repo := mkRepo (text "u") (text "B") (-1) (text "hg") None None false None (Some true) None.
Definition ex_repos : list (str * option repo) := [(text "b", Some ex_b); (text "bad", Some ex_a); (text "a", Some ex_a)].
Definition ex_idx : list (str * repo) := [(text "a", ex_a); (text "b", ex_b)].
Example C64_example :
  NoDup (map fst ex_repos) /\ searchers_of ex_repos ex_idx [text "bad"] /\
  api_repos true ex_idx =
    text "{""a"":{""url"":""https://h/\u003ca\u003e"",""display-name"":"""",""ms-between-poll"":30000,""vcs"":""git"",""vcs-config"":{},""url-pattern"":{""base-url"":""b"",""anchor"":""c""},""exclude-dot-files"":true,""enable-poll-updates"":false,""enable-push-updates"":null,""auto-generated-files"":[""x.go""]},""b"":{""url"":""u"",""display-name"":""B"",""ms-between-poll"":-1,""vcs"":""hg"",""vcs-config"":null,""url-pattern"":null,""exclude-dot-files"":false,""enable-poll-updates"":null,""enable-push-updates"":true,""auto-generated-files"":null}}" ++ [10].
Proof.
  split; [|split; [|vm_compute; reflexivity]].
  - repeat (apply NoDup_cons; [cbn; intuition discriminate|]). apply NoDup_nil.
  - split; [|split].
    + repeat (apply NoDup_cons; [cbn; intuition discriminate|]). apply NoDup_nil.
    + intros name. cbn [ex_repos ex_idx map fst app In]. tauto.
    + intros name r [E|[E|[]]]; injection E as <- <-; cbn [ex_repos In]; tauto.
Qed.
