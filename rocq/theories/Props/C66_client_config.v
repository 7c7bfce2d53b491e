(** C66: which server the client asks, and the headers it sends: the files /etc/hound.conf and
    ~/.hound, the later one first, then the flag. *)
From Verif Require Import Model.Base Model.Config Model.Json Model.Request Model.ClientConf
  Spec.Names Spec.ConfigSpec Spec.JsonGrammar Spec.ClientConfSpec
  Proofs.StrLemmas Proofs.ClientConfProofs Proofs.ClientRequest.
From Coq Require Import Permutation.
Local Open Scope N_scope.

(** With valid files. *)
Theorem C66_config : forall fs home d flag start etc own,
  start_host d flag start ->
  file_members json_string (fs (text "/etc/hound.conf")) etc -> file_members json_string (fs (home ++ text "/.hound")) own ->
  Forall config_member (etc ++ own) ->
  exists c, client_config fs (Some home) d flag = Some c /\
    host_said start (etc ++ own) (cc_host c) /\
    forall k x, get (headers_of c) k = Some x <-> header_said (etc ++ own) k x.
Proof. exact config_loaded. Qed.
Print Assumptions C66_config.

(** Whenever the client goes on, the files were valid (up to replaced characters). *)
Theorem C66_refusal : forall fs home d flag start c, start_host d flag start -> (forall p, file_bytes (fs p)) ->
  client_config fs (Some home) d flag = Some c ->
  exists etc own, file_members lax_string (fs (text "/etc/hound.conf")) etc /\ file_members lax_string (fs (home ++ text "/.hound")) own /\
    Forall config_member (etc ++ own) /\
    host_said start (etc ++ own) (cc_host c) /\
    forall k x, get (headers_of c) k = Some x <-> header_said (etc ++ own) k x.
Proof. exact config_found. Qed.
Print Assumptions C66_refusal.

(** Both requests, of the search and of the repositories, carry every header, in whatever order Go
    visits the map, and go to the host of the files or the flag (the search: at the address
    of C54). Missing: names that differ in case only. *)
Theorem C66_request_partial : forall fs home d flag start l c order,
  client_config fs home d flag = Some c -> describes start l c -> Permutation order (headers_of c) -> no_clash (header_said l) ->
  (forall pattern repos files ctx ic st,
     let q := search_request order (cc_host c) pattern repos files ctx ic st in
     carries (header_said l) q /\ rq_uri q = search_url (cc_host c) pattern repos files ctx ic st) /\
  (let q := repos_request order (cc_host c) in
   carries (header_said l) q /\ rq_uri q = text "http://" ++ cc_host c ++ text "/api/v1/repos").
Proof.
  intros fs home d flag start l c order A B C D. split.
  - intros. exact (requests fs home d flag start l c order (search_url (cc_host c) pattern repos files ctx ic st) A B C D).
  - exact (requests fs home d flag start l c order _ A B C D).
Qed.
Print Assumptions C66_request_partial.

(** The address does not depend on the headers. *)
Theorem C66_repos_address : forall order host, rq_uri (repos_request order host) = text "http://" ++ host ++ text "/api/v1/repos".
Proof. intros order host. apply get_uri. Qed.
Print Assumptions C66_repos_address.

Definition clashing : str := text "{""http-headers"": {""x-a"": ""1"", ""X-A"": ""2""}}".
Definition clash_fs (p : str) : file := if str_eqb p (text "/root/.hound") then Content clashing else Missing.
Theorem C66_request_refuted : exists fs home d flag c order order' n,
  client_config fs home d flag = Some c /\ Permutation order (headers_of c) /\ Permutation order' (headers_of c) /\
  forall uri, get (rq_header (doHttpGet order uri)) n <> get (rq_header (doHttpGet order' uri)) n.
Proof.
  exists clash_fs, (Some (text "/root")), [], None, (mkCC (Some [(text "x-a", text "1"); (text "X-A", text "2")]) (text "localhost:6080")),
    [(text "x-a", text "1"); (text "X-A", text "2")], [(text "X-A", text "2"); (text "x-a", text "1")], (text "X-A").
  split; [vm_compute; reflexivity|]. split; [apply Permutation_refl|]. split; [apply perm_swap|]. intros uri. discriminate.
Qed.
Print Assumptions C66_request_refuted.

(** A given flag is overruled by a file, null removes earlier headers, a header of the host
    goes elsewhere. *)
Definition example_fs (p : str) : file :=
  if str_eqb p (text "/etc/hound.conf") then
    Content (text "{""http-headers"": {""X-Old"": ""1""}, ""host"": ""a:1"", ""other"": [{}]}")
  else if str_eqb p (text "/home/u/.hound") then
    Content (text " {""HTTP-Headers"": null, ""http-headers"": {""x-TOKEN"": ""t"", ""Host"": ""h""}, ""Host"": ""b:2"", ""host"": null} ")
  else Missing.
Example C66_example :
  let c := mkCC (Some [(text "x-TOKEN", text "t"); (text "Host", text "h")]) (text "b:2") in
  client_config example_fs (Some (text "/home/u")) [] (Some (text "flag:9")) = Some c /\
  doHttpGet (headers_of c) (text "u") = mkReq (text "u") (Some (text "h")) [(text "X-Token", [text "t"])] /\
  no_clash (listed (headers_of c)).
Proof.
  split; [vm_compute; reflexivity|]. split; [vm_compute; reflexivity|].
  intros k x k' x' [A|[A|[]]] [B|[B|[]]]; try congruence.
  - intros [(n & S1 & S2)|[H1 _]].
    + apply sent_ok in S1, S2. assert (k = text "x-TOKEN") as -> by congruence. assert (k' = text "Host") as -> by congruence.
      vm_compute in S1. vm_compute in S2. congruence.
    + exfalso. assert (k = text "x-TOKEN") as -> by congruence. apply any_length in H1. discriminate.
  - intros [(n & S1 & S2)|[_ H1]].
    + apply sent_ok in S1, S2. assert (k' = text "x-TOKEN") as -> by congruence. assert (k = text "Host") as -> by congruence.
      vm_compute in S1. vm_compute in S2. congruence.
    + exfalso. assert (k' = text "x-TOKEN") as -> by congruence. apply any_length in H1. discriminate.
Qed.
(** With no file at all. *)
Example C66_default : client_config (fun _ => Missing) (Some []) [] None = Some (mkCC None (text "localhost:6080")).
Proof. vm_compute. reflexivity. Qed.
