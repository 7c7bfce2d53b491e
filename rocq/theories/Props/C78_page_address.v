(** C78: the address of a search. Text is UTF-16; [well_formed]: no surrogate stands alone. *)
From Verif Require Import Model.Base Model.PageState Model.PageAddress Spec.AddressSpec Spec.Names Proofs.StrLemmas Proofs.AddressProofs.
From Coq Require Import Lia.
Local Open Scope N_scope.

(** Reading an address: escapes of any letter case, and a plus for a space, as in the classic
    encoding of forms. A later name wins. *)
Theorem C78_reading : forall s l, query s l -> forall p, ParamsFromQueryString (63 :: s) p = Some (rev l ++ p).
Proof. exact query_read. Qed.
Print Assumptions C78_reading.

(** The address of a search opened again is the same search. *)
Theorem C78_reopened_partial : forall c path f, Forall in_path (c :: path) ->
  well_formed (sf_q f) -> well_formed (sf_files f) -> well_formed (sf_exclude f) -> harmless (sf_repos f) ->
  exists u p, address (c :: path) f = Some u /\ ParamsFromUrl (location_search u) = Some p /\ forall k, get_param p k = get_param (form_params f) k.
Proof. exact reopened. Qed.
Print Assumptions C78_reopened_partial.

(** What an address says nothing of: no query, case matters, no literal search, all files of
    all repositories. *)
Definition unsaid : list (str * str) :=
  [(text "q", text ""); (text "i", text "nope"); (text "literal", text "nope"); (text "files", text "");
   (text "excludeFiles", text ""); (text "repos", text "*")].
Lemma unsaid_read : forall l k, ~ In k (map fst l) -> get_param (rev l ++ default_params) k = get_param unsaid k.
Proof.
  intros l k NI. assert (NR : ~ In k (map fst (rev l))).
  { intro X. apply NI. rewrite map_rev in X. apply in_rev. exact X. }
  induction (rev l) as [|[a b] r IH]; [reflexivity|]. cbn [app get_param].
  destruct (str_eqb a k) eqn:E; [apply str_eqb_eq in E; exfalso; apply NR; left; exact E|].
  apply IH. intro X. apply NR. right. exact X.
Qed.
Theorem C78_unsaid : forall s l, query s l -> exists p, ParamsFromUrl (63 :: s) = Some p /\
  forall k, ~ In k (map fst l) -> get_param p k = get_param unsaid k.
Proof.
  intros s l Q. eexists. split; [exact (query_read _ _ Q default_params)|]. intros k NI. exact (unsaid_read l k NI).
Qed.
Print Assumptions C78_unsaid.
Theorem C78_nothing_said : exists p, ParamsFromUrl [] = Some p /\ forall k, get_param p k = get_param unsaid k.
Proof. eexists. split; [reflexivity|]. intro k. exact (unsaid_read [] k (fun x => x)). Qed.
Print Assumptions C78_nothing_said.

(** A box is ticked if the server takes the value for yes. *)
Theorem C78_boxes : forall v, ParamValueToBool v = true <-> yes v.
Proof. exact yes_box. Qed.
Print Assumptions C78_boxes.

Definition find_a (repos : str) : search_form := mkForm (text "a") false false [] [] repos.
Definition reopens (f : search_form) (q repos : str) : Prop := exists u p,
  address [47] f = Some u /\ ParamsFromUrl (location_search u) = Some p /\ get_param p (text "q") = Some q /\ get_param p (text "repos") = Some repos.
(** The names of repositories are not encoded: some are others, none (all repositories), or
    an exception when the address is opened. *)
Theorem C78_names_refuted :
  reopens (find_a (text "c++")) (text "a") (text "c  ") /\ reopens (find_a (text "r&d")) (text "a") (text "r") /\
  reopens (find_a (text "a=b")) (text "a") (text "*") /\ reopens (find_a (text "c#")) (text "a") (text "c") /\
  reopens (find_a (text "x&q=y")) (text "y") (text "x") /\
  exists u, address [47] (find_a (text "100%")) = Some u /\ ParamsFromUrl (location_search u) = None.
Proof.
  split; [|split; [|split; [|split; [|split]]]]; try (eexists; eexists; split; [reflexivity|]; split; [vm_compute; reflexivity|split; reflexivity]).
  eexists. split; [reflexivity|]. vm_compute. reflexivity.
Qed.
Print Assumptions C78_names_refuted.

(** With half a surrogate pair in the query there is no search. *)
Theorem C78_surrogate_refuted : forall path i l files ex repos, address path (mkForm [0xD83D] i l files ex repos) = None.
Proof. reflexivity. Qed.
Print Assumptions C78_surrogate_refuted.

(** q=a+b%26%C3%A9%f0%9F%98%80 is read as intended, and written again. *)
Definition odd : str := [97; 32; 98; 38; 39; 0xE9; 0xD83D; 0xDE00].
Example C78_example :
  ParamsFromQueryString (text "?q=a+b%26%27%C3%A9%f0%9F%98%80&x") [] = Some [(text "q", odd)] /\
  (let f := mkForm odd true false (text ".*\.go$") (text "vendor/") (text "a b/c,d") in
   Forall in_path (text "/hound/") /\ well_formed (sf_q f) /\ harmless (sf_repos f) /\
   exists p, option_map location_search (address (text "/hound/") f) =
     Some (text "?q=a%20b%26%27%C3%A9%F0%9F%98%80&i=fosho&literal=nope&files=.*%5C.go%24&excludeFiles=vendor%2F&repos=a%20b/c,d") /\
   ParamsFromUrl (text "?q=a%20b%26%27%C3%A9%F0%9F%98%80&i=fosho&literal=nope&files=.*%5C.go%24&excludeFiles=vendor%2F&repos=a%20b/c,d") = Some p /\
   get_param p (text "q") = Some odd /\ get_param p (text "repos") = Some (text "a b/c,d")).
Proof.
  split; [vm_compute; reflexivity|]. cbv zeta. split; [|split; [|split]].
  - repeat (constructor; [unfold in_path; cbn; lia|]). constructor.
  - cbn [sf_q]. unfold odd.
    apply (wf_char 97 [97]); [constructor; unfold Utf8Spec.scalar; lia|]. apply (wf_char 32 [32]); [constructor; unfold Utf8Spec.scalar; lia|].
    apply (wf_char 98 [98]); [constructor; unfold Utf8Spec.scalar; lia|]. apply (wf_char 38 [38]); [constructor; unfold Utf8Spec.scalar; lia|].
    apply (wf_char 39 [39]); [constructor; unfold Utf8Spec.scalar; lia|]. apply (wf_char 0xE9 [0xE9]); [constructor; unfold Utf8Spec.scalar; lia|].
    apply (wf_char 0x1F600 [0xD83D; 0xDE00]); [|constructor]. change [0xD83D; 0xDE00] with [0xD800 + 0x3D; 0xDC00 + 0x200]. constructor; lia.
  - cbn [sf_repos]. split; [apply ascii_formed; repeat (constructor; [cbn; lia|]); constructor|]. split; [repeat (constructor; [cbn; lia|]); constructor|].
    right. exists (text "a b/c,"), 100. split; [reflexivity|lia].
  - eexists. split; [vm_compute; reflexivity|]. split; [vm_compute; reflexivity|]. split; reflexivity.
Qed.
