(** C72: whatever the title, the Host header and the configured texts are, a browser finds on the
    start page the elements of the template, the title, the address of this server and a literal
    for the repositories (C64). The same for the page of excluded files. The description for
    search engines is XML only if the host has no & ([_partial], [_refuted]). *)
From Verif Require Import Model.Base Model.Config Model.Offer Model.Pages
  Spec.Names Spec.Utf8Spec Spec.JsonGrammar Spec.OfferSpec Spec.HtmlReader Spec.PageSpec Proofs.PageProofs.
Local Open Scope N_scope.

Theorem C72_start : forall short title host repos js, Forall is_byte title -> Forall is_byte host ->
  Forall (fun p : str * option repo => Forall is_byte (fst p) /\ forall r, snd p = Some r -> repo_bytes r) repos ->
  whole_script js -> exists address model,
    read_html (start_page short title host repos js) = Some (start_tokens (shown title) address model js) /\
    same_address host address /\ one_line model /\ json_string (page_repos short repos) model.
Proof. exact start_shown. Qed.
Print Assumptions C72_start.

Theorem C72_excluded : forall js, whole_script js -> read_html (excluded_page js) = Some (excluded_tokens js).
Proof. exact excluded_read. Qed.
Print Assumptions C72_excluded.

(** Missing: hosts with &, which the server lets through. *)
Theorem C72_search_partial : forall host, Forall host_byte host -> ~ In 38 host ->
  read_xml (open_search_page host) = Some (search_tokens host).
Proof. exact search_read. Qed.
Print Assumptions C72_search_partial.

Theorem C72_search_refuted : exists host, Forall host_byte host /\ read_xml (open_search_page host) <> Some (search_tokens host) /\
  read_xml (open_search_page host) = None.
Proof.
  exists (text "a&b"). split; [|split; [vm_compute; discriminate|vm_compute; reflexivity]].
  repeat (apply Forall_cons; [vm_compute; intuition discriminate|]). constructor.
Qed.
Print Assumptions C72_search_refuted.

(** Texts that try to leave their places. *)
Definition ex_repo : repo := mkRepo (text "</script>") [] 0 (text "git") None None false None None None.
Definition ex_page : str := start_page true (text "</title><b>""&'") (text "h(1)""><b>%41") [(text "<!--", Some ex_repo)] (text "1<2").
Example C72_example :
  whole_script (text "1<2") /\ ~ whole_script (text "a</SCRIPT>") /\
  exists model, read_html ex_page = Some (start_tokens (text "</title><b>""&'") (text "h%281%29%22%3e%3cb%3e%41") model (text "1<2")) /\
    firstn 26 model = text """{\""\\u003c!--\"":{\""url\"":" /\ same_address (text "h(1)""><b>%41") (text "h%281%29%22%3e%3cb%3e%41") /\
  read_xml (open_search_page (text "localhost:6080")) = Some (search_tokens (text "localhost:6080")).
Proof.
  split. { split; [vm_compute; intuition discriminate|]. intros a b E. destruct a as [|x a]; [discriminate E|].
    destruct a as [|y a]; [|destruct a as [|z a]; [discriminate E|destruct a; discriminate E]].
    apply (f_equal (skipn 2)) in E. vm_compute in E. rewrite <- E. split; reflexivity. }
  split. { intros [_ W]. destruct (W (text "a") (text "/SCRIPT>") eq_refl) as [X _]. vm_compute in X. discriminate X. }
  exists (jsValEscaper true (page_repos true [(text "<!--", Some ex_repo)])). split; [vm_compute; reflexivity|]. split; [vm_compute; reflexivity|].
  split; [|vm_compute; reflexivity]. split; [|vm_compute; reflexivity].
  repeat (apply Forall_cons; [vm_compute; intuition discriminate|]). constructor.
Qed.
