(** C93: the search in the form is the one the server carries out. *)
From Verif Require Import Model.Base Model.Utf8 Model.PageState Model.PageAddress Model.Request Model.Api Model.Whole Model.PageForm Spec.Utf8Spec Spec.AddressSpec Spec.ApiSpec
  Spec.FormSpec Spec.Names Proofs.ApiProofs Proofs.FormProofs Proofs.PageServe Proofs.FormServe.
From Verif Require Model.Mux Spec.MuxSpec Proofs.MuxProofs.
Local Open Scope N_scope.

(** Names and values in any language and with any characters get through. *)
Theorem C93_arrives : forall o bs, Forall2 same_pair o bs ->
  exists raw, sent_query o = Some raw /\ parse_query (S (length raw)) raw = bs.
Proof. exact arrives. Qed.
Print Assumptions C93_arrives.

(** They go to the search of the API: the address is relative to that of the page, which is at /
    (C71), and a request for it is one for the handler of searches. *)
Theorem C93_where : forall o u, request_url o = Some u ->
  (u = text "api/v1/search" \/ exists q, toQueryString o = Some q /\ u = text "api/v1/search?" ++ q) /\
  forall health files q, NoDup (map fst files) -> health <> text "/api/v1/search" ->
    Mux.ServeHTTP health true files (Mux.mkReq false false (text "/api/v1/search") q) = Some (Mux.Endpoint Mux.Search).
Proof.
  intros o u E. split.
  - unfold request_url in E. destruct (toQueryString o) as [s|]; [|discriminate]. cbn [bind] in E. injection E as <-. destruct s as [|c s]; [left; reflexivity|right]. exists (c :: s). split; reflexivity.
  - intros health files q ND NH. apply (MuxProofs.served _ _ _ _ _ ND). apply MuxSpec.r_there; try reflexivity; [intros X; apply NH; symmetry; exact X| |apply MuxSpec.f_api; right; left; reflexivity].
    right. apply MuxProofs.proper_clean. vm_compute. reflexivity.
Qed.
Print Assumptions C93_where.

(** The requests of the page, which elsewhere are read by the server as they are, are read as
    they are: what is [request] in the theorems about the page and the server (C77, C91, C92)
    is what the handler makes of what is sent for them. *)
Theorem C93_same : forall p pb o, Forall2 same_pair p pb -> object_of p o -> exists form, seen_by_server o = Some form /\
  (forall k kb, same_text k kb -> form kb = PageServe.form_value pb kb) /\
  forall servers def, request servers def pb = read_search form (map (fun s => (fst s, fst (snd s))) servers) def.
Proof. exact same_request_read. Qed.
Print Assumptions C93_same.

(** The search of the form: its texts without the white space around them. *)
Theorem C93_form_partial : forall f o, well_formed (sf_q f) -> well_formed (sf_files f) -> well_formed (sf_exclude f) -> well_formed (sf_repos f) ->
  object_of (search_params (getParams f)) o ->
  exists form, seen_by_server o = Some form /\
  forall idx def, let q := read_search form idx def in
    (forall t b, within (sf_q f) t -> same_text t b -> q_query q = b) /\
    (forall t b, within (sf_files f) t -> same_text t b -> q_files q = b) /\
    (forall t b, within (sf_exclude f) t -> same_text t b -> q_exclude q = b) /\
    q_icase q = sf_i f /\ q_literal q = sf_literal f /\ q_stats q = true /\
    q_offset q = 0%Z /\ q_limit q = 20%Z /\ q_max q = def /\ q_ctx q = 2 /\
    (sf_repos f = [] -> forall name, In name (q_repos q) <-> In name (map fst idx)) /\
    (forall b w name, sf_repos f <> [] -> same_text (sf_repos f) b -> trimmed b w ->
       (In name (q_repos q) <-> In name (map fst idx) /\ (w = [42] \/ element w name))).
Proof. exact form_search. Qed.
Print Assumptions C93_form_partial.
(** There is one such text. *)
Theorem C93_within : forall s, exists t, within s t /\ (well_formed s -> exists b, same_text t b) /\ forall t', within s t' -> t' = t.
Proof.
  intros s. exists (trim s). split; [exact (trim_ok s)|]. split; [intros W; apply formed_same, trim_formed, W|]. intros t' W. symmetry. exact (trim_within s t' W).
Qed.
Print Assumptions C93_within.

(** Missing: the text itself. Spaces at its ends cannot be searched for: with " a" in the form
    and the box for plain text checked, the server searches for "a". *)
Theorem C93_spaces_refuted : exists f o form, object_of (search_params (getParams f)) o /\ seen_by_server o = Some form /\
  sf_literal f = true /\ sf_q f = text " a" /\ forall idx def, q_query (read_search form idx def) = text "a".
Proof.
  set (f := mkForm (text " a") false true [] [] []).
  set (o := [(n_q, text "a"); (n_files, []); (n_exclude, []); (n_repos, star); (n_i, nope); (n_literal, fosho); (n_stats, fosho); (n_rng, first_page)]).
  exists f, o. destruct (seen_by_server o) as [form|] eqn:E; [|vm_compute in E; discriminate]. exists form.
  assert (O1 : object_of (search_params (getParams f)) o).
  { split.
    - repeat (apply NoDup_cons; [vm_compute; intuition discriminate|]). apply NoDup_nil.
    - intros k. assert (X : In k (map fst o) \/ ~ In k (map fst o)) by (destruct (in_dec (list_eq_dec N.eq_dec) k (map fst o)); auto).
      destruct X as [X|X].
      + cbn [map fst o In] in X. repeat (destruct X as [<-|X]; [reflexivity|]). destruct X.
      + assert (NG : forall p k, ~ In k (map fst p) -> get_param p k = None).
        { intros p k' N1. destruct (get_param p k') as [v|] eqn:GP; [|reflexivity]. exfalso. apply N1. exact (in_map fst _ _ (get_member _ _ _ GP)). }
        rewrite !NG; [reflexivity| |exact X]. intros Y. apply X. vm_compute in Y. vm_compute. tauto. }
  split; [exact O1|]. split; [reflexivity|]. split; [reflexivity|]. split; [reflexivity|]. intros idx def.
  assert (WF : forall s, forallb (fun c => c <? 128) s = true -> well_formed s) by (intros s H; eapply same_formed, names_ascii, H).
  destruct (form_search f o (WF (sf_q f) eq_refl) (WF (sf_files f) eq_refl) (WF (sf_exclude f) eq_refl) (WF (sf_repos f) eq_refl) O1) as (form' & E' & H). assert (form' = form) by congruence. subst form'.
  apply (proj1 (H idx def) (text "a") (text "a")); [|apply names_ascii; reflexivity].
  exact (trim_ok (sf_q f)).
Qed.
Print Assumptions C93_spaces_refuted.
(** Nor can half a character, which a form can have: there is an exception. *)
Theorem C93_half_refuted : exists f, forall o, object_of (search_params (getParams f)) o -> seen_by_server o = None.
Proof.
  exists (mkForm [0xD83D] false false [] [] []). intros o (ND & G).
  assert (I : In (n_q, [0xD83D]) o) by (apply get_member; rewrite G; reflexivity).
  assert (P : pairs_of o = None).
  { clear -I. induction o as [|[k v] o IH]; [destruct I|]. cbn [pairs_of]. destruct I as [I|I].
    - replace k with n_q by congruence. replace v with [0xD83D] by congruence. reflexivity.
    - destruct (encodeURIComponent k); [|reflexivity]. cbn [bind]. destruct (encodeURIComponent v); [|reflexivity]. cbn [bind]. rewrite (IH I). reflexivity. }
  unfold seen_by_server, sent_query, request_url, toQueryString. rewrite P. reflexivity.
Qed.
Print Assumptions C93_half_refuted.

(** "it's 100% + ü 😀" *)
Example C93_example :
  let t16 := [105; 116; 39; 115; 32; 49; 48; 48; 37; 32; 43; 32; 0xFC; 32; 0xD83D; 0xDE00] in
  let t8 := [105; 116; 39; 115; 32; 49; 48; 48; 37; 32; 43; 32; 0xC3; 0xBC; 32; 0xF0; 0x9F; 0x98; 0x80] in
  same_text t16 t8 /\ sent_query [(n_q, t16)] = Some (text "q=it%27s+100%25+%2B+%C3%BC+%F0%9F%98%80") /\
  parse_query 100 (text "q=it%27s+100%25+%2B+%C3%BC+%F0%9F%98%80") = [(n_q, t8)].
Proof.
  cbv zeta. split; [|split; reflexivity].
  assert (A : forall c s b, c < 128 -> same_text s b -> same_text (c :: s) (c :: b)).
  { intros c s b L T. apply (st_char c [c] [c] s b); [apply utf16_1; [left|]|apply utf8_1|exact T]; Lia.lia. }
  do 12 (apply A; [reflexivity|]). apply (st_char 0xFC [0xFC] [0xC3; 0xBC]); [apply utf16_1; [left|]; reflexivity|apply (utf8_2 0xFC 0xC3 0xBC 3 60); reflexivity || discriminate|].
  apply A; [reflexivity|]. apply (st_char 0x1F600 [0xD83D; 0xDE00] [0xF0; 0x9F; 0x98; 0x80]); [apply (utf16_2 0x1F600 0x3D 0x200); reflexivity| |constructor].
  apply (utf8_4 0x1F600 0xF0 0x9F 0x98 0x80 0 31 24 0); reflexivity || discriminate.
Qed.
