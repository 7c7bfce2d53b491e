(** C77: the results on the page. [honest] is a server that answers requests with the part of
    the results they ask for, the modelled one is ([C77_server]); [polite] is a user who waits
    for the answer before the next search, and before asking for more of the same repository. *)
From Verif Require Import Model.Base Model.Config Model.Query Model.Matcher Model.Search Model.Api Model.Whole Model.PageState
  Spec.ApiSpec Spec.SearchSpec Spec.LoadSpec Spec.Names Proofs.PageServe Proofs.PageLoad Proofs.LoadExample Proofs.PageOrder.
From Coq Require Import Lia Sorted.
Local Open Scope nat_scope.

(** What is shown: of each repository asked for that has matches, the first files in order,
    and how many there are. *)
Theorem C77_shown_partial : forall known files serve locale, honest known files serve ->
  (forall r, known r -> trimmed r r /\ ~ In 44%N r) -> (forall p r, (Z.of_nat (length (files p r)) < 2 ^ 63)%Z) ->
  forall s last rs, visit locale serve s last -> displays s rs -> exists p, last = Some p /\ right known files p rs.
Proof. exact page_right. Qed.
Print Assumptions C77_shown_partial.

(** No exception stops the page. *)
Theorem C77_goes_on_partial : forall known files serve locale, honest known files serve ->
  (forall r, known r -> trimmed r r /\ ~ In 44%N r) -> (forall p r, (Z.of_nat (length (files p r)) < 2 ^ 63)%Z) ->
  forall s last e, visit locale serve s last -> polite serve s e ->
  (match e with Arrive a _ => In a (pg_pending s) | _ => True end) -> exists s', page_step locale s e s'.
Proof. exact page_goes_on. Qed.
Print Assumptions C77_goes_on_partial.

(** More and more can be loaded until everything is shown, if the requests are answered. *)
Theorem C77_all_partial : forall known files serve locale, honest known files serve ->
  (forall r, known r -> trimmed r r /\ ~ In 44%N r) -> (forall p r, (Z.of_nat (length (files p r)) < 2 ^ 63)%Z) ->
  forall s p rs x, visit locale serve s (Some p) -> displays s rs -> pg_pending s = [] -> In x rs ->
  (forall req, same_search req p -> exists rs' st, serve req = Results rs' st) ->
  exists s' rs' y, goes serve locale s s' /\ displays s' rs' /\ In y rs' /\ r_repo y = r_repo x /\ r_matches y = files p (r_repo x).
Proof. exact all_of_it. Qed.
Print Assumptions C77_all_partial.

(** From the search to everything: whatever was searched for before, a search leads to a page
    with every file of every repository that is asked for, if the requests are answered. *)
Theorem C77_everything_partial : forall known files serve locale, honest known files serve ->
  (forall r, known r -> trimmed r r /\ ~ In 44%N r) -> (forall p r, (Z.of_nat (length (files p r)) < 2 ^ 63)%Z) ->
  forall s last p, visit locale serve s last -> polite serve s (Search p) ->
  (forall req, same_search req p -> exists rs st, serve req = Results rs st) ->
  exists s1 s2 rs, page_step locale s (Search p) s1 /\ goes serve locale s1 s2 /\ visit locale serve s2 (Some p) /\ displays s2 rs /\
    Forall (fun x => r_matches x = files p (r_repo x) /\ r_files x = Z.of_nat (length (r_matches x))) rs.
Proof. exact searched_all. Qed.
Print Assumptions C77_everything_partial.

(** When the answer to a search is shown, repositories with more files come first, those with
    equally many in the order of their names. *)
Theorem C77_order : forall locale, collates locale -> forall s req rep s' rs,
  page_step locale s (Arrive (PSearch req) rep) s' -> displays s' rs -> StronglySorted (comes_first locale) rs.
Proof. exact shown_in_order. Qed.
Print Assumptions C77_order.
Example C77_order_example : exists (locale : str -> str -> Z) s req rep s' x y, collates locale /\ locale (text "a") (text "b") = (-1)%Z /\
  page_step locale s (Arrive (PSearch req) rep) s' /\ displays s' [x; y] /\ r_repo x = text "a" /\ r_repo y = text "b".
Proof.
  exists (fun a b => Z.of_N (hd 0%N a) - Z.of_N (hd 0%N b))%Z.
  exists (mkPage [] [] [] [] [PSearch []] None None), [].
  exists (Results [(text "b", mkResp [] 0 0 []); (text "a", mkResp [] 0 0 [])] true).
  eexists. eexists. eexists. split; [|split; [reflexivity|split; [|split]]].
  - unfold collates. split; [|split]; intros; lia.
  - apply (ps_arrive _ _ [] []); [reflexivity|]. vm_compute. reflexivity.
  - split; [reflexivity|]. eexists. split; [reflexivity|]. constructor; [reflexivity|]. constructor; [reflexivity|constructor].
  - split; reflexivity.
Qed.

(** The modelled server is one. [all_files] are those the search finds without a range or a
    limit (C23 says which). *)
Theorem C77_server : forall fuel compile quote servers def msg serve, msg <> [] ->
  (forall p, get_param p (text "limit") = None -> sends fuel compile quote servers def msg p (serve p)) ->
  (forall p r s, get_param p (text "limit") = None -> get servers r = Some s ->
     can_search fuel compile quote servers def p (snd s) /\ not_cut fuel compile quote servers def p r) ->
  honest (fun r => In r (map fst servers)) (all_files fuel compile quote servers def) serve.
Proof. exact server_honest. Qed.
Print Assumptions C77_server.

(** Whatever happens, in whatever order, with answers of the server. *)
Inductive happens (locale : str -> str -> Z) (serve : params -> reply) : pstate -> list page_event -> pstate -> Prop :=
  | hp_nil s : happens locale serve s [] s
  | hp_cons s e s' es s'' : (forall a rep, e = Arrive a rep -> rep = serve (req_of a)) -> page_step locale s e s' ->
      happens locale serve s' es s'' -> happens locale serve s (e :: es) s''.
Definition p_a : params := [(text "q", text "a")].
Definition p_b : params := [(text "q", text "b")].
Definition loc (_ _ : str) : Z := 0%Z.
Definition s_a : params := search_params p_a.
Definition s_b : params := search_params p_b.
Definition more_of (p : params) : params := merge p [(n_rng, [50; 48; 58]%N); (n_repos, d_repo)].

Ltac step := eapply hp_cons; [intros ? ? X; (discriminate X || (injection X as <- <-; vm_compute; reflexivity)) | | ].
Ltac search := step; [apply ps_search; vm_compute; reflexivity|].
Ltac load := step; [apply ps_load; vm_compute; reflexivity|].
Ltac arrive n := step; [eapply (ps_arrive _ _ (firstn n _) (skipn (S n) _)); [vm_compute; reflexivity|vm_compute; reflexivity]|].

(** The button is pressed twice before the answer: files are shown twice. *)
Theorem C77_twice_refuted : exists s rs, happens loc d_serve page0
    [Search p_a; Arrive (PSearch s_a) (d_serve s_a); LoadMore d_repo; LoadMore d_repo;
     Arrive (PMore 0 d_repo (more_of s_a)) (d_serve (more_of s_a)); Arrive (PMore 0 d_repo (more_of s_a)) (d_serve (more_of s_a))] s /\
  displays s rs /\ ~ right d_known d_files p_a rs.
Proof.
  eexists. eexists. split.
  { search. step. { apply (ps_arrive _ _ [] []); vm_compute; reflexivity. } load. load.
    step. { eapply (ps_arrive _ _ [] [_]); vm_compute; reflexivity. }
    step. { apply (ps_arrive _ _ [] []); vm_compute; reflexivity. } apply hp_nil. }
  split. { split; [reflexivity|]. eexists. split; [reflexivity|]. constructor; [reflexivity|constructor]. }
  intros (_ & _ & F). apply Forall_inv in F. destruct F as ((c & F) & _). vm_compute in F. discriminate.
Qed.
Print Assumptions C77_twice_refuted.

(** The answer to the first of two searches comes last, and is shown. *)
Theorem C77_late_answer_refuted : exists s rs, happens loc d_serve page0
    [Search p_a; Search p_b; Arrive (PSearch s_b) (d_serve s_b); Arrive (PSearch s_a) (d_serve s_a)] s /\
  displays s rs /\ ~ right d_known d_files p_b rs.
Proof.
  eexists. eexists. split.
  { search. search. step. { eapply (ps_arrive _ _ [_] []); vm_compute; reflexivity. }
    step. { apply (ps_arrive _ _ [] []); vm_compute; reflexivity. } apply hp_nil. }
  split. { split; [reflexivity|]. eexists. split; [reflexivity|]. constructor; [reflexivity|constructor]. }
  intros (_ & _ & F). apply Forall_inv in F. destruct F as ((c & F) & _). vm_compute in F. discriminate.
Qed.
Print Assumptions C77_late_answer_refuted.

(** More was asked for, then something else: the old results come back. *)
Theorem C77_late_load_refuted : exists s rs, happens loc d_serve page0
    [Search p_a; Arrive (PSearch s_a) (d_serve s_a); LoadMore d_repo; Search p_b;
     Arrive (PMore 0 d_repo (more_of s_a)) (d_serve (more_of s_a))] s /\
  displays s rs /\ ~ right d_known d_files p_b rs.
Proof.
  eexists. eexists. split.
  { search. step. { apply (ps_arrive _ _ [] []); vm_compute; reflexivity. } load. search.
    step. { eapply (ps_arrive _ _ [] [_]); vm_compute; reflexivity. } apply hp_nil. }
  split. { split; [reflexivity|]. eexists. split; [reflexivity|]. constructor; [reflexivity|constructor]. }
  intros (_ & _ & F). apply Forall_inv in F. destruct F as ((c & F) & _). vm_compute in F. discriminate.
Qed.
Print Assumptions C77_late_load_refuted.

(** A search for nothing raises an exception, in every state. *)
Theorem C77_empty_query_refuted : forall locale p s s', get_param p (text "q") = Some [] -> ~ page_step locale s (Search p) s'.
Proof.
  intros locale p s s' E ST. inversion ST as [p0 s0 D| |]; subst. unfold do_search in D.
  rewrite (search_get p n_q) in D by discriminate. change (text "q") with n_q in E. rewrite E in D. discriminate.
Qed.
Print Assumptions C77_empty_query_refuted.

(** With stats=nope in the address, the answer raises one. *)
Theorem C77_no_stats_refuted : exists p s, get_param p (text "q") = Some (text "a") /\ happens loc d_serve page0 [Search p] s /\
  In (PSearch (search_params p)) (pg_pending s) /\
  forall s', ~ page_step loc s (Arrive (PSearch (search_params p)) (d_serve (search_params p))) s'.
Proof.
  exists (p_a ++ [(text "stats", text "nope")]). eexists. split; [reflexivity|]. split; [|split].
  - search. apply hp_nil.
  - left. reflexivity.
  - intros s' ST. inversion ST as [| |before after a rep s0 PE D]; subst. vm_compute in D. discriminate.
Qed.
Print Assumptions C77_no_stats_refuted.

(** A polite visit: 25 files, 20 shown at first, the others later. *)
Example C77_example : honest d_known d_files d_serve /\ (forall r, d_known r -> trimmed r r /\ ~ In 44%N r) /\
  exists s s' rs rs', visit loc d_serve s (Some p_a) /\ displays s rs /\ map (fun x => length (r_matches x)) rs = [20] /\ button s d_repo /\
    visit loc d_serve s' (Some p_a) /\ displays s' rs' /\ map (fun x => length (r_matches x)) rs' = [25] /\ right d_known d_files p_a rs'.
Proof.
  assert (NM : forall r, d_known r -> trimmed r r /\ ~ In 44%N r).
  { intros r ->. split; [exact (GoStrProofs.trim_space_ok d_repo)|]. intros [X|[]]. discriminate. }
  split; [exact d_honest|]. split; [exact NM|].
  assert (V1 : exists s1, visit loc d_serve s1 (Some p_a) /\ do_search p_a page0 = Some s1).
  { eexists. split; [|reflexivity]. eapply (vi_step _ _ page0 None (Search p_a)); [constructor| |constructor; reflexivity].
    split; [reflexivity|]. repeat (split; [reflexivity || discriminate|]). reflexivity. }
  destruct V1 as (s1 & V1 & E1). vm_compute in E1. injection E1 as <-.
  eapply (vi_step _ _ _ _ (Arrive (PSearch s_a) (d_serve s_a))) in V1; [|left; reflexivity|apply (ps_arrive _ _ [] []); vm_compute; reflexivity].
  cbv beta iota in V1. pose proof V1 as V2.
  assert (B : forall s, v_error s = None -> v_results s = Some [0] -> (exists x, pg_objs s = [x] /\ r_repo x = d_repo /\ r_files x = 25%Z /\ length (r_matches x) = 20) -> button s d_repo).
  { intros s E R (x & OB & XR & XF & XL). exists [x], x. split; [|split; [left; reflexivity|]].
    - split; [exact E|]. exists [0]. split; [exact R|]. constructor; [rewrite OB; reflexivity|constructor].
    - split; [exact XR|]. rewrite XF, XL. reflexivity. }
  match type of V1 with visit _ _ ?s _ => assert (B1 : button s d_repo) by (apply B; [reflexivity|reflexivity|eexists; split; [reflexivity|]; repeat split]) end.
  eapply (vi_step _ _ _ _ (LoadMore d_repo)) in V2; [|split; [exact B1|intros a []]|constructor; vm_compute; reflexivity].
  cbv beta iota in V2.
  eapply (vi_step _ _ _ _ (Arrive (PMore 0 d_repo (more_of s_a)) (d_serve (more_of s_a)))) in V2; [|left; reflexivity|apply (ps_arrive _ _ [] []); vm_compute; reflexivity].
  cbv beta iota in V2.
  match type of V1 with visit _ _ ?s _ => match type of V2 with visit _ _ ?s' _ => exists s, s', (pg_objs s), (pg_objs s') end end.
  split; [exact V1|]. split. { split; [reflexivity|]. exists [0]. split; [reflexivity|]. constructor; [reflexivity|constructor]. }
  split; [reflexivity|]. split; [exact B1|]. split; [exact V2|].
  assert (D : forall s, v_error s = None -> v_results s = Some [0] -> length (pg_objs s) = 1 -> displays s (pg_objs s)).
  { intros s E R L. split; [exact E|]. exists [0]. split; [exact R|]. destruct (pg_objs s) as [|x [|y l]]; try discriminate. constructor; [reflexivity|constructor]. }
  match type of V2 with visit _ _ ?s' _ => assert (D2 : displays s' (pg_objs s')) by (apply D; reflexivity) end.
  split; [exact D2|]. split; [reflexivity|].
  assert (SM : forall p r, (Z.of_nat (length (d_files p r)) < 2 ^ 63)%Z).
  { intros p r. unfold d_files. destruct (str_eqb r d_repo); [|reflexivity]. destruct (str_eqb (form_value p (text "q")) (text "a")); reflexivity. }
  destruct (page_right d_known d_files d_serve loc d_honest NM SM _ _ _ V2 D2) as (p & E & RI). injection E as <-. exact RI.
Qed.
